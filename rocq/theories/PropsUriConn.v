(** Theorems on the connection a URI gets (C115). *)
From Verif Require Import Str Exc StrFacts UriParse BaseUri UriFacts4 UriFacts5 Registry SpecReg RegFacts RegFacts2 PropsRegistry.
Open Scope string_scope. Open Scope list_scope.

Lemma web_http u : is_http (u_scheme u) = true <-> web u.
Proof.
  unfold is_http, web. destruct (u_scheme u) as [s|]; [|split; [discriminate|intros [H|H]; discriminate H]].
  rewrite Bool.orb_true_iff, !str_eqb_eq. split; (intros [H|H]; [left|right]); congruence.
Qed.
Lemma extras_in u k v : no_name_twice u -> In (k, v) (u_all_extras u) <-> extra_of u k v.
Proof.
  intros [D1 D2]. unfold u_all_extras. pose proof (web_http u) as W. destruct (is_http (u_scheme u)) eqn:E.
  - assert (Wu : web u) by now apply W. split.
    + intros H. apply ex_keyword; [now apply dget_In_NoDup|now left].
    + intros [H _|H _]; [now apply dget_In|contradiction].
  - assert (Wu : ~ web u) by (intros H; apply W in H; discriminate). split.
    + intros H. apply dget_In_NoDup in H; [|now apply dupdate_nodup]. rewrite dget_dupdate, dget_rev in H by exact D2. destruct (dget k (p_query (u_p u))) as [x|] eqn:Eq.
      * injection H as ->. now apply ex_query.
      * apply ex_keyword; [exact H|now right].
    + intros H. apply dget_In. rewrite dget_dupdate, dget_rev by exact D2. destruct H as [H1 [H2|H2]|H1 H2]; [contradiction|now rewrite H2|now rewrite H2].
Qed.
Lemma place_key u v : no_name_twice u -> no_name_twice v -> same_key (u_key u) (u_key v) <-> same_place u v.
Proof.
  intros Du Dv. unfold same_key, same_place. cbn [u_key k_scheme k_host k_port k_user k_pass k_vpath k_extras].
  split; intros (H1 & H2 & H3 & H4 & H5 & H6 & H7); repeat (split; [assumption|]).
  - intros k x. rewrite <- !extras_in by assumption. apply H7.
  - intros [k x]. rewrite !extras_in by assumption. apply H7.
Qed.

(** ** C115 *)
(** Every URI made by URI(...) from keyword arguments (whose names differ) has no name twice, nor have the URIs derived from it. *)
Lemma mk_names cls t sep ex u : NoDup (map fst ex) -> mk_uri cls t sep ex = Ok u -> no_name_twice u.
Proof.
  intros D H. split; [|now apply mk_uri_wf in H]. revert H. unfold mk_uri. destruct (bad_init_kw ex); [discriminate|].
  destruct (uri_parse (clean_uri t)) as [p|]; cbn [rbind]; [|discriminate].
  destruct (take_cred (lit "username") _ _ _) as [us ex1] eqn:E1. destruct (take_cred (lit "password") _ _ _) as [pw ex2] eqn:E2.
  intros E. injection E as <-. cbn [u_extras]. eapply take_cred_nodup; [|exact E2]. eapply take_cred_nodup; eassumption.
Qed.
Lemma all_extras_names u : no_name_twice u -> NoDup (map fst (u_all_extras u)).
Proof. intros [H _]. unfold u_all_extras. destruct (is_http _); [exact H|now apply dupdate_nodup]. Qed.
Theorem C115_names t sep ex u : NoDup (map fst ex) -> URI t sep ex = Ok u -> no_name_twice u.
Proof. unfold URI. apply mk_names. Qed.
Theorem C115_names_derived u args w suffix x d n : no_name_twice u ->
  (u_join u args = Ok w -> no_name_twice w) /\ (u_add u suffix = Ok x -> no_name_twice x) /\ (u_split u = Ok (d, n) -> no_name_twice d).
Proof.
  intros H. pose proof (all_extras_names u H) as A. destruct H as [_ Hq]. repeat split.
  - revert H. unfold u_join. destruct (rev _) as [|l i]; [discriminate|]. destruct (uri_from_parts _ _ _ _) as [t|]; cbn [rbind]; [|discriminate].
    destruct (mk_uri _ _ _ _) as [r|] eqn:E; cbn [rbind]; [|discriminate]. intros X. injection X as <-. apply mk_names in E; [|exact A]. apply E.
  - revert H. apply join_wf, Hq.
  - revert H. unfold u_add. destruct (mk_uri _ _ _ _) as [r|] eqn:E; cbn [rbind]; [|discriminate]. intros X. injection X as <-. apply mk_names in E; [|exact A]. apply E.
  - revert H. apply add_wf, Hq.
  - revert H. unfold u_split. destruct (match cut_last _ _ with Some fs => fs | None => _ end) as [f s]. destruct (mk_uri _ _ _ _) as [r|] eqn:E; cbn [rbind]; [|discriminate].
    intros X. injection X as <- _. apply mk_names in E; [|exact A]. apply E.
  - now apply split_wf in H.
Qed.
(** Two URIs get one connection exactly if they agree in everything the connection is chosen by; the path, the fragment
    and the order of the extras do not matter. *)
Theorem C115_share s u v c d l : r_reachable s -> no_name_twice u -> no_name_twice v -> fst (uri_connection u s) = Ok c ->
  let s1 := run_events l (snd (uri_connection u s)) in ~ In c (r_closed s1) -> fst (uri_connection v s1) = Ok d -> (c = d <-> same_place u v).
Proof.
  intros R Du Dv H s1 Nc Hd. unfold uri_connection in *. destruct (existsb _ (u_all_extras u)); [discriminate|]. destruct (existsb _ (u_all_extras v)); [discriminate|].
  rewrite <- (place_key u v Du Dv). split.
  - intros <-. destruct (key_eqb (u_key u) (u_key v)) eqn:E; [now apply key_eqb_eq|]. exfalso.
    apply (C17_other_key s (u_key u) (u_key v) c c l R); auto. intros X. apply key_eqb_eq in X. congruence.
  - intros S. pose proof (C17_same_key s (u_key u) (u_key v) c l R S H Nc) as X. fold s1 in X. rewrite X in Hd. now injection Hd.
Qed.
(** An extra with the name of a parameter: TypeError, and nothing changes. *)
Theorem C115_reserved s u k v : no_name_twice u -> extra_of u k v ->
  In k (map lit ["self"; "scheme"; "hostname"; "port"; "username"; "password"; "vpath_connector"]) -> uri_connection u s = (Raise TypeError, s).
Proof.
  intros D H I. unfold uri_connection. assert (X : existsb (fun kv => str_in (fst kv) reserved) (u_all_extras u) = true).
  { apply existsb_exists. exists (k, v). split; [now apply extras_in|]. cbn [fst]. unfold str_in. apply existsb_exists. exists k. split; [exact I|apply str_eqb_refl]. }
  now rewrite X.
Qed.
(** Otherwise, the scheme is looked up: an unknown one is refused, and nothing changes. *)
Theorem C115_unknown s u : (forall k v, extra_of u k v -> ~ In k (map lit ["self"; "scheme"; "hostname"; "port"; "username"; "password"; "vpath_connector"])) -> no_name_twice u ->
  sget (u_scheme u) (r_schemes s) = None -> uri_connection u s = (Raise NoSchemeError, s).
Proof.
  intros N D H. unfold uri_connection. assert (X : existsb (fun kv => str_in (fst kv) reserved) (u_all_extras u) = false).
  { apply Bool.not_true_is_false. intros X. apply existsb_exists in X. destruct X as ([k v] & I & E). cbn [fst] in E. unfold str_in in E. apply existsb_exists in E.
    destruct E as (k' & I' & E). apply str_eqb_eq in E. subst k'. apply (N k v); [now apply extras_in|exact I']. }
  rewrite X. unfold get_connection, bind, get. cbn [u_key k_scheme]. now rewrite H.
Qed.
Definition gu (t : string) (ex : dict str) : uri := match URI (lit t) cSlash ex with Ok u => u | Raise _ => mkUri UBase [] cSlash (mkParsed None None [] [] None [] None None None 0%Z []) [] None None end.
(** One extra in the query, one among the keywords, in both orders; and another value. *)
Example C115_witness : let u := gu "memory:///f?a=1" [(lit "b", lit "2")] in let v := gu "memory:///g/h?b=2" [(lit "a", lit "1")] in let w := gu "memory:///f?a=3" [(lit "b", lit "2")] in
  no_name_twice u /\ no_name_twice v /\ no_name_twice w /\ r_reachable busy /\ fst (uri_connection u busy) = Ok 2 /\ ~ In 2 (r_closed (snd (uri_connection u busy)))
  /\ fst (uri_connection v (snd (uri_connection u busy))) = Ok 2 /\ fst (uri_connection w (snd (uri_connection u busy))) = Ok 3
  /\ extra_of (gu "memory:///f?port=5" []) (lit "port") (lit "5").
Proof.
  intros u v w. assert (D : forall x y : str, x <> y -> NoDup [x]) by (intros; constructor; [intros []|constructor]).
  assert (Nd : forall x : uri, length (map fst (u_extras x)) <= 1 -> length (map fst (p_query (u_p x))) <= 1 -> no_name_twice x).
  { intros x. unfold no_name_twice. destruct (map fst (u_extras x)) as [|? [|]], (map fst (p_query (u_p x))) as [|? [|]]; cbn; intros; split; try constructor; auto; try constructor; exfalso; Lia.lia. }
  split; [apply Nd; vm_compute; auto|]. split; [apply Nd; vm_compute; auto|]. split; [apply Nd; vm_compute; auto|]. split; [apply C17_witness|].
  split; [vm_compute; reflexivity|]. split; [vm_compute; intros []; discriminate|]. split; [vm_compute; reflexivity|]. split; [vm_compute; reflexivity|].
  apply ex_query; [|vm_compute; reflexivity]. intros [H|H]; vm_compute in H; discriminate H.
Qed.
Print Assumptions C115_share.
Print Assumptions C115_reserved.
Print Assumptions C115_unknown.
Print Assumptions C115_names.
Print Assumptions C115_names_derived.
