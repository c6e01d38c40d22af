(** Properties C120-C122: the attributes of a URI. *)
From Coq Require Import Lia.
From Verif Require Import Str Exc UriParse BaseUri StrFacts Attr SpecAttr.

Definition named (n : str) (l : list str) : {In n l} + {~ In n l} := in_dec (list_eq_dec N.eq_dec) n l.
Lemma eqb_not n m : n <> m -> str_eqb n m = false.
Proof. intros H. destruct (str_eqb n m) eqn:E; [|reflexivity]. apply str_eqb_eq in E. contradiction. Qed.
Lemma method_In n : is_method n = true <-> In n method_names.
Proof.
  unfold is_method. rewrite existsb_exists. split.
  - intros (x & I & E). apply str_eqb_eq in E. now subst.
  - intros I. exists n. split; [exact I|]. now apply str_eqb_eq.
Qed.
Lemma same_names n : In n method_names <-> In n methods.
Proof.
  assert (K : forall l l', forallb (fun x => existsb (str_eqb x) l') l = true -> In n l -> In n l').
  { intros l l' F I. rewrite forallb_forall in F. apply F in I. apply existsb_exists in I as (x & I & E). apply str_eqb_eq in E. now subst. }
  split; apply K; vm_compute; reflexivity.
Qed.
(** The credentials a constructor leaves. *)
Definition creds (u : uri) : Prop :=
  (p_username (u_p u) <> None -> u_user u = p_username (u_p u)) /\ (p_password (u_p u) <> None -> u_pass u = p_password (u_p u)).
Lemma take_cred_kept n a ex q x ex' : take_cred n a ex q = (x, ex') -> a <> None -> x = a.
Proof. unfold take_cred. destruct a; [|easy]. intros [= <- <-]. reflexivity. Qed.

Definition known : list str :=
  [lit "uri"; lit "sep"; lit "extras"; lit "connection"; lit "scheme"; lit "port"; lit "path"; lit "unipath"; lit "is_absolute"; lit "username";
   lit "password"; lit "hostname"; lit "netloc"; lit "query"; lit "authority"; lit "vpath_connector"; lit "fragment"; lit "as_list"; lit "_scheme"; lit "parse_result"; lit "__hash__"].
Lemma dget_app_none {A} n (a b : dict A) : dget n a = None -> dget n (a ++ b) = dget n b.
Proof. induction a as [|[k v] a IH]; cbn; [reflexivity|]. destruct (str_eqb n k); [discriminate|exact IH]. Qed.
Lemma URI_creds text sep ex u : URI text sep ex = Ok u -> creds u.
Proof.
  unfold URI, mk_uri, creds. destruct (bad_init_kw ex); [discriminate|]. unfold rbind. destruct (uri_parse (clean_uri text)) as [p|e]; [|discriminate].
  destruct (take_cred (lit "username") _ _ _) as [us ex1] eqn:E1. destruct (take_cred (lit "password") _ _ _) as [pw ex2] eqn:E2.
  intros [= <-]. cbn [u_p u_user u_pass]. split; intros H; eapply take_cred_kept; eauto.
Qed.

Section One.
Variables (u : uri) (fuel : nat).
Hypothesis Cr : creds u.
Hypothesis Fu : 3 <= fuel.
Lemma fuel_3 : exists f, fuel = S (S (S f)).
Proof. destruct fuel as [|[|[|f]]]; try lia. eauto. Qed.
Lemma own_method n : In n method_names -> prop_of n = None /\ dget n (a_own (obj_of u)) = None.
Proof.
  intros I. assert (K : forallb (fun n => match prop_of n with None => true | _ => false end &&
     forallb (fun m => negb (str_eqb n m)) [lit "_scheme"; lit "connection"; lit "uri"; lit "sep"; lit "parse_result"; lit "extras"; lit "username"; lit "password"]) method_names = true) by reflexivity.
  rewrite forallb_forall in K. apply K in I. apply andb_true_iff in I as [I1 I2]. split; [now destruct (prop_of n)|].
  rewrite forallb_forall in I2. cbn [In] in I2. unfold obj_of, a_own, cred.
  assert (G : forall m, In m [lit "_scheme"; lit "connection"; lit "uri"; lit "sep"; lit "parse_result"; lit "extras"; lit "username"; lit "password"] -> str_eqb n m = false).
  { intros m Im. apply negb_true_iff. apply I2, Im. }
  destruct (p_username (u_p u)), (u_user u), (p_password (u_p u)), (u_pass u); cbn [app dget]; rewrite !G by (cbn [In]; tauto); reflexivity.
Qed.
Lemma has_get n v : has u n v -> get_attr fuel (obj_of u) n = Ok v.
Proof.
  destruct fuel_3 as [f ->]. destruct 1; try reflexivity.
  all: try (cbn; unfold cred; now destruct (p_username (u_p u)), (u_user u), (p_password (u_p u)), (u_pass u)).
  - cbn. unfold u_path, base_path. destruct (u_cls u); try reflexivity; now destruct (N.eqb (u_sep u) cSlash).
  - destruct Cr as [C _]. cbn. unfold cred. destruct (p_username (u_p u)) as [x|] eqn:E.
    + rewrite C by discriminate. cbn. destruct (p_password (u_p u)), (u_pass u); cbn; now rewrite ?E.
    + destruct (u_user u) as [x|]; [reflexivity|]. cbn. destruct (p_password (u_p u)), (u_pass u); cbn; now rewrite ?E.
  - destruct Cr as [_ C]. cbn. unfold cred. destruct (p_password (u_p u)) as [x|] eqn:E.
    + rewrite C by discriminate. destruct (p_username (u_p u)), (u_user u); cbn; now rewrite ?E.
    + destruct (u_pass u) as [x|]; destruct (p_username (u_p u)), (u_user u); cbn; rewrite ?E; reflexivity.
  - apply same_names in H. destruct (own_method n H) as [P D]. cbn [get_attr]. rewrite P, D. now rewrite (proj2 (method_In n) H).
Qed.
Lemma get_none n : ~ In n known -> ~ In n method_names -> get_attr fuel (obj_of u) n = Raise AttributeError.
Proof.
  destruct fuel_3 as [f ->]. intros K M.
  assert (Q : forall m, In m known -> str_eqb n m = false) by (intros m I; apply eqb_not; intros ->; contradiction).
  assert (is_method n = false) as Me by (destruct (is_method n) eqn:X; [apply method_In in X; contradiction|reflexivity]).
  assert (D : dget n (a_own (obj_of u)) = None).
  { unfold obj_of, a_own, cred. rewrite dget_app_none by (cbn [dget]; rewrite !Q by (unfold known; cbn [In]; tauto); reflexivity).
    destruct (p_username (u_p u)), (u_user u), (p_password (u_p u)), (u_pass u); cbn [app dget]; rewrite ?Q by (unfold known; cbn [In]; tauto); reflexivity. }
  assert (P : prop_of n = None) by (unfold prop_of; now rewrite !Q by (unfold known; cbn [In]; tauto)).
  assert (A : parsed_attr (u_p u) n = Raise AttributeError) by (unfold parsed_attr; now rewrite !Q by (unfold known; cbn [In]; tauto)).
  remember (S (S f)) as f2. cbn [get_attr]. rewrite P, D, Me, (Q hash_name) by (unfold known, hash_name; cbn [In]; tauto). subst f2. exact A.
Qed.
Lemma known_has n : In n known -> exists v, has u n v.
Proof. unfold known. cbn [In]. intros H. repeat (destruct H as [<-|H]; [eexists; first [apply has_own_scheme|apply has_parse_result|apply has_hash|constructor]|]). destruct H. Qed.
End One.

(** ** C120 *)
Theorem C120_read text sep ex u n fuel : URI text sep ex = Ok u -> 3 <= fuel ->
  (forall v, get_attr fuel (obj_of u) n = Ok v <-> has u n v) /\
  ((forall v, ~ has u n v) -> get_attr fuel (obj_of u) n = Raise AttributeError).
Proof.
  intros U F. pose proof (URI_creds _ _ _ _ U) as Cr.
  assert (G : (exists v, has u n v) \/ get_attr fuel (obj_of u) n = Raise AttributeError /\ forall v, ~ has u n v).
  { destruct (named n known) as [K|K]; [left; now apply known_has|]. destruct (named n method_names) as [M|M]; [left; eexists; now apply has_method, same_names|].
    right. split; [now apply get_none|]. intros v H. destruct H; (now apply M, same_names) || (apply K; unfold known; cbn [In]; tauto). }
  destruct G as [[w Hw]|[G N]].
  - pose proof (has_get u fuel Cr F n w Hw) as E. split; [|intros N; now destruct (N w)]. intros v. split.
    + intros E'. assert (v = w) as -> by congruence. exact Hw.
    + intros H. now apply has_get.
  - split; [|auto]. intros v. split; [congruence|]. intros H. now destruct (N v).
Qed.
Print Assumptions C120_read.
(** What BaseUri.v takes for the text and the key of the connection is what the methods compute from the attributes. *)
Theorem C120_text text sep ex u fuel : URI text sep ex = Ok u -> 3 <= fuel -> obj_str fuel (obj_of u) = u_str u.
Proof.
  intros U F. pose proof (URI_creds _ _ _ _ U) as Cr. unfold obj_str, u_str. change (a_cls (obj_of u)) with (u_cls u).
  destruct (u_cls u); rewrite ?(has_get u fuel Cr F _ _ (has_path u)), ?(has_get u fuel Cr F _ _ (has_parse_result u)); reflexivity.
Qed.
Print Assumptions C120_text.
Theorem C120_key text sep ex u fuel : URI text sep ex = Ok u -> 3 <= fuel ->
  obj_key fuel (obj_of u) =
    [Ok (aopt (k_scheme (u_key u))); Ok (aopt (k_host (u_key u))); Ok (AInt (k_port (u_key u))); Ok (aopt (k_user (u_key u)));
     Ok (aopt (k_pass (u_key u))); Ok (AText (k_vpath (u_key u))); Ok (ADict (u_extras u)); Ok (ADict (p_query (u_p u)))].
Proof.
  intros U F. pose proof (URI_creds _ _ _ _ U) as Cr. unfold obj_key, key_names. cbn [map].
  rewrite (has_get u fuel Cr F _ _ (has_scheme u)), (has_get u fuel Cr F _ _ (has_hostname u)), (has_get u fuel Cr F _ _ (has_port u)),
    (has_get u fuel Cr F _ _ (has_username u)), (has_get u fuel Cr F _ _ (has_password u)), (has_get u fuel Cr F _ _ (has_vpath u)),
    (has_get u fuel Cr F _ _ (has_extras u)), (has_get u fuel Cr F _ _ (has_query u)). reflexivity.
Qed.
Print Assumptions C120_key.
Definition ftp : str := lit "ftp://joe@host:21/a/b?k=v".
Example C120_witness : exists u, URI ftp cSlash [(lit "password", lit "x")] = Ok u /\
  map (get_attr 3 (obj_of u)) [lit "hostname"; lit "username"; lit "password"; lit "path"; lit "port"; lit "extras"; lit "join"; lit "color"] =
    [Ok (AText (lit "host")); Ok (AText (lit "joe")); Ok (AText (lit "x")); Ok (AText (lit "/a/b")); Ok (AInt 21); Ok (ADict []);
     Ok (AMethod (lit "join")); Raise AttributeError].
Proof. eexists. split; vm_compute; reflexivity. Qed.

(** ** C121 *)
Lemma dget_dset_same {V} k (v : V) d : dget k (dset k v d) = Some v.
Proof. rewrite dget_dset. now rewrite (proj2 (str_eqb_eq k k) eq_refl). Qed.
Lemma dget_dset_other {V} k (v : V) k' d : k' <> k -> dget k' (dset k v d) = dget k' d.
Proof. intros N. rewrite dget_dset. now rewrite eqb_not by exact N. Qed.
Definition after (o : obj) (n : str) (v : aval) : obj := mkObj (a_cls o) (dset n v (a_own o)) (a_p o).
Lemma plain_prop n : plain_name n -> prop_of n = None.
Proof.
  intros P. unfold prop_of. rewrite !eqb_not; [reflexivity|..]; intros ->; apply P; cbn [In]; tauto.
Qed.
Lemma get_other o n v m : plain_name n -> m <> n -> forall fuel, get_attr fuel (after o n v) m = get_attr fuel o m.
Proof.
  intros P. assert (N1 : lit "parse_result" <> n) by (intros <-; apply P; cbn [In]; tauto).
  assert (N2 : lit "_scheme" <> n) by (intros <-; apply P; cbn [In]; tauto). assert (N3 : lit "sep" <> n) by (intros <-; apply P; cbn [In]; tauto).
  intros Nm fuel. revert m Nm. induction fuel as [|f IH]; intros m Nm; [reflexivity|]. cbn [get_attr].
  rewrite !(IH _ N1), !(IH _ N2), !(IH _ N3). change (a_cls (after o n v)) with (a_cls o). change (a_p (after o n v)) with (a_p o).
  destruct (prop_of m); [reflexivity|]. cbn [after a_own]. now rewrite dget_dset_other by congruence.
Qed.
(** Anything can be assigned, is then read back, and changes no other attribute. *)
Theorem C121_assigned o n v : plain_name n -> exists o', set_attr o n v = Ok o' /\
  forall fuel, (1 <= fuel -> get_attr fuel o' n = Ok v) /\ forall m, m <> n -> get_attr fuel o' m = get_attr fuel o m.
Proof.
  intros P. exists (after o n v). unfold set_attr. rewrite (plain_prop n P). split; [reflexivity|]. intros fuel. split.
  - intros F. destruct fuel as [|f]; [lia|]. cbn [get_attr]. rewrite (plain_prop n P). cbn [after a_own]. now rewrite dget_dset_same.
  - intros m Nm. now apply get_other.
Qed.
Print Assumptions C121_assigned.
Theorem C121_readonly o n v : In n [lit "port"; lit "path"; lit "unipath"; lit "is_absolute"] -> set_attr o n v = Raise AttributeError.
Proof. cbn [In]. intros [<-|[<-|[<-|[<-|[]]]]]; reflexivity. Qed.
Print Assumptions C121_readonly.
(** The scheme is the one attribute of which the text and the connection both know. *)
Theorem C121_scheme text sep ex u s fuel : URI text sep ex = Ok u -> s <> [] -> 3 <= fuel -> exists o', set_attr (obj_of u) (lit "scheme") (AText s) = Ok o' /\
  get_attr fuel o' (lit "scheme") = Ok (AText s) /\ obj_str fuel o' = u_str (u_set_scheme u s) /\
  forall m, m <> lit "scheme" -> m <> lit "_scheme" -> get_attr fuel o' m = get_attr fuel (obj_of u) m.
Proof.
  intros U N F. pose proof (URI_creds _ _ _ _ U) as Cr. eexists. split; [reflexivity|]. destruct (fuel_3 fuel F) as [f ->].
  split; [destruct s; [easy|reflexivity]|]. set (o' := mkObj _ _ _).
  assert (G : forall m, m <> lit "scheme" -> m <> lit "_scheme" -> get_attr (S (S (S f))) o' m = get_attr (S (S (S f))) (obj_of u) m).
  { remember (S (S f)) as g eqn:Eg. assert (P : get_attr g o' (lit "parse_result") = Ok AParsed) by (subst g; reflexivity).
    assert (Q : get_attr g o' (lit "sep") = Ok (AText [u_sep u])) by (subst g; reflexivity).
    assert (P' : get_attr g (obj_of u) (lit "parse_result") = Ok AParsed) by (subst g; reflexivity).
    assert (Q' : get_attr g (obj_of u) (lit "sep") = Ok (AText [u_sep u])) by (subst g; reflexivity).
    clear Eg. intros m N1 N2. cbn [get_attr]. rewrite !P, !Q, !P', !Q'.
    assert (prop_of m <> Some PScheme) as Np.
    { unfold prop_of. rewrite (eqb_not m (lit "scheme")) by auto. repeat (destruct (str_eqb m _); [discriminate|]). discriminate. }
    change (a_p o') with (set_scheme (u_p u) s). change (a_p (obj_of u)) with (u_p u). change (a_cls o') with (u_cls u). change (a_cls (obj_of u)) with (u_cls u). cbn [rbind].
    destruct (prop_of m) as [[]|]; try easy. cbn [o' a_own]. rewrite dget_dset_other by congruence.
    destruct (dget m (a_own (obj_of u))); [reflexivity|]. destruct (is_method m); [reflexivity|]. destruct (str_eqb m hash_name); [reflexivity|]. unfold parsed_attr. rewrite (eqb_not m (lit "scheme")) by auto. reflexivity. }
  split; [|exact G]. unfold obj_str. change (a_cls o') with (u_cls u). unfold u_str. change (u_cls (u_set_scheme u s)) with (u_cls u).
  destruct (u_cls u) eqn:Cl; try reflexivity.
  rewrite G by discriminate. rewrite (has_get u _ Cr F _ _ (has_path u)). cbn [rbind]. unfold u_path. cbn [u_set_scheme u_cls]. rewrite Cl. reflexivity.
Qed.
Print Assumptions C121_scheme.
(** False of the code: the text stays as it is, so that a host, a user or a query assigned is not seen in it; the
    connection is looked for with the new value nevertheless, and two equal URIs have different connections. *)
Theorem C121_refuted text sep ex u n v fuel : URI text sep ex = Ok u -> plain_name n -> 3 <= fuel -> exists o', set_attr (obj_of u) n v = Ok o' /\
  a_p o' = u_p u /\ obj_str fuel o' = u_str u /\
  (forall i, nth_error (obj_key fuel o') i = if match nth_error key_names i with Some m => str_eqb m n | None => false end then Some (Ok v) else nth_error (obj_key fuel (obj_of u)) i).
Proof.
  intros U P F. pose proof (URI_creds _ _ _ _ U) as Cr. destruct (C121_assigned (obj_of u) n v P) as (o' & E & G). exists o'. split; [exact E|].
  assert (o' = after (obj_of u) n v) as -> by (unfold set_attr in E; rewrite (plain_prop n P) in E; now injection E).
  split; [reflexivity|]. split.
  - rewrite <- (C120_text text sep ex u fuel U F). unfold obj_str. change (a_cls (after (obj_of u) n v)) with (a_cls (obj_of u)).
    destruct (G fuel) as [_ G2]. rewrite !G2; [reflexivity|..]; intros <-; apply P; cbn [In]; tauto.
  - intros i. destruct (G fuel) as [G1 G2]. unfold obj_key. rewrite !nth_error_map. destruct (nth_error key_names i) as [m|]; [|reflexivity]. cbn [option_map].
    destruct (str_eqb m n) eqn:Em.
    + apply str_eqb_eq in Em. subst m. now rewrite G1 by lia.
    + rewrite G2; [reflexivity|]. intros ->. now rewrite (proj2 (str_eqb_eq n n) eq_refl) in Em.
Qed.
Print Assumptions C121_refuted.
Example C121_witness : exists u o' o2, URI ftp cSlash [] = Ok u /\ plain_name (lit "hostname") /\ set_attr (obj_of u) (lit "hostname") (AText (lit "other")) = Ok o' /\
  obj_str 3 o' = Ok ftp /\ nth_error (obj_key 3 o') 1 = Some (Ok (AText (lit "other"))) /\ nth_error (obj_key 3 (obj_of u)) 1 = Some (Ok (AText (lit "host"))) /\
  set_attr (obj_of u) (lit "scheme") (AText (lit "sftp")) = Ok o2 /\ obj_str 3 o2 = Ok (lit "sftp://joe@host:21/a/b?k=v").
Proof.
  do 3 eexists. split; [vm_compute; reflexivity|]. split; [vm_compute; intuition discriminate|]. split; [vm_compute; reflexivity|]. repeat split; vm_compute; reflexivity.
Qed.

(** ** C122 *)
(** False of the code: the new object has no [parse_result] yet, and asking for it asks for it again. *)
Lemma empty_get fuel cls p n : prop_of n = None -> is_method n = false -> str_eqb n hash_name = false -> get_attr fuel (mkObj cls [] p) n = Raise RuntimeError.
Proof.
  intros P M H. revert n P M H. induction fuel as [|f IH]; intros n P M H; [reflexivity|]. cbn [get_attr a_own dget]. rewrite P, M, H.
  now rewrite (IH (lit "parse_result") eq_refl eq_refl eq_refl).
Qed.
Theorem C122_refuted fuel o : library_copy fuel o = Raise RuntimeError.
Proof. unfold library_copy. now rewrite empty_get. Qed.
Print Assumptions C122_refuted.
Example C122_witness : exists u u', URI ftp cSlash [] = Ok u /\ URI_of u = Ok u' /\ library_copy 1000 (obj_of u) = Raise RuntimeError /\
  get_attr 1000 (obj_of u) (lit "__setstate__") = Raise AttributeError.
Proof. do 2 eexists. split; [vm_compute; reflexivity|]. split; [vm_compute; reflexivity|]. split; vm_compute; reflexivity. Qed.
