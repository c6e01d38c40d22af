(** The property lemmas about URIs. *)
From Verif Require Import Str Exc Utf8 UriParse BaseUri StrFacts Utf8Facts UriFacts SpecUri UriFacts2 UriFacts3 UriFacts4.
From Coq Require Import ZifyBool ZifyNat ZifyN.
Local Open Scope N_scope.

Lemma kw_ex ex : kw_ok ex -> ex_ok ex.
Proof.
  intros [H1 H2]. split; auto. apply bad_kw_false.
  repeat split; (destruct (dhas _ ex) eqn:E; auto; apply dhas_In in E; exfalso; revert E; apply H2; cbn; auto).
Qed.
Lemma uri_text_gtext sch a path q t : uri_text sch a path q t -> exists e, t = gtext sch a path e None /\ enc_of q e.
Proof.
  intros (qt & Hq & ->). apply query_enc in Hq as (e & -> & He). exists e. split; auto.
  unfold gtext. cbn [ftext]. now rewrite app_nil_r.
Qed.
Lemma gtext_uri_text sch a path q e : enc_of q e -> uri_text sch a path q (gtext sch a path e None).
Proof.
  intros He. exists (qtext e). split.
  - destruct He as [[-> ->]|(Hq & t & -> & E)]; [reflexivity|]. destruct q; [easy|]. cbn. eauto.
  - unfold gtext. cbn [ftext]. now rewrite app_nil_r.
Qed.

Lemma scheme_letter_char c : scheme_letter c -> scheme_char c = true.
Proof. unfold scheme_letter, scheme_char, between, cPlus, cMinus. lia. Qed.
Lemma scheme_re_text sch r :
  sch <> [] -> (forall c, In c sch -> scheme_letter c) -> scheme_re (sch ++ lit "://" ++ r) = Some sch.
Proof.
  intros Hn Hc. unfold scheme_re. rewrite span_app.
  - destruct sch; [easy|]. now rewrite prefixb_app.
  - apply forallb_forall. intros c Hin. apply scheme_letter_char. auto.
  - reflexivity.
Qed.
Lemma loc_scheme sch a path : loc_ok sch a path -> sch <> [] /\ forall c, In c sch -> scheme_letter c.
Proof.
  intros [Hs _ _| -> _ _ _ _].
  - split; [pose proof (sch_len _ Hs); destruct sch; cbn in *; [lia|easy]|apply (sch_chars _ Hs)].
  - split; [easy|]. intros c Hc. cbn in Hc. unfold scheme_letter. intuition (subst; lia).
Qed.

Lemma URI_made sch a path q e sep ex :
  loc_ok sch a path -> query_ok q -> enc_of q e -> bad_init_kw ex = false ->
  URI (gtext sch a path e None) sep ex
  = Ok (made (class_of_scheme (Some sch)) (gtext sch a path e None) sep (parse_of sch a path q None) ex).
Proof.
  intros HL Hq He Hb. destruct (loc_parse sch a path q e HL Hq He) as [C P].
  unfold URI. destruct (loc_scheme _ _ _ HL) as [S1 S2].
  unfold gtext at 1. rewrite scheme_re_text by auto. now apply mk_uri_made.
Qed.

(** C05 *)
Lemma join_appends sch a p0 k q t ex n :
  loc_ok sch a (p0 ++ repeat cSlash k) -> no_trailing_slash p0 -> query_ok q ->
  uri_text sch a (p0 ++ repeat cSlash k) q t -> kw_ok ex -> name_ok n -> no_drive sch n ->
  exists u r, URI t cSlash ex = Ok u /\ u_div u n = Ok r /\
    p_path (u_p u) = p0 ++ repeat cSlash k /\ p_path (u_p r) = p0 ++ cSlash :: n /\
    ((forall x, p0 ++ cSlash :: n <> lit "/." ++ x) -> u_path r = p0 ++ cSlash :: n) /\
    u_cls r = u_cls u /\ u_scheme r = u_scheme u /\ u_scheme u = Some sch /\
    p_hostname (u_p r) = p_hostname (u_p u) /\ p_port (u_p r) = p_port (u_p u) /\
    p_username (u_p r) = p_username (u_p u) /\ p_password (u_p r) = p_password (u_p u) /\
    p_vpath (u_p r) = p_vpath (u_p u) /\ p_query (u_p r) = q /\ p_query (u_p u) = q /\
    exists t', uri_text sch a (p0 ++ cSlash :: n) q t' /\ URI t' cSlash (u_all_extras u) = Ok r.
Proof.
  intros HL Ht Hq Htx Hkw Hn Hd. apply uri_text_gtext in Htx as (e & -> & He).
  pose proof (kw_ex _ Hkw) as [Hb Hnd].
  assert (HL2 : loc_ok sch a (p0 ++ cSlash :: n)) by (eapply loc_join; eauto).
  eexists _, _. split; [eapply URI_made; eauto|].
  set (u := made _ _ _ _ ex).
  assert (Hx : ex_ok (u_all_extras u)) by (apply made_ex_ok; auto; now split).
  assert (J : u_div u n = Ok (made (u_cls u) (gtext sch a (p0 ++ cSlash :: n) e None) cSlash
                                   (parse_of sch a (p0 ++ cSlash :: n) q None) (u_all_extras u))).
  { unfold u_div. apply (join_made u sch a p0 k q e [] n).
    - apply made_sep. - apply made_p. - apply Hx. - auto. - auto. - auto. - eapply loc_auth; eauto.
    - constructor. - reflexivity. - auto. }
  split; [exact J|].
  unfold u_scheme, u_path. unfold u. rewrite !made_p, !made_cls, !made_sep.
  cbn [parse_of p_path p_scheme p_hostname p_port p_username p_password p_vpath p_query].
  repeat split; auto.
  - intros Hdot. assert (E : base_path (made (class_of_scheme (Some sch)) (gtext sch a (p0 ++ cSlash :: n) e None) cSlash
         (parse_of sch a (p0 ++ cSlash :: n) q None) (u_all_extras u)) = p0 ++ cSlash :: n).
    { unfold base_path. rewrite made_p. cbn [parse_of p_path].
      destruct (prefixb (lit "/.") (p0 ++ cSlash :: n)) eqn:E; auto.
      apply prefixb_spec in E as [x E]. exfalso. exact (Hdot x E). }
    fold u. rewrite E. change (cSlash =? cSlash) with true. now destruct (class_of_scheme (Some sch)).
  - exists (gtext sch a (p0 ++ cSlash :: n) e None). split; [now apply gtext_uri_text|].
    apply URI_made; auto. apply Hx.
Qed.

(** ** Equality *)
Lemma dict_eqb_spec d e : dict_eqb d e = true <->
  (forall k v, In (k, v) d -> dget k e = Some v) /\ (forall k v, In (k, v) e -> dget k d = Some v).
Proof.
  unfold dict_eqb. rewrite andb_true_iff, !forallb_forall. split.
  - intros [H1 H2]. split; intros k v Hin.
    + specialize (H1 _ Hin). cbn in H1. destruct (dget k e) as [w|]; [|discriminate].
      apply str_eqb_eq in H1. now subst.
    + specialize (H2 _ Hin). cbn in H2. destruct (dget k d) as [w|]; [|discriminate].
      apply str_eqb_eq in H2. now subst.
  - intros [H1 H2]. split; intros [k v] Hin; cbn.
    + rewrite (H1 _ _ Hin). apply str_eqb_refl.
    + rewrite (H2 _ _ Hin). apply str_eqb_refl.
Qed.
Lemma dict_eqb_same d e : NoDup (map fst d) -> NoDup (map fst e) ->
  (dict_eqb d e = true <-> same_dict d e).
Proof.
  intros Hd He. rewrite dict_eqb_spec. split.
  - intros [H1 H2] k. destruct (dget k d) as [v|] eqn:E.
    + apply dget_In in E. symmetry. auto.
    + destruct (dget k e) as [v|] eqn:E2; auto. apply dget_In in E2. apply H2 in E2. congruence.
  - intros H. split; intros k v Hin.
    + rewrite <- (H k). now apply dget_In_NoDup.
    + rewrite (H k). now apply dget_In_NoDup.
Qed.
Lemma ostr_eqb_spec a b : ostr_eqb a b = true <-> a = b.
Proof.
  destruct a as [a|], b as [b|]; cbn; split; intros H; try easy.
  - apply str_eqb_eq in H. now subst.
  - injection H as ->. apply str_eqb_refl.
Qed.
Definition query_wf (u : uri) : Prop := NoDup (map fst (p_query (u_p u))).
Lemma u_eqb_spec u v : query_wf u -> query_wf v ->
  (u_eqb u v = true <->
   u_scheme u = u_scheme v /\ p_netloc (u_p u) = p_netloc (u_p v) /\
   p_path (u_p u) = p_path (u_p v) /\ same_dict (p_query (u_p u)) (p_query (u_p v))).
Proof.
  intros Hu Hv. unfold u_eqb, parsed_eqb, u_scheme.
  rewrite !andb_true_iff, ostr_eqb_spec, !str_eqb_eq, dict_eqb_same by auto. tauto.
Qed.
Lemma parse_items_nodup items d r :
  NoDup (map fst d) -> parse_query_items items d = Ok r -> NoDup (map fst r).
Proof.
  revert d; induction items as [|i items IH]; intros d Hd; cbn [parse_query_items].
  - intros E. injection E as <-. auto.
  - destruct (split_on cEq i) as [|k [|v [|? ?]]]; try discriminate.
    apply IH. now apply NoDup_dset.
Qed.
Lemma uri_parse_nodup t p : uri_parse t = Ok p -> NoDup (map fst (p_query p)).
Proof.
  unfold uri_parse. destruct (urisplit t) as [s|]; cbn [rbind]; [|discriminate].
  destruct (match s_authority s with Some a => _ | None => _ end) as [vp au].
  destruct (match au with Some (c :: w) => _ | _ => _ end) as [[[[us pw] ho] po]|]; cbn [rbind]; [|discriminate].
  destruct (match s_query s with Some (c :: w) => _ | _ => _ end) as [q|] eqn:Q; cbn [rbind]; [|discriminate].
  intros E. injection E as <-. cbn [p_query].
  destruct (s_query s) as [[|c w]|]; [injection Q as <-; constructor| |injection Q as <-; constructor].
  eapply parse_items_nodup; [|exact Q]. constructor.
Qed.
Lemma mk_uri_wf cls t sep ex u : mk_uri cls t sep ex = Ok u -> query_wf u.
Proof.
  unfold mk_uri, query_wf. destruct (bad_init_kw ex); [discriminate|].
  destruct (uri_parse (clean_uri t)) as [p|] eqn:P; cbn [rbind]; [|discriminate].
  destruct (take_cred (lit "username") _ _ _) as [us ex1].
  destruct (take_cred (lit "password") _ _ _) as [pw ex2].
  intros E. injection E as <-. cbn [u_p]. now apply uri_parse_nodup in P.
Qed.
Lemma clone_wf cls u v : clone_uri cls u = Ok v -> query_wf v.
Proof.
  unfold clone_uri, query_wf.
  destruct (uri_parse (u_uri u)) as [p|] eqn:P; cbn [rbind]; [|discriminate].
  destruct (take_cred (lit "username") _ _ _) as [us ex1].
  destruct (take_cred (lit "password") _ _ _) as [pw ex2].
  intros E. injection E as <-. cbn [u_p]. now apply uri_parse_nodup in P.
Qed.
Lemma join_wf u args v : query_wf u -> u_join u args = Ok v -> query_wf v.
Proof.
  unfold u_join. intros Hu. destruct (rev _) as [|l i]; [discriminate|].
  destruct (uri_from_parts _ _ _ _) as [t|]; cbn [rbind]; [|discriminate].
  destruct (mk_uri _ _ _ _) as [r|]; cbn [rbind]; [|discriminate]. intros E. injection E as <-. exact Hu.
Qed.
Lemma add_wf u s v : query_wf u -> u_add u s = Ok v -> query_wf v.
Proof.
  unfold u_add. intros Hu.
  destruct (mk_uri _ _ _ _) as [r|]; cbn [rbind]; [|discriminate]. intros E. injection E as <-. exact Hu.
Qed.
Lemma split_wf u d n : u_split u = Ok (d, n) -> query_wf d.
Proof.
  unfold u_split. destruct (match cut_last _ _ with Some fs => fs | None => _ end) as [f s].
  destruct (mk_uri _ _ _ _) as [r|] eqn:M; cbn [rbind]; [|discriminate]. intros E. injection E as <- _.
  now apply mk_uri_wf in M.
Qed.
Lemma made_eqb cls1 t1 sep1 ex1 cls2 t2 sep2 ex2 p :
  NoDup (map fst (p_query p)) -> u_eqb (made cls1 t1 sep1 p ex1) (made cls2 t2 sep2 p ex2) = true.
Proof.
  intros H. apply u_eqb_spec.
  - red. now rewrite made_p.
  - red. now rewrite made_p.
  - unfold u_scheme. rewrite !made_p. repeat split; auto.
Qed.

(** C06 *)
Lemma last_of_text u x n : u_uri u = x ++ cSlash :: n -> name_ok n -> u_last u = n.
Proof.
  intros Hu Hn. unfold u_last. rewrite Hu, split_on_gen, rev_app_distr.
  rewrite (split_on_none cSlash n) by (now apply name_no_slash). cbn [rev app].
  destruct n as [|c n]; [now destruct (name_ne _ Hn)|]. now destruct (rev (split_on cSlash x)).
Qed.
Lemma split_undoes sch a p ex t n :
  loc_ok sch a p -> (no_trailing_slash p \/ p = [cSlash] /\ a = NoAuth) -> uri_text sch a p [] t ->
  kw_ok ex -> name_ok n -> no_drive sch n ->
  exists u r d, URI t cSlash ex = Ok u /\ u_div u n = Ok r /\ u_split r = Ok (d, n) /\
    u_eqb d u = true /\ u_uri d = u_uri u /\ u_p d = u_p u /\
    u_dirname 1 r = Ok d /\ u_basename r = Ok n /\ u_last r = n.
Proof.
  intros HL Hp Htx Hkw Hn Hd. apply uri_text_gtext in Htx as (e & -> & He).
  destruct He as [[_ ->]|(? & _)]; [|easy].
  pose proof (kw_ex _ Hkw) as [Hb Hnd].
  assert (D : exists p0 k, p = p0 ++ repeat cSlash k /\ no_trailing_slash p0 /\ dir_path a p0 = p).
  { destruct Hp as [Hp|[-> ->]].
    - exists p, 0%nat. cbn [repeat]. rewrite app_nil_r. repeat split; auto.
      assert (P : path_ok p) by (destruct HL; auto). destruct P as [[r ->] _ _]. now destruct a.
    - exists [], 1%nat. repeat split; auto. intros r E. now destruct r. }
  destruct D as (p0 & k & Ep & Ht & Edp).
  assert (HL2 : loc_ok sch a (p0 ++ cSlash :: n)) by (apply (loc_join _ _ _ k); auto; now rewrite <- Ep).
  pose proof (URI_made sch a p [] None cSlash ex HL empty_query_ok no_query_enc Hb) as HU.
  set (u := made _ _ cSlash _ ex) in HU.
  assert (Hx : ex_ok (u_all_extras u)) by (apply made_ex_ok; auto using empty_query_ok; now split).
  assert (J : u_div u n = Ok (made (u_cls u) (gtext sch a (p0 ++ cSlash :: n) None None) cSlash
                                   (parse_of sch a (p0 ++ cSlash :: n) [] None) (u_all_extras u))).
  { unfold u_div. apply (join_made u sch a p0 k [] None [] n); auto using empty_query_ok, no_query_enc.
    - apply made_sep. - unfold u. now rewrite made_p, Ep. - apply Hx. - eapply loc_auth; eauto. }
  set (r := made _ _ cSlash _ (u_all_extras u)) in J.
  assert (Hr : ex_ok (u_all_extras r)) by (apply made_ex_ok; auto using empty_query_ok).
  assert (S : u_split r = Ok (made (u_cls r) (gtext sch a (dir_path a p0) None None) (u_sep r)
                                (parse_of sch a (dir_path a p0) [] None) (u_all_extras r), n)).
  { apply (split_made r sch a p0 n None []); auto using empty_query_ok, no_query_enc.
    - apply made_uri. - apply Hr. - now rewrite Edp. }
  rewrite Edp in S. set (d := made (u_cls r) _ _ _ _) in S.
  exists u, r, d. repeat split; auto.
  - apply made_eqb. constructor.
  - unfold d, u. now rewrite !made_uri.
  - unfold d, u. now rewrite !made_p.
  - unfold u_dirname, u_dirname_loop. now rewrite S.
  - unfold u_basename. now rewrite S.
  - apply (last_of_text r (sch ++ lit "://" ++ auth_text a ++ p0)); auto. unfold r. rewrite made_uri.
    unfold gtext. cbn [qtext ftext]. rewrite !app_nil_r. now rewrite <- !app_assoc.
Qed.

(** C07 *)
Lemma join_assoc sch a p0 k q t ex n1 n2 :
  loc_ok sch a (p0 ++ repeat cSlash k) -> no_trailing_slash p0 -> query_ok q ->
  uri_text sch a (p0 ++ repeat cSlash k) q t -> kw_ok ex ->
  name_ok n1 -> name_ok n2 -> no_drive sch n1 -> no_drive sch n2 ->
  exists u v w r, URI t cSlash ex = Ok u /\
    u_div u n1 = Ok v /\ u_div v n2 = Ok w /\
    u_join u [n1; n2] = Ok r /\ u_div u (n1 ++ cSlash :: n2) = Ok r /\
    u_eqb w r = true /\ u_uri w = u_uri r /\ u_p w = u_p r.
Proof.
  intros HL Ht Hq Htx Hkw Hn1 Hn2 Hd1 Hd2. apply uri_text_gtext in Htx as (e & -> & He).
  pose proof (kw_ex _ Hkw) as [Hb Hnd]. pose proof (loc_auth _ _ _ HL) as Ha.
  pose proof (URI_made _ _ _ _ _ cSlash ex HL Hq He Hb) as HU. set (u := made _ _ cSlash _ ex) in HU.
  assert (Hx : ex_ok (u_all_extras u)) by (apply made_ex_ok; auto; now split).
  set (p1 := p0 ++ cSlash :: n1).
  assert (HL1 : loc_ok sch a p1) by (apply (loc_join _ _ _ k); auto).
  assert (Ht1 : no_trailing_slash p1).
  { unfold p1. change (cSlash :: n1) with ([cSlash] ++ n1). rewrite app_assoc. apply nts_app.
    - apply (name_ne _ Hn1). - now apply name_nts. }
  assert (HL2 : loc_ok sch a (p1 ++ cSlash :: n2)).
  { apply (loc_join _ _ _ 0); auto. cbn [repeat]. now rewrite app_nil_r. }
  assert (J1 : u_div u n1 = Ok (made (u_cls u) (gtext sch a p1 e None) cSlash (parse_of sch a p1 q None) (u_all_extras u))).
  { apply (join_made u sch a p0 k q e [] n1); auto; [apply made_sep|apply made_p|apply Hx]. }
  set (v := made _ _ cSlash _ (u_all_extras u)) in J1.
  assert (Hv : ex_ok (u_all_extras v)) by (apply made_ex_ok; auto).
  assert (J2 : u_div v n2 = Ok (made (u_cls v) (gtext sch a (p1 ++ cSlash :: n2) e None) cSlash
                 (parse_of sch a (p1 ++ cSlash :: n2) q None) (u_all_extras v))).
  { apply (join_made v sch a p1 0 q e [] n2); auto; [apply made_sep| |apply Hv].
    cbn [repeat]. rewrite app_nil_r. apply made_p. }
  assert (J3 : u_join u [n1; n2] = Ok (made (u_cls u) (gtext sch a (p1 ++ cSlash :: n2) e None) cSlash
                 (parse_of sch a (p1 ++ cSlash :: n2) q None) (u_all_extras u))).
  { apply (join_made u sch a p0 k q e [n1] n2); auto; [apply made_sep|apply made_p|apply Hx|].
    cbn [app join_with]. unfold p1. rewrite <- app_assoc. reflexivity. }
  assert (J4 : u_div u (n1 ++ cSlash :: n2) = Ok (made (u_cls u) (gtext sch a (p1 ++ cSlash :: n2) e None) cSlash
                 (parse_of sch a (p1 ++ cSlash :: n2) q None) (u_all_extras u))).
  { apply (join_made u sch a p0 k q e [] (n1 ++ cSlash :: n2)); auto; [apply made_sep|apply made_p|apply Hx|].
    cbn [app join_with]. unfold p1. rewrite <- app_assoc. reflexivity. }
  eexists u, v, (made (u_cls v) (gtext sch a (p1 ++ cSlash :: n2) e None) cSlash
                 (parse_of sch a (p1 ++ cSlash :: n2) q None) (u_all_extras v)), _.
  split; [exact HU|]. split; [exact J1|]. split; [exact J2|]. split; [exact J3|]. split; [exact J4|].
  repeat split.
  - apply made_eqb. apply (q_dup _ Hq).
  - now rewrite !made_uri.
  - now rewrite !made_p.
Qed.
Lemma join_trailing sch a p0 k q t t' ex n :
  loc_ok sch a (p0 ++ repeat cSlash k) -> loc_ok sch a p0 -> no_trailing_slash p0 -> query_ok q ->
  uri_text sch a (p0 ++ repeat cSlash k) q t -> uri_text sch a p0 q t' -> kw_ok ex ->
  name_ok n -> no_drive sch n ->
  exists u v r, URI t cSlash ex = Ok u /\ URI t' cSlash ex = Ok v /\ u_div u n = Ok r /\ u_div v n = Ok r.
Proof.
  intros HL HL0 Ht Hq Htx Htx' Hkw Hn Hd.
  apply uri_text_gtext in Htx as (e & -> & He). apply uri_text_gtext in Htx' as (e' & -> & He').
  assert (e' = e) as ->.
  { destruct He as [[-> ->]|(? & x & -> & E1)], He' as [[H1 ->]|(? & y & -> & E2)]; try easy.
    rewrite E1 in E2. now injection E2 as <-. }
  pose proof (kw_ex _ Hkw) as [Hb Hnd]. pose proof (loc_auth _ _ _ HL) as Ha.
  pose proof (URI_made _ _ _ _ _ cSlash ex HL Hq He Hb) as HU.
  pose proof (URI_made _ _ _ _ _ cSlash ex HL0 Hq He Hb) as HV.
  set (u := made _ _ cSlash _ ex) in HU. set (v := made _ _ cSlash _ ex) in HV.
  assert (Hx : u_all_extras v = u_all_extras u).
  { unfold u, v, made, u_all_extras, u_scheme. cbn [parse_of p_username p_query p_password].
    destruct (take_cred (lit "username") _ _ _) as [us ex1].
    destruct (take_cred (lit "password") _ _ _) as [pw ex2]. reflexivity. }
  assert (Hxx : ex_ok (u_all_extras u)) by (apply made_ex_ok; auto; now split).
  assert (HL2 : loc_ok sch a (p0 ++ cSlash :: n)) by (eapply loc_join; eauto).
  eexists u, v, _. split; [exact HU|]. split; [exact HV|]. split.
  - apply (join_made u sch a p0 k q e [] n); auto; [apply made_sep|apply made_p|apply Hxx].
  - assert (J : u_div v n = Ok (made (u_cls v) (gtext sch a (p0 ++ cSlash :: n) e None) cSlash
                 (parse_of sch a (p0 ++ cSlash :: n) q None) (u_all_extras v))).
    { apply (join_made v sch a p0 0 q e [] n); auto; [apply made_sep| |rewrite Hx; apply Hxx].
      cbn [repeat]. rewrite app_nil_r. apply made_p. }
    rewrite J, Hx. unfold u, v. now rewrite !made_cls.
Qed.

(** C08 *)
Lemma split_root sch sep ex cls q e :
  loc_ok sch NoAuth [cSlash] -> query_ok q -> enc_of q e -> ex_ok ex ->
  let u := made cls (gtext sch NoAuth [cSlash] e None) sep (parse_of sch NoAuth [cSlash] q None) ex in
  u_split u = Ok (made cls (gtext sch NoAuth [cSlash] None None) sep
                       (parse_of sch NoAuth [cSlash] [] None) (u_all_extras u), []).
Proof.
  intros HL Hq He Hex u.
  assert (Hx : ex_ok (u_all_extras u)) by (now apply made_ex_ok).
  unfold u_split. assert (Hu : u_uri u = (sch ++ lit "://") ++ cSlash :: qtext e).
  { unfold u. rewrite made_uri. unfold gtext. cbn [ftext auth_text app]. rewrite app_nil_r. now rewrite <- app_assoc. }
  rewrite Hu, cut_last_app.
  - assert (S : suffixb (lit "//") (sch ++ lit "://") = true).
    { apply suffixb_spec. exists (sch ++ [cColon]). now rewrite <- app_assoc. }
    rewrite S.
    assert (G : (sch ++ lit "://") ++ [cSlash] = gtext sch NoAuth [cSlash] None None).
    { unfold gtext. cbn [ftext auth_text qtext app]. now rewrite <- app_assoc. }
    rewrite G.
    assert (HM : match gtext sch NoAuth [cSlash] None None with
               | [] => [cDot] | _ => gtext sch NoAuth [cSlash] None None end
               = gtext sch NoAuth [cSlash] None None).
    { unfold gtext. destruct sch; reflexivity. }
    rewrite HM.
    destruct (loc_parse sch NoAuth [cSlash] [] None HL empty_query_ok no_query_enc) as [C P].
    rewrite (mk_uri_made _ _ _ _ _ (proj1 Hx) C P). cbn [rbind]. unfold u at 1 2. rewrite made_cls, made_sep.
    do 2 f_equal. now destruct e.
  - intros H. apply qtext_in in H as [H|(x & -> & H)]; [discriminate|].
    assert (O : ook [cSlash] (Some x)) by (eapply enc_ook; eauto; incl_tac). revert H. apply O. now left.
Qed.
Lemma dirname_root sch sep cls level : loc_ok sch NoAuth [cSlash] -> (level <> 0)%nat ->
  forall q e ex, query_ok q -> enc_of q e -> ex_ok ex -> exists ex', ex_ok ex' /\
  u_dirname_loop level (made cls (gtext sch NoAuth [cSlash] e None) sep (parse_of sch NoAuth [cSlash] q None) ex)
  = Ok (made cls (gtext sch NoAuth [cSlash] None None) sep (parse_of sch NoAuth [cSlash] [] None) ex').
Proof.
  intros HL. induction level as [|l IH]; [easy|]. intros _ q e ex Hq He Hex.
  cbn [u_dirname_loop]. rewrite split_root by auto. cbn [rbind fst].
  assert (Hx : ex_ok (u_all_extras (made cls (gtext sch NoAuth [cSlash] e None) sep (parse_of sch NoAuth [cSlash] q None) ex)))
    by (now apply made_ex_ok).
  destruct l as [|l]; [cbn [u_dirname_loop]; eauto|].
  apply IH; auto using empty_query_ok, no_query_enc.
Qed.
Lemma dirname_app l1 l2 u : u_dirname_loop (l1 + l2) u = rbind (u_dirname_loop l1 u) (u_dirname_loop l2).
Proof.
  revert u; induction l1 as [|l1 IH]; intros u; [reflexivity|]. cbn [Nat.add u_dirname_loop].
  destruct (u_split u) as [d|]; cbn [rbind]; auto.
Qed.

Lemma dirname_levels sch a cs q t sep ex level :
  site_ok sch a -> Forall name_ok cs -> (forall n, In n cs -> no_drive sch n) -> query_ok q ->
  uri_text sch a (abs_path cs) q t -> kw_ok ex -> (level <> 0)%nat ->
  (a = NoAuth \/ level < length cs)%nat ->
  exists u d, URI t sep ex = Ok u /\ u_dirname level u = Ok d /\
    p_path (u_p d) = abs_path (firstn (length cs - level) cs) /\
    u_uri d = sch ++ lit "://" ++ auth_text a ++ abs_path (firstn (length cs - level) cs) /\
    u_scheme d = u_scheme u /\ p_hostname (u_p d) = p_hostname (u_p u) /\ p_port (u_p d) = p_port (u_p u) /\
    p_username (u_p d) = p_username (u_p u) /\ p_password (u_p d) = p_password (u_p u) /\
    p_vpath (u_p d) = p_vpath (u_p u).
Proof.
  intros HA HF Hc Hq Htx Hkw Hl Hor. apply uri_text_gtext in Htx as (e & -> & He).
  pose proof (kw_ex _ Hkw) as Hex.
  assert (Hcf : forall l, incl l cs -> colon_free sch l).
  { intros l Hi Hs n Hin. apply (Hc n); auto. }
  assert (HL : loc_ok sch a (abs_path cs)) by (apply loc_abs; auto using incl_refl).
  pose proof (URI_made _ _ _ _ _ sep ex HL Hq He (proj1 Hex)) as HU.
  exists (made (class_of_scheme (Some sch)) (gtext sch a (abs_path cs) e None) sep (parse_of sch a (abs_path cs) q None) ex).
  assert (K : exists ex', u_dirname level (made (class_of_scheme (Some sch)) (gtext sch a (abs_path cs) e None) sep (parse_of sch a (abs_path cs) q None) ex)
    = Ok (made (class_of_scheme (Some sch)) (gtext sch a (abs_path (firstn (length cs - level) cs)) None None) sep
               (parse_of sch a (abs_path (firstn (length cs - level) cs)) [] None) ex')).
  { replace (u_dirname level) with (u_dirname_loop level) by (destruct level; [easy|reflexivity]).
    set (k := (length cs - level)%nat).
    assert (Ecs : cs = firstn k cs ++ skipn k cs) by (symmetry; apply firstn_skipn).
    destruct (le_lt_dec level (length cs)) as [Hle|Hgt].
    - destruct (dirname_loop_made sch a level HA (class_of_scheme (Some sch)) sep (firstn k cs) (skipn k cs) q e ex) as (ex' & E & _);
        rewrite <- ?Ecs; auto.
      + apply Hcf. apply incl_refl.
      + rewrite skipn_length. lia.
      + destruct Hor as [?|Hlt]; auto. right. intros E. apply (f_equal (@length str)) in E.
        rewrite firstn_length in E. cbn in E. lia.
      + rewrite <- Ecs in E. eauto.
    - assert (a = NoAuth) as -> by (destruct Hor; [auto|lia]).
      assert (HR : loc_ok sch NoAuth [cSlash]) by (now apply loc_root).
      replace k with 0%nat by lia. cbn [firstn abs_path].
      destruct cs as [|c cs].
      + destruct (dirname_root sch sep (class_of_scheme (Some sch)) level HR Hl q e ex) as (ex' & _ & E); auto.
        cbn [abs_path]. eauto.
      + destruct (dirname_loop_made sch NoAuth (length (c :: cs)) HA (class_of_scheme (Some sch)) sep [] (c :: cs) q e ex) as (ex' & E & Hx');
          auto; try easy.
        * apply Hcf. apply incl_refl.
        * replace level with (length (c :: cs) + (level - length (c :: cs)))%nat by lia.
          rewrite dirname_app. cbn [app] in E. rewrite E. cbn [rbind].
          destruct (dirname_root sch sep (class_of_scheme (Some sch)) (level - length (c :: cs)) HR) with (q := @nil (str * str)) (e := @None str) (ex := ex') as (ex2 & _ & E2);
            auto using empty_query_ok, no_query_enc; [lia|]. eauto. }
  destruct K as (ex' & K). eexists. split; [exact HU|]. split; [exact K|].
  unfold u_scheme. rewrite !made_p, made_uri. unfold gtext. cbn [qtext ftext]. rewrite !app_nil_r.
  cbn. repeat split; reflexivity.
Qed.
