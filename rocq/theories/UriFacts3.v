(** Construction, join, split of URIs of the grammar. *)
From Verif Require Import Str Exc Utf8 UriParse BaseUri StrFacts Utf8Facts UriFacts SpecUri UriFacts2.
From Coq Require Import ZifyBool ZifyNat ZifyN.
Local Open Scope N_scope.

(** ** clean_uri leaves the text alone *)

Lemma sch_no_colon (sch : str) : scheme_ok sch -> ~ In cColon sch.
Proof.
  intros H Hin. apply (sch_chars _ H) in Hin. unfold scheme_letter, cColon, cPlus, cMinus in Hin. lia.
Qed.
Lemma not_file_prefix (sch r : str) :
  scheme_ok sch -> prefixb (lit "file://") (sch ++ lit "://" ++ r) = false.
Proof.
  intros H. destruct (prefixb _ _) eqn:E; auto. apply prefixb_spec in E as [t E].
  exfalso. apply (sch_file _ H).
  assert (C1 : cut_first cColon (sch ++ lit "://" ++ r) = Some (sch, lit "//" ++ r)).
  { apply (cut_first_app cColon sch (lit "//" ++ r)). now apply sch_no_colon. }
  rewrite E in C1. change (lit "file://" ++ t) with (lit "file" ++ cColon :: (lit "//" ++ t)) in C1.
  rewrite cut_first_app in C1 by (cbn; intuition discriminate). now injection C1.
Qed.
Lemma contains_scheme (sch r : str) : contains (lit "://") (sch ++ lit "://" ++ r) = true.
Proof. apply contains_spec. now exists sch, r. Qed.

Lemma clean_remote (sch r : str) :
  scheme_ok sch -> ~ In cBack r ->
  clean_uri (sch ++ lit "://" ++ r) = sch ++ lit "://" ++ r.
Proof.
  intros H Hr. unfold clean_uri. rewrite not_file_prefix by auto.
  assert (N : normalize_uri (sch ++ lit "://" ++ r) cBack = sch ++ lit "://" ++ r).
  { unfold normalize_uri. change (cBack =? cSlash) with false. cbv iota.
    rewrite replace_char_id.
    - pose proof (sch_len _ H) as L. pose proof (sch_no_colon _ H) as C.
      destruct sch as [|x [|y s]]; cbn [length] in L; try lia. cbn [app].
      destruct (N.eqb_spec y cColon); [subst; exfalso; apply C; cbn; auto|reflexivity].
    - rewrite !in_app_iff. intros [H1|[H1|H1]]; auto.
      + apply (sch_chars _ H) in H1. unfold scheme_letter, cBack, cPlus, cMinus in H1. lia.
      + cbn in H1. intuition discriminate. }
  rewrite N, contains_scheme. cbn [negb andb]. now rewrite contains_scheme.
Qed.

Lemma clean_file (r : str) :
  (exists r', r = cSlash :: r') -> ~ In cBack r -> contains (lit "://") r = false ->
  (forall r', r <> cSlash :: cColon :: r') ->
  clean_uri (lit "file://" ++ r) = lit "file://" ++ r.
Proof.
  intros (r' & ->) Hb Hc Hd. unfold clean_uri. rewrite prefixb_app.
  change (skipn 7 (lit "file://" ++ cSlash :: r')) with (cSlash :: r').
  assert (N : normalize_uri (cSlash :: r') cBack = cSlash :: r').
  { unfold normalize_uri. change (cBack =? cSlash) with false. cbv iota.
    rewrite replace_char_id by auto. destruct r' as [|x r']; auto.
    destruct (N.eqb_spec x cColon); [subst; exfalso; eapply Hd; eauto|reflexivity]. }
  rewrite N, Hc.
  change (prefixb [cSlash] (cSlash :: r')) with true. cbn [negb andb orb]. now rewrite Hc.
Qed.

(** ** Construction *)

(** The object built from a text that parses to [p]. *)
Definition made (cls : uclass) (t : str) (sep : N) (p : parsed) (ex : dict str) : uri :=
  let '(us, ex1) := take_cred (lit "username") (p_username p) ex (p_query p) in
  let '(pw, ex2) := take_cred (lit "password") (p_password p) ex1 (p_query p) in
  mkUri cls t sep p ex2 us pw.

Lemma mk_uri_made cls t sep ex p :
  bad_init_kw ex = false -> clean_uri t = t -> uri_parse t = Ok p ->
  mk_uri cls t sep ex = Ok (made cls t sep p ex).
Proof.
  intros Hb Hc Hp. unfold mk_uri, made. rewrite Hb, Hc, Hp. cbn [rbind].
  destruct (take_cred (lit "username") (p_username p) ex (p_query p)) as [us ex1].
  destruct (take_cred (lit "password") (p_password p) ex1 (p_query p)) as [pw ex2]. reflexivity.
Qed.
Lemma made_fields cls t sep p ex :
  u_cls (made cls t sep p ex) = cls /\ u_uri (made cls t sep p ex) = t /\
  u_sep (made cls t sep p ex) = sep /\ u_p (made cls t sep p ex) = p.
Proof.
  unfold made. destruct (take_cred (lit "username") _ _ _) as [us ex1].
  destruct (take_cred (lit "password") _ _ _) as [pw ex2]. auto.
Qed.
Lemma made_cls cls t sep p ex : u_cls (made cls t sep p ex) = cls.
Proof. apply made_fields. Qed.
Lemma made_uri cls t sep p ex : u_uri (made cls t sep p ex) = t.
Proof. apply made_fields. Qed.
Lemma made_sep cls t sep p ex : u_sep (made cls t sep p ex) = sep.
Proof. apply made_fields. Qed.
Lemma made_p cls t sep p ex : u_p (made cls t sep p ex) = p.
Proof. apply made_fields. Qed.

(** ** Grammar conditions in the form the parser lemma wants *)

Definition enc_of (q : dict str) (e : option str) : Prop :=
  q = [] /\ e = None \/ q <> [] /\ exists t, e = Some t /\ urlencode q = Ok t.

Lemma query_enc q qt : query_text_of q qt -> exists e, qt = qtext e /\ enc_of q e.
Proof.
  unfold query_text_of, enc_of. destruct q as [|kv q].
  - intros ->. exists None. auto.
  - intros (e & E & ->). exists (Some e). split; auto. right. split; [easy|eauto].
Qed.
Lemma enc_parse q e : query_ok q -> enc_of q e ->
  q = [] /\ e = None \/
  q <> [] /\ exists t, e = Some t /\ parse_query_string t = Ok q /\ t <> []
             /\ avoids [cHash; cQuest; cSlash; cBack; cLpar; cNL; cColon] t.
Proof.
  intros [Hk Hv Hn _] [?|(Hq & t & -> & Ht)]; auto. right. split; auto.
  destruct (query_roundtrip q Hq Hk Hv Hn) as (t' & E & P & N & A).
  rewrite Ht in E. injection E as <-. exists t. auto.
Qed.
Lemma enc_parse' q e : query_ok q -> enc_of q e ->
  q = [] /\ e = None \/
  q <> [] /\ exists t, e = Some t /\ parse_query_string t = Ok q /\ t <> [] /\ avoids [cHash; cLpar] t.
Proof.
  intros Hq He. destruct (enc_parse q e Hq He) as [?|(? & t & ? & ? & ? & ?)]; auto.
  right. split; auto. exists t. repeat split; auto. eapply avoids_incl; [|eassumption]. incl_tac.
Qed.
Lemma enc_ook q e l :
  query_ok q -> enc_of q e -> incl l [cHash; cQuest; cSlash; cBack; cLpar; cNL; cColon] -> ook l e.
Proof.
  intros Hq He Hl. destruct (enc_parse q e Hq He) as [[_ ->]|(_ & t & -> & _ & _ & A)]; [exact I|].
  eapply avoids_incl; eauto.
Qed.
Lemma enc_exists q : query_ok q -> exists e, enc_of q e.
Proof.
  intros [Hk Hv Hn _]. destruct q as [|kv q]; [exists None; left; auto|].
  destruct (query_roundtrip (kv :: q)) as (t & E & _); auto; try easy.
  exists (Some t). right. split; [easy|eauto].
Qed.

Lemma qtext_in e c : In c (qtext e) -> c = cQuest \/ exists t, e = Some t /\ In c t.
Proof. destruct e as [t|]; cbn; [|easy]. intros [?|?]; eauto. Qed.

Lemma auth_no_back a : auth_ok a -> ~ In cBack (auth_text a).
Proof.
  intros H. destruct (auth_ok_last a H) as [[v ->]|A]; [|apply A; cbn; tauto].
  inversion H; subst. cbn [auth_text]. rewrite !in_app_iff. intros [E|[E|E]].
  - cbn in E. intuition discriminate.
  - revert E. apply H2. now left.
  - cbn in E. intuition discriminate.
Qed.

(** What we need of scheme, authority and path together. *)
Lemma loc_parse sch a path q e :
  loc_ok sch a path -> query_ok q -> enc_of q e ->
  clean_uri (gtext sch a path e None) = gtext sch a path e None /\
  uri_parse (gtext sch a path e None) = Ok (parse_of sch a path q None).
Proof.
  intros HL Hq He.
  assert (Hp : path_ok path) by (destruct HL; auto).
  destruct Hp as [[r Hr] Hf Hpp].
  assert (HB : ~ In cBack (path ++ qtext e ++ ftext None)).
  { cbn [ftext]. rewrite app_nil_r, in_app_iff. intros [H|H]; [revert H; apply Hf; cbn; tauto|].
    apply qtext_in in H as [H|(t & -> & H)]; [discriminate|].
    assert (O : ook [cBack] (Some t)) by (eapply enc_ook; eauto; incl_tac). revert H. apply O. now left. }
  assert (Hhd : heads [cSlash] path) by (subst; cbn; auto).
  assert (Hav : avoids [cQuest; cHash] path) by (eapply avoids_incl; [|exact Hf]; incl_tac).
  split.
  - destruct HL as [Hs Ha _| -> -> _ Hc Hd].
    + unfold gtext. apply clean_remote; auto. rewrite in_app_iff.
      intros [H|H]; auto. now apply (auth_no_back a Ha).
    + unfold gtext. cbn [auth_text app].
      change (lit "file" ++ lit "://" ++ path ++ qtext e ++ ftext None)
        with (lit "file://" ++ (path ++ qtext e ++ ftext None)).
      apply clean_file; auto.
      * subst. cbn [app]. eauto.
      * cbn [ftext]. rewrite app_nil_r.
        destruct e as [t|]; cbn [qtext]; [|rewrite app_nil_r; now apply contains_no].
        apply contains_false. intros x y E.
        (* the colon lies in the path *)
        assert (T : avoids [cColon; cSlash] t) by (eapply (enc_ook q (Some t)); eauto; incl_tac).
        destruct (Nat.le_gt_cases (length path) (length x)) as [L|L].
        -- assert (In cColon (cQuest :: t)).
           { assert (cQuest :: t = skipn (length path) (x ++ lit "://" ++ y)).
             { rewrite <- E, skipn_app, skipn_all, Nat.sub_diag. reflexivity. }
             rewrite H, skipn_app. apply in_app_iff. right.
             replace (length path - length x)%nat with 0%nat by lia. cbn. auto. }
           destruct H as [H|H]; [discriminate|]. revert H. apply T. now left.
        -- destruct (Nat.le_gt_cases (length x + 3) (length path)) as [L2|L2].
           ++ apply (Hc x (firstn (length path - length x - 3) y)).
              assert (path = firstn (length path) (x ++ lit "://" ++ y)).
              { rewrite <- E, firstn_app, firstn_all, Nat.sub_diag. cbn. now rewrite app_nil_r. }
              rewrite H at 1. rewrite firstn_app, firstn_all2 by lia. f_equal.
              rewrite firstn_app, firstn_all2 by (cbn; lia). f_equal.
           ++ assert (H : In cQuest (lit "://")).
              { assert (E2 : nth_error (path ++ cQuest :: t) (length path) = Some cQuest)
                  by (rewrite nth_error_app2, Nat.sub_diag; auto).
                rewrite E, nth_error_app2, nth_error_app1 in E2 by (cbn; lia).
                now apply nth_error_In in E2. }
              cbn in H. intuition discriminate.
      * intros r' E. subst path. cbn [app] in E. destruct r as [|c r].
        -- destruct e as [t|]; cbn [qtext ftext app] in E; discriminate.
        -- cbn [app] in E. injection E as -> E. exact (Hd r eq_refl).
  - destruct HL as [Hs Ha _| -> -> _ Hc Hd].
    + pose proof (parse_grammar sch a path q e None) as P.
      cbn [ftext] in P. rewrite app_nil_r in P. apply P; auto.
      * pose proof (sch_len _ Hs). destruct sch; cbn in *; [lia|easy].
      * pose proof (sch_chars _ Hs) as SC. scheme_chars SC.
      * destruct (sch_http _ Hs) as [H1 H2]. cbn [is_http].
        apply str_eqb_neq in H1, H2. now rewrite H1, H2.
      * left. now apply contains_no.
      * now apply enc_parse'.
      * exact I.
    + pose proof (parse_grammar (lit "file") NoAuth path q e None) as P.
      cbn [ftext] in P. rewrite app_nil_r in P. apply P; auto.
      * discriminate.
      * intros c Hc1 Hc2. cbn in Hc1, Hc2. intuition (subst; discriminate).
      * constructor.
      * left. now apply contains_no.
      * now apply enc_parse'.
      * exact I.
Qed.
