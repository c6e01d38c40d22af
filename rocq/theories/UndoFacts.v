(** What split() gives for a joined URI *)
From Coq Require Import Lia.
From Verif Require Import Str Exc StrFacts Utf8 UriParse BaseUri SpecUri UriFacts UriFacts2 UriFacts3 UriFacts4 UriFacts5.
From Verif Require AboveFacts.

Lemma free_prefix l x y : free_of l (x ++ y) -> free_of l x.
Proof. intros H c Hc Hi. apply (H c Hc). apply in_app_iff. now left. Qed.
Lemma path_ok_prefix p r : p <> [] -> path_ok (p ++ r) -> path_ok p.
Proof.
  intros Hp [[t E] F G]. constructor.
  - destruct p as [|c p]; [easy|]. injection E as -> _. now exists p.
  - exact (free_prefix _ _ _ F).
  - intros x y E'. apply (G x (y ++ r)). rewrite E', <- !app_assoc. reflexivity.
Qed.
Lemma loc_prefix sch a p r : p <> [] -> loc_ok sch a (p ++ r) -> loc_ok sch a p.
Proof.
  intros Hp [Hs Ha P|Hs Ha P U D].
  - apply loc_remote; auto. exact (path_ok_prefix _ _ Hp P).
  - apply loc_file; auto; [exact (path_ok_prefix _ _ Hp P)| |].
    + intros x y E. apply (U x (y ++ r)). rewrite E, <- !app_assoc. reflexivity.
    + intros x E. apply (D (x ++ r)). now rewrite E.
Qed.
Lemma root_ok : path_ok [cSlash].
Proof.
  constructor; [now exists []| |].
  - intros c Hc [<-|[]]. cbn in Hc. intuition discriminate.
  - intros x y E. destruct x as [|c [|? ?]]; discriminate.
Qed.
Lemma loc_root sch p : loc_ok sch NoAuth p -> loc_ok sch NoAuth [cSlash].
Proof.
  intros [Hs Ha _|Hs Ha _ _ _]; [apply loc_remote; auto using root_ok|apply loc_file; auto using root_ok].
  - intros x y E. destruct x as [|c [|? ?]]; discriminate.
  - discriminate.
Qed.
Lemma loc_scheme sch a p : loc_ok sch a p -> a <> NoAuth -> scheme_ok sch.
Proof. now intros [Hs _ _|_ -> _ _ _] N. Qed.
Lemma auth_back a : auth_ok a -> ~ In cBack (auth_text a).
Proof.
  intros Ha. destruct (auth_ok_last a Ha) as [[v ->]|H].
  - inversion Ha as [|? _ F _|]; subst. cbn [auth_text]. rewrite !in_app_iff. intros [X|[X|X]].
    + cbn in X. intuition discriminate.
    + revert X. apply F. now left.
    + cbn in X. intuition discriminate.
  - apply H. cbn. tauto.
Qed.
(** The URI that is left: no query, and no path where an authority stands alone *)
Lemma left_parse sch a p0 k : loc_ok sch a (p0 ++ repeat cSlash k) -> no_trailing_slash p0 ->
  clean_uri (gtext sch a (dir_path a p0) None None) = gtext sch a (dir_path a p0) None None /\
  uri_parse (gtext sch a (dir_path a p0) None None) = Ok (parse_of sch a (dir_path a p0) [] None).
Proof.
  intros HL Ht. pose proof (loc_auth _ _ _ HL) as Ha.
  destruct p0 as [|c p0].
  - destruct a as [|v|us pw h o].
    + apply loc_parse; auto using empty_query_ok, no_query_enc. cbn [dir_path]. exact (loc_root _ _ HL).
    + cbn [dir_path]. assert (Hs : scheme_ok sch) by (apply (loc_scheme _ _ _ HL); discriminate). split.
      * unfold gtext. cbn [qtext ftext app]. rewrite app_nil_r. apply clean_remote; [exact Hs|]. now apply auth_back.
      * pose proof (parse_grammar sch (Connector v) [] [] None None) as P. cbn [ftext app] in P. apply P; auto.
        -- pose proof (sch_len _ Hs). destruct sch; cbn in *; [lia|easy].
        -- intros x Hx. apply (AboveFacts.scheme_letters sch Hs). cbn in *. tauto.
        -- destruct (sch_http _ Hs) as [H1 H2]. cbn [is_http]. apply str_eqb_neq in H1, H2. now rewrite H1, H2.
        -- exact I.
        -- intros x _ [].
        -- exact I.
    + cbn [dir_path]. assert (Hs : scheme_ok sch) by (apply (loc_scheme _ _ _ HL); discriminate). split.
      * unfold gtext. cbn [qtext ftext app]. rewrite app_nil_r. apply clean_remote; [exact Hs|]. now apply auth_back.
      * pose proof (parse_grammar sch (Host us pw h o) [] [] None None) as P. cbn [ftext app] in P. apply P; auto.
        -- pose proof (sch_len _ Hs). destruct sch; cbn in *; [lia|easy].
        -- intros x Hx. apply (AboveFacts.scheme_letters sch Hs). cbn in *. tauto.
        -- destruct (sch_http _ Hs) as [H1 H2]. cbn [is_http]. apply str_eqb_neq in H1, H2. now rewrite H1, H2.
        -- exact I.
        -- intros x _ [].
        -- exact I.
  - replace (dir_path a (c :: p0)) with (c :: p0) by (destruct a; reflexivity).
    apply loc_parse; auto using empty_query_ok, no_query_enc. refine (loc_prefix _ _ (c :: p0) (repeat cSlash k) _ HL). discriminate.
Qed.
Lemma split_left u sch a p0 n e q :
  u_uri u = gtext sch a (p0 ++ cSlash :: n) e None -> bad_init_kw (u_all_extras u) = false ->
  no_trailing_slash p0 -> name_ok n -> query_ok q -> enc_of q e -> auth_ok a ->
  clean_uri (gtext sch a (dir_path a p0) None None) = gtext sch a (dir_path a p0) None None ->
  uri_parse (gtext sch a (dir_path a p0) None None) = Ok (parse_of sch a (dir_path a p0) [] None) ->
  u_split u = Ok (made (u_cls u) (gtext sch a (dir_path a p0) None None) (u_sep u)
                       (parse_of sch a (dir_path a p0) [] None) (u_all_extras u), n).
Proof.
  intros Hu Hb Ht Hn Hq He Ha C P. unfold u_split. rewrite Hu.
  assert (HC : cut_last cSlash (gtext sch a (p0 ++ cSlash :: n) e None)
               = Some (sch ++ lit "://" ++ auth_text a ++ p0, n ++ qtext e)).
  { unfold gtext. cbn [ftext]. rewrite app_nil_r.
    replace (sch ++ lit "://" ++ auth_text a ++ (p0 ++ cSlash :: n) ++ qtext e)
      with ((sch ++ lit "://" ++ auth_text a ++ p0) ++ cSlash :: (n ++ qtext e))
      by (rewrite <- !app_assoc; reflexivity).
    apply cut_last_app. rewrite in_app_iff. intros [H|H]; [now apply (name_no_slash _ Hn)|].
    apply qtext_in in H as [H|(t & -> & H)]; [discriminate|].
    assert (O : ook [cSlash] (Some t)) by (eapply enc_ook; eauto; incl_tac). revert H. apply O. now left. }
  rewrite HC.
  assert (HF : (if suffixb (lit "//") (sch ++ lit "://" ++ auth_text a ++ p0)
                then (sch ++ lit "://" ++ auth_text a ++ p0) ++ [cSlash]
                else sch ++ lit "://" ++ auth_text a ++ p0)
               = gtext sch a (dir_path a p0) None None).
  { unfold gtext. cbn [qtext ftext]. rewrite !app_nil_r.
    destruct p0 as [|c p0].
    - rewrite app_nil_r. destruct (auth_text a) as [|x t] eqn:EA.
      + pose proof (auth_text_nil _ Ha EA) as ->. cbn [dir_path].
        rewrite app_nil_r.
        replace (suffixb (lit "//") (sch ++ lit "://")) with true.
        * now rewrite <- app_assoc.
        * symmetry. apply suffixb_spec. exists (sch ++ [cColon]). now rewrite <- app_assoc.
      + destruct (auth_text_end a Ha) as [E|E]; [rewrite EA in E; discriminate|]. rewrite suffix_slashes.
        * destruct a; [discriminate| |]; cbn [dir_path]; rewrite ?app_nil_r; reflexivity.
        * rewrite app_assoc. apply nts_app; [easy|]. now rewrite <- EA.
    - replace (dir_path a (c :: p0)) with (c :: p0) by (destruct a; reflexivity).
      rewrite suffix_slashes; [reflexivity|]. rewrite !app_assoc. apply nts_app; auto. easy. }
  rewrite HF.
  assert (HM : match gtext sch a (dir_path a p0) None None with
               | [] => [cDot] | _ => gtext sch a (dir_path a p0) None None end
               = gtext sch a (dir_path a p0) None None).
  { unfold gtext. destruct sch; reflexivity. }
  rewrite HM.
  rewrite (mk_uri_made _ _ _ _ _ Hb C P). cbn [rbind]. do 2 f_equal.
  destruct e as [t|]; cbn [qtext].
  - rewrite cut_first_app; auto. apply (name_free _ Hn). cbn; tauto.
  - rewrite app_nil_r. rewrite (proj2 (cut_first_none _ _)); auto. apply (name_free _ Hn). cbn; tauto.
Qed.
Lemma split_join sch a p0 k q e ex n : loc_ok sch a (p0 ++ repeat cSlash k) -> no_trailing_slash p0 -> query_ok q -> enc_of q e ->
  kw_ok ex -> name_ok n -> no_drive sch n ->
  exists u r d, URI (gtext sch a (p0 ++ repeat cSlash k) e None) cSlash ex = Ok u /\ u_div u n = Ok r /\ u_split r = Ok (d, n) /\
    u_uri u = gtext sch a (p0 ++ repeat cSlash k) e None /\ u_p u = parse_of sch a (p0 ++ repeat cSlash k) q None /\
    u_uri r = gtext sch a (p0 ++ cSlash :: n) e None /\
    u_uri d = gtext sch a (dir_path a p0) None None /\ u_p d = parse_of sch a (dir_path a p0) [] None /\ u_cls d = u_cls u /\ u_sep d = u_sep u.
Proof.
  intros HL Ht Hq He Hkw Hn Hd. pose proof (kw_ex _ Hkw) as [Hb Hnd]. pose proof (loc_auth _ _ _ HL) as Ha.
  pose proof (URI_made _ _ _ _ _ cSlash ex HL Hq He Hb) as HU. set (u := made _ _ cSlash _ ex) in HU.
  assert (Hx : ex_ok (u_all_extras u)) by (apply made_ex_ok; auto; now split).
  assert (HL1 : loc_ok sch a (p0 ++ cSlash :: n)) by (apply (loc_join _ _ _ k); auto).
  assert (J : u_div u n = Ok (made (u_cls u) (gtext sch a (p0 ++ cSlash :: n) e None) cSlash (parse_of sch a (p0 ++ cSlash :: n) q None) (u_all_extras u))).
  { apply (join_made u sch a p0 k q e [] n); auto; [apply made_sep|apply made_p|apply Hx]. }
  set (r := made _ _ cSlash _ (u_all_extras u)) in J.
  assert (Hr : ex_ok (u_all_extras r)) by (apply made_ex_ok; auto).
  destruct (left_parse sch a p0 k HL Ht) as [C P].
  pose proof (split_left r sch a p0 n e q (made_uri _ _ _ _ _) (proj1 Hr) Ht Hn Hq He Ha C P) as S.
  do 3 eexists. split; [exact HU|]. split; [exact J|]. split; [exact S|]. unfold r, u. rewrite ?made_uri, ?made_p, ?made_cls, ?made_sep. repeat split; reflexivity.
Qed.

(** It is the URI joined to just if nothing was lost. *)
Lemma split_same sch a p0 k q u d : loc_ok sch a (p0 ++ repeat cSlash k) -> query_ok q ->
  u_p u = parse_of sch a (p0 ++ repeat cSlash k) q None -> u_p d = parse_of sch a (dir_path a p0) [] None ->
  (u_eqb d u = true <-> q = [] /\ (k = 0%nat \/ p0 = [] /\ k = 1%nat /\ a = NoAuth)).
Proof.
  intros HL Hq Eu Ed. rewrite u_eqb_spec; [|unfold query_wf; rewrite Ed; constructor|unfold query_wf; rewrite Eu; apply Hq].
  unfold u_scheme. rewrite Eu, Ed. cbn [parse_of p_scheme p_netloc p_path p_query].
  assert (Z : forall x y : str, x = x ++ y <-> y = []).
  { intros x y. split; [|intros ->; now rewrite app_nil_r]. intros E. apply (f_equal (@length N)) in E. rewrite app_length in E. destruct y; [easy|cbn in E; lia]. }
  assert (K : dir_path a p0 = p0 ++ repeat cSlash k <-> (k = 0%nat \/ p0 = [] /\ k = 1%nat /\ a = NoAuth)).
  { assert (G : dir_path a p0 = p0 -> (dir_path a p0 = p0 ++ repeat cSlash k <-> k = 0%nat)).
    { intros ->. rewrite Z. destruct k; cbn; split; easy. }
    destruct p0 as [|c p0]; [destruct a as [|v|us pw h o]|].
    - cbn [dir_path app]. assert (k <> 0%nat) by (intros ->; destruct HL as [_ _ P|_ _ P _ _]; destruct (path_abs _ P) as [r E]; discriminate).
      destruct k as [|[|k]]; cbn; split; try easy; auto. intros [E|(_ & E & _)]; easy.
    - rewrite (G eq_refl). split; [now left|]. intros [E|(_ & _ & E)]; [exact E|discriminate].
    - rewrite (G eq_refl). split; [now left|]. intros [E|(_ & _ & E)]; [exact E|discriminate].
    - rewrite G by (destruct a; reflexivity). split; [now left|]. intros [E|(E & _)]; [exact E|discriminate]. }
  rewrite K. assert (Q : same_dict [] q <-> q = []).
  { split; [|now intros ->]. intros S. destruct q as [|[x y] q]; [easy|]. specialize (S x). cbn in S. rewrite str_eqb_refl in S. discriminate. }
  rewrite Q. tauto.
Qed.
Lemma last_joined u x n e q : u_uri u = x ++ cSlash :: n ++ qtext e -> name_ok n -> query_ok q -> enc_of q e -> u_last u = n ++ qtext e.
Proof.
  intros Hu Hn Hq He. unfold u_last. rewrite Hu, split_on_gen, rev_app_distr.
  rewrite (split_on_none cSlash (n ++ qtext e)).
  - cbn [rev app]. destruct n as [|c n]; [now destruct (name_ne _ Hn)|]. cbn [app]. now destruct (rev (split_on cSlash x)).
  - rewrite in_app_iff. intros [H|H]; [now apply (name_no_slash _ Hn)|]. apply qtext_in in H as [H|(t & -> & H)]; [discriminate|].
    assert (O : ook [cSlash] (Some t)) by (eapply enc_ook; eauto; incl_tac). revert H. apply O. now left.
Qed.
