(** join, split, dirname on URIs of the grammar. *)
From Verif Require Import Str Exc Utf8 UriParse BaseUri StrFacts Utf8Facts UriFacts SpecUri UriFacts2 UriFacts3.
From Coq Require Import ZifyBool ZifyNat ZifyN.
Local Open Scope N_scope.

Lemma nts_stops p : no_trailing_slash p -> stops is_slash (rev p).
Proof.
  intros H. destruct (rev p) as [|c r] eqn:E; simpl; auto.
  destruct (is_slash c) eqn:E2; auto. apply N.eqb_eq in E2. subst.
  exfalso. apply (H (rev r)). apply (f_equal (@rev N)) in E. rewrite rev_involutive in E. exact E.
Qed.
Lemma slashes_all k : forallb is_slash (repeat cSlash k) = true.
Proof. induction k; simpl; auto. Qed.
Lemma rstrip_slashes p k : no_trailing_slash p -> rstrip_p is_slash (p ++ repeat cSlash k) = p.
Proof. intros H. apply rstrip_app; [apply slashes_all|now apply nts_stops]. Qed.

Lemma name_no_slash n : name_ok n -> ~ In cSlash n.
Proof. intros H. apply (name_free _ H). now left. Qed.
Lemma name_nts n : name_ok n -> no_trailing_slash n.
Proof. intros H r E. apply (name_no_slash _ H). rewrite E. apply in_app_iff. right. now left. Qed.
Lemma name_strip n : name_ok n -> strip_p is_slash n = n.
Proof.
  intros H. apply strip_id.
  - pose proof (name_no_slash _ H) as S. destruct n as [|c n]; simpl; auto.
    destruct (is_slash c) eqn:E; auto. apply N.eqb_eq in E. subst. exfalso. apply S. now left.
  - now apply nts_stops, name_nts.
Qed.

Lemma auth_text_end a : auth_ok a -> auth_text a = [] \/ no_trailing_slash (auth_text a).
Proof.
  intros H. destruct (auth_ok_last a H) as [[v ->]|A].
  - right. intros r E. cbn [auth_text] in E.
    replace (lit "((" ++ v ++ lit "))") with ((lit "((" ++ v ++ lit ")") ++ [cRpar]) in E
      by (now rewrite <- !app_assoc).
    apply app_inj_tail in E as [_ E]. discriminate.
  - right. intros r E. apply (A cSlash); [now left|]. rewrite E. apply in_app_iff. right. now left.
Qed.
Lemma auth_text_nil a : auth_ok a -> auth_text a = [] -> a = NoAuth.
Proof.
  intros H E. inversion H; subst; auto.
  - discriminate.
  - exfalso. cbn [auth_text] in E. apply app_eq_nil in E as [_ E]. apply app_eq_nil in E as [E _].
    destruct H3 as [H3 _]. easy.
Qed.

Lemma path_prefix_head p0 k : path_ok (p0 ++ repeat cSlash k) -> p0 = [] \/ exists r, p0 = cSlash :: r.
Proof.
  intros [[r E] _ _]. destruct p0 as [|c p0]; auto. right. cbn [app] in E. injection E as -> _. eauto.
Qed.
Lemma path_ok_snoc p0 k n :
  path_ok (p0 ++ repeat cSlash k) -> name_ok n -> path_ok (p0 ++ cSlash :: n).
Proof.
  intros Hp Hn. pose proof (path_prefix_head _ _ Hp) as Hh. destruct Hp as [_ Hf Hpar]. constructor.
  - destruct Hh as [->|[r ->]]; cbn [app]; eauto.
  - apply avoids_app in Hf as [Hf _]. apply avoids_app. split; auto. apply avoids_cons. split.
    + cbn. intuition discriminate.
    + eapply avoids_incl; [|exact (name_free _ Hn)]. incl_tac.
  - apply contains_no. change (lit "((") with [cLpar; cLpar].
    rewrite double_char_app by discriminate. apply orb_false_iff. split.
    + apply contains_no. intros x y E. apply (Hpar x (y ++ repeat cSlash k)).
      rewrite E. now rewrite <- !app_assoc.
    + apply contains_no. apply (name_par _ Hn).
Qed.
Lemma loc_join sch a p0 k n :
  loc_ok sch a (p0 ++ repeat cSlash k) -> no_trailing_slash p0 -> name_ok n ->
  (sch = lit "file" -> forall r, n <> cColon :: r) ->
  loc_ok sch a (p0 ++ cSlash :: n).
Proof.
  intros HL Ht Hn Hc. destruct HL as [Hs Ha Hp|Hs Ha Hp Hu Hd].
  - apply loc_remote; auto. now apply (path_ok_snoc _ k).
  - apply loc_file; auto; [now apply (path_ok_snoc _ k)| |].
    + intros x y E.
      assert (C : cut_last cSlash (p0 ++ cSlash :: n) = Some (p0, n))
        by (apply cut_last_app; now apply name_no_slash).
      rewrite E in C. destruct (cut_last cSlash y) as [[y1 y2]|] eqn:Y.
      * apply cut_last_some in Y as [-> Y2].
        rewrite !app_assoc in C. rewrite cut_last_app in C by auto.
        injection C as C _. apply (Hu x (y1 ++ repeat cSlash k)). rewrite <- C. now rewrite <- !app_assoc.
      * apply cut_last_none in Y.
        replace (x ++ lit "://" ++ y) with ((x ++ [cColon; cSlash]) ++ cSlash :: y) in C
          by (now rewrite <- app_assoc).
        rewrite cut_last_app in C by auto. injection C as C _.
        apply (Ht (x ++ [cColon])). rewrite <- C. now rewrite <- app_assoc.
    + intros r E. destruct p0 as [|c p0].
      * cbn [app] in E. injection E as E. now apply (Hc Hs r).
      * cbn [app] in E. injection E as -> E. destruct p0 as [|d p0].
        -- cbn [app] in E. discriminate E.
        -- cbn [app] in E. injection E as -> E. apply (Hd (p0 ++ repeat cSlash k)). reflexivity.
Qed.

Lemma as_list_of sch a path q f : auth_ok a -> as_list_netloc (parse_of sch a path q f) = auth_text a.
Proof.
  intros H. unfold as_list_netloc, parse_of. cbn [p_vpath p_authority p_netloc].
  inversion H; subst; cbn [auth_vpath auth_attr auth_netloc]; auto.
  - now destruct v.
  - destruct (auth_text (Host user pass host port)) eqn:E; auto.
    exfalso. assert (A : Host user pass host port = NoAuth) by (apply auth_text_nil; auto). discriminate.
Qed.
Lemma loc_auth sch a path : loc_ok sch a path -> auth_ok a.
Proof. intros [? ? ?|? -> ? ? ?]; auto. constructor. Qed.

Lemma set_query_same sch a path q f cls t sep ex :
  u_set_query (made cls t sep (parse_of sch a path q f) ex) q = made cls t sep (parse_of sch a path q f) ex.
Proof.
  unfold made. destruct (take_cred (lit "username") _ _ _) as [us ex1].
  destruct (take_cred (lit "password") _ _ _) as [pw ex2]. reflexivity.
Qed.

Lemma uri_from_parts_of sch netloc path q e :
  enc_of q e -> uri_from_parts (Some sch) netloc path q = Ok (sch ++ lit "://" ++ netloc ++ path ++ qtext e ++ ftext None).
Proof.
  intros [[-> ->]|(Hq & t & -> & E)]; unfold uri_from_parts.
  - cbn [qtext ftext]. now rewrite !app_nil_r.
  - destruct q; [easy|]. rewrite E. cbn [rbind qtext ftext]. rewrite app_nil_r.
    f_equal. now rewrite <- !app_assoc.
Qed.

(** The extras handed to a derived URI are acceptable keyword arguments. *)
Lemma dhas_dget {V} k (d : dict V) : dhas k d = match dget k d with Some _ => true | None => false end.
Proof. unfold dhas. now destruct (dget k d). Qed.
Lemma take_cred_has name o ex q us ex' k :
  NoDup (map fst ex) ->
  take_cred name o ex q = (us, ex') -> dhas k ex = false -> dhas k ex' = false.
Proof.
  unfold take_cred. intros Hn. destruct o; [intros E; injection E as <- <-; auto|].
  destruct (dget name ex) as [v|] eqn:D; intros E; injection E as <- <-; auto.
  rewrite !dhas_dget. rewrite dget_ddel by auto. destruct (str_eqb k name); auto.
Qed.
Lemma take_cred_nodup name o ex q us ex' :
  NoDup (map fst ex) -> take_cred name o ex q = (us, ex') -> NoDup (map fst ex').
Proof.
  unfold take_cred. intros Hn. destruct o; [intros E; injection E as <- <-; auto|].
  destruct (dget name ex) as [v|] eqn:D; intros E; injection E as <- <-; auto.
  now apply NoDup_ddel.
Qed.
Lemma dupdate_nodup {V} (d e : dict V) : NoDup (map fst d) -> NoDup (map fst (dupdate d e)).
Proof.
  unfold dupdate. revert d; induction e as [|[k v] e IH]; intros d H; simpl; auto.
  apply IH. now apply NoDup_dset.
Qed.
Lemma dhas_dupdate {V} k (d e : dict V) : dhas k (dupdate d e) = dhas k d || dhas k e.
Proof.
  rewrite !dhas_dget, dget_dupdate.
  assert (E : match dget k (rev e) with Some _ => true | None => false end
              = match dget k e with Some _ => true | None => false end).
  { destruct (dget k (rev e)) as [v|] eqn:E1, (dget k e) as [w|] eqn:E2; auto.
    - apply dget_none in E2. apply dget_In in E1. apply in_rev in E1. apply (in_map fst) in E1. easy.
    - apply dget_none in E1. apply dget_In in E2. apply in_rev in E2. apply (in_map fst) in E2. easy. }
  destruct (dget k (rev e)), (dget k e), (dget k d); easy.
Qed.
Lemma bad_kw_false ex : bad_init_kw ex = false <->
  dhas (lit "uri") ex = false /\ dhas (lit "sep") ex = false /\ dhas (lit "self") ex = false.
Proof. unfold bad_init_kw. rewrite !orb_false_iff. tauto. Qed.
Lemma query_kw q k : query_ok q -> In k [lit "uri"; lit "sep"; lit "self"] -> dhas k q = false.
Proof.
  intros H Hk. destruct (dhas k q) eqn:E; auto. apply dhas_In in E. exfalso. exact (q_kw _ H k Hk E).
Qed.

Lemma made_extras_ok cls t sep sch a path q f ex :
  NoDup (map fst ex) -> bad_init_kw ex = false -> query_ok q ->
  let u := made cls t sep (parse_of sch a path q f) ex in
  bad_init_kw (u_all_extras u) = false /\ NoDup (map fst (u_all_extras u)).
Proof.
  intros Hn Hb Hq u.
  assert (A : bad_init_kw (u_extras u) = false /\ NoDup (map fst (u_extras u))).
  { unfold u, made.
    destruct (take_cred (lit "username") _ ex _) as [us ex1] eqn:E1.
    destruct (take_cred (lit "password") _ ex1 _) as [pw ex2] eqn:E2. cbn [u_extras].
    pose proof (take_cred_nodup _ _ _ _ _ _ Hn E1) as N1.
    pose proof (take_cred_nodup _ _ _ _ _ _ N1 E2) as N2. split; auto.
    apply bad_kw_false. apply bad_kw_false in Hb as (B1 & B2 & B3).
    repeat split; (eapply (take_cred_has _ _ ex1); [auto|exact E2|]; eapply (take_cred_has _ _ ex); eauto). }
  destruct A as [A1 A2]. unfold u_all_extras. destruct (is_http (u_scheme u)); auto.
  split; [|now apply dupdate_nodup].
  apply bad_kw_false. apply bad_kw_false in A1 as (B1 & B2 & B3).
  assert (P : p_query (u_p u) = q) by (unfold u; now rewrite made_p). rewrite P.
  rewrite !dhas_dupdate, B1, B2, B3. rewrite !query_kw; auto; cbn; auto.
Qed.

(** ** join *)

Lemma join_made u sch a p0 k q e args n newp :
  u_sep u = cSlash -> u_p u = parse_of sch a (p0 ++ repeat cSlash k) q None ->
  bad_init_kw (u_all_extras u) = false ->
  no_trailing_slash p0 -> query_ok q -> enc_of q e -> auth_ok a ->
  Forall name_ok args ->
  newp = join_with [cSlash] ([p0] ++ args ++ [n]) ->
  loc_ok sch a newp ->
  u_join u (args ++ [n])
  = Ok (made (u_cls u) (gtext sch a newp e None) cSlash (parse_of sch a newp q None) (u_all_extras u)).
Proof.
  intros Hsep Hp Hb Ht Hq He Ha HF Hnp HL2. unfold u_join.
  rewrite Hsep. change (cSlash =? cSlash) with true. cbv iota.
  rewrite rev_app_distr. cbn [rev app]. rewrite rev_involutive.
  unfold u_scheme. rewrite Hp.
  rewrite as_list_of by auto. cbn [p_path p_query p_scheme parse_of].
  rewrite rstrip_slashes by auto.
  assert (HM : map (strip_p is_slash) args = args).
  { clear Hnp. induction HF as [|x l Hx HF IH]; cbn [map]; auto. now rewrite name_strip, IH by auto. }
  rewrite HM.
  change (p0 :: args ++ [n]) with ([p0] ++ args ++ [n]). rewrite <- Hnp.
  rewrite (uri_from_parts_of sch _ _ q e) by auto. cbn [rbind].
  fold (gtext sch a newp e None).
  destruct (loc_parse sch a newp q e HL2 Hq He) as [C P].
  rewrite (mk_uri_made _ _ _ _ _ Hb C P). cbn [rbind]. now rewrite set_query_same.
Qed.

(** ** split *)

Definition dir_path (a : auth) (p0 : str) : str :=
  match p0, a with [], NoAuth => [cSlash] | _, _ => p0 end.

Lemma no_query_enc : enc_of [] None.
Proof. now left. Qed.
Lemma empty_query_ok : query_ok [].
Proof. constructor; try easy. constructor. Qed.

Lemma suffix_slashes p : no_trailing_slash p -> suffixb (lit "//") p = false.
Proof.
  intros H. destruct (suffixb (lit "//") p) eqn:E; auto. apply suffixb_spec in E as [t E].
  exfalso. apply (H (t ++ [cSlash])). rewrite E. now rewrite <- app_assoc.
Qed.
Lemma nts_app x p : p <> [] -> no_trailing_slash p -> no_trailing_slash (x ++ p).
Proof.
  intros Hp H r E. destruct (exists_last Hp) as (p' & c & ->).
  rewrite app_assoc in E. apply app_inj_tail in E as [_ ->]. now apply (H p').
Qed.

Lemma split_made u sch a p0 n e q :
  u_uri u = gtext sch a (p0 ++ cSlash :: n) e None ->
  bad_init_kw (u_all_extras u) = false ->
  no_trailing_slash p0 -> name_ok n -> query_ok q -> enc_of q e ->
  loc_ok sch a (dir_path a p0) ->
  u_split u = Ok (made (u_cls u) (gtext sch a (dir_path a p0) None None) (u_sep u)
                       (parse_of sch a (dir_path a p0) [] None) (u_all_extras u), n).
Proof.
  intros Hu Hb Ht Hn Hq He HL. unfold u_split. rewrite Hu.
  assert (HC : cut_last cSlash (gtext sch a (p0 ++ cSlash :: n) e None)
               = Some (sch ++ lit "://" ++ auth_text a ++ p0, n ++ qtext e)).
  { unfold gtext. cbn [ftext]. rewrite app_nil_r.
    replace (sch ++ lit "://" ++ auth_text a ++ (p0 ++ cSlash :: n) ++ qtext e)
      with ((sch ++ lit "://" ++ auth_text a ++ p0) ++ cSlash :: (n ++ qtext e))
      by (rewrite <- !app_assoc; reflexivity).
    apply cut_last_app. rewrite in_app_iff. intros [H|H]; [now apply (name_no_slash _ Hn)|].
    apply qtext_in in H as [H|(t & -> & H)]; [discriminate|].
    assert (O : ook [cSlash] (Some t)) by (eapply enc_ook; eauto; incl_tac). revert H. apply O. now left. }
  rewrite HC.
  assert (HF : (if suffixb (lit "//") (sch ++ lit "://" ++ auth_text a ++ p0)
                then (sch ++ lit "://" ++ auth_text a ++ p0) ++ [cSlash]
                else sch ++ lit "://" ++ auth_text a ++ p0)
               = gtext sch a (dir_path a p0) None None).
  { pose proof (loc_auth _ _ _ HL) as Ha.
    unfold gtext. cbn [qtext ftext]. rewrite !app_nil_r.
    destruct p0 as [|c p0].
    - rewrite app_nil_r. destruct (auth_text_end a Ha) as [E|E].
      + pose proof (auth_text_nil _ Ha E) as ->. cbn [auth_text dir_path].
        rewrite app_nil_r.
        replace (suffixb (lit "//") (sch ++ lit "://")) with true.
        * now rewrite <- app_assoc.
        * symmetry. apply suffixb_spec. exists (sch ++ [cColon]). now rewrite <- app_assoc.
      + destruct (auth_text a) as [|x t] eqn:EA.
        * pose proof (auth_text_nil _ Ha EA) as ->. cbn [auth_text dir_path].
          rewrite app_nil_r.
          replace (suffixb (lit "//") (sch ++ lit "://")) with true.
          -- now rewrite <- app_assoc.
          -- symmetry. apply suffixb_spec. exists (sch ++ [cColon]). now rewrite <- app_assoc.
        * rewrite suffix_slashes.
          -- destruct a; [discriminate| |]; cbn [dir_path]; rewrite ?app_nil_r; reflexivity.
          -- rewrite app_assoc. apply nts_app; auto. easy.
    - replace (dir_path a (c :: p0)) with (c :: p0) by (destruct a; reflexivity).
      rewrite suffix_slashes; [reflexivity|]. rewrite !app_assoc. apply nts_app; auto. easy. }
  rewrite HF.
  destruct (loc_parse sch a (dir_path a p0) [] None HL empty_query_ok no_query_enc) as [C P].
  assert (HM : match gtext sch a (dir_path a p0) None None with
               | [] => [cDot] | _ => gtext sch a (dir_path a p0) None None end
               = gtext sch a (dir_path a p0) None None).
  { unfold gtext. destruct sch; reflexivity. }
  rewrite HM.
  rewrite (mk_uri_made _ _ _ _ _ Hb C P). cbn [rbind]. do 2 f_equal.
  destruct e as [t|]; cbn [qtext].
  - rewrite cut_first_app; auto. apply (name_free _ Hn). cbn; tauto.
  - rewrite app_nil_r. rewrite (proj2 (cut_first_none _ _)); auto. apply (name_free _ Hn). cbn; tauto.
Qed.

(** ** Paths with given components *)

Lemma abs_path_snoc cs n : abs_path (cs ++ [n]) = flat_map (fun c => cSlash :: c) cs ++ cSlash :: n.
Proof.
  unfold abs_path. destruct cs as [|c cs]; [cbn; now rewrite app_nil_r|].
  cbn [app]. change (c :: cs ++ [n]) with ((c :: cs) ++ [n]).
  rewrite flat_map_app. cbn [flat_map]. now rewrite app_nil_r.
Qed.
Lemma comps_nts cs : Forall name_ok cs -> no_trailing_slash (flat_map (fun c => cSlash :: c) cs).
Proof.
  intros H. destruct cs as [|c cs] using rev_ind; [intros r; cbn; now destruct r|].
  apply Forall_app in H as [_ H]. inversion H; subst.
  rewrite flat_map_app. cbn [flat_map]. rewrite app_nil_r.
  change (cSlash :: c) with ([cSlash] ++ c). rewrite app_assoc. apply nts_app.
  - apply (name_ne _ H2).
  - now apply name_nts.
Qed.
Definition colon_free (sch : str) (cs : list str) : Prop :=
  sch = lit "file" -> forall n, In n cs -> forall r, n <> cColon :: r.

Lemma loc_root sch a : sch = lit "file" /\ a = NoAuth \/ scheme_ok sch /\ auth_ok a -> loc_ok sch a [cSlash].
Proof.
  assert (P : path_ok [cSlash]).
  { constructor; [eauto| |].
    - intros c Hc. cbn in *. intuition (subst; discriminate).
    - apply contains_no. reflexivity. }
  intros [[-> ->]|[Hs Ha]].
  - apply loc_file; auto; [|discriminate]. apply contains_no. reflexivity.
  - now apply loc_remote.
Qed.
Lemma loc_abs sch a cs :
  (sch = lit "file" /\ a = NoAuth \/ scheme_ok sch /\ auth_ok a) ->
  Forall name_ok cs -> colon_free sch cs -> loc_ok sch a (abs_path cs).
Proof.
  intros HA. induction cs as [|n cs IH] using rev_ind; intros HF Hc.
  - now apply loc_root.
  - apply Forall_app in HF as [HF Hn]. inversion Hn; subst.
    rewrite abs_path_snoc. apply (loc_join _ _ _ (match cs with [] => 1 | _ => 0 end)); auto.
    + destruct cs as [|c cs]; [now apply loc_root|]. cbn [repeat]. rewrite app_nil_r. apply IH; auto.
      intros Hs x Hx. apply Hc; auto. apply in_app_iff. now left.
    + now apply comps_nts.
    + intros Hs. apply Hc; auto. apply in_app_iff. right. now left.
Qed.

(** ** dirname *)

Definition ex_ok (ex : dict str) : Prop := bad_init_kw ex = false /\ NoDup (map fst ex).
Lemma made_ex_ok cls t sep sch a path q f ex :
  ex_ok ex -> query_ok q -> ex_ok (u_all_extras (made cls t sep (parse_of sch a path q f) ex)).
Proof. intros [H1 H2] Hq. now apply made_extras_ok. Qed.

Lemma dir_path_abs a cs :
  a = NoAuth \/ cs <> [] -> dir_path a (flat_map (fun c => cSlash :: c) cs) = abs_path cs.
Proof. intros H. destruct cs as [|c cs]; cbn; [|destruct a; reflexivity]. destruct H as [->|H]; easy. Qed.

Lemma dirname_loop_made sch a level :
  (sch = lit "file" /\ a = NoAuth \/ scheme_ok sch /\ auth_ok a) ->
  forall cls sep cs rest q e ex,
  Forall name_ok (cs ++ rest) -> colon_free sch (cs ++ rest) -> length rest = level ->
  (a = NoAuth \/ cs <> []) -> query_ok q -> enc_of q e -> ex_ok ex ->
  (level <> 0)%nat ->
  exists ex',
  u_dirname_loop level (made cls (gtext sch a (abs_path (cs ++ rest)) e None) sep
                             (parse_of sch a (abs_path (cs ++ rest)) q None) ex)
  = Ok (made cls (gtext sch a (abs_path cs) None None) sep (parse_of sch a (abs_path cs) [] None) ex')
  /\ ex_ok ex'.
Proof.
  intros HA. induction level as [|l IH]; [easy|].
  intros cls sep cs rest q e ex HF Hc HL Hne Hq He Hex _.
  destruct rest as [|n rest] using rev_ind; [discriminate|]. clear IHrest.
  rewrite app_length in HL. cbn in HL. assert (HL' : length rest = l) by lia.
  rewrite app_assoc in *. apply Forall_app in HF as [HF Hn]. assert (Hn1 : name_ok n) by (now inversion Hn).
  cbn [u_dirname_loop].
  set (u := made cls _ sep _ ex).
  assert (Hu : u_uri u = gtext sch a (flat_map (fun c => cSlash :: c) (cs ++ rest) ++ cSlash :: n) e None).
  { unfold u. now rewrite made_uri, abs_path_snoc. }
  assert (Hx : ex_ok (u_all_extras u)) by (now apply made_ex_ok).
  assert (Hd : a = NoAuth \/ cs ++ rest <> []).
  { destruct Hne as [?|Hne]; auto. right. now destruct cs. }
  assert (Hc2 : colon_free sch (cs ++ rest)).
  { intros Hs x Hin. apply Hc; auto. apply in_app_iff. now left. }
  rewrite (split_made u sch a (flat_map (fun c => cSlash :: c) (cs ++ rest)) n e q); auto.
  - rewrite dir_path_abs by auto. cbn [rbind fst].
    unfold u at 1 2. rewrite made_cls, made_sep.
    destruct (Nat.eq_dec l 0) as [El|El].
    + subst l. apply length_zero_iff_nil in El. subst rest. rewrite app_nil_r. cbn [u_dirname_loop length]. eauto.
    + apply IH; auto using empty_query_ok, no_query_enc.
  - apply Hx.
  - now apply comps_nts.
  - rewrite dir_path_abs by auto. now apply loc_abs.
Qed.
