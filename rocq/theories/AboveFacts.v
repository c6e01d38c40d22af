(** Lemmas for PropsAbove.v *)
From Verif Require Import Str Exc StrFacts UriParse BaseUri SpecUri UriFacts UriFacts2 UriFacts3 UriFacts4 UriFacts5 UriFacts6 UriFacts7 NetFacts SpecKeep KeepFacts SpecAbove.
From Coq Require Import Lia.

(** A local URI with a relative path *)
Record here (cls : uclass) (sep : N) (X : str) (u : uri) : Prop := {
  h_uri : u_uri u = lit "file://" ++ X;
  h_cls : u_cls u = cls;
  h_sep : u_sep u = sep;
  h_path : p_path (u_p u) = X;
  h_scheme : u_scheme u = Some (lit "file");
  h_kw : bad_init_kw (u_all_extras u) = false }.

Lemma parse_dot r : heads [cSlash] r -> free_of [cQuest; cHash] r -> (forall x y, r <> x ++ lit "((" ++ y) ->
  exists P, uri_parse (lit "file://" ++ cDot :: r) = Ok P /\ p_path P = cDot :: r /\ p_query P = [] /\ p_scheme P = Some (lit "file")
    /\ p_username P = Some [] /\ p_password P = Some [].
Proof.
  intros Hh Hf Hg.
  assert (NG : ~ has_group (cDot :: r)).
  { intros G. assert (has_group r) by (apply (group_drop [cDot]); auto; cbn; intuition discriminate).
    destruct H as (x & y & z & E & _). exact (Hg x _ E). }
  assert (S : subst (cDot :: r) = cDot :: r /\ inner_of (cDot :: r) = []) by (unfold subst, inner_of; now rewrite no_group_find).
  destruct S as [S1 S2].
  assert (Sp : span (not_in [cSlash; cQuest; cHash]) (cDot :: r) = ([cDot], r)).
  { change (cDot :: r) with ([cDot] ++ r). apply span_app; [reflexivity|]. apply heads_stops. destruct r as [|c r]; [exact I|]. cbn in *. intuition. }
  assert (Pt : path_text r) by (now constructor).
  destruct (body_text [] (Some (lit "file")) (cDot :: r) [cDot] [cDot] r Sp eq_refl Pt eq_refl) as [f Bf].
  assert (U : urisplit (lit "file" ++ lit "://" ++ cDot :: r) = body [] (Some (lit "file")) (cDot :: r)).
  { rewrite (urisplit_at (lit "file") (cDot :: r) (proj1 file_ok) (proj2 file_ok)), S2, S1. reflexivity. }
  rewrite Bf in U. change (lit "file" ++ lit "://" ++ cDot :: r) with (lit "file://" ++ cDot :: r) in U.
  unfold uri_parse. rewrite U.
  cbn [str_eqb rbind s_authority s_query s_scheme s_path s_fragment].
  eexists. split; [reflexivity|]. repeat split; reflexivity.
Qed.
Lemma made_here cls sep X P ex : bad_init_kw ex = false ->
  p_path P = X -> p_query P = [] -> p_scheme P = Some (lit "file") -> p_username P = Some [] -> p_password P = Some [] ->
  here cls sep X (made cls (lit "file://" ++ X) sep P ex).
Proof.
  intros Hb E1 E2 E3 E4 E5. unfold made. rewrite E4, E5. cbn [take_cred]. constructor; cbn; auto.
  unfold u_all_extras, u_scheme. cbn. rewrite E3, E2. exact Hb.
Qed.
(** What the texts are that are made into such URIs *)
Record rel_text (X0 X : str) : Prop := {
  rt_clean : clean_uri X0 = lit "file://" ++ X;
  rt_path : exists r, X = cDot :: r /\ heads [cSlash] r /\ free_of [cQuest; cHash] r /\ forall x y, r <> x ++ lit "((" ++ y }.
Lemma mk_rel cls sep ex X0 X : bad_init_kw ex = false -> rel_text X0 X -> exists d, mk_uri cls X0 sep ex = Ok d /\ here cls sep X d.
Proof.
  intros Hb [C (r & -> & Hh & Hf & Hg)]. destruct (parse_dot r Hh Hf Hg) as (P & E & E1 & E2 & E3 & E4 & E5).
  exists (made cls (lit "file://" ++ cDot :: r) sep P ex). split; [|now apply made_here].
  unfold mk_uri. rewrite Hb, C. cbv zeta. rewrite E. cbn [rbind]. unfold made.
  now destruct (take_cred (lit "username") (p_username P) ex (p_query P)) as [us e1], (take_cred (lit "password") (p_password P) e1 (p_query P)).
Qed.

(** split() by text *)
Lemma split_text u a b : u_uri u = a ++ cSlash :: b -> ~ In cSlash b -> a <> [] -> suffixb (lit "//") a = false ->
  u_split u = rlet d <- mk_uri (u_cls u) a (u_sep u) (u_all_extras u); Ok (d, match cut_first cQuest b with Some (x, _) => x | None => b end).
Proof.
  intros Hu Hb Ha Hs. unfold u_split. rewrite Hu, cut_last_app by auto. rewrite Hs. now destruct a.
Qed.

Lemma clean_under X : free_of [cBack] X -> (forall x y, X <> x ++ lit "://" ++ y) -> (exists r, X = cDot :: r /\ heads [cSlash] r) ->
  clean_uri (lit "file://" ++ X) = lit "file://" ++ X.
Proof.
  intros Hb Hu (r & -> & Hh).
  assert (D : forall c s, cDot :: r <> c :: cColon :: s) by (intros c s E; injection E as _ ->; destruct Hh as [H|[]]; discriminate).
  pose proof (clean_alone (cDot :: r) Hb Hu D) as C. change (prefixb [cDot] (cDot :: r)) with (true && true) in C.
  rewrite orb_true_r in C. rewrite <- C at 2.
  assert (S : skipn 7 (lit "file://" ++ cDot :: r) = cDot :: r) by reflexivity.
  assert (T : prefixb (lit "file://") (lit "file://" ++ cDot :: r) = true) by reflexivity.
  unfold clean_uri at 1. rewrite T, S. unfold clean_uri. reflexivity.
Qed.

(** What may stand behind the dot *)
Record rel_ok (r : str) : Prop := {
  ro_head : heads [cSlash] r;
  ro_free : free_of meta r;
  ro_group : forall x y, r <> x ++ lit "((" ++ y;
  ro_uri : forall x y, r <> x ++ lit "://" ++ y }.
Lemma dot_uri r : rel_ok r -> forall x y, cDot :: r <> x ++ lit "://" ++ y.
Proof. intros [_ _ _ H] x y E. destruct x as [|c x]; [discriminate|]. injection E as _ E. exact (H x y E). Qed.
Lemma rel_under r : rel_ok r -> rel_text (lit "file://" ++ cDot :: r) (cDot :: r).
Proof.
  intros R. pose proof (dot_uri r R) as U. destruct R as [Hh Hf Hg Hu]. constructor.
  - apply clean_under; eauto. intros c [<-|[]] [H|H]; [discriminate|]. exact (Hf cBack ltac:(cbn; tauto) H).
  - exists r. repeat split; auto. intros c Hc. apply Hf. cbn in *. tauto.
Qed.
Lemma climb cls sep r b u : here cls sep (cDot :: r ++ cSlash :: b) u -> rel_ok r -> no_trailing_slash r -> ~ In cSlash b ->
  exists d n, u_split u = Ok (d, n) /\ here cls sep (cDot :: r) d.
Proof.
  intros [Hu Hc Hs Hp Hsc Hk] R Ht Hb.
  assert (E : u_uri u = (lit "file://" ++ cDot :: r) ++ cSlash :: b) by (rewrite Hu, <- app_assoc; reflexivity).
  rewrite (split_text u _ b E Hb); [|discriminate|].
  - destruct (mk_rel (u_cls u) (u_sep u) (u_all_extras u) _ _ Hk (rel_under r R)) as (d & -> & Hd). cbn [rbind]. subst. eauto.
  - apply suffix_slashes. apply nts_app; [discriminate|]. destruct r as [|c r]; [intros [|? ?] E'; [discriminate|injection E' as _ E'; destruct l; discriminate]|].
    change (cDot :: c :: r) with ([cDot] ++ c :: r). apply nts_app; [discriminate|exact Ht].
Qed.
Lemma climb_scheme cls sep ex (sch : str) : bad_init_kw ex = false -> sch <> [] -> avoids [cColon; cSlash; cQuest; cHash; cLpar; cDot; cBack] sch -> (2 <= length sch)%nat ->
  exists d, mk_uri cls (sch ++ lit ":/") sep ex = Ok d /\ here cls sep (lit "./" ++ sch ++ lit ":/") d.
Proof.
  intros Hk H0 Ha Hl. apply mk_rel; [exact Hk|]. constructor.
  - rewrite clean_alone.
    + destruct sch as [|c s]; [easy|]. cbn [app prefixb].
      assert (Hc : forall k, In k [cSlash; cDot] -> N.eqb k c = false).
      { intros k Hk'. apply N.eqb_neq. intros <-. apply (Ha k); [cbn in *; tauto|now left]. }
      rewrite !Hc by (cbn; tauto). reflexivity.
    + intros c [<-|[]] H. apply in_app_iff in H as [H|H]; [apply (Ha cBack); [cbn; tauto|exact H]|]. cbn in H. intuition discriminate.
    + intros x y E. assert (L : cnt cSlash (sch ++ lit ":/") = cnt cSlash (x ++ lit "://" ++ y)) by (now rewrite E).
      rewrite !cnt_app in L. assert (Z : cnt cSlash sch = 0) by (apply count_occ_not_In; apply Ha; cbn; tauto).
      change (cnt cSlash (lit ":/")) with 1 in L. change (cnt cSlash (lit "://")) with 2 in L. lia.
    + intros c r E. destruct sch as [|a [|b s]]; cbn in Hl; try lia. injection E as _ E _. apply (Ha cColon); [cbn; tauto|]. right. left. exact E.
  - exists (cSlash :: sch ++ lit ":/"). split; [reflexivity|]. split; [cbn; auto|]. split.
    + intros c Hc [H|H]; [subst; cbn in Hc; intuition discriminate|]. apply in_app_iff in H as [H|H]; [apply (Ha c); [cbn in *; tauto|exact H]|].
      cbn in H, Hc. intuition (subst; discriminate).
    + intros x y E. assert (I : In cLpar (cSlash :: sch ++ lit ":/")) by (rewrite E; apply in_app_iff; right; now left).
      destruct I as [I|I]; [discriminate|]. apply in_app_iff in I as [I|I]; [apply (Ha cLpar); [cbn; tauto|exact I]|]. cbn in I. intuition discriminate.
Qed.
Lemma file_letters : avoids [cColon; cSlash; cQuest; cHash; cLpar; cDot; cBack] (lit "file").
Proof. intros c Hc H. cbn in Hc, H. intuition (subst; discriminate). Qed.
Lemma at_dot cls sep u : here cls sep [cDot] u -> exists d n, u_split u = Ok (d, n) /\ here cls sep (lit "./file:/") d.
Proof.
  intros [Hu Hc Hs Hp Hsc Hk].
  rewrite (split_text u (lit "file:/") [cDot]); [|exact Hu|cbn; intuition discriminate|discriminate|reflexivity].
  destruct (climb_scheme (u_cls u) (u_sep u) (u_all_extras u) (lit "file") Hk ltac:(discriminate) file_letters ltac:(cbn; lia)) as (d & E & Hd).
  change (lit "file:/") with (lit "file" ++ lit ":/"). rewrite E. cbn [rbind]. subst. eauto.
Qed.
Lemma letters_ok (sch : str) : avoids [cColon; cSlash; cQuest; cHash; cLpar; cDot; cBack] sch -> rel_ok (cSlash :: sch ++ lit ":").
Proof.
  intros Ha. constructor; [cbn; auto|..].
  - intros c Hc [H|H]; [subst; cbn in Hc; intuition discriminate|]. apply in_app_iff in H as [H|H]; [apply (Ha c); [cbn in *; tauto|exact H]|].
    cbn in H, Hc. intuition (subst; discriminate).
  - intros x y E. assert (I : In cLpar (cSlash :: sch ++ lit ":")) by (rewrite E; apply in_app_iff; right; now left).
    destruct I as [I|I]; [discriminate|]. apply in_app_iff in I as [I|I]; [apply (Ha cLpar); [cbn; tauto|exact I]|]. cbn in I. intuition discriminate.
  - intros x y E. assert (L : cnt cSlash (cSlash :: sch ++ lit ":") = cnt cSlash (x ++ lit "://" ++ y)) by (now rewrite E).
    change (cSlash :: sch ++ lit ":") with ([cSlash] ++ sch ++ lit ":") in L.
    rewrite !cnt_app in L. assert (Z : cnt cSlash sch = 0) by (apply count_occ_not_In; apply Ha; cbn; tauto).
    change (cnt cSlash (lit ":")) with 0 in L. change (cnt cSlash [cSlash]) with 1 in L. change (cnt cSlash (lit "://")) with 2 in L. lia.
Qed.
Lemma at_slash cls sep sch u : avoids [cColon; cSlash; cQuest; cHash; cLpar; cDot; cBack] sch -> here cls sep (lit "./" ++ sch ++ lit ":/") u ->
  exists d n, u_split u = Ok (d, n) /\ here cls sep (lit "./" ++ sch ++ lit ":") d.
Proof.
  intros Ha H. apply (climb cls sep (cSlash :: sch ++ lit ":") [] u); auto using letters_ok.
  - assert (E : cDot :: (cSlash :: sch ++ lit ":") ++ [cSlash] = lit "./" ++ sch ++ lit ":/") by (cbn [app lit]; rewrite <- app_assoc; reflexivity).
    rewrite E. exact H.
  - intros r E. change (cSlash :: sch ++ lit ":") with ((cSlash :: sch) ++ [cColon]) in E. apply app_inj_tail in E as [_ E]. discriminate.
Qed.
Lemma rel_nil : rel_ok [].
Proof. constructor; [exact I|intros c _ []|intros [] y; discriminate|intros [] y; discriminate]. Qed.
Lemma at_colon cls sep sch u : avoids [cColon; cSlash; cQuest; cHash; cLpar; cDot; cBack] sch -> here cls sep (lit "./" ++ sch ++ lit ":") u ->
  exists d n, u_split u = Ok (d, n) /\ here cls sep [cDot] d.
Proof.
  intros Ha H. apply (climb cls sep [] (sch ++ lit ":") u); auto using rel_nil.
  - intros [] E; discriminate.
  - intros I. apply in_app_iff in I as [I|I]; [apply (Ha cSlash); [cbn; tauto|exact I]|]. cbn in I. intuition discriminate.
Qed.

(** ** Going round *)
Lemma round_next cls sep k u : here cls sep (round k) u -> exists d n, u_split u = Ok (d, n) /\ here cls sep (round (S k)) d.
Proof.
  intros H.
  assert (M : forall i, (i < 3 -> Nat.modulo k 3 = i -> Nat.modulo (S k) 3 = Nat.modulo (S i) 3)%nat).
  { intros i _ E. rewrite (Nat.div_mod k 3) by lia. rewrite E. replace (S (3 * (k / 3) + i)) with (S i + (k / 3) * 3)%nat by lia.
    now rewrite Nat.mod_add by lia. }
  assert (B : (Nat.modulo k 3 < 3)%nat) by (apply Nat.mod_upper_bound; lia).
  unfold round in *. destruct (Nat.modulo k 3) as [|[|[|n]]] eqn:E; [| | |lia].
  - rewrite (M 0%nat ltac:(lia) eq_refl). apply (at_dot cls sep u H).
  - rewrite (M 1%nat ltac:(lia) eq_refl). apply (at_slash cls sep (lit "file") u file_letters H).
  - rewrite (M 2%nat ltac:(lia) eq_refl). apply (at_colon cls sep (lit "file") u file_letters H).
Qed.
Lemma beyond_next cls sep sch k u : avoids [cColon; cSlash; cQuest; cHash; cLpar; cDot; cBack] sch ->
  here cls sep (beyond sch k) u -> exists d n, u_split u = Ok (d, n) /\ here cls sep (beyond sch (S k)) d.
Proof.
  intros Ha H. destruct k as [|[|k]].
  - exact (at_slash cls sep sch u Ha H).
  - exact (at_colon cls sep sch u Ha H).
  - exact (round_next cls sep k u H).
Qed.
Lemma loop_next (X : nat -> str) cls sep : (forall k u, here cls sep (X k) u -> exists d n, u_split u = Ok (d, n) /\ here cls sep (X (S k)) d) ->
  forall j k u, here cls sep (X k) u -> exists d, u_dirname_loop j u = Ok d /\ here cls sep (X (j + k)%nat) d.
Proof.
  intros Hn. induction j as [|j IH]; intros k u H; [exists u; auto|].
  destruct (Hn k u H) as (d & n & E & Hd). destruct (IH (S k) d Hd) as (d' & E' & Hd').
  exists d'. cbn [u_dirname_loop]. rewrite E. cbn [rbind fst]. split; [exact E'|]. now replace (S j + k)%nat with (j + S k)%nat by lia.
Qed.

(** ** Above a host *)
Lemma scheme_letters sch : scheme_ok sch -> avoids [cColon; cSlash; cQuest; cHash; cLpar; cDot; cBack] sch.
Proof.
  intros Hs c Hc Hin. pose proof (sch_chars _ Hs c Hin) as L. unfold scheme_letter in L. cbn in Hc.
  unfold cColon, cSlash, cQuest, cHash, cLpar, cDot, cBack, cPlus, cMinus in *. lia.
Qed.
Definition is_host (a : auth) : Prop := match a with Host _ _ _ _ => True | _ => False end.
Lemma host_text a : auth_ok a -> is_host a -> auth_text a <> [] /\ avoids ([cSlash; cLpar] ++ meta) (auth_text a).
Proof.
  intros Ha Hh. destruct a as [| |user pass host port]; try easy. split.
  - intros E. apply auth_text_nil in E; [discriminate|exact Ha].
  - destruct (auth_ok_last _ Ha) as [[v H]|H]; [discriminate|exact H].
Qed.
Definition top (cls : uclass) (sch : str) (a : auth) (sep : N) (ex : dict str) : uri :=
  made cls (gtext sch a [] None None) sep (parse_of sch a [] [] None) ex.
Lemma mk_top cls sch a sep ex : scheme_ok sch -> auth_ok a -> is_host a -> bad_init_kw ex = false ->
  mk_uri cls (gtext sch a [] None None) sep ex = Ok (top cls sch a sep ex).
Proof.
  intros Hs Ha Hh Hb. destruct (host_text a Ha Hh) as [A1 A2]. apply mk_uri_made; [exact Hb|..].
  - unfold gtext. cbn [qtext ftext app]. rewrite app_nil_r. apply clean_remote; auto. apply A2. cbn. tauto.
  - pose proof (parse_grammar sch a [] [] None None) as P. cbn [ftext app] in P. apply P; auto.
    + pose proof (sch_len _ Hs). destruct sch; cbn in *; [lia|easy].
    + intros c Hc. apply (scheme_letters sch Hs). cbn in *. tauto.
    + destruct (sch_http _ Hs) as [H1 H2]. cbn [is_http]. apply str_eqb_neq in H1, H2. now rewrite H1, H2.
    + exact I.
    + intros c _ [].
    + exact I.
Qed.
Lemma host_suffix sch a : auth_ok a -> is_host a -> suffixb (lit "//") (sch ++ lit "://" ++ auth_text a) = false.
Proof.
  intros Ha Hh. destruct (host_text a Ha Hh) as [A1 A2]. apply suffix_slashes. rewrite app_assoc. apply nts_app; [exact A1|].
  intros r E. apply (A2 cSlash); [cbn; tauto|]. rewrite E. apply in_app_iff. right. now left.
Qed.
Lemma to_top cls sch a sep n q e ex : scheme_ok sch -> auth_ok a -> is_host a -> ~ In cSlash n -> query_ok q -> enc_of q e -> ex_ok ex ->
  let u := made cls (gtext sch a (cSlash :: n) e None) sep (parse_of sch a (cSlash :: n) q None) ex in
  exists m, u_split u = Ok (top cls sch a sep (u_all_extras u), m) /\ ex_ok (u_all_extras u).
Proof.
  intros Hs Ha Hh Hn Hq He Hex u. assert (Hx : ex_ok (u_all_extras u)) by (now apply made_ex_ok).
  assert (Hu : u_uri u = (sch ++ lit "://" ++ auth_text a) ++ cSlash :: (n ++ qtext e)).
  { unfold u. rewrite made_uri. unfold gtext. cbn [ftext]. rewrite app_nil_r, <- !app_assoc. reflexivity. }
  rewrite (split_text u _ _ Hu).
  - unfold u at 1 2. rewrite made_cls, made_sep.
    assert (G : sch ++ lit "://" ++ auth_text a = gtext sch a [] None None) by (unfold gtext; cbn [qtext ftext app]; now rewrite app_nil_r).
    rewrite G, mk_top by (auto; apply Hx). cbn [rbind]. eauto.
  - rewrite in_app_iff. intros [H|H]; [exact (Hn H)|]. apply qtext_in in H as [H|(t & -> & H)]; [discriminate|].
    assert (O : ook [cSlash] (Some t)) by (eapply enc_ook; eauto; incl_tac). revert H. apply O. now left.
  - destruct sch; discriminate.
  - now apply host_suffix.
Qed.
Lemma from_top cls sch a sep ex : scheme_ok sch -> auth_ok a -> is_host a -> ex_ok ex ->
  exists d n, u_split (top cls sch a sep ex) = Ok (d, n) /\ here cls sep (beyond sch 0) d.
Proof.
  intros Hs Ha Hh Hex. destruct (host_text a Ha Hh) as [A1 A2].
  assert (Hx : ex_ok (u_all_extras (top cls sch a sep ex))) by (apply made_ex_ok; auto using empty_query_ok).
  assert (Hu : u_uri (top cls sch a sep ex) = (sch ++ lit ":/") ++ cSlash :: auth_text a).
  { unfold top. rewrite made_uri. unfold gtext. cbn [ftext qtext app]. rewrite app_nil_r, <- app_assoc. reflexivity. }
  rewrite (split_text _ _ _ Hu).
  - unfold top at 1 2. rewrite made_cls, made_sep.
    destruct (climb_scheme cls sep (u_all_extras (top cls sch a sep ex)) sch (proj1 Hx)) as (d & E & Hd).
    + pose proof (sch_len _ Hs). destruct sch; cbn in *; [lia|easy].
    + now apply scheme_letters.
    + apply (sch_len _ Hs).
    + rewrite E. cbn [rbind]. eauto.
  - apply A2. cbn. tauto.
  - destruct sch; discriminate.
  - destruct (suffixb (lit "//") (sch ++ lit ":/")) eqn:S; auto. apply suffixb_spec in S as [t S]. exfalso.
    change (lit ":/") with ([cColon] ++ [cSlash]) in S. change (lit "//") with ([cSlash] ++ [cSlash]) in S.
    rewrite !app_assoc in S. apply app_inj_tail in S as [S _]. apply app_inj_tail in S as [_ S]. discriminate.
Qed.

Lemma dirname_is level u : (level <> 0)%nat -> u_dirname level u = u_dirname_loop level u.
Proof. now destruct level. Qed.
(** Up to the top *)
Lemma reach_top cls sch a cs q e sep ex : scheme_ok sch -> auth_ok a -> is_host a -> Forall name_ok cs -> query_ok q -> enc_of q e -> ex_ok ex ->
  exists ex', ex_ok ex' /\
  u_dirname_loop (Nat.max 1 (length cs)) (made cls (gtext sch a (abs_path cs) e None) sep (parse_of sch a (abs_path cs) q None) ex)
  = Ok (top cls sch a sep ex').
Proof.
  intros Hs Ha Hh HF Hq He Hex. destruct cs as [|c cs].
  - cbn [length Nat.max abs_path]. destruct (to_top cls sch a sep [] q e ex Hs Ha Hh) as (m & E & Hx); auto.
    cbn [u_dirname_loop]. rewrite E. cbn [rbind fst]. eauto.
  - assert (Hc : ~ In cSlash c) by (apply name_no_slash; now inversion HF).
    assert (HN : colon_free sch (c :: cs)) by (intros E; destruct (sch_file _ Hs E)).
    destruct cs as [|c' cs].
    + cbn [length Nat.max]. change (abs_path [c]) with (cSlash :: c ++ []). rewrite app_nil_r.
      destruct (to_top cls sch a sep c q e ex Hs Ha Hh) as (m & E & Hx); auto.
      cbn [u_dirname_loop]. rewrite E. cbn [rbind fst]. eauto.
    + destruct (dirname_loop_made sch a (length (c' :: cs)) (or_intror (conj Hs Ha)) cls sep [c] (c' :: cs) q e ex) as (ex' & E & Hx'); auto; try easy.
      { right. discriminate. }
      cbn [app] in E.
      replace (Nat.max 1 (length (c :: c' :: cs))) with (length (c' :: cs) + 1)%nat by (cbn [length]; lia).
      rewrite dirname_app, E. cbn [rbind]. change (abs_path [c]) with (cSlash :: c ++ []). rewrite app_nil_r.
      destruct (to_top cls sch a sep c [] None ex' Hs Ha Hh) as (m & E' & Hx2); auto using empty_query_ok, no_query_enc.
      cbn [u_dirname_loop]. rewrite E'. cbn [rbind fst]. eauto.
Qed.
Lemma above_host cls sch a cs q e sep ex k : scheme_ok sch -> auth_ok a -> is_host a -> Forall name_ok cs -> query_ok q -> enc_of q e -> ex_ok ex ->
  exists d,
  u_dirname_loop (Nat.max 1 (length cs) + S k) (made cls (gtext sch a (abs_path cs) e None) sep (parse_of sch a (abs_path cs) q None) ex) = Ok d
  /\ here cls sep (beyond sch k) d.
Proof.
  intros Hs Ha Hh HF Hq He Hex. destruct (reach_top cls sch a cs q e sep ex) as (ex' & Hx & E); auto.
  rewrite dirname_app, E. cbn [rbind u_dirname_loop]. destruct (from_top cls sch a sep ex' Hs Ha Hh Hx) as (d & n & E' & Hd).
  rewrite E'. cbn [rbind fst].
  destruct (loop_next (beyond sch) cls sep (fun k u => beyond_next cls sep sch k u (scheme_letters sch Hs)) k 0 d Hd) as (d' & E2 & Hd').
  rewrite Nat.add_0_r in Hd'. eauto.
Qed.

(** ** Relative paths *)
Lemma here_app a b : here_path (a ++ b) = here_path a ++ flat_map (fun c => cSlash :: c) b.
Proof. unfold here_path. cbn [app]. now rewrite flat_map_app. Qed.
Lemma comps_double cs : Forall name_ok cs -> forall x y, flat_map (fun c => cSlash :: c) cs <> x ++ lit "//" ++ y.
Proof.
  induction 1 as [|c cs Hc HF IH]; intros x y E; [destruct x; discriminate|]. cbn [flat_map app] in E.
  pose proof (name_no_slash c Hc) as Hs. destruct x as [|a x].
  - injection E as E. destruct c as [|b c]; [now apply (name_ne _ Hc)|]. injection E as -> _. apply Hs. now left.
  - injection E as _ E. apply app_eq_app in E as [l [[E1 E2]|[E1 E2]]].
    + destruct l as [|b l]; [exact (IH [] y (eq_sym E2))|]. injection E2 as <- _. apply Hs. rewrite E1. apply in_app_iff. right. now left.
    + exact (IH l y E2).
Qed.
Lemma here_rel cs : Forall name_ok cs -> rel_ok (flat_map (fun c => cSlash :: c) cs) /\ no_trailing_slash (flat_map (fun c => cSlash :: c) cs).
Proof.
  intros HF. split; [|now apply comps_nts].
  destruct cs as [|c cs]; [exact rel_nil|].
  assert (L : loc_ok (lit "memory") NoAuth (abs_path (c :: cs))).
  { apply loc_abs; auto; [|intros E; discriminate]. right. split; [|constructor].
    constructor; [cbn; lia|..]; try easy. intros x Hx. left. cbn in Hx. lia. }
  assert (P : path_ok (abs_path (c :: cs))) by (now destruct L). destruct P as [_ Hf Hp]. constructor; auto.
  - cbn. auto.
  - intros x y E. change (lit "://") with ([cColon] ++ lit "//") in E. rewrite <- app_assoc, app_assoc in E.
    exact (comps_double (c :: cs) HF _ _ E).
Qed.
Lemma relative_uri cs sep ex : Forall name_ok cs -> kw_ok ex -> exists u, URI (here_path cs) sep ex = Ok u /\ here ULocal sep (here_path cs) u.
Proof.
  intros HF Hk. destruct (here_rel cs HF) as [R _]. unfold URI. rewrite (no_scheme_re (here_path cs)) by (apply dot_uri; exact R).
  change (class_of_scheme (Some (lit "file"))) with ULocal. apply mk_rel; [apply (kw_ex _ Hk)|].
  pose proof (dot_uri _ R) as U. destruct R as [Hh Hf Hg Hu]. constructor.
  - rewrite clean_alone; auto.
    + intros c [<-|[]] [H|H]; [discriminate|]. exact (Hf cBack ltac:(cbn; tauto) H).
    + intros c r E. injection E as _ E. unfold here_path in *. rewrite E in Hh. destruct Hh as [H|[]]. discriminate.
  - eexists. split; [reflexivity|]. split; [exact Hh|]. split; [|exact Hg]. intros c Hc. apply Hf. cbn in *. tauto.
Qed.
Lemma relative_up cls sep cs n u : Forall name_ok (cs ++ [n]) -> here cls sep (here_path (cs ++ [n])) u ->
  exists d m, u_split u = Ok (d, m) /\ here cls sep (here_path cs) d.
Proof.
  intros HF H. apply Forall_app in HF as [HF Hn]. destruct (here_rel cs HF) as [R T].
  apply (climb cls sep _ n u); auto.
  - rewrite here_app in H. cbn [flat_map] in H. rewrite app_nil_r in H. exact H.
  - apply name_no_slash. now inversion Hn.
Qed.
Lemma relative_loop cls sep : forall rest cs u, Forall name_ok (cs ++ rest) -> here cls sep (here_path (cs ++ rest)) u ->
  exists d, u_dirname_loop (length rest) u = Ok d /\ here cls sep (here_path cs) d.
Proof.
  induction rest as [|n rest IH] using rev_ind; intros cs u HF H; [rewrite app_nil_r in H; exists u; auto|].
  rewrite app_length, Nat.add_comm. cbn [length Nat.add]. rewrite app_assoc in *.
  destruct (relative_up cls sep (cs ++ rest) n u HF H) as (d & m & E & Hd). apply Forall_app in HF as [HF _].
  cbn [u_dirname_loop]. rewrite E. cbn [rbind fst]. exact (IH cs d HF Hd).
Qed.
Lemma relative_level cls sep cs u level : Forall name_ok cs -> here cls sep (here_path cs) u -> exists d,
  u_dirname_loop level u = Ok d /\
  here cls sep (if level <=? length cs then here_path (firstn (length cs - level) cs) else round (level - length cs)) d.
Proof.
  intros HF H. destruct (level <=? length cs) eqn:L.
  - apply Nat.leb_le in L. set (k := length cs - level).
    assert (E : cs = firstn k cs ++ skipn k cs) by (symmetry; apply firstn_skipn).
    destruct (relative_loop cls sep (skipn k cs) (firstn k cs) u) as (d & Ed & Hd); [now rewrite <- E..|].
    rewrite skipn_length in Ed. replace (length cs - k) with level in Ed by (unfold k; lia). eauto.
  - apply Nat.leb_gt in L. destruct (relative_loop cls sep cs [] u HF H) as (d & Ed & Hd).
    destruct (loop_next round cls sep (round_next cls sep) (level - length cs) 0 d Hd) as (d' & E' & Hd'). rewrite Nat.add_0_r in Hd'.
    exists d'. replace level with (length cs + (level - length cs)) at 1 by lia. rewrite dirname_app, Ed. cbn [rbind]. auto.
Qed.

Lemma round_moves k : round (S k) <> round k.
Proof.
  assert (M : forall i, Nat.modulo k 3 = i -> Nat.modulo (S k) 3 = Nat.modulo (S i) 3).
  { intros i E. rewrite (Nat.div_mod k 3) by lia. rewrite E. replace (S (3 * (k / 3) + i)) with (S i + (k / 3) * 3)%nat by lia.
    now rewrite Nat.mod_add by lia. }
  assert (B : (Nat.modulo k 3 < 3)%nat) by (apply Nat.mod_upper_bound; lia).
  unfold round. destruct (Nat.modulo k 3) as [|[|[|n]]] eqn:E; [| | |lia]; rewrite (M _ eq_refl); cbn; discriminate.
Qed.
Lemma beyond_moves sch k : (2 <= length sch)%nat -> beyond sch (S k) <> beyond sch k.
Proof.
  intros L. destruct k as [|[|k]]; cbn [beyond].
  - intros E. apply (f_equal (@length N)) in E. rewrite !app_length in E. cbn in E. lia.
  - change (round 0) with [cDot]. intros E. apply (f_equal (@length N)) in E. rewrite !app_length in E. cbn in E. lia.
  - apply round_moves.
Qed.
