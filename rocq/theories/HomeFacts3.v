(** The URIs of paths at and below a directory, and the calls on them. *)
From Coq Require Import Lia.
From Verif Require Import Str Exc StrFacts UriParse BaseUri SpecUri Mem SpecMem Misc Posix Local SpecLocal Generic LocProg UriFacts UriFacts2 UriFacts3 UriFacts4 UriFacts5 UndoFacts KeepFacts SpecKeep SpecHome ApartFacts2 LocalFacts1 LocalFacts6 LocalFacts15 HomeFacts1 HomeFacts2 Pair.
Open Scope nat_scope.

Section Home.
Variable D : list str.
Hypothesis HD : home_dir D.
Notation home_text := (home_text D).
Definition furi (p : str) : uri := mkUri ULocal (lit "file://" ++ p) cSlash (parse_of (lit "file") NoAuth p [] None) [] (Some []) (Some []).
Lemma furi_text p : gtext (lit "file") NoAuth p None None = lit "file://" ++ p.
Proof. unfold gtext. cbn [auth_text qtext ftext]. now rewrite !app_nil_r. Qed.
Lemma mild_path p r : mild p -> p = cSlash :: r -> path_ok p.
Proof. intros [F P _] E. constructor; [now exists r| |exact P]. intros c Hc. apply F. now right. Qed.
Lemma mild_loc p r : mild p -> p = cSlash :: r -> loc_ok (lit "file") NoAuth p.
Proof.
  intros M E. apply loc_file; auto; [now apply (mild_path p r)| |].
  - intros a b X. apply (mi_free _ M cColon); [now left|]. rewrite X. apply in_app_iff. right. now left.
  - intros k X. apply (mi_free _ M cColon); [now left|]. rewrite X. right. now left.
Qed.
Lemma furi_URI p r : mild p -> p = cSlash :: r -> URI (lit "file://" ++ p) cSlash [] = Ok (furi p).
Proof. intros M E. rewrite <- furi_text. rewrite (URI_made _ _ _ [] None); auto using empty_query_ok, no_query_enc; [now rewrite furi_text|]. now apply (mild_loc p r). Qed.
Lemma home_cons : exists c D', D = c :: D'. Proof. pose proof (hd_some D HD). destruct D as [|c D']; [easy|]. now exists c, D'. Qed.
Lemma home_slash p : home_text p -> exists r, p = cSlash :: r.
Proof. intros [_ (t & _ & ->)]. destruct home_cons as (c & D' & ->). cbn. eauto. Qed.
Lemma home_furi u : home_uri D u <-> exists p, home_text p /\ u = furi p.
Proof.
  split; intros (p & H & E); exists p; (split; [exact H|]); destruct (home_slash p H) as [r Er]; pose proof (furi_URI p r (proj1 H) Er) as F; [rewrite F in E; now injection E as <-|]. now subst u.
Qed.
Lemma home_nodot p : home_text p -> prefixb (lit "/.") p = false.
Proof.
  intros [_ (t & _ & ->)]. destruct (prefixb (lit "/.") (abs_path D ++ t)) eqn:E; [|reflexivity]. exfalso. apply prefixb_spec in E as [r E].
  pose proof (hd_first D HD) as F. pose proof (hd_names D HD) as Nm. destruct home_cons as (c & D' & ED). rewrite ED in E, Nm. apply Forall_inv in Nm as (N & _). destruct c as [|a c]; [easy|]. cbn in E. injection E as E _. subst a. exact (F (cDot :: c) D' ED c eq_refl).
Qed.
Lemma furi_path p : home_text p -> u_path (furi p) = p.
Proof. intros H. unfold u_path, base_path. cbn [furi u_cls u_sep u_p parse_of p_path]. change (N.eqb cSlash cSlash) with true. cbv iota. now rewrite (home_nodot p H). Qed.
Lemma uri_path u : home_uri D u -> home_text (u_path u).
Proof. intros H. apply home_furi in H as (p & H & ->). now rewrite (furi_path p H). Qed.
Lemma kw_none : kw_ok []. Proof. constructor; [apply NoDup_nil|intros k _ []]. Qed.
(** What readlink() makes of the text in a link *)
Lemma read_path tg u : home_text tg -> URI tg cSlash [] = Ok u -> u_path u = tg.
Proof.
  intros H E. destruct (home_slash tg H) as [r Er]. pose proof (proj1 H) as M. assert (A : left_alone tg).
  { constructor.
    - apply pt_plain. intros c Hc. apply (mi_free _ M). right. cbn in *. tauto.
    - intros c Hc. apply (mi_free _ M). right. cbn in *. tauto.
    - intros (a & b & c & X & _). now apply (mi_par _ M a (b ++ lit "))" ++ c)).
    - intros a b X. apply (mi_free _ M cColon); [now left|]. rewrite X. apply in_app_iff. right. now left.
    - intros a b X. apply (mi_free _ M cColon); [now left|]. rewrite X. right. now left. }
  assert (K : kept_start tg).
  { apply (ks_root tg r Er). intros k X. pose proof (home_nodot tg H) as P. assert (prefixb (lit "/.") tg = true) by (apply prefixb_spec; now exists k). congruence. }
  destruct (kept_back tg [] kw_none A K) as (v & Ev & Pv). congruence.
Qed.
Lemma home_more p q : home_text p -> mild (p ++ q) -> q = [] \/ (exists r, q = cSlash :: r) -> home_text (p ++ q).
Proof.
  intros [_ (t & Ht & ->)] M Hq. split; [exact M|]. exists (t ++ q). rewrite app_assoc. split; [|reflexivity]. destruct Ht as [->|[r ->]]; [exact Hq|right; now exists (r ++ q)].
Qed.
Lemma slashes z : forallb is_slash z = true -> z = repeat cSlash (length z).
Proof. induction z as [|a y IH]; cbn; [reflexivity|]. intros H. apply andb_true_iff in H as [A B]. apply N.eqb_eq in A as ->. now rewrite <- (IH B). Qed.
Lemma home_strip p : home_text p -> exists p0 k, p = p0 ++ repeat cSlash k /\ no_trailing_slash p0 /\ home_text p0.
Proof.
  intros [M (t & Ht & ->)]. destruct (home_end D HD) as (k & c & Nc & Ek). destruct (rstrip_decomp is_slash t) as (z & E & Az & St).
  remember (rstrip_p is_slash t) as t0 eqn:Z0. clear Z0. exists (abs_path D ++ t0), (length z). split; [|split].
  - rewrite <- app_assoc, <- (slashes z Az). now rewrite <- E.
  - intros r Er. destruct t0 as [|b t1 _] using rev_ind.
    + rewrite app_nil_r, Ek in Er. apply app_inj_tail in Er as [_ ->]. easy.
    + rewrite app_assoc in Er. apply app_inj_tail in Er as [_ ->]. rewrite rev_app_distr in St. discriminate St.
  - split; [apply (mild_sub _ _ M); exists [], z; cbn [app]; now rewrite <- app_assoc, <- E|]. exists t0. split; [|reflexivity]. destruct t0 as [|a t1]; [now left|right]. destruct Ht as [->|[r ->]]; [discriminate E|]. cbn [app] in E. injection E as <- _. now exists t1.
Qed.
Lemma home_div u n r : home_uri D u -> mild n -> u_div u n = Ok r -> home_uri D r.
Proof.
  intros M Mn E. apply home_furi in M as (p & H & ->). destruct (home_strip p H) as (p0 & k & Ep & Nt & H0).
  assert (P1 : mild (p0 ++ cSlash :: n)) by (apply mild_slash; [apply H0|exact Mn]). destruct (home_slash p0 H0) as [r0 E0].
  pose proof (join_made (furi p) (lit "file") NoAuth p0 k [] None [] n (p0 ++ cSlash :: n)) as J.
  unfold u_div in E. change ([n]) with (([] : list str) ++ [n]) in E. rewrite J in E; auto using empty_query_ok, no_query_enc.
  - injection E as <-. apply home_furi. exists (p0 ++ cSlash :: n). split; [apply home_more; [exact H0|exact P1|right; now exists n]|]. now rewrite furi_text.
  - cbn [furi u_p]. now rewrite Ep.
  - constructor.
  - apply (mild_loc _ (r0 ++ cSlash :: n) P1). now rewrite E0.
Qed.
Lemma home_rest u k : home_uri D u -> mild (strip_p is_space (skipn k (u_path u))).
Proof.
  intros M. apply home_furi in M as (p & H & ->). rewrite (furi_path p H). apply (mild_sub p _ (proj1 H)).
  destruct (strip_sub is_space (skipn k p)) as (a & b & E). exists (firstn k p ++ a), b. rewrite <- app_assoc, <- E. symmetry. apply firstn_skipn.
Qed.
Lemma home_last u : home_uri D u -> mild (u_last u).
Proof.
  intros M. apply home_furi in M as (p & H & ->). destruct (split_home D HD p H) as (rest & E & Mr). unfold u_last. cbn [furi u_uri].
  destruct (home_slash p H) as [q ->].
  assert (SP : split_on cSlash (lit "file://" ++ cSlash :: q) = [lit "file:"; []; []] ++ split_on cSlash q).
  { change (lit "file://" ++ cSlash :: q) with (lit "file:" ++ cSlash :: ([] ++ cSlash :: ([] ++ cSlash :: q))). rewrite !split_on_gen. reflexivity. }
  rewrite SP. clear SP.
  change (split_on cSlash (cSlash :: q)) with ([] :: split_on cSlash q) in E. injection E as E.
  assert (S : forall x, In x (split_on cSlash q) -> mild x).
  { intros x I. apply (mild_piece (cSlash :: q)); [apply H|]. now right. }
  destruct home_cons as (c & D' & ED).
  rewrite !rev_app_distr. cbn [rev app].
  assert (N : exists x l, rev (split_on cSlash q) = x :: l /\ (l = [] -> x <> [])).
  { destruct (rev (split_on cSlash q)) as [|x l] eqn:R.
    - apply (f_equal (@rev str)) in R. rewrite rev_involutive in R. rewrite E, ED in R. discriminate R.
    - exists x, l. split; [reflexivity|]. intros -> ->. apply (f_equal (@rev str)) in R. rewrite rev_involutive, E, ED in R. cbn in R. injection R as R _. pose proof (hd_names D HD) as Nm. rewrite ED in Nm. apply Forall_inv in Nm as (X & _). congruence. }
  destruct N as (x & l & R & Nx). rewrite R. cbn [app]. assert (mild x) by (apply S, in_rev; rewrite R; now left).
  destruct l as [|y l].
  - destruct x; [now destruct (Nx eq_refl)|]. exact H0.
  - assert (mild y) by (apply S, in_rev; rewrite R; right; now left). now destruct x.
Qed.
(** The directories above *)
Definition roof_uri (u : uri) : Prop := exists A n B, D = A ++ n :: B /\ u = furi (abs_path A).
Lemma flat_end A n B : D = A ++ n :: B -> A <> [] -> exists k c, c <> cSlash /\ flat_map (fun c => cSlash :: c) A = k ++ [c].
Proof.
  intros E N. pose proof (hd_names D HD) as Nm. rewrite E in Nm. apply Forall_app in Nm as [Nm _]. destruct A as [|m A _] using rev_ind; [easy|]. apply Forall_app in Nm as [_ Nm]. apply Forall_inv in Nm as (H1 & H2 & _).
  rewrite flat_map_app. cbn [flat_map]. rewrite app_nil_r. destruct m as [|c m _] using rev_ind; [easy|]. exists (flat_map (fun c => cSlash :: c) A ++ cSlash :: m), c. split; [intros ->; apply H2, in_app_iff; right; now left|].
  rewrite <- app_assoc. reflexivity.
Qed.
Lemma mild_root : mild [cSlash]. Proof. change [cSlash] with ([] ++ [cSlash]). apply mild_slash; apply mild_nil. Qed.
Lemma roof_mild A n B : D = A ++ n :: B -> mild (abs_path A).
Proof.
  intros E. pose proof (hd_names D HD) as Nm. rewrite E in Nm. apply Forall_app in Nm as [Nm _]. clear E. destruct A as [|a A] using rev_ind; [apply mild_root|]. clear IHA. rewrite abs_path_snoc.
  assert (Z : mild (flat_map (fun c => cSlash :: c) A)).
  { apply Forall_app in Nm as [Nm _]. induction A as [|c A IH] using rev_ind; [apply mild_nil|]. rewrite flat_map_app. cbn [flat_map]. rewrite app_nil_r. apply Forall_app in Nm as [Nm1 Nm2]. apply Forall_inv in Nm2 as (_ & _ & _ & M). apply mild_slash; [now apply IH|exact M]. }
  apply Forall_app in Nm as [_ Nm]. apply Forall_inv in Nm as (_ & _ & _ & M). now apply mild_slash.
Qed.
Lemma home_split u d n : home_uri D u -> u_split u = Ok (d, n) -> home_uri D d \/ roof_uri d.
Proof.
  intros M E. apply home_furi in M as (p & H & ->). destruct H as [M (t & Ht & ->)].
  unfold u_split in E. change (u_all_extras (furi (abs_path D ++ t))) with ([] : dict str) in E. cbn [furi u_uri u_cls u_sep] in E.
  assert (MK : forall x r, mild x -> x = cSlash :: r -> mk_uri ULocal (lit "file://" ++ x) cSlash [] = Ok (furi x)).
  { intros x r Px Ex. rewrite <- furi_text. destruct (loc_parse _ _ _ [] None (mild_loc x r Px Ex) empty_query_ok no_query_enc) as [C Q].
    rewrite (mk_uri_made _ _ _ _ _ (eq_refl : bad_init_kw [] = false) C Q). now rewrite furi_text. }
  destruct Ht as [->|[r ->]].
  - right. rewrite app_nil_r in *. assert (X : exists D' m, D = D' ++ [m]). { pose proof (hd_some D HD). destruct D as [|m D' _] using rev_ind; [easy|]. now exists D', m. }
    destruct X as (D' & m & ED). exists D', m, []. split; [exact ED|]. pose proof (hd_names D HD) as Nm. rewrite ED in Nm. apply Forall_app in Nm as [_ Nm]. apply Forall_inv in Nm as (_ & Sm & _).
    rewrite ED, abs_path_snoc, app_assoc in E. rewrite cut_last_app in E by exact Sm.
    pose proof (roof_mild D' m [] ED) as MD. destruct D' as [|c D2] eqn:ED2.
    + change (lit "file://" ++ flat_map (fun c => cSlash :: c) []) with (lit "file://") in E. assert (X : suffixb (lit "//") (lit "file://") = true) by reflexivity. rewrite X in E.
      replace (match lit "file://" ++ [cSlash] with [] => [cDot] | _ => lit "file://" ++ [cSlash] end) with (lit "file://" ++ [cSlash]) in E by reflexivity.
      rewrite (MK [cSlash] [] mild_root eq_refl) in E. cbn [rbind] in E. now injection E as <- _.
    + rewrite <- ED2 in *. assert (N2 : D' <> []) by (rewrite ED2; discriminate). destruct (flat_end D' m [] ED N2) as (k & e & Ne & Ek).
      assert (X : suffixb (lit "//") (lit "file://" ++ flat_map (fun c => cSlash :: c) D') = false).
      { destruct (suffixb _ _) eqn:S; [|reflexivity]. apply suffixb_spec in S as [z S]. rewrite Ek in S. change (lit "//") with ([cSlash] ++ [cSlash]) in S. rewrite !app_assoc in S. apply app_inj_tail in S as [_ S]. easy. }
      rewrite X in E. assert (F : flat_map (fun c => cSlash :: c) D' = abs_path D') by (unfold abs_path; now rewrite ED2). rewrite F in E.
      replace (match lit "file://" ++ abs_path D' with [] => [cDot] | _ => lit "file://" ++ abs_path D' end) with (lit "file://" ++ abs_path D') in E by reflexivity.
      assert (G : exists r, abs_path D' = cSlash :: r) by (rewrite ED2; cbn; eauto). destruct G as [r G].
      rewrite (MK (abs_path D') r MD G) in E. cbn [rbind] in E. now injection E as <- _.
  - left. assert (X : exists a b, cSlash :: r = a ++ cSlash :: b /\ ~ In cSlash b /\ (a = [] \/ exists r', a = cSlash :: r')).
    { destruct (cut_last cSlash (cSlash :: r)) as [[a b]|] eqn:C.
      - apply cut_last_some in C as [C F]. exists a, b. split; [exact C|]. split; [exact F|]. destruct a as [|x a]; [now left|right]. injection C as <- _. now exists a.
      - apply cut_last_none in C. destruct C. now left. }
    destruct X as (a & b & Er & Nb & Ha). rewrite Er in *.
    replace (lit "file://" ++ abs_path D ++ a ++ cSlash :: b) with ((lit "file://" ++ abs_path D ++ a) ++ cSlash :: b) in E by (rewrite <- app_assoc; now rewrite <- app_assoc).
    rewrite cut_last_app in E by exact Nb.
    assert (PA : mild (abs_path D ++ a)). { apply (mild_sub _ _ M). exists [], (cSlash :: b). cbn [app]. now rewrite <- app_assoc. }
    assert (HA : home_text (abs_path D ++ a)) by (split; [exact PA|now exists a]). destruct (home_slash _ HA) as [r1 E1].
    destruct (suffixb (lit "//") (lit "file://" ++ abs_path D ++ a)).
    + replace ((lit "file://" ++ abs_path D ++ a) ++ [cSlash]) with (lit "file://" ++ ((abs_path D ++ a) ++ [cSlash])) in E by (now rewrite app_assoc).
      replace (match lit "file://" ++ (abs_path D ++ a) ++ [cSlash] with [] => [cDot] | _ => lit "file://" ++ (abs_path D ++ a) ++ [cSlash] end) with (lit "file://" ++ (abs_path D ++ a) ++ [cSlash]) in E by reflexivity.
      assert (PA' : mild ((abs_path D ++ a) ++ [cSlash])) by (apply mild_slash; [exact PA|apply mild_nil]).
      rewrite (MK _ (r1 ++ [cSlash]) PA') in E by (now rewrite E1). cbn [rbind] in E. injection E as <- _. apply home_furi. eexists. split; [|reflexivity]. apply home_more; [exact HA|exact PA'|right; now exists []].
    + replace (match lit "file://" ++ abs_path D ++ a with [] => [cDot] | _ => lit "file://" ++ abs_path D ++ a end) with (lit "file://" ++ abs_path D ++ a) in E by reflexivity.
      rewrite (MK _ r1 PA E1) in E. cbn [rbind] in E. injection E as <- _. apply home_furi. eexists. split; [exact HA|reflexivity].
Qed.
End Home.
