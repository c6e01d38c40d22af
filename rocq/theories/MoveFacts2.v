(** The rule of SpecMove.v. *)
From Verif Require Import Str Exc UriParse BaseUri StrFacts SpecUri SpecParse SpecNames NamesFacts Mem Misc Generic Posix Local SpecLocal.
From Coq Require Import Lia.
From Verif Require Import MemFacts7 LocalFacts1 LocalFacts6 LocalFacts12 LocalFacts14 LocalFacts15 SpecPosix PosixFacts PosixFacts2 MoveFacts SpecMove.
Local Notation looked := SpecPosix.looked.

(** ** The vocabulary as functions *)
Lemma put_iff x s o : put_at x s o <-> looked x false (chop s) o.
Proof. unfold put_at. split; [intros (t & C & L); apply chopped_iff in C; now subst|]. intros L. exists (chop s). split; auto. now apply chopped_iff. Qed.
Lemma put_det x s o o' : put_at x s o -> put_at x s o' -> o = o'.
Proof. rewrite !put_iff. apply looked_det. Qed.
Lemma put_ex x s : exists o, put_at x s o.
Proof. destruct (plook_ex x false (chop s)) as [o L]. exists o. now apply put_iff. Qed.
Lemma slash_end_iff s : slash_end s <-> slashed s = true.
Proof. unfold slash_end. rewrite slashed_ne. split; [intros (t & C & N); apply chopped_iff in C; now subst|]. intros N. exists (chop s). split; auto. now apply chopped_iff. Qed.
Lemma isdir_run x u : exists b, path_isdir (u_path u) x = (Ok b, x) /\ (dir_seen x u <-> b = true).
Proof.
  destruct (sees_ex x true u) as [o L]. unfold path_isdir. rewrite (test_run _ _ _ _ _ L). eexists. split; [reflexivity|]. split.
  - intros (p & mo & mt & H). now rewrite (sees_det _ _ _ _ _ L H).
  - destruct o as [p e| |]; try discriminate. destruct e; try discriminate. intros _. now exists p, mode, mtime.
Qed.
Lemma path_iff u s : paths u s <-> s = u_path u.
Proof. rewrite paths_iff. split; congruence. Qed.
Lemma headed_run x u v : headed x u v (fst ((let! sd <- loc_isdir u; let! dd <- (if sd then loc_isdir v else ret false);
  if dd then lift (rlet b <- u_basename u; u_div v b) else ret v) x)).
Proof.
  destruct (isdir_run x u) as (b1 & R1 & D1). destruct (isdir_run x v) as (b2 & R2 & D2). unfold loc_isdir. unfold bind at 1. rewrite R1.
  unfold bind at 1. destruct b1; [rewrite R2|apply hd_as; intros [H _]; apply D1 in H; discriminate].
  destruct b2; [|apply hd_as; intros [_ H]; apply D2 in H; discriminate]. unfold lift, u_basename, u_div. destruct (u_split u) as [[d n]|e] eqn:E; cbn.
  - apply hd_in with d n; [tauto|tauto|now apply splits_iff|now apply joins_iff].
  - apply hd_fails; [tauto|tauto|now apply splits_iff].
Qed.
Lemma headed_det x u v r r' : headed x u v r -> headed x u v r' -> r = r'.
Proof.
  intros H H'. inversion H as [d n ? D1 D2 S J|e D1 D2 S|N]; inversion H' as [d' n' ? D1' D2' S' J'|e' D1' D2' S'|N']; subst; auto; try (now destruct N); try (now destruct N').
  - apply splits_iff in S, S'. apply joins_iff in J, J'. congruence.
  - apply splits_iff in S, S'. congruence.
  - apply splits_iff in S, S'. congruence.
  - apply splits_iff in S, S'. congruence.
Qed.
Lemma last_slash (s : str) : s <> [] -> ((exists r, s = r ++ [cSlash]) <-> last s 0%N = cSlash).
Proof.
  intros N. split; [intros [r ->]; apply last_last|]. intros E. exists (removelast s). rewrite <- E. now apply app_removelast_last.
Qed.
Lemma within_iff s n t : s <> [] -> (within s n t <-> path_join s n = t).
Proof.
  intros N. unfold path_join. destruct s as [|a s]; [easy|]. destruct (N.eqb (last (a :: s) 0%N) cSlash) eqn:E.
  - apply N.eqb_eq in E. apply last_slash in E as [r E]; [|easy]. split; [|intros <-; now apply wi_slash with r]. intros W. inversion W as [r' E'|NE]; subst; auto. now destruct (NE r).
  - apply N.eqb_neq in E. split.
    + intros W. inversion W as [r' E'|NE]; subst; auto. destruct E. apply last_slash; [easy|]. eauto.
    + intros <-. apply wi_plain. intros r E'. destruct E. apply last_slash; [easy|]. eauto.
Qed.
Lemma dir_path x w : dir_seen x w -> u_path w <> [].
Proof. intros (p & mo & mt & s & P & L) E. apply paths_iff in P. subst s. inversion L; subst; congruence. Qed.
Lemma sh_base s : sh_basename s = last_piece s.
Proof.
  unfold sh_basename, last_piece, chop. destruct (rev (drop_slashes (rev s))) eqn:E; [|reflexivity].
  cbn. destruct (cut_of s) as (b & Q & Sb & _). rewrite E in Q. cbn in Q. subst b. pose proof (split_slashes [] (length s)) as Q2. cbn [app] in Q2. rewrite <- (slashes_repeat s Sb) in Q2. rewrite Q2. symmetry.
  change (last (repeat (@nil N) (S (length s))) [] = []). clear. induction (S (length s)) as [|n IH]; auto. cbn [repeat]. destruct n; auto.
Qed.
Definition aim (x : pst) (u w : uri) (b : bool) : str := if b then path_join (u_path w) (sh_basename (u_path u)) else u_path w.
Lemma target_iff x u w i t : target x u w i t <-> ((dir_seen x w <-> i = true) /\ t = aim x u w i).
Proof.
  split.
  - intros H. inversion H as [s n ? D P E W|? D P]; subst.
    + apply path_iff in P. subst s. apply ends_iff in E. rewrite <- sh_base in E. subst n. apply within_iff in W; [|now apply dir_path with x]. split; [tauto|]. cbn. congruence.
    + apply path_iff in P. subst t. split; auto. split; [easy|discriminate].
  - intros [D ->]. destruct i.
    + assert (dir_seen x w) by tauto. apply tg_in with (u_path w) (sh_basename (u_path u)); auto; [now apply path_iff| |].
      * apply ends_iff. symmetry. apply sh_base.
      * apply within_iff; auto. now apply dir_path with x.
    + apply tg_at; [|now apply path_iff]. intros H. apply D in H. discriminate.
Qed.
Lemma target_det x u w i t i' t' : target x u w i t -> target x u w i' t' -> i = i' /\ t = t'.
Proof.
  rewrite !target_iff. intros [D ->] [D' ->]. assert (i = i') as -> by (destruct i, i'; auto; [symmetry|]; tauto). auto.
Qed.
Lemma goes_det x u v t t' : goes x u v t -> goes x u v t' -> t = t'.
Proof.
  intros [w i ? H T _ _ _] [w' i' ? H' T' _ _ _]. pose proof (headed_det _ _ _ _ _ H H') as E. injection E as <-. now destruct (target_det _ _ _ _ _ _ _ T T').
Qed.
Lemma nul_in s : has_char 0 s = true <-> In 0%N s.
Proof. unfold has_char. rewrite existsb_exists. split; [intros (c & I & E); apply N.eqb_eq in E; now subst|]. intros I. exists 0%N. auto. Qed.
Lemma nul_out s : has_char 0 s = false <-> ~ In 0%N s.
Proof. rewrite <- nul_in. destruct (has_char 0 s); split; congruence. Qed.

(** ** Carrying one entry *)
Lemma carried_prename x p q e : sound x -> pget p (p_tree x) = Some e -> is_pdir e = false -> p <> q ->
  (forall f, pget q (p_tree x) = Some f -> is_pdir f = false) -> (pget q (p_tree x) = None -> exists d n, q = d ++ [n] /\ is_dir_at x d) ->
  carried x (set_tree x (prename p q (p_tree x))) p q e.
Proof.
  intros So Gp Np Ne Lq Fq.
  assert (Np' : forall r, r <> [] -> pget (p ++ r) (p_tree x) = None) by (intros r Nr; eapply nothing_below; eauto).
  assert (Nq' : forall r, r <> [] -> pget (q ++ r) (p_tree x) = None).
  { intros r Nr. destruct (pget q (p_tree x)) as [f|] eqn:Gq; [eapply nothing_below; eauto|]. destruct (pget (q ++ r) (p_tree x)) eqn:E; auto.
    destruct (so_dir x So q r Nr) as (mo & mt & D); congruence. }
  assert (Bpq : ~ below p q).
  { intros [r E]. destruct r as [|a r]; [rewrite app_nil_r in E; congruence|]. subst q. assert (Gq : pget (p ++ a :: r) (p_tree x) = None) by now apply Np'.
    destruct (Fq Gq) as (d & n & E & D). destruct (exists_last (l := a :: r)) as (r' & c & E'); [easy|]. rewrite E', app_assoc in E. apply app_inj_tail in E as [<- <-].
    destruct D as (mo & mt & D). destruct r'; [rewrite app_nil_r in D; rewrite Gp in D; injection D as ->; discriminate|]. rewrite Np' in D; [discriminate|easy]. }
  assert (Bqp : ~ below q p).
  { intros [r E]. destruct r as [|a r]; [rewrite app_nil_r in E; congruence|]. subst p. rewrite Nq' in Gp; [discriminate|easy]. }
  destruct (prename_get (p_tree x) p q (so_nodup x So) Bpq Bqp Nq') as (H1 & H2 & H3). unfold carried, entry_at. repeat split; unfold set_tree; cbn [p_tree].
  - specialize (H1 []). rewrite !app_nil_r in H1. exact (eq_trans H1 Gp).
  - specialize (H2 []). now rewrite app_nil_r in H2.
  - intros r Nr1 Nr2. destruct (strip_path p r) as [a|] eqn:E1.
    { apply strip_path_spec in E1. subst r. rewrite H2. symmetry. apply Np'. intros ->. now rewrite app_nil_r in Nr1. }
    destruct (strip_path q r) as [a|] eqn:E2.
    { apply strip_path_spec in E2. subst r. assert (a <> []) by (intros ->; now rewrite app_nil_r in Nr2). rewrite H1, Nq', Np'; auto. }
    rewrite strip_path_none in E1, E2. now apply H3.
Qed.

(** ** The move *)
Definition leaf_seen (x : pst) (u : uri) : Prop :=
  (forall p mo mt, ~ sees x false u (Is p (PDir mo mt))) /\ (forall p t, sees x false u (Is p (PLink t)) -> t <> [] /\ ~ In 0%N t).
Definition shift (s d r : str) : M pst unit := fun x =>
  match os_rename s r x with
  | (Raise (OSError _), x') => sh_move_fallback s d r x'
  | r => r
  end.
Lemma wrong_os x f s e : looked x f s (Wrong e) -> has_char 0 s = false -> exists n, e = OSError n.
Proof. intros L H. destruct (looked_err _ _ _ _ L) as [-> |]; auto. apply looked_iff in L. unfold plook in L. rewrite H in L. destruct s; [discriminate|]. exfalso. revert L. intros L.
  assert (L' : looked x f (n :: s) (Wrong ValueError)) by (apply looked_iff; unfold plook; now rewrite H). inversion L' as [I| |k st ps o N1 N2 S B Ln W|]; subst.
  - apply nul_in in I. congruence.
  - clear -W. remember (Wrong ValueError) as o. induction W; try discriminate; auto.
Qed.
Lemma shift_absent x u r d o e : sound x -> has_char 0 (u_path u) = false -> has_char 0 r = false -> sees x false u o -> absent o e -> shift (u_path u) d r x = (Raise e, x).
Proof.
  intros So Hs Hr (s & P & L) A. apply path_iff in P. subst s. set (s := u_path u) in *.
  assert (Lt : looked x true s o) by (apply looked_follow; auto; intros p t ->; inversion A; discriminate).
  assert (R : exists n, os_rename s r x = (Raise (OSError n), x)).
  { unfold os_rename. rewrite Hs, Hr. cbn [orb]. destruct (plook_ex x false (chop s)) as [a La]. destruct (plook_ex x false (chop r)) as [b Lb].
    pose proof (proj1 (looked_iff _ _ _ _) La) as Ea. pose proof (proj1 (looked_iff _ _ _ _) Lb) as Eb. rewrite Ea, Eb.
    destruct a as [p f|i m|ea]; cbn [answer].
    - assert (Sl : slashed s = true). { destruct (slashed s) eqn:Sl; auto. rewrite (chop_same s Sl) in La. rewrite (looked_det _ _ _ _ _ L La) in A. inversion A; discriminate. }
      assert (Nf : is_pdir f = false).
      { destruct f; auto. exfalso. assert (X : looked x false s (slashed_place (Is p (PDir mode mtime)))) by (apply looked_slash; auto; discriminate).
        rewrite (looked_det _ _ _ _ _ L X) in A. inversion A; discriminate. }
      destruct b as [q g|i m|eb]; cbn [answer]; [| |destruct (wrong_os _ _ _ _ Lb) as [n ->]; [now rewrite chop_nul|eauto]].
      all: destruct (unnamed s || unnamed r); [eauto|]; rewrite Nf, Sl; cbn; eauto.
    - destruct b as [q g|i' m'|eb]; cbn [answer]; [| |destruct (wrong_os _ _ _ _ Lb) as [n ->]; [now rewrite chop_nul|eauto]].
      all: destruct (unnamed s || unnamed r); eauto.
    - destruct (wrong_os _ _ _ _ La) as [n ->]; [now rewrite chop_nul|]. eauto. }
  destruct R as [n R]. unfold shift. rewrite R. unfold sh_move_fallback. unfold bind at 1. rewrite (islink_run _ _ _ L).
  assert (match o with Is _ (PLink _) => true | _ => false end = false) as -> by (inversion A; subst; auto).
  unfold bind at 1. unfold path_isdir. rewrite (tests_run _ _ _ _ _ Lt). assert (match o with Is _ e0 => is_pdir e0 | _ => false end = false) as -> by (inversion A; subst; auto).
  unfold copy_and_remove_file. unfold bind at 1. unfold samefile. rewrite Hs, Hr. cbn [orb]. apply looked_iff in Lt. rewrite Lt.
  inversion A; subst; cbn [answer] in *; unfold bind, os_open_r; rewrite Lt; reflexivity.
Qed.
(** The source is a file or link, the target no directory. *)
Lemma shift_leaf x s d r p e b : sound x -> has_char 0 s = false -> has_char 0 r = false -> looked x false s (Is p e) -> is_pdir e = false ->
  (forall t, e = PLink t -> t <> [] /\ has_char 0 t = false) -> looked x false (chop r) b -> (forall q f, b = Is q f -> is_pdir f = false) ->
  shift s d r x =
    match b with
    | Wrong e' => (Raise e', x)
    | Free i n => if slashed r then (Raise (OSError (if is_plink e then ENOENT else EISDIR)), x) else (Ok tt, set_tree x (prename p (i ++ [n]) (p_tree x)))
    | Is q f => if slashed r then (Raise (OSError (if is_plink e then EEXIST else EISDIR)), x) else if path_eqb p q then (Ok tt, x) else (Ok tt, set_tree x (prename p q (p_tree x)))
    end.
Proof.
  intros So Hs Hr Ls Nd Tg Lb Nb. pose proof (proj1 (looked_iff _ _ _ _) Ls) as Es. pose proof (proj1 (looked_iff _ _ _ _) Lb) as Eb.
  pose proof (rename_leaf x s r p e b So Es Nd Hs Hr Lb) as R.
  assert (FB : forall n e', os_rename s r x = (Raise (OSError n), x) ->
    (is_plink e = true -> forall t, e = PLink t -> os_symlink t r x = (Raise e', x)) ->
    (is_plink e = false -> samefile s r x = (Ok false, x) /\ os_open_w r x = (Raise e', x)) -> shift s d r x = (Raise e', x)).
  { intros n e' Q FL FF. unfold shift. rewrite Q. unfold sh_move_fallback. unfold bind at 1. rewrite (islink_run _ _ _ Ls). destruct e as [dt mo mt|mo mt|t]; [| discriminate|].
    - unfold bind at 1, path_isdir. assert (Lt : looked x true s (Is p (PFile dt mo mt))) by (apply looked_follow; easy). rewrite (tests_run _ _ _ _ _ Lt). cbn [is_pdir].
      destruct (FF eq_refl) as [Sm W]. unfold copy_and_remove_file. unfold bind at 1. rewrite Sm. unfold bind at 1, os_open_r. apply looked_iff in Lt. rewrite Lt. cbn [answer].
      unfold bind. rewrite W. reflexivity.
    - unfold bind at 1, os_readlink. rewrite Es. cbn [answer]. unfold bind. rewrite (FL eq_refl t eq_refl). reflexivity. }
  destruct b as [q f|i m|eb]; cbn [renamed answer] in *.
  - rewrite (Nb q f eq_refl) in R. destruct (slashed r) eqn:Sr; [|unfold shift; rewrite R; now destruct (path_eqb p q)].
    apply (FB _ _ R).
    + intros L t ->. destruct (Tg t eq_refl) as [Nt Ht]. unfold os_symlink. rewrite Sr, Ht, Eb. destruct t; [easy|]. reflexivity.
    + intros L. rewrite L. unfold os_open_w, refuse_slashed. rewrite Sr, Eb. split; auto. unfold samefile. rewrite Hs, Hr. cbn [orb].
      assert (Lt : looked x true s (Is p e)) by (apply looked_follow; auto; intros ? ? [= -> ->]; discriminate). apply looked_iff in Lt. rewrite Lt. cbn [answer].
      destruct (plook x true r) as [[q' f'|]|] eqn:E'; auto. f_equal. f_equal. apply path_eqb_neq. intros <-.
      destruct (looked_trailing x true r p f') as (mo & mt & D); auto; [now apply looked_iff|]. pose proof (plook_spot _ _ _ _ _ Es) as G. rewrite G in D. injection D as ->. discriminate.
  - destruct (slashed r) eqn:Sr; [|unfold shift; now rewrite R]. apply (FB _ _ R).
    + intros L t ->. destruct (Tg t eq_refl) as [Nt Ht]. unfold os_symlink. rewrite Sr, Ht, Eb. destruct t; [easy|]. reflexivity.
    + intros L. rewrite L. unfold os_open_w, refuse_slashed. rewrite Sr, Eb. split; auto. unfold samefile. rewrite Hs, Hr. cbn [orb].
      assert (Lr : looked x true r (slashed_place (Free i m))) by (apply looked_slash; easy). apply looked_iff in Lr. rewrite Lr. cbn. now destruct (plook x true s) as [[]|].
  - destruct (wrong_os _ _ _ _ Lb) as [n ->]; [now rewrite chop_nul|]. apply (FB _ _ R).
    + intros L t ->. destruct (Tg t eq_refl) as [Nt Ht]. unfold os_symlink, sys_symlink. rewrite Ht. destruct t; [easy|]. destruct (slashed r) eqn:Sr; [|rewrite (chop_same r Sr) in Eb]; rewrite Eb; reflexivity.
    + intros L. unfold os_open_w, refuse_slashed, sys_open_w.
      assert (Lr : exists e', looked x true r (Wrong e') /\ (slashed r = false -> e' = OSError n)).
      { destruct (slashed r) eqn:Sr; [|rewrite (chop_same r Sr) in Lb; exists (OSError n); split; auto; now apply looked_follow].
        exists (OSError n). split; [|easy]. now apply (looked_slash x true r (Wrong (OSError n))). }
      destruct Lr as (e' & Lr & El). apply looked_iff in Lr. unfold samefile. rewrite Hs, Hr, Lr, Eb. cbn [orb answer]. split; [now destruct (plook x true s) as [[]|]|].
      destruct (slashed r); auto. now rewrite El.
Qed.
Lemma dir_not_there x w t q f i u : sound x -> target x u w i t -> ~ taken x i t -> (i = true -> slashed t = false) -> looked x false (chop t) (Is q f) -> is_pdir f = false.
Proof.
  intros So T Nt Sl L. destruct (is_pdir f) eqn:D; auto. exfalso. assert (Lt : looked x true t (Is q f)).
  { destruct (slashed t) eqn:S.
    - assert (X : looked x true t (slashed_place (Is q f))) by (apply looked_slash; auto; intros ? ? [= -> ->]; discriminate). destruct f; try discriminate. exact X.
    - rewrite (chop_same t S) in L. apply looked_follow; auto. intros ? ? [= -> ->]. discriminate. }
  destruct i; [apply Nt; split; eauto|]. inversion T as [|? N P]; subst. apply N. destruct f; try discriminate. exists q, mode, mtime. exists t. auto.
Qed.

Lemma slashed_last s : slashed s = true -> exists r, s = r ++ [cSlash].
Proof.
  intros H. apply slashed_ne in H. assert (C : chopped s (chop s)) by now apply chopped_iff. revert H C. generalize (chop s). intros t N C.
  destruct C as [A|t Nt (b & E & Sb & Ne)]; [easy|]. destruct (exists_last (l := b)) as (b' & c & E'); [intros ->; now rewrite app_nil_r in E|].
  exists (t ++ b'). rewrite E, E', <- app_assoc. f_equal. f_equal. f_equal. apply Sb. rewrite E'. apply in_or_app. right. now left.
Qed.
Lemma joined_named s n : n <> [] -> free_of [cSlash] n -> slashed (path_join s n) = false.
Proof.
  intros N F. destruct (slashed (path_join s n)) eqn:E; auto. exfalso. apply slashed_last in E as [r E].
  assert (X : exists a, path_join s n = a ++ n).
  { unfold path_join. destruct s as [|a s]; [now exists []|]. destruct (N.eqb (last (a :: s) 0%N) cSlash); [now exists (a :: s)|]. exists ((a :: s) ++ [cSlash]). now rewrite <- app_assoc. }
  destruct X as [a X]. rewrite X in E. destruct (exists_last N) as (n' & c & ->). rewrite app_assoc in E. apply app_inj_tail in E as [_ ->].
  apply (F cSlash); [now left|]. apply in_or_app. right. now left.
Qed.
Lemma piece_free s : free_of [cSlash] (last_piece s).
Proof.
  destruct (proj2 (pieces_iff (chop s) _) eq_refl) as (_ & _ & F). apply F. destruct (split_last s) as [l ->]. apply in_or_app. right. now left.
Qed.

Theorem sh_move_run x u v w : sound x -> headed x u v (Ok w) -> leaf_seen x u ->
  moves x u v (fst (sh_move (u_path u) (u_path w) x)) (snd (sh_move (u_path u) (u_path w) x)).
Proof.
  intros So Hd [ND NL]. destruct (isdir_run x w) as (b & Ri & Db). assert (T : target x u w b (aim x u w b)) by now apply target_iff.
  assert (Sh : has_char 0 (u_path u) = false -> ~ taken x b (aim x u w b) ->
    moves x u v (fst (shift (u_path u) (u_path w) (aim x u w b) x)) (snd (shift (u_path u) (u_path w) (aim x u w b) x))).
  { intros Hu Nt. assert (Nu : ~ has_nul u) by (rewrite nul_iff; congruence). destruct (has_char 0 (aim x u w b)) eqn:Ha.
    { unfold shift, os_rename. rewrite Hu, Ha. cbn. apply mo_nul with w b (aim x u w b); auto. right. now apply nul_in. }
    assert (G : goes x u v (aim x u w b)) by (apply go_to with w b; auto; now apply nul_out). destruct (sees_ex x false u) as [o So'].
    destruct o as [p e|i m|e].
    2: { rewrite (shift_absent x u _ _ (Free i m) (OSError ENOENT)); auto; [|now apply ab_free with i m]. cbn. apply mo_absent with (aim x u w b) (Free i m); auto. now apply ab_free with i m. }
    2: { rewrite (shift_absent x u _ _ (Wrong e) e); auto; [|now apply ab_wrong]. cbn. apply mo_absent with (aim x u w b) (Wrong e); auto. now apply ab_wrong. }
    assert (Nd : is_pdir e = false) by (destruct e; auto; destruct (ND p mode mtime); auto).
    assert (Ls : looked x false (u_path u) (Is p e)) by (destruct So' as (s & P & L); apply path_iff in P; now subst).
    pose proof (proj1 (looked_iff _ _ _ _) Ls) as Es. cbn [answer] in Es. destruct (leaf_end _ _ _ _ So Es Nd) as (Ss & Us & Np). pose proof (plook_spot _ _ _ _ _ Es) as Gp.
    assert (St : b = true -> slashed (aim x u w b) = false).
    { intros ->. unfold aim. rewrite sh_base. apply joined_named; [|apply piece_free]. intros E. assert (unnamed (u_path u) = true); [|congruence]. apply unnamed_iff. now left. }
    destruct (plook_ex x false (chop (aim x u w b))) as [o Lo]. assert (Po : put_at x (aim x u w b) o) by now apply put_iff.
    assert (Nb : forall q f, o = Is q f -> is_pdir f = false) by (intros q f ->; now apply (dir_not_there x w (aim x u w b) q f b u)).
    rewrite (shift_leaf x (u_path u) (u_path w) (aim x u w b) p e o); auto.
    2: { intros t ->. destruct (NL p t So'). split; auto. now apply nul_out. }
    assert (Sn : slashed (aim x u w b) = false -> ~ slash_end (aim x u w b)) by (rewrite slash_end_iff; congruence).
    assert (Sy : slashed (aim x u w b) = true -> slash_end (aim x u w b)) by now rewrite slash_end_iff.
    assert (Ek : is_link e /\ is_plink e = true \/ ~ is_link e /\ is_plink e = false).
    { destruct e; cbn; [right|right|left]; split; auto; try (intros [? ?]; discriminate). now exists target. }
    destruct o as [q f|i m|e']; [| |now apply mo_wrong with (aim x u w b) p e].
    - destruct (slashed (aim x u w b)); cbn [fst snd].
      + destruct Ek as [[K ->]|[K ->]]; [now apply mo_slash_link with (aim x u w b) p e q f; auto|]. apply mo_slash_file with (aim x u w b) p e (Is q f); auto. discriminate.
      + destruct (path_eqb p q) eqn:Q; cbn [fst snd].
        * apply path_eqb_spec in Q. subst q. now apply mo_same with (aim x u w b) p e f; auto.
        * assert (p <> q) by (intros ->; rewrite path_eqb_refl in Q; discriminate). apply mo_over with (aim x u w b) p e q f; auto.
          apply looked_spot in Lo. unfold entry_at in Lo. apply carried_prename; auto; [|congruence]. intros f' Gq. assert (f' = f) as -> by congruence. now apply (Nb q).
    - destruct (slashed (aim x u w b)); cbn [fst snd].
      + destruct Ek as [[K ->]|[K ->]]; [now apply mo_slash_free with (aim x u w b) p e i m; auto|]. apply mo_slash_file with (aim x u w b) p e (Free i m); auto. discriminate.
      + apply mo_new with (aim x u w b) p e i m; auto. apply looked_spot in Lo as [Di Gq]. unfold entry_at in Gq. apply carried_prename; auto.
        * intros ->. congruence.
        * congruence.
        * intros _. now exists i, m. }
  unfold sh_move. unfold bind at 1 5. rewrite Ri. destruct (has_char 0 (u_path u)) eqn:Hu.
  { assert (Nu : has_nul u) by now apply nul_iff. assert (Q : forall k, moves x u v (fst (k : res unit * pst)) (snd k) \/ True) by auto. clear Q.
    destruct b; unfold bind, samefile, ret; rewrite ?Hu; cbn [andb orb].
    - apply mo_nul with w true (aim x u w true); auto.
    - unfold os_rename. rewrite Hu. cbn. apply mo_nul with w false (aim x u w false); auto. }
  destruct b.
  - assert (Hw : has_char 0 (u_path w) = false).
    { destruct (proj2 Db eq_refl) as (p & mo & mt & s & P & L). apply path_iff in P. subst s. apply looked_iff in L. unfold plook in L. destruct (has_char 0 (u_path w)); auto. discriminate. }
    unfold bind at 1 4. unfold samefile. rewrite Hu, Hw. cbn [orb].
    assert (Sm : exists same, match plook x true (u_path u), plook x true (u_path w) with Ok (At a _), Ok (At b _) => Ok (path_eqb a b) | _, _ => Ok false end = Ok same /\
      exists sl, (if same then path_islink (u_path u) else ret false) x = (Ok sl, x) /\ same && negb sl = false).
    { destruct (plook x true (u_path u)) as [[a f|]|] eqn:Eu; [|exists false; split; auto; now exists false..].
      destruct (proj2 Db eq_refl) as (p & mo & mt & s & P & L). apply path_iff in P. subst s. apply looked_iff in L. rewrite L. cbn [answer]. exists (path_eqb a p). split; auto.
      destruct (path_eqb a p) eqn:Q; [|now exists false]. apply path_eqb_spec in Q. subst a. destruct (sees_ex x false u) as [o S']. pose proof S' as (s & P & Lo). apply path_iff in P. subst s.
      rewrite (islink_run _ _ _ Lo). eexists. split; [reflexivity|].
      assert (NLo : (exists q t, o = Is q (PLink t)) \/ looked x true (u_path u) o).
      { destruct o as [q []| |]; [right|right|left|right|right]; eauto; now apply looked_follow. }
      destruct NLo as [(q & t & ->)|Lt]; auto. apply looked_iff in Lt. rewrite Eu in Lt. exfalso. destruct o as [q g| |]; try discriminate. cbn in Lt. injection Lt as <- <-.
      apply plook_spot in L, Eu. rewrite L in Eu. injection Eu as <-. now apply (ND p mo mt). }
    destruct Sm as (same & -> & sl & Rs & Q). unfold bind at 1 3. rewrite Rs, Q. destruct (plook_ex x true (aim x u w true)) as [o Lo].
    unfold bind at 1 2. unfold path_exists. change (path_join (u_path w) (sh_basename (u_path u))) with (aim x u w true). rewrite (tests_run _ _ _ _ _ Lo).
    destruct o as [p e|i m|e].
    + cbn. apply mo_taken with w true (aim x u w true); auto; [rewrite nul_iff; congruence|]. split; eauto.
    + apply Sh; auto. intros (_ & p & e & L). pose proof (looked_det _ _ _ _ _ Lo L). discriminate.
    + apply Sh; auto. intros (_ & p & e' & L). pose proof (looked_det _ _ _ _ _ Lo L). discriminate.
  - unfold bind, ret. cbn [andb]. apply Sh; auto. now intros [? _].
Qed.
Theorem moves_run x u v : sound x -> leaf_seen x u -> moves x u v (fst (loc_move u v x)) (snd (loc_move u v x)).
Proof.
  intros So Lf. pose proof (headed_run x u v) as H. unfold loc_move. destruct (isdir_run x u) as (b1 & R1 & D1). destruct (isdir_run x v) as (b2 & R2 & D2).
  unfold loc_isdir in *. unfold bind at 1 in H. unfold bind at 1 4. rewrite R1 in H |- *. unfold bind at 1 in H. unfold bind at 1 3.
  assert (Q : (if b1 then path_isdir (u_path v) else ret false) x = (Ok (b1 && b2), x)) by now destruct b1. rewrite Q in H |- *. unfold bind at 1 2.
  destruct (b1 && b2); [|apply sh_move_run; auto]. unfold lift in *. cbn [fst] in H. destruct (rlet b <- u_basename u; u_div v b) as [w|e].
  - now apply sh_move_run.
  - cbn. now apply mo_not.
Qed.

Lemma carried_alike x y z p q e : carried x y p q e -> carried x z p q e -> alike y z.
Proof.
  intros (A1 & A2 & A3 & A4 & A5 & A6) (B1 & B2 & B3 & B4 & B5 & B6). unfold entry_at in *. split; [|repeat split; congruence]. intros r.
  destruct (list_eq_dec (list_eq_dec N.eq_dec) r q) as [-> |Nq]; [congruence|]. destruct (list_eq_dec (list_eq_dec N.eq_dec) r p) as [-> |Np]; [congruence|]. rewrite A3, B3; auto.
Qed.
Lemma goes_head x u v t w i t' : goes x u v t -> headed x u v (Ok w) -> target x u w i t' -> t' = t /\ ~ has_nul u /\ ~ In 0%N t /\ ~ taken x i t.
Proof.
  intros [w' i' ? H T Nu Nt Tk] H' T'. pose proof (headed_det _ _ _ _ _ H H') as E. injection E as <-. destruct (target_det _ _ _ _ _ _ _ T T') as [<- <-]. auto.
Qed.
Lemma goes_not x u v t e : goes x u v t -> headed x u v (Raise e) -> False.
Proof. intros [w i ? H T _ _ _] H'. pose proof (headed_det _ _ _ _ _ H H'). discriminate. Qed.
Lemma absent_det o e e' : absent o e -> absent o e' -> e = e'.
Proof. intros [d n E|? E] [d' n' E'|? E']; congruence. Qed.
Lemma moves_kinds x u v r x' : moves x u v r x' ->
  (exists t, goes x u v t /\ exists o, sees x false u o /\
     ((exists e, absent o e /\ r = Raise e /\ x' = x) \/
      (exists p e, o = Is p e /\ exists b, put_at x t b /\
        match b with
        | Wrong e' => r = Raise e' /\ x' = x
        | Is q f => slash_end t /\ x' = x /\ (is_link e /\ r = Raise (OSError EEXIST) \/ ~ is_link e /\ r = Raise (OSError EISDIR)) \/
                    ~ slash_end t /\ r = Ok tt /\ (p = q /\ x' = x \/ p <> q /\ carried x x' p q e)
        | Free d n => slash_end t /\ x' = x /\ (is_link e /\ r = Raise (OSError ENOENT) \/ ~ is_link e /\ r = Raise (OSError EISDIR)) \/
                    ~ slash_end t /\ r = Ok tt /\ carried x x' p (d ++ [n]) e
        end))) \/
  (exists w i t, headed x u v (Ok w) /\ target x u w i t /\ x' = x /\
     ((~ has_nul u /\ taken x i t /\ r = Raise ShutilError) \/ ((has_nul u \/ In 0%N t) /\ r = Raise ValueError))) \/
  (exists e, headed x u v (Raise e) /\ x' = x /\ r = Raise e).
Proof.
  intros [t p e d n y G Sn P N C|t p e q f y G Sn P N Ne C|t p e f G Sn P N|t o e G Sn A|t p e e' G Sn P|t p e o G Sn K S P Nw|t p e q f G Sn K S P|t p e d n G Sn K S P|w i t H T Nu Tk|w i t H T Nu|e H].
  - left. exists t. split; auto. exists (Is p e). split; auto. right. exists p, e. split; auto. exists (Free d n). split; [assumption|cbn; tauto].
  - left. exists t. split; auto. exists (Is p e). split; auto. right. exists p, e. split; auto. exists (Is q f). split; [assumption|cbn; tauto].
  - left. exists t. split; auto. exists (Is p e). split; auto. right. exists p, e. split; auto. exists (Is p f). split; [assumption|cbn; tauto].
  - left. exists t. split; auto. exists o. split; auto. left. eauto.
  - left. exists t. split; auto. exists (Is p e). split; auto. right. exists p, e. split; auto. exists (Wrong e'). split; [assumption|cbn; tauto].
  - left. exists t. split; auto. exists (Is p e). split; auto. right. exists p, e. split; auto. exists o. split; auto. destruct o; [left|left|now destruct (Nw e0)]; tauto.
  - left. exists t. split; auto. exists (Is p e). split; auto. right. exists p, e. split; auto. exists (Is q f). split; [assumption|cbn; tauto].
  - left. exists t. split; auto. exists (Is p e). split; auto. right. exists p, e. split; auto. exists (Free d n). split; [assumption|cbn; tauto].
  - right. left. exists w, i, t. auto 10.
  - right. left. exists w, i, t. auto 10.
  - right. right. eauto.
Qed.
Theorem moves_det x u v r x1 r' x2 : moves x u v r x1 -> moves x u v r' x2 -> r = r' /\ alike x1 x2.
Proof.
  intros M1 M2. apply moves_kinds in M1, M2.
  destruct M1 as [(t & G & o & Sn & K)|[(w & i & t & H & T & -> & K)|(e & H & -> & ->)]]; destruct M2 as [(t' & G' & o' & Sn' & K')|[(w' & i' & t' & H' & T' & -> & K')|(e' & H' & -> & ->)]].
  - pose proof (goes_det _ _ _ _ _ G G') as <-. pose proof (sees_det _ _ _ _ _ Sn Sn') as <-. clear G G' Sn Sn'.
    destruct K as [(e & A & -> & ->)|(p & e & E & b & P & K)]; destruct K' as [(e' & A' & -> & ->)|(p' & e' & E' & b' & P' & K')]; subst.
    + rewrite (absent_det _ _ _ A A'). split; auto. apply alike_refl.
    + inversion A; discriminate.
    + inversion A'; discriminate.
    + injection E' as <- <-. pose proof (put_det _ _ _ _ P P') as <-. destruct b as [q f|d n|eb].
      * destruct K as [(S & -> & K)|(S & -> & K)]; destruct K' as [(S' & -> & K')|(S' & -> & K')]; try (now destruct S); try (now destruct S').
        -- split; [|apply alike_refl]. destruct K as [[L ->]|[L ->]], K' as [[L' ->]|[L' ->]]; auto; exfalso; tauto.
        -- split; auto. destruct K as [[Q ->]|[Q C]], K' as [[Q' ->]|[Q' C']]; [apply alike_refl|now destruct Q'|now destruct Q|eapply carried_alike; eauto].
      * destruct K as [(S & -> & K)|(S & -> & C)]; destruct K' as [(S' & -> & K')|(S' & -> & C')]; try (now destruct S); try (now destruct S').
        -- split; [|apply alike_refl]. destruct K as [[L ->]|[L ->]], K' as [[L' ->]|[L' ->]]; auto; exfalso; tauto.
        -- split; auto. eapply carried_alike; eauto.
      * destruct K as [-> ->], K' as [-> ->]. split; auto. apply alike_refl.
  - destruct (goes_head _ _ _ _ _ _ _ G H' T') as (-> & Nu & Nt & Tk). exfalso. tauto.
  - destruct (goes_not _ _ _ _ _ G H').
  - destruct (goes_head _ _ _ _ _ _ _ G' H T) as (-> & Nu & Nt & Tk). exfalso. tauto.
  - pose proof (headed_det _ _ _ _ _ H H') as E. injection E as <-. destruct (target_det _ _ _ _ _ _ _ T T') as [<- <-]. split; [|apply alike_refl].
    assert (X : taken x i t -> In 0%N t -> False). { intros (_ & p & e & L) I. pose proof (looked_det _ _ _ _ _ L (lo_nul x true t I)). discriminate. }
    destruct K as [(N & Tk & ->)|[N ->]], K' as [(N' & Tk' & ->)|[N' ->]]; auto; tauto.
  - pose proof (headed_det _ _ _ _ _ H H'). discriminate.
  - destruct (goes_not _ _ _ _ _ G' H).
  - pose proof (headed_det _ _ _ _ _ H H'). discriminate.
  - pose proof (headed_det _ _ _ _ _ H H') as E. injection E as <-. split; auto. apply alike_refl.
Qed.
