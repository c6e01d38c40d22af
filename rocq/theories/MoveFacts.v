(** Facts about moving: what rename(2) does with a file or link, and that a move that raises changes nothing. *)
From Verif Require Import Str Exc UriParse BaseUri StrFacts SpecUri SpecParse SpecNames NamesFacts Mem Misc Generic Posix Local SpecLocal.
From Coq Require Import Lia.
From Verif Require Import MemFacts7 LocalFacts1 LocalFacts6 LocalFacts12 LocalFacts14 LocalFacts15 SpecPosix PosixFacts PosixFacts2.
Local Notation looked := SpecPosix.looked.

(** ** Ends of paths *)
Lemma chop_same s : slashed s = false -> chop s = s.
Proof. unfold slashed. rewrite negb_false_iff. intros E. now apply str_eqb_eq in E. Qed.
Lemma unnamed_iff s : unnamed s = true <-> special (last_piece s).
Proof. unfold unnamed. rewrite special_iff. unfold ordinary_piece. now rewrite negb_false_iff. Qed.
Lemma split_last s : exists l, split_on cSlash (chop s) = l ++ [last_piece s].
Proof.
  unfold last_piece. assert (N : split_on cSlash (chop s) <> []) by (now destruct (proj2 (pieces_iff (chop s) _) eq_refl)).
  exists (removelast (split_on cSlash (chop s))). now apply app_removelast_last.
Qed.
Lemma looked_dots x f s p e : sound x -> unnamed s = true -> looked x f (chop s) (Is p e) -> is_dir_at x p.
Proof.
  intros So U L. apply unnamed_iff in U. destruct (split_last s) as [l E]. inversion L as [| |n st ps o N1 N2 S B Ln W|]; subst. apply pieces_iff in B.
  eapply walks_dirend with (l := l) (c := last_piece s); [exact So|exact W|congruence|exact U|reflexivity].
Qed.
Lemma walks_notfree x n cur lr o : walks x false n cur lr o -> forall l c d m, lr = l ++ [c] -> special c -> o <> Free d m.
Proof.
  assert (X : forall (a : str) r l c, a :: r = l ++ [c] -> special c -> ~ special a -> exists l', r = l' ++ [c]).
  { intros a r [|b l] c E Sc Na; cbn in E; injection E as -> E; [easy|]. now exists l. }
  assert (Y : forall (a : str) r l c, a :: r = l ++ [c] -> r = [] \/ exists l', r = l' ++ [c]).
  { intros a r [|b l] c E; cbn in E; injection E as -> E; [now left|]. right. now exists l. }
  assert (Z : forall x n cur o, walks x false n cur [] o -> forall d m, o <> Free d m).
  { clear. intros x n cur o W d m ->. inversion W; subst. }
  induction 1 as [cur e E|n cur c l o D C W IH|n cur l o D W IH|cur c D S E|cur c l D S E N|n cur c e l o D S E L W IH
    |cur c t D S E F|cur c l D S E F|n cur c t st ps l o D S E F T B P W IH|cur e l E D N|cur l E]; intros k b d m Q Sb; try discriminate.
  - apply Y in Q as [-> |[k' ->]]; [now apply Z with (1 := W)|now apply (IH k' b)].
  - apply Y in Q as [-> |[k' ->]]; [now apply Z with (1 := W)|now apply (IH k' b)].
  - apply X in Q as [k' Q]; auto. now destruct k'.
  - apply X in Q as [k' ->]; auto. now apply (IH k' b).
  - apply X in Q as [k' ->]; auto. apply (IH (ps ++ k') b); auto. apply app_assoc.
Qed.
Lemma looked_named x s d m : looked x false (chop s) (Free d m) -> unnamed s = false.
Proof.
  intros L. destruct (unnamed s) eqn:U; auto. apply unnamed_iff in U. destruct (split_last s) as [l E]. inversion L as [| |n st ps o N1 N2 S B Ln W|]; subst. apply pieces_iff in B.
  exfalso. now apply (walks_notfree _ _ _ _ _ W l (last_piece s) d m); [congruence| |].
Qed.
Lemma plook_ex x f s : exists o, looked x f s o.
Proof. destruct (answer_onto (plook x f s)) as [o E]. exists o. apply looked_iff. auto. Qed.
Lemma looked_spot x f s o : looked x f s o -> match o with Is p e => entry_at x p (Some e) | Free d n => is_dir_at x d /\ entry_at x (d ++ [n]) None | Wrong _ => True end.
Proof.
  intros L. inversion L as [| |n st ps o' N1 N2 S B Ln W|]; subst; auto. clear -W. induction W; auto.
Qed.
Lemma plook_spot x f s p e : plook x f s = Ok (At p e) -> pget p (p_tree x) = Some e.
Proof. intros E. apply (looked_spot x f s (Is p e)). now apply looked_iff. Qed.
Lemma not_dir x p e : is_pdir e = false -> pget p (p_tree x) = Some e -> ~ is_dir_at x p.
Proof. intros N E (mo & mt & D). rewrite E in D. injection D as ->. discriminate. Qed.
Lemma leaf_end x s p e : sound x -> plook x false s = Ok (At p e) -> is_pdir e = false -> slashed s = false /\ unnamed s = false /\ p <> [].
Proof.
  intros So E N. pose proof (plook_spot _ _ _ _ _ E) as G. pose proof (not_dir _ _ _ N G) as ND. assert (L : looked x false s (Is p e)) by now apply looked_iff.
  assert (S : slashed s = false). { destruct (slashed s) eqn:S; auto. destruct ND. now apply (looked_trailing x false s p e). }
  split; auto. split.
  - destruct (unnamed s) eqn:U; auto. destruct ND. apply (looked_dots x false s p e); auto. now rewrite chop_same.
  - intros ->. destruct (so_root x So) as (mo & mt & R). rewrite R in G. injection G as <-. discriminate.
Qed.
Lemma above_dir x q p e : sound x -> pget p (p_tree x) = Some e -> is_below q p = true -> q <> p -> is_dir_at x q.
Proof.
  intros So G B N. unfold is_below in B. destruct (strip_path q p) as [r|] eqn:E; [|discriminate]. apply strip_path_spec in E. subst p. clear B.
  revert q e G N. induction r as [|c r IH] using rev_ind; intros q e G N; [now rewrite app_nil_r in N|].
  rewrite app_assoc in G. assert (D : is_dir_at x (q ++ r)) by (apply (so_up x So _ c); congruence).
  destruct r as [|b r]; [now rewrite app_nil_r in D|]. destruct D as (mo & mt & D). apply (IH q (PDir mo mt)); auto.
  intros Q. assert (Z : q ++ [] = q ++ b :: r) by now rewrite app_nil_r. apply app_inv_head in Z. discriminate.
Qed.

(** ** rename(2) of something that is no directory *)
Definition renamed (x : pst) (p : list str) (r : str) (b : place) (y : res unit * pst) : Prop :=
  match b with
  | Wrong e => y = (Raise e, x)
  | Free d n => y = if slashed r then (Raise (OSError ENOTDIR), x) else (Ok tt, set_tree x (prename p (d ++ [n]) (p_tree x)))
  | Is q f => if is_pdir f then exists e, y = (Raise (OSError e), x)
              else y = if slashed r then (Raise (OSError ENOTDIR), x) else if path_eqb p q then (Ok tt, x) else (Ok tt, set_tree x (prename p q (p_tree x)))
  end.
Lemma rename_leaf x s r p e b : sound x -> plook x false s = Ok (At p e) -> is_pdir e = false -> has_char 0 s = false -> has_char 0 r = false -> looked x false (chop r) b ->
  renamed x p r b (os_rename s r x).
Proof.
  intros So E Nd Hs Hr Lr. destruct (leaf_end _ _ _ _ So E Nd) as (Ss & Us & Np). pose proof (plook_spot _ _ _ _ _ E) as G.
  unfold os_rename. rewrite Hs, Hr, (chop_same s Ss), E, Us, Ss, Nd. cbn [orb negb andb]. pose proof (proj1 (looked_iff _ _ _ _) Lr) as Er.
  destruct b as [q f|d n|e']; cbn [answer] in Er; rewrite Er; cbn [renamed]; [| |reflexivity].
  - destruct (is_pdir f) eqn:Df.
    + destruct (unnamed r); [eauto|]. destruct (slashed r); [eauto|]. unfold sys_rename. destruct p as [|a p]; [easy|]. destruct q as [|b q]; [eauto|].
      destruct (path_eqb (a :: p) (b :: q)) eqn:Q.
      { apply path_eqb_spec in Q. pose proof (plook_spot _ _ _ _ _ Er) as G'. rewrite Q in G. assert (e = f) as -> by congruence. congruence. }
      rewrite Nd, Df. cbn [andb]. destruct (is_below (b :: q) (a :: p)); eauto.
    + pose proof (plook_spot _ _ _ _ _ Er) as G'. pose proof (not_dir _ _ _ Df G') as ND.
      assert (unnamed r = false) as ->. { destruct (unnamed r) eqn:U; auto. destruct ND. apply (looked_dots x false r q f); auto. }
      destruct (slashed r); auto. unfold sys_rename. destruct p as [|a p]; [easy|]. destruct q as [|b q].
      { destruct (so_root x So) as (mo & mt & R). rewrite R in G'. injection G' as <-. discriminate. }
      destruct (path_eqb (a :: p) (b :: q)) eqn:Q; auto. rewrite Nd, Df. cbn [andb]. destruct (is_below (b :: q) (a :: p)) eqn:B; auto.
      destruct ND. apply (above_dir _ _ _ _ So G B). intros Z. rewrite Z, path_eqb_refl in Q. discriminate.
  - rewrite (looked_named _ _ _ _ Lr). destruct (slashed r); auto. unfold sys_rename. destruct p as [|a p]; [easy|]. now rewrite Nd.
Qed.

(** ** Moves that raise *)
Lemma open_w_raises s x e x' : os_open_w s x = (Raise e, x') -> x' = x.
Proof.
  unfold os_open_w, refuse_slashed, sys_open_w. destruct (slashed s); [congruence|]. destruct (plook x true s) as [[q []|]|]; congruence.
Qed.
Lemma open_w_slash s x : slashed s = true -> exists e, os_open_w s x = (Raise e, x).
Proof. intros S. unfold os_open_w, refuse_slashed. rewrite S. destruct (plook x false (chop s)); eauto. Qed.
(** What cannot be renamed to [r] cannot be copied to [r] either. *)
Lemma open_w_refused x p r b e : renamed x p r b (Raise e, x) -> looked x false (chop r) b -> exists e', os_open_w r x = (Raise e', x).
Proof.
  intros R L. destruct (slashed r) eqn:S; [now apply open_w_slash|]. rewrite (chop_same r S) in L. unfold os_open_w, refuse_slashed. rewrite S. unfold sys_open_w.
  destruct b as [q f|d n|e']; cbn [renamed] in R; [|rewrite S in R; discriminate|].
  - destruct (is_pdir f) eqn:D; [|rewrite S in R; destruct (path_eqb p q); discriminate].
    assert (L' : looked x true r (Is q f)) by (apply looked_follow; auto; intros ? ? [= -> ->]; discriminate).
    apply looked_iff in L'. rewrite L'. cbn [answer]. destruct f; try discriminate. eauto.
  - assert (L' : looked x true r (Wrong e')) by (apply looked_follow; easy). apply looked_iff in L'. rewrite L'. cbn [answer]. eauto.
Qed.
Lemma rename_noun s r x n x' : os_rename s r x = (Raise (OSError n), x') -> has_char 0 s = false /\ has_char 0 r = false.
Proof. unfold os_rename. destruct (has_char 0 s); [discriminate|]. destruct (has_char 0 r); [discriminate|]. auto. Qed.
Lemma looked_unlink x s p e : looked x true s (Is p e) -> (forall q t, ~ looked x false s (Is q (PLink t))) -> looked x false s (Is p e).
Proof.
  intros L NL. destruct (plook_ex x false s) as [o Lo]. assert (Lt : looked x true s o) by (apply looked_follow; auto; intros q t ->; now apply (NL q t)).
  now rewrite (looked_det _ _ _ _ _ L Lt).
Qed.
Lemma islink_run x s o : looked x false s o -> path_islink s x = (Ok (match o with Is _ (PLink _) => true | _ => false end), x).
Proof. intros L. unfold path_islink. rewrite (tests_run _ _ _ _ _ L). destruct o as [p []| |]; auto. Qed.
Lemma file_fallback s r x n e x' : sound x -> os_rename s r x = (Raise (OSError n), x) -> path_islink s x = (Ok false, x) ->
  copy_and_remove_file s r x = (Raise e, x') -> x' = x.
Proof.
  intros So R I H. destruct (rename_noun _ _ _ _ _ R) as [Hs Hr].
  assert (NL : forall q t, ~ looked x false s (Is q (PLink t))) by (intros q t L; rewrite (islink_run _ _ _ L) in I; discriminate).
  unfold copy_and_remove_file in H. unfold bind at 1 in H. unfold samefile in H. rewrite Hs, Hr in H. cbn [orb] in H.
  match type of H with context [match ?m with Ok _ => _ | Raise _ => _ end] => destruct m as [same|] end; [|now injection H as _ <-].
  destruct same; [now injection H as _ <-|].
  unfold bind at 1, os_open_r in H. destruct (plook x true s) as [[p f|d m]|] eqn:E; try (now injection H as _ <-). destruct f as [d mo mt|mo mt|t]; try (now injection H as _ <-).
  assert (Ls : looked x false s (Is p (PFile d mo mt))) by (apply looked_unlink; auto; now apply looked_iff).
  apply looked_iff in Ls. destruct (plook_ex x false (chop r)) as [b Lb].
  pose proof (rename_leaf x s r p _ b So Ls eq_refl Hs Hr Lb) as RL. rewrite R in RL. destruct (open_w_refused _ _ _ _ _ RL Lb) as [e' W].
  unfold bind at 1 in H. rewrite W in H. now injection H as _ <-.
Qed.
Lemma link_fallback x s r n tg : sound x -> os_rename s r x = (Raise (OSError n), x) -> os_readlink s x = (Ok tg, x) -> exists e', os_symlink tg r x = (Raise e', x).
Proof.
  intros So R L. destruct (rename_noun _ _ _ _ _ R) as [Hs Hr]. unfold os_readlink in L. destruct (plook x false s) as [[p f|]|] eqn:E; try discriminate.
  destruct f as [| |tg']; try discriminate. injection L as ->. destruct (plook_ex x false (chop r)) as [b Lb].
  pose proof (rename_leaf x s r p _ b So E eq_refl Hs Hr Lb) as RL. rewrite R in RL. pose proof (proj1 (looked_iff _ _ _ _) Lb) as Er. unfold os_symlink. destruct (slashed r) eqn:S.
  - destruct (has_char 0 tg); [eauto|]. rewrite Er. destruct tg; destruct b as [| |[]]; cbn [answer]; eauto.
  - rewrite (chop_same r S) in Er. unfold sys_symlink. destruct (has_char 0 tg); [eauto|]. rewrite Er. destruct b as [q f|d m|e']; cbn [answer renamed] in *.
    + destruct tg; eauto.
    + rewrite S in RL. discriminate.
    + destruct tg; destruct e'; eauto.
Qed.
Lemma fallback_raises s d r x e x' : sound x ->
  match os_rename s r x with
  | (Raise (OSError _), x') => sh_move_fallback s d r x'
  | r => r
  end = (Raise e, x') -> x' = x.
Proof.
  intros So H. destruct (os_rename s r x) as [[[]|er] y] eqn:R; [discriminate|].
  pose proof (rename_raises _ _ _ _ _ R) as ->. destruct er; try (now injection H as _ <-).
  unfold sh_move_fallback in H. unfold bind at 1 in H. destruct (test_keeps false is_plink s x) as [b1 T1]. unfold path_islink in H. rewrite T1 in H.
  destruct b1 as [[]|]; [| |now injection H as _ <-].
  - unfold bind at 1 in H. destruct (os_readlink s x) as [rl y] eqn:L. assert (y = x) as -> by (unfold os_readlink in L; now injection L as _ <-).
    destruct rl as [tg|]; [|now injection H as _ <-]. destruct (link_fallback _ _ _ _ _ So R L) as [e' Sl].
    unfold bind at 1 in H. rewrite Sl in H. now injection H as _ <-.
  - unfold bind at 1 in H. destruct (test_keeps true is_pdir s x) as [b2 T2]. unfold path_isdir in H. rewrite T2 in H.
    destruct b2 as [[]|]; [|now apply file_fallback with (4 := H) (1 := So) (2 := R)|now injection H as _ <-].
    match type of H with context [if ?c then raise OutOfFuel else _] => destruct c end; [now injection H as _ <-|]. destruct (destinsrc s d); [now injection H as _ <-|].
    destruct (plook x true s) as [[p f|]|]; try (now injection H as _ <-).
    unfold copy_and_remove_tree in H. destruct (make_parents [] _ x) as [[q|e'] y] eqn:M; [destruct (is_below p q); [now injection H as _ <-|discriminate]|]. injection H as _ <-.
    now apply parents_fail in M.
Qed.
Lemma sh_move_raises s d x e x' : sound x -> sh_move s d x = (Raise e, x') -> x' = x.
Proof.
  intros So. unfold sh_move. intros H.
  destruct (test_keeps true is_pdir d x) as [b1 T1]. unfold path_isdir in H.
  unfold bind at 1 in H. rewrite T1 in H. destruct b1 as [dd|]; [|now injection H as _ <-].
  unfold bind at 1 in H.
  destruct dd.
  - unfold samefile at 1 in H. match type of H with context [match ?m with Ok _ => _ | Raise _ => _ end] => destruct m as [same|] end; [|now injection H as _ <-].
    unfold bind at 1 in H. assert (Hl : exists sl, (if same then path_islink s else ret false) x = (sl, x)) by (destruct same; [apply test_keeps|eexists; reflexivity]).
    destruct Hl as [sl Hl]. rewrite Hl in H. destruct sl as [sl|]; [|now injection H as _ <-].
    destruct (same && negb sl); [now apply rename_raises in H|].
    unfold bind at 1 in H. destruct (test_keeps true (fun _ => true) (path_join d (sh_basename s)) x) as [b2 T2]. unfold path_exists in H. rewrite T2 in H.
    destruct b2 as [[]|]; try (now injection H as _ <-).
    now apply fallback_raises in H.
  - unfold ret, bind in H. cbn [andb] in H. now apply fallback_raises in H.
Qed.
Lemma move_raises u v x e x' : sound x -> loc_move u v x = (Raise e, x') -> x' = x.
Proof.
  intros So H. unfold loc_move in H. unfold bind at 1 in H. destruct (test_keeps true is_pdir (u_path u) x) as [b1 T1].
  unfold loc_isdir at 1 in H. unfold path_isdir in H. rewrite T1 in H. destruct b1 as [sd|]; [|now injection H as _ <-].
  unfold bind at 1 in H. assert (Hd : exists dd, (if sd then loc_isdir v else ret false) x = (dd, x)) by (destruct sd; [apply test_keeps|eexists; reflexivity]).
  destruct Hd as [dd Hd]. rewrite Hd in H. destruct dd as [dd|]; [|now injection H as _ <-].
  unfold bind at 1 in H. destruct dd.
  - unfold lift in H. destruct (rlet b <- u_basename u; u_div v b); [|now injection H as _ <-]. now apply sh_move_raises in H.
  - unfold ret in H. now apply sh_move_raises in H.
Qed.
