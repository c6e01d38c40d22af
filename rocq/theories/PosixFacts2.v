(** The rules of SpecPosix.v for operations that change something. *)
From Verif Require Import Str Exc UriParse BaseUri StrFacts SpecUri SpecParse SpecNames NamesFacts Mem Misc Generic Posix Local SpecLocal.
From Coq Require Import Lia Sorted Permutation.
From Verif Require Import MemFacts7 LocalFacts1 LocalFacts12 LocalFacts15 SpecPosix PosixFacts.
Local Notation looked := SpecPosix.looked.

(** ** Following the last link or not *)
Lemma walks_follow x n cur l o : walks x false n cur l o -> (forall p t, o <> Is p (PLink t)) -> walks x true n cur l o.
Proof.
  induction 1 as [cur e E|n cur c l o D C W IH|n cur l o D W IH|cur c D S E|cur c l D S E N|n cur c e l o D S E L W IH
    |cur c t D S E F|cur c l D S E F|n cur c t st ps l o D S E F T B P W IH|cur e l E D N|cur l E]; intros NL.
  - now apply wk_end.
  - apply wk_same; auto.
  - apply wk_up; auto.
  - now apply wk_free.
  - now apply wk_lost.
  - apply wk_in with e; auto.
  - now destruct (NL (cur ++ [c]) t).
  - apply wk_blank; auto.
  - apply wk_link with t st ps; auto.
  - now apply wk_file with e.
  - now apply wk_gone.
Qed.
Lemma walks_unfollow x n cur l o : walks x true n cur l o -> exists m o', (m <= n)%nat /\ walks x false m cur l o'.
Proof.
  induction 1 as [cur e E|n cur c l o D C W IH|n cur l o D W IH|cur c D S E|cur c l D S E N|n cur c e l o D S E L W IH
    |cur c t D S E F|cur c l D S E F|n cur c t st ps l o D S E F T B P W IH|cur e l E D N|cur l E].
  - exists 0, (Is cur e). split; auto. now apply wk_end.
  - destruct IH as (m & o' & L & W'). exists m, o'. split; auto. apply wk_same; auto.
  - destruct IH as (m & o' & L & W'). exists m, o'. split; auto. apply wk_up; auto.
  - exists 0, (Free cur c). split; auto. now apply wk_free.
  - exists 0, (Wrong (OSError ENOENT)). split; auto. now apply wk_lost.
  - destruct IH as (m & o' & Lm & W'). exists m, o'. split; auto. apply wk_in with e; auto.
  - discriminate F.
  - destruct l as [|c2 l].
    + exists 0, (Is (cur ++ [c]) (PLink [])). split; [lia|]. now apply wk_last.
    + exists 1, (Wrong (OSError ENOENT)). split; auto. apply wk_blank; auto. left; discriminate.
  - destruct l as [|c2 l].
    + exists 0, (Is (cur ++ [c]) (PLink t)). split; [lia|]. now apply wk_last.
    + destruct IH as (m & o' & Lm & W'). exists (Datatypes.S m), o'. split; [lia|]. apply wk_link with t st ps; auto. left; discriminate.
  - exists 0, (Wrong (OSError ENOTDIR)). split; auto. now apply wk_file with e.
  - exists 0, (Wrong (OSError ENOENT)). split; auto. now apply wk_gone.
Qed.
Lemma looked_follow x s o : looked x false s o -> (forall p t, o <> Is p (PLink t)) -> looked x true s o.
Proof.
  intros [N| -> |n st ps o' N S B P L W|st ps N S B P L] NL.
  - now apply lo_nul.
  - now apply lo_empty.
  - apply lo_found with n st ps; auto. now apply walks_follow.
  - apply lo_loop with st ps; auto. intros n o2 W. apply walks_unfollow in W as (m & o3 & Lm & W). apply L in W. lia.
Qed.
Lemma sees_follow x u o : sees x false u o -> (forall p t, o <> Is p (PLink t)) -> sees x true u o.
Proof. intros (s & P & L) NL. exists s. split; auto. now apply looked_follow. Qed.

(** ** Entries *)
Lemma sees_spot x f u o : sees x f u o -> match o with Is p e => entry_at x p (Some e) | Free d n => is_dir_at x d /\ entry_at x (d ++ [n]) None | Wrong _ => True end.
Proof. intros H. apply sees_iff in H. destruct o as [p e|d n|e]; auto; apply look_spot in H; exact H. Qed.
Lemma walks_nolink x n cur l o : sound x -> walks x true n cur l o -> forall p t, o = Is p (PLink t) -> l = [] /\ cur = p.
Proof.
  intros So. induction 1 as [cur e E|n cur c l o D C W IH|n cur l o D W IH|cur c D S E|cur c l D S E N|n cur c e l o D S E L W IH
    |cur c t D S E F|cur c l D S E F|n cur c t st ps l o D S E F T B P W IH|cur e l E D N|cur l E]; intros p tg Eo; try discriminate Eo.
  - injection Eo as -> ->. auto.
  - subst. destruct (IH p tg eq_refl) as [-> ->]. exfalso. inversion W as [? ? Ep| | | | | | | | | |]; subst. destruct D as (mo & mt & D). unfold entry_at in *. congruence.
  - subst. destruct (IH p tg eq_refl) as [-> <-]. exfalso. inversion W as [? ? Ep| | | | | | | | | |]; subst. unfold entry_at in *.
    assert (is_dir_at x (removelast cur)) as (mo & mt & Y).
    { destruct cur as [|a cur']; [exact D|]. rewrite (app_removelast_last [] (l := a :: cur')) in D by discriminate. destruct D as (mo & mt & D). apply (so_up x So (removelast (a :: cur')) (last (a :: cur') [])). congruence. }
    congruence.
  - subst. destruct (IH p tg eq_refl) as [-> <-]. exfalso. inversion W as [? ? Ep| | | | | | | | | |]; subst. unfold entry_at in *. rewrite E in Ep. injection Ep as ->. now destruct (L tg).
  - subst. discriminate F.
  - subst. destruct (IH p tg eq_refl) as [Y _]. apply app_eq_nil in Y as [Y _]. destruct P as (P & _). contradiction.
Qed.
(** A path that is followed does not end at a link. *)
Lemma sees_nolink x u p t : sound x -> ~ sees x true u (Is p (PLink t)).
Proof.
  intros So (s & _ & L). inversion L as [| |n st ps o N S B P Ln W|]; subst. destruct (walks_nolink _ _ _ _ _ So W p t eq_refl) as [-> _]. destruct P as (P & _). contradiction.
Qed.
Lemma empty_iff x p : sound x -> is_dir_at x p -> (pchildren p (p_tree x) = [] <-> empty_dir x p).
Proof.
  intros So D. unfold empty_dir, entry_at. split.
  - intros E. split; auto. intros n. destruct (pget (p ++ [n]) (p_tree x)) eqn:G; auto. exfalso.
    assert (I : In n (pchildren p (p_tree x))) by (apply children_get; [apply so_nodup, So|congruence]). rewrite E in I. exact I.
  - intros [_ H]. destruct (pchildren p (p_tree x)) as [|n l] eqn:E; auto. exfalso. assert (I : In n (pchildren p (p_tree x))) by (rewrite E; now left).
    apply children_get in I; [|apply so_nodup, So]. now rewrite H in I.
Qed.
Lemma full_iff x p n l : sound x -> is_dir_at x p -> pchildren p (p_tree x) = n :: l -> full_dir x p.
Proof.
  intros So D E. split; auto. exists n. assert (I : In n (pchildren p (p_tree x))) by (rewrite E; now left).
  apply children_get in I; [|apply so_nodup, So]. unfold entry_at. destruct (pget (p ++ [n]) (p_tree x)) as [e|]; [eauto|congruence].
Qed.


(** ** Ends of paths *)
Lemma drop_spec r : exists a, r = a ++ drop_slashes r /\ slashes a /\ forall b, drop_slashes r <> cSlash :: b.
Proof.
  induction r as [|c r (a & E & S & N)]; [exists []; repeat split; [intros ? []|discriminate]|]. cbn [drop_slashes]. destruct (N.eqb_spec c cSlash) as [->|Nc].
  - exists (cSlash :: a). split; [cbn; now rewrite <- E|]. split; auto. intros d [<-|I]; auto.
  - exists []. split; auto. split; [intros ? []|]. intros b [= -> ->]. congruence.
Qed.
Lemma cut_of p : exists b, p = rev (drop_slashes (rev p)) ++ b /\ slashes b /\ forall r, rev (drop_slashes (rev p)) <> r ++ [cSlash].
Proof.
  destruct (drop_spec (rev p)) as (a & E & S & N). exists (rev a). split; [|split].
  - apply (f_equal (@rev _)) in E. rewrite rev_involutive, rev_app_distr in E. exact E.
  - intros c I. apply S. now apply in_rev.
  - intros r Y. apply (f_equal (@rev _)) in Y. rewrite rev_involutive, rev_unit in Y. now apply N in Y.
Qed.
Lemma cut_one (t t' : str) : forall b b', t ++ b = t' ++ b' -> slashes b -> slashes b' -> (forall r, t <> r ++ [cSlash]) -> (forall r, t' <> r ++ [cSlash]) -> t = t'.
Proof.
  assert (X : forall (t t' : str) b b', t ++ b = t' ++ b' -> slashes b -> (forall r, t' <> r ++ [cSlash]) -> (length t < length t')%nat -> False).
  { clear. intros t t' b b' E S N L. apply app_eq_app in E as (l & [(-> & ->)|(-> & ->)]); [rewrite app_length in L; lia|].
    destruct (snoc_cases l) as [->|(i & c & ->)]; [rewrite app_nil_r in L; lia|]. apply (N (t ++ i)). rewrite <- app_assoc. f_equal. f_equal. f_equal. apply S. apply in_or_app. left. apply in_or_app. right. now left. }
  intros b b' E S S' N N'. destruct (lt_eq_lt_dec (length t) (length t')) as [[L|L]|L].
  - destruct (X _ _ _ _ E S N' L).
  - apply app_eq_app in E as (l & [(-> & ->)|(-> & ->)]); rewrite app_length in L; destruct l; cbn in L; try lia; now rewrite app_nil_r.
  - destruct (X _ _ _ _ (eq_sym E) S' N L).
Qed.
Lemma slashes_snoc (t : str) : slashes t -> t = [] \/ exists r, t = r ++ [cSlash].
Proof. intros S. destruct (snoc_cases t) as [->|(r & c & ->)]; auto. right. exists r. f_equal. f_equal. apply S. apply in_or_app. right. now left. Qed.
Lemma chopped_iff s t : chopped s t <-> chop s = t.
Proof.
  destruct (cut_of s) as (b & E & S & N). unfold chop. set (w := rev (drop_slashes (rev s))) in *. clearbody w. split.
  - intros [A|t' Nt (b' & E' & S' & N')].
    + assert (W : w = []). { destruct (slashes_snoc w) as [|[r ->]]; auto; [intros c I; apply A; rewrite E; apply in_or_app; auto|]. now destruct (N r). }
      now rewrite W.
    + assert (w = t') as -> by (apply (cut_one w t' b b'); auto; exact (eq_trans (eq_sym E) E')). now destruct t'.
  - intros <-. destruct w as [|c w]; [apply ch_all; rewrite E; exact S|]. apply ch_some; [discriminate|]. now exists b.
Qed.
Lemma aims_iff x u o : aims x u o <-> plook x false (chop (u_path u)) = answer o.
Proof.
  split.
  - intros (s & t & P & C & L). apply paths_iff in P. apply chopped_iff in C. subst. now apply looked_iff.
  - intros L. exists (u_path u), (chop (u_path u)). split; [now apply paths_iff|]. split; [now apply chopped_iff|now apply looked_iff].
Qed.
Lemma aims_ex x u : exists o, aims x u o.
Proof. destruct (answer_onto (plook x false (chop (u_path u)))) as [o H]. exists o. now apply aims_iff. Qed.
Lemma aims_det x u o o' : aims x u o -> aims x u o' -> o = o'.
Proof. rewrite !aims_iff. intros. apply answer_inj. congruence. Qed.
Lemma trailing_iff u : trailing u <-> slashed (u_path u) = true.
Proof.
  unfold slashed. rewrite negb_true_iff, str_eqb_neq. split.
  - intros (s & t & P & C & N). apply paths_iff in P. apply chopped_iff in C. congruence.
  - intros N. exists (u_path u), (chop (u_path u)). split; [now apply paths_iff|]. split; [now apply chopped_iff|congruence].
Qed.
Lemma ends_iff u c : ends_in u c <-> last_piece (u_path u) = c.
Proof.
  unfold last_piece. split.
  - intros (s & t & l & P & C & Q). apply paths_iff in P. apply chopped_iff in C. apply pieces_iff in Q. subst. rewrite Q. apply last_last.
  - intros E. exists (u_path u), (chop (u_path u)), (removelast (split_on cSlash (chop (u_path u)))). split; [now apply paths_iff|]. split; [now apply chopped_iff|]. apply pieces_iff.
    rewrite <- E. apply app_removelast_last. apply split_on_nonnil.
Qed.

(** Slashes at the end of a path *)
Definition slashed_place (o : place) : place :=
  match o with Is p (PFile _ _ _) => Wrong (OSError ENOTDIR) | Free _ _ => Wrong (OSError ENOENT) | _ => o end.
Lemma walks_slash x f n cur l o k : walks x false n cur l o -> (forall p t, o <> Is p (PLink t)) -> walks x f n cur (l ++ repeat [] (S k)) (slashed_place o).
Proof.
  assert (Here : forall cur mo mt j, entry_at x cur (Some (PDir mo mt)) -> walks x f 0 cur (repeat [] j) (Is cur (PDir mo mt))).
  { intros cur0 mo mt j E. induction j as [|j IH]; [now apply wk_end|]. cbn [repeat]. apply wk_same; auto. unfold is_dir_at; eauto. }
  induction 1 as [cur e E|n cur c l o D C W IH|n cur l o D W IH|cur c D Sp E|cur c l D Sp E N|n cur c e l o D Sp E L W IH
    |cur c t D Sp E F|cur c l D Sp E F|n cur c t st ps l o D Sp E F T B P W IH|cur e l E D N|cur l E]; intros NL; cbn [app slashed_place].
  - destruct e as [d mo mt|mo mt|t]; [|now apply Here|now destruct (NL cur t)]. apply wk_file with (PFile d mo mt); auto; [|discriminate]. intros (a & b & Y). unfold entry_at in E. congruence.
  - apply wk_same; auto.
  - apply wk_up; auto.
  - apply wk_lost; auto. discriminate.
  - apply wk_lost; auto. now destruct l.
  - apply wk_in with e; auto.
  - now destruct (NL (cur ++ [c]) t).
  - apply wk_blank; auto. left. destruct l; [destruct F as [F|F]; [easy|discriminate]|discriminate].
  - apply wk_link with t st ps; auto; [left; destruct l; [destruct F as [F|F]; [easy|discriminate]|discriminate]|]. rewrite app_assoc. auto.
  - apply wk_file with e; auto. now destruct l.
  - now apply wk_gone.
Qed.
Lemma slashes_repeat b : slashes b -> b = repeat cSlash (length b).
Proof. induction b as [|c b IH]; intros S; [reflexivity|]. cbn [length repeat]. f_equal; [apply S; now left|]. apply IH. intros d I. apply S. now right. Qed.
Lemma split_slashes t k : split_on cSlash (t ++ repeat cSlash k) = split_on cSlash t ++ repeat [] k.
Proof.
  revert t. induction k as [|k IH]; intros t; cbn [repeat]; [now rewrite !app_nil_r|]. change (cSlash :: repeat cSlash k) with ([cSlash] ++ repeat cSlash k).
  rewrite app_assoc, IH, (split_on_gen cSlash t []), <- app_assoc. reflexivity.
Qed.
Lemma walks_prefix x f n cur lr o : walks x f n cur lr o -> forall l r, lr = l ++ r -> exists m o', (m <= n)%nat /\ walks x false m cur l o'.
Proof.
  assert (Nil : forall n cur, exists m o', (m <= n)%nat /\ walks x false m cur [] o').
  { intros n0 cur0. destruct (pget cur0 (p_tree x)) as [e|] eqn:E; [exists 0%nat, (Is cur0 e); split; [lia|now apply wk_end]|exists 0%nat, (Wrong (OSError ENOENT)); split; [lia|now apply wk_gone]]. }
  induction 1 as [cur e E|n cur c l o D C W IH|n cur l o D W IH|cur c D Sp E|cur c l D Sp E N|n cur c e l o D Sp E L W IH
    |cur c t D Sp E F|cur c l D Sp E F|n cur c t st ps l o D Sp E F T B P W IH|cur e l E D N|cur l E]; intros [|c' l'] r Q; try apply Nil; try discriminate Q; cbn [app] in Q; try injection Q as <- Q.
  - destruct (IH l' r Q) as (m & o' & Lm & W'). exists m, o'. split; auto. apply wk_same; auto.
  - destruct (IH l' r Q) as (m & o' & Lm & W'). exists m, o'. split; auto. apply wk_up; auto.
  - symmetry in Q. apply app_eq_nil in Q as [-> _]. exists 0%nat, (Free cur c). split; auto. now apply wk_free.
  - exists 0%nat. destruct l' as [|a l']; [exists (Free cur c); split; auto; now apply wk_free|]. exists (Wrong (OSError ENOENT)). split; auto. apply wk_lost; auto. discriminate.
  - destruct (IH l' r Q) as (m & o' & Lm & W'). exists m, o'. split; auto. apply wk_in with e; auto.
  - symmetry in Q. apply app_eq_nil in Q as [-> _]. exists 0%nat, (Is (cur ++ [c]) (PLink t)). split; auto. now apply wk_last.
  - destruct l' as [|a l']; [exists 0%nat, (Is (cur ++ [c]) (PLink [])); split; [lia|now apply wk_last]|]. exists 1%nat, (Wrong (OSError ENOENT)). split; auto. apply wk_blank; auto. left; discriminate.
  - destruct l' as [|a l']; [exists 0%nat, (Is (cur ++ [c]) (PLink t)); split; [lia|now apply wk_last]|]. destruct (IH (ps ++ a :: l') r) as (m & o' & Lm & W'); [rewrite Q, <- app_assoc; reflexivity|].
    exists (S m), o'. split; [lia|]. apply wk_link with t st ps; auto. left; discriminate.
  - exists 0%nat, (Wrong (OSError ENOTDIR)). split; auto. apply wk_file with e; auto. discriminate.
  - exists 0%nat, (Wrong (OSError ENOENT)). split; auto. now apply wk_gone.
Qed.
(** A path with slashes at its end leads to the directory named without them, or fails. *)
Lemma slashed_ne s : slashed s = true <-> s <> chop s.
Proof. unfold slashed. rewrite negb_true_iff, str_eqb_neq. split; congruence. Qed.
Lemma looked_slash x f s o : slashed s = true -> looked x false (chop s) o -> (forall p t, o <> Is p (PLink t)) -> looked x f s (slashed_place o).
Proof.
  intros T L NL. apply slashed_ne in T. assert (C : chopped s (chop s)) by now apply chopped_iff. revert T L C. generalize (chop s). intros t Cs L C.
  destruct C as [A|t Nt (b & E & Sb & Ne)]; [easy|]. destruct b as [|a b]; [now rewrite app_nil_r in E|].
  assert (E' : s = t ++ repeat cSlash (S (length b))) by (rewrite E; f_equal; exact (slashes_repeat (a :: b) Sb)).
  assert (Hn : In 0%N s <-> In 0%N t).
  { rewrite E', in_app_iff. split; auto. intros [|I]; auto. apply repeat_spec in I. discriminate. }
  assert (Ns : s <> []) by (rewrite E; now destruct t).
  assert (Ps : forall ps, pieces t ps -> pieces s (ps ++ repeat [] (S (length b)))).
  { intros ps Q. apply pieces_iff in Q. apply pieces_iff. rewrite E', split_slashes. now rewrite Q. }
  assert (St : forall c st, starts c t st -> starts c s st).
  { intros c0 st [r ->|N]; [now apply sr_root with (r ++ a :: b)|]. apply sr_here. intros r Y. rewrite E in Y. destruct t as [|d t]; [easy|]. injection Y as -> Y. now destruct (N t). }
  destruct L as [N| -> |n st ps o N Nt' S B Ln W|st ps N Nt' S B Ln].
  - apply lo_nul. now apply Hn.
  - easy.
  - eapply lo_found; [now rewrite Hn|auto|apply St; exact S|apply Ps; exact B|exact Ln|]. now apply walks_slash.
  - cbn [slashed_place]. eapply lo_loop; [now rewrite Hn|auto|apply St; exact S|apply Ps; exact B|]. intros n o W. apply walks_prefix with (l := ps) (r := repeat [] (Datatypes.S (length b))) in W as (m & o' & Lm & W); auto. apply Ln in W. lia.
Qed.
Lemma aims_slash x f u o : trailing u -> aims x u o -> (forall p t, o <> Is p (PLink t)) -> sees x f u (slashed_place o).
Proof.
  intros T (s & t & P & C & L) NL. exists s. split; auto. apply chopped_iff in C. subst t. apply looked_slash; auto. apply trailing_iff in T. apply paths_iff in P. now rewrite P in T.
Qed.
Lemma aims_plain x u o : ~ trailing u -> aims x u o <-> sees x false u o.
Proof.
  intros N. rewrite aims_iff, sees_iff. rewrite trailing_iff in N. unfold slashed in N. destruct (str_eqb (chop (u_path u)) (u_path u)) eqn:E; [|now destruct N].
  apply str_eqb_eq in E. now rewrite E.
Qed.
Lemma trailing_dec u : trailing u \/ ~ trailing u.
Proof. rewrite trailing_iff. destruct (slashed (u_path u)); [now left|now right]. Qed.
Lemma not_slashed u : ~ trailing u -> slashed (u_path u) = false.
Proof. rewrite trailing_iff. now destruct (slashed (u_path u)). Qed.
Lemma sound_up x cur : sound x -> is_dir_at x cur -> is_dir_at x (removelast cur).
Proof.
  intros So D. destruct cur as [|a cur']; [exact D|]. rewrite (app_removelast_last [] (l := a :: cur')) in D by discriminate. destruct D as (mo & mt & D).
  apply (so_up x So (removelast (a :: cur')) (last (a :: cur') [])). congruence.
Qed.
(** A path that ends in a slash, "." or ".." leads to a directory if anywhere. *)
Lemma walks_dirend x f n cur lr o : sound x -> walks x f n cur lr o -> forall l c p e, lr = l ++ [c] -> special c -> o = Is p e -> is_dir_at x p.
Proof.
  intros So. induction 1 as [cur e E|n cur c l o D C W IH|n cur l o D W IH|cur c D Sp E|cur c l D Sp E N|n cur c e l o D Sp E L W IH
    |cur c t D Sp E F|cur c l D Sp E F|n cur c t st ps l o D Sp E F T B P W IH|cur e l E D N|cur l E]; intros [|c' l'] c0 p0 e0 Q Sc Eo; try discriminate Q; try discriminate Eo; cbn [app] in Q; try injection Q as <- Q.
  - subst l o. inversion W; subst; auto; congruence.
  - eapply IH; eauto.
  - subst l o. inversion W; subst; try congruence; now apply sound_up.
  - eapply IH; eauto.
  - now destruct Sp.
  - eapply IH; eauto.
  - injection Q as ->. now destruct Sp.
  - destruct l'; discriminate.
  - now destruct Sp.
  - apply (IH (ps ++ l') c0 p0 e0); auto. rewrite Q. apply app_assoc.
Qed.
Lemma looked_trailing x f s p e : sound x -> slashed s = true -> looked x f s (Is p e) -> is_dir_at x p.
Proof.
  intros So T L. apply slashed_ne in T. assert (C : chopped s (chop s)) by now apply chopped_iff. revert T C. generalize (chop s). intros t N C.
  destruct C as [A|t Nt (b & E & Sb & Ne)]; [easy|]. destruct b as [|a b]; [now rewrite app_nil_r in E|].
  assert (E' : s = t ++ repeat cSlash (S (length b))) by (rewrite E; f_equal; exact (slashes_repeat (a :: b) Sb)).
  clear E. inversion L as [| |n st ps o N1 N2 S B Ln W|]; subst. apply pieces_iff in B. rewrite split_slashes in B.
  eapply walks_dirend with (l := split_on cSlash t ++ repeat [] (length b)) (c := []); [exact So|exact W| |now left|reflexivity]. rewrite <- B, <- app_assoc. f_equal. exact (repeat_cons (length b) []).
Qed.
Lemma sees_trailing x f u p e : sound x -> trailing u -> sees x f u (Is p e) -> is_dir_at x p.
Proof.
  intros So T (s & P & L). apply looked_trailing with f s e; auto. apply trailing_iff in T. apply paths_iff in P. now rewrite P in T.
Qed.
Lemma aims_dots x u c p e : sound x -> ends_in u c -> special c -> aims x u (Is p e) -> is_dir_at x p.
Proof.
  intros So (s & t & l & P & C & Q) Sc (s' & t' & P' & C' & L). apply paths_iff in P, P'. apply chopped_iff in C, C'. subst. subst.
  inversion L as [| |n st ps o N1 N2 S B Ln W|]; subst. apply pieces_iff in B, Q. eapply walks_dirend; [exact So|exact W| |exact Sc|reflexivity]. exact (eq_trans (eq_sym B) Q).
Qed.

(** ** The operations *)
Lemma looked_err x f s e : looked x f s (Wrong e) -> e = ValueError \/ exists n, e = OSError n.
Proof.
  intros L. inversion L as [| |n st ps o N S B P Ln W|]; subst; eauto. right. clear -W. remember (Wrong e) as o. induction W; subst; try discriminate; eauto; try (injection Heqo as <-; eauto).
Qed.
Lemma tests_run x f g s o : looked x f s o -> os_test f g s x = (Ok (match o with Is _ e => g e | _ => false end), x).
Proof.
  intros H. pose proof H as H'. apply looked_iff in H'. unfold os_test, os_stat. rewrite H'. destruct o as [p e|d n|e]; cbn [answer]; auto. destruct (looked_err _ _ _ _ H) as [-> |[n ->]]; reflexivity.
Qed.
Lemma test_run x f g u o : sees x f u o -> os_test f g (u_path u) x = (Ok (match o with Is _ e => g e | _ => false end), x).
Proof. intros (s & P & L). apply paths_iff in P. subst s. now apply tests_run. Qed.
Lemma looked_det x f s o o' : looked x f s o -> looked x f s o' -> o = o'.
Proof. rewrite !looked_iff. intros A B. apply answer_inj. congruence. Qed.

Theorem removes_run x u fuel : sound x -> u_cls u = ULocal -> removes x u (fst (u_remove loc_backend fuel false u x)) (snd (u_remove loc_backend fuel false u x)).
Proof.
  intros So Lu. destruct (sees_ex x false u) as [o H]. pose proof (sees_spot _ _ _ _ H) as Sp. pose proof H as H'. apply sees_iff in H'.
  unfold u_remove, hooked, bind. cbn [loc_backend b_hook b_islink b_exists b_isdir b_isfile b_removefile b_removedir].
  unfold ret, loc_islink, loc_exists, loc_isdir, loc_isfile, loc_removefile, loc_removedir, path_islink, path_exists, path_isdir, path_isfile. unfold bind.
  rewrite (test_run _ _ _ _ _ H). assert (Cl : lift (u_str u) x = (Ok (u_path u), x)) by (unfold u_str; now rewrite Lu).
  assert (Go : (forall p t, o <> Is p (PLink t)) -> sees x true u o) by (intros; now apply sees_follow).
  assert (Un : forall p e, o = Is p e -> (forall mo mt, e <> PDir mo mt) -> removes x u (fst (os_unlink (u_path u) x)) (snd (os_unlink (u_path u) x))).
  { intros p e -> Ne. unfold os_unlink. rewrite not_slashed.
    - unfold sys_unlink. rewrite H'. cbn [answer]. destruct e as [da mo mt|mo mt|t]; [|now destruct (Ne mo mt)|]; eapply rv_entry; try exact H; try discriminate; apply only_del.
    - intros T. destruct (sees_trailing x false u p e So T H) as (mo & mt & D). apply (Ne mo mt). unfold entry_at in Sp. congruence. }
  destruct o as [p e|d n|e].
  - destruct e as [da mo mt|mo mt|t]; cbn [is_plink].
    + repeat (rewrite (test_run _ _ _ _ _ (Go ltac:(congruence))); cbn [negb is_pdir is_pfile]; cbv beta iota). eapply Un; [reflexivity|discriminate].
    + repeat (rewrite (test_run _ _ _ _ _ (Go ltac:(congruence))); cbn [negb is_pdir is_pfile]; cbv beta iota). unfold loc_islink, path_islink. rewrite (test_run _ _ _ _ _ H). cbn [is_plink].
      assert (D : is_dir_at x p) by (unfold is_dir_at; eauto). unfold os_rmdir. destruct (aims_ex x u) as [o' A]. pose proof A as A'. apply aims_iff in A'. rewrite A'.
      assert (Q : (exists q t, o' = Is q (PLink t)) \/ o' = Is p (PDir mo mt)).
      { destruct (trailing_dec u) as [T|T].
        - assert (X : (exists q t, o' = Is q (PLink t)) \/ forall q t, o' <> Is q (PLink t)) by (destruct o' as [q [| |t]| |]; eauto; right; discriminate).
          destruct X as [X|X]; auto. right. pose proof (aims_slash x false u o' T A X) as Y. pose proof (sees_det _ _ _ _ _ Y H) as Z. destruct o' as [q []| |]; cbn in Z; try discriminate; auto.
        - right. apply aims_plain in A; auto. exact (sees_det _ _ _ _ _ A H). }
      assert (EI : str_eqb (last_piece (u_path u)) dot = true \/ ~ ends_in u (lit ".")) by (rewrite ends_iff; destruct (str_eqb (last_piece (u_path u)) dot) eqn:Z; auto; right; now apply str_eqb_neq).
      assert (EI' : str_eqb (last_piece (u_path u)) dotdot = true \/ ~ ends_in u (lit "..")) by (rewrite ends_iff; destruct (str_eqb (last_piece (u_path u)) dotdot) eqn:Z; auto; right; now apply str_eqb_neq).
      destruct EI as [EI|EI].
      { destruct Q as [(q & t & ->)| ->]; cbn [answer]; rewrite EI; cbn [fst snd]; (eapply rv_dot; [exact H|]); now apply ends_iff, str_eqb_eq. }
      assert (E1 : str_eqb (last_piece (u_path u)) dot = false) by (apply str_eqb_neq; now rewrite ends_iff in EI).
      destruct EI' as [EI'|EI'].
      { destruct Q as [(q & t & ->)| ->]; cbn [answer]; rewrite E1, EI'; cbn [fst snd]; (eapply rv_dots; [exact H|]); now apply ends_iff, str_eqb_eq. }
      assert (E2 : str_eqb (last_piece (u_path u)) dotdot = false) by (apply str_eqb_neq; now rewrite ends_iff in EI').
      unfold sys_rmdir. rewrite A'. destruct Q as [(q & t & ->)| ->]; cbn [answer]; rewrite E1, E2.
      * destruct q as [|a q]; [|eapply rv_link; [exact H|exact A]]. exfalso. apply look_spot in A'. destruct (so_root x So) as (? & ? & R). cbn in A'. congruence.
      * destruct p as [|a p]; [eapply rv_root; eauto|].
        destruct (pchildren (a :: p) (p_tree x)) as [|n l] eqn:C; cbn [fst snd].
        -- eapply rv_dir; [exact EI|exact EI'|exact A|now apply empty_iff|discriminate|apply only_del].
        -- eapply rv_full; [exact EI|exact EI'|exact A|now apply full_iff with n l|discriminate].
    + eapply Un; [reflexivity|discriminate].
  - repeat (rewrite (test_run _ _ _ _ _ (Go ltac:(congruence))); cbn [negb]; cbv beta iota). rewrite Cl. cbn [raise fst snd]. eapply rv_none; [exact H|now eapply ab_free].
  - repeat (rewrite (test_run _ _ _ _ _ (Go ltac:(congruence))); cbn [negb]; cbv beta iota). rewrite Cl. cbn [raise fst snd]. eapply rv_none; [exact H|now eapply ab_wrong].
Qed.
Theorem mkdirs_run x u : mkdirs x u (fst (u_mkdir loc_backend u x)) (snd (u_mkdir loc_backend u x)).
Proof.
  unfold u_mkdir, hooked, bind. cbn [loc_backend b_hook b_mkdir]. unfold ret, loc_mkdir. destruct (u_path u) as [|a t] eqn:E.
  - apply mi_blank. now apply paths_iff.
  - assert (N : ~ paths u []) by (rewrite paths_iff; congruence). rewrite <- E. unfold os_mkdir, sys_mkdir. destruct (aims_ex x u) as [o H]. pose proof H as H'. apply aims_iff in H'. rewrite H'.
    destruct o as [p e|d n|e]; cbn [answer fst snd]; [eapply mi_taken; eauto|eapply mi_new; eauto; apply only_set|now apply mi_wrong].
Qed.
Lemma nul_iff u : has_nul u <-> has_char 0 (u_path u) = true.
Proof.
  rewrite has_char_In. split; [intros (s & P & I); apply paths_iff in P; now subst|]. intros I. exists (u_path u). split; auto. now apply paths_iff.
Qed.
Lemma chop_nul s : has_char 0 (chop s) = has_char 0 s.
Proof.
  destruct (proj2 (chopped_iff s (chop s)) eq_refl) as [A|t Nt (b & E & Sb & Ne)]; auto. apply eq_true_iff_eq. rewrite !has_char_In, E, in_app_iff. split; auto. intros [|I]; auto. apply Sb in I. discriminate.
Qed.
Lemma nul_aims x u : has_nul u -> aims x u (Wrong ValueError).
Proof. rewrite nul_iff, aims_iff. intros H. unfold plook. now rewrite chop_nul, H. Qed.
Lemma aims_nul x u : aims x u (Wrong ValueError) -> has_nul u.
Proof.
  intros (s & t & P & C & L). rewrite nul_iff, has_char_In. apply paths_iff in P. subst s. apply chopped_iff in C. subst t. apply has_char_In. rewrite <- chop_nul. apply has_char_In.
  inversion L as [| |n st ps o N S B Ps Ln W|]; subst; auto. exfalso. remember (Wrong ValueError) as o. clear -W Heqo. induction W; subst; try discriminate; auto.
Qed.
Theorem links_run x u v : links x u v (fst (loc_symlink u v x)) (snd (loc_symlink u v x)).
Proof.
  unfold loc_symlink, os_symlink, sys_symlink. destruct (aims_ex x v) as [o H].
  assert (Hu : has_nul u \/ ~ has_nul u) by (rewrite nul_iff; destruct (has_char 0 (u_path u)); auto; now right).
  destruct Hu as [Hu|Hu]; [pose proof Hu as Hu'; apply nul_iff in Hu'; rewrite Hu'; destruct (slashed (u_path v)); apply li_nul; auto|].
  assert (Hu' : has_char 0 (u_path u) = false) by (destruct (has_char 0 (u_path u)) eqn:Z; auto; destruct Hu; now apply nul_iff). rewrite Hu'.
  assert (Hv : has_nul v \/ ~ has_nul v) by (rewrite nul_iff; destruct (has_char 0 (u_path v)); auto; now right).
  destruct Hv as [Hv|Hv].
  { assert (o = Wrong ValueError) as -> by (eapply aims_det; [exact H|now apply nul_aims]). pose proof H as H'. apply aims_iff in H'. destruct (trailing_dec v) as [T|T].
    - pose proof T as T'. apply trailing_iff in T'. rewrite T', H'. cbn [answer]. destruct (u_path u); apply li_nul; auto.
    - rewrite not_slashed by auto. apply aims_plain in H; auto. apply sees_iff in H. rewrite H. destruct (u_path u); apply li_nul; auto. }
  assert (Nw : o <> Wrong ValueError) by (intros ->; apply Hv; now apply aims_nul in H).
  destruct (u_path u) as [|a t] eqn:E.
  { assert (P : paths u []) by now apply paths_iff. pose proof (li_blank x u v P Hv) as G. pose proof H as H'. apply aims_iff in H'. destruct (trailing_dec v) as [T|T].
    - pose proof T as T'. apply trailing_iff in T'. rewrite T', H'. destruct o as [| |[]]; cbn [answer fst snd]; try exact G. congruence.
    - rewrite not_slashed by auto. apply aims_plain in H; auto. apply sees_iff in H. rewrite H. destruct o as [| |[]]; cbn [answer fst snd]; try exact G. congruence. }
  assert (N0 : ~ paths u []) by (rewrite paths_iff; congruence).
  destruct (trailing_dec v) as [T|T].
  - pose proof H as H'. apply aims_iff in H'. pose proof T as T'. apply trailing_iff in T'. rewrite T', H'. destruct o as [p e|d n|e]; cbn [answer fst snd].
    + eapply li_taken; eauto.
    + eapply li_slash; eauto.
    + destruct e; cbn [fst snd]; eapply li_wrong; eauto.
  - rewrite not_slashed by auto. pose proof H as H'. apply aims_plain in H'; auto. apply sees_iff in H'. rewrite H'. destruct o as [p e|d n|e]; cbn [answer fst snd].
    + eapply li_taken; eauto.
    + eapply li_new; eauto; [apply paths_iff; exact E|discriminate|apply only_set].
    + destruct e; cbn [fst snd]; eapply li_wrong; eauto.
Qed.
Lemma set_append x p d mo mt b : pget p (p_tree x) = Some (PFile d mo mt) -> only x (snd (fd_append p b x)) p (Some (PFile (d ++ b) mo (match b with [] => mt | _ => p_now x end))).
Proof.
  intros E. unfold fd_append. cbn [snd]. rewrite E. destruct b; [|apply only_set]. rewrite app_nil_r, <- E. apply only_same.
Qed.

(** Opening: the same cases for both modes *)
Lemma opening x u : sound x ->
  (exists p d mo mt, opens x u p (Some (PFile d mo mt)) /\ slashed (u_path u) = false /\ plook x true (u_path u) = Ok (At p (PFile d mo mt)) /\ pget p (p_tree x) = Some (PFile d mo mt)) \/
  (exists d n, opens x u (d ++ [n]) None /\ slashed (u_path u) = false /\ plook x true (u_path u) = Ok (Gap d n)) \/
  (exists e, refused x u e /\ os_open_w (u_path u) x = (Raise e, x) /\ os_open_a (u_path u) x = (Raise e, x)).
Proof.
  intros So. unfold os_open_w, os_open_a, refuse_slashed, sys_open_w, sys_open_a. destruct (trailing_dec u) as [T|T].
  - right. right. destruct (aims_ex x u) as [o H]. pose proof H as H'. apply aims_iff in H'. pose proof T as T'. apply trailing_iff in T'. rewrite T', H'.
    destruct o as [p e|d n|e]; cbn [answer]; eexists; (split; [|split; reflexivity]); [eapply rf_slash; eauto; discriminate|eapply rf_slash; eauto; discriminate|now apply rf_lost].
  - rewrite (not_slashed u T). destruct (sees_ex x true u) as [o H]. pose proof (sees_spot _ _ _ _ H) as Sp. pose proof H as H'. apply sees_iff in H'. rewrite H'.
    destruct o as [p e|d n|e]; cbn [answer]; [destruct e as [da mo mt|mo mt|t]| |].
    + left. exists p, da, mo, mt. split; [now apply op_file|auto].
    + right. right. eexists. split; [|split; reflexivity]. eapply rf_dir; eauto.
    + destruct (sees_nolink x u p t So H).
    + right. left. exists d, n. split; [now apply op_new|auto].
    + right. right. eexists. split; [|split; reflexivity]. now apply rf_wrong.
Qed.
Lemma put_over x p mo b : only x (snd (fd_append p b (set_tree x (pset p (PFile [] mo (p_now x)) (p_tree x))))) p (Some (PFile b mo (p_now x))).
Proof.
  eapply only_trans; [exact (only_set x p (PFile [] mo (p_now x)))|]. pose proof (set_append (set_tree x (pset p (PFile [] mo (p_now x)) (p_tree x))) p [] mo (p_now x) b) as Y.
  cbn [p_tree set_tree] in Y. rewrite pget_pset, path_eqb_refl in Y. specialize (Y eq_refl). destruct b; exact Y.
Qed.
Theorem writes_run x u ds : sound x -> writes x u ds (fst (loc_write_all u ds x)) (snd (loc_write_all u ds x)).
Proof.
  intros So. unfold loc_write_all, bind. destruct (opening x u So) as [(p & d & mo & mt & O & S & L & E)|[(d & n & O & S & L)|(e & R & W & _)]].
  - unfold os_open_w, refuse_slashed, sys_open_w. rewrite S, L. eapply wr_over; [exact O|apply put_over].
  - unfold os_open_w, refuse_slashed, sys_open_w. rewrite S, L. eapply wr_new; [exact O|apply put_over].
  - rewrite W. now apply wr_not.
Qed.
Theorem appends_run x u ds : sound x -> appends x u ds (fst (loc_append_all u ds x)) (snd (loc_append_all u ds x)).
Proof.
  intros So. unfold loc_append_all, bind. destruct (opening x u So) as [(p & d & mo & mt & O & S & L & E)|[(d & n & O & S & L)|(e & R & _ & W)]].
  - unfold os_open_a, refuse_slashed, sys_open_a. rewrite S, L. pose proof (set_append x p d mo mt (concat ds) E) as Y. destruct (concat ds) as [|c cs] eqn:C.
    + replace (snd (fd_append p [] x)) with x by (unfold fd_append; cbn [snd]; now destruct (pget p (p_tree x)) as [[]|]). eapply ap_none; eauto.
    + eapply ap_more; [exact O|rewrite C; discriminate|]. rewrite C. exact Y.
  - unfold os_open_a, refuse_slashed, sys_open_a. rewrite S, L. eapply ap_new; [exact O|apply put_over].
  - rewrite W. now apply ap_not.
Qed.
Theorem reexecs_run x u mode : sound x -> reexecs x u mode (fst (loc_set_exec u mode x)) (snd (loc_set_exec u mode x)).
Proof.
  intros So. unfold loc_set_exec, loc_info, loc_set_mode, loc_islink, path_islink, bind. destruct (sees_ex x false u) as [o0 H0]. rewrite (test_run _ _ _ _ _ H0).
  rewrite andb_false_r. cbn [negb]. unfold os_stat. destruct (sees_ex x true u) as [o H]. pose proof (sees_spot _ _ _ _ H) as Sp. pose proof H as H'. apply sees_iff in H'. rewrite H'.
  destruct o as [p e|d n|e]; cbn [answer].
  - unfold ret. rewrite (test_run _ _ _ _ _ H0). unfold os_chmod. rewrite H'. cbn [answer fst snd i_mode].
    eapply re_entry; [exact H|]. destruct e; apply only_set.
  - eapply re_absent; [exact H|now eapply ab_free].
  - eapply re_absent; [exact H|now eapply ab_wrong].
Qed.

(** ** Looking *)
Theorem reads_run x u : sound x -> exists r, loc_read_all u x = (r, x) /\ reads x u r.
Proof.
  intros So. unfold loc_read_all, bind, os_open_r, fd_data. destruct (sees_ex x true u) as [o H]. pose proof (sees_spot _ _ _ _ H) as Sp. pose proof H as H'. apply sees_iff in H'. rewrite H'.
  destruct o as [p e|d n|e]; cbn [answer]; [destruct e as [da mo mt|mo mt|t]| |]; eexists; (split; [reflexivity|]).
  - cbn in Sp. unfold entry_at in Sp. rewrite Sp. eapply rd_file; eauto.
  - eapply rd_dir; eauto.
  - destruct (sees_nolink x u p t So H).
  - eapply rd_absent; [exact H|now eapply ab_free].
  - eapply rd_absent; [exact H|now eapply ab_wrong].
Qed.
Theorem lists_run x u : sound x -> exists r, loc_listdir u x = (r, x) /\ lists x u r.
Proof.
  intros So. unfold loc_listdir, bind, os_listdir. destruct (sees_ex x true u) as [o H]. pose proof H as H'. apply sees_iff in H'. rewrite H'.
  destruct o as [p e|d n|e]; cbn [answer]; [destruct e as [da mo mt|mo mt|t]| |]; eexists; (split; [reflexivity|]).
  - eapply ls_file; [exact H|discriminate].
  - eapply ls_dir; [exact H|apply sort_strict, children_nodup, So|]. intros n. rewrite sort_In, children_get by apply So. unfold entry_at. destruct (pget (p ++ [n]) (p_tree x)); split; try easy; eauto. now intros [? ?].
  - eapply ls_file; [exact H|discriminate].
  - eapply ls_absent; [exact H|now eapply ab_free].
  - eapply ls_absent; [exact H|now eapply ab_wrong].
Qed.
Theorem leads_run x u : exists r, loc_readlink u x = (r, x) /\ leads x u r.
Proof.
  unfold loc_readlink, bind, os_readlink. destruct (sees_ex x false u) as [o H]. pose proof H as H'. apply sees_iff in H'. rewrite H'.
  destruct o as [p e|d n|e]; cbn [answer]; [destruct e as [da mo mt|mo mt|t]| |]; eexists; (split; [reflexivity|]).
  - eapply le_other; [exact H|discriminate].
  - eapply le_other; [exact H|discriminate].
  - eapply le_link; [exact H|]. apply ParseFacts4.made_iff. reflexivity.
  - eapply le_absent; [exact H|now eapply ab_free].
  - eapply le_absent; [exact H|now eapply ab_wrong].
Qed.
Theorem informs_run x f u : exists r, loc_info u f x = (r, x) /\ informs x f u r.
Proof.
  unfold loc_info, loc_islink, path_islink, bind. destruct (sees_ex x false u) as [o0 H0]. rewrite (test_run _ _ _ _ _ H0).
  assert (Q : exists o, sees x f u o /\ plook x (negb (match o0 with Is _ e => is_plink e | _ => false end && negb f)) (u_path u) = answer o).
  { destruct f; [rewrite andb_false_r; destruct (sees_ex x true u) as [o H]; exists o; split; auto; now apply sees_iff|]. rewrite andb_true_r. exists o0. split; auto.
    destruct o0 as [p [| |t]|d n|e]; cbn [is_plink negb]; apply sees_iff; auto; apply sees_follow; auto; discriminate. }
  destruct Q as (o & H & L). unfold os_stat. rewrite L. destruct o as [p e|d n|e]; cbn [answer]; eexists; (split; [reflexivity|]).
  - pose proof (if_entry x f u p e H) as I. destruct e; exact I.
  - eapply if_absent; [exact H|now eapply ab_free].
  - eapply if_absent; [exact H|now eapply ab_wrong].
Qed.

(** ** The rules determine the outcome *)
Lemma only_alike x y z p o : only x y p o -> only x z p o -> alike y z.
Proof.
  intros (A & B & C & D & E) (A' & B' & C' & D' & E'). split; [|repeat split; congruence]. intros q. destruct (list_eq_dec str_eq_dec q p) as [->|N]; [congruence|]. now rewrite B, B'.
Qed.
Lemma alike_refl x : alike x x. Proof. repeat split. Qed.
