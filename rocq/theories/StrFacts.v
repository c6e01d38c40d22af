(** Facts about the text functions of [Str.v]. *)
From Verif Require Import Str.
From Coq Require Import Sorting.Permutation Sorting.Sorted.

Lemma str_eqb_eq a b : str_eqb a b = true <-> a = b.
Proof.
  revert b; induction a as [|x a IH]; destruct b as [|y b]; simpl; try (split; congruence).
  rewrite andb_true_iff, N.eqb_eq, IH. split; [intros [-> ->]|intros H; injection H]; auto.
Qed.
Lemma str_eqb_refl a : str_eqb a a = true.
Proof. now apply str_eqb_eq. Qed.
Lemma str_eqb_neq a b : str_eqb a b = false <-> a <> b.
Proof. rewrite <- not_true_iff_false, str_eqb_eq. reflexivity. Qed.
Lemma str_eqb_sym a b : str_eqb a b = str_eqb b a.
Proof. apply eq_true_iff_eq. rewrite !str_eqb_eq. split; congruence. Qed.
Lemma str_eq_dec (a b : str) : {a = b} + {a <> b}.
Proof. destruct (str_eqb a b) eqn:E; [left; now apply str_eqb_eq|right; now apply str_eqb_neq]. Qed.

Lemma str_in_In x l : str_in x l = true <-> In x l.
Proof.
  unfold str_in. rewrite existsb_exists. split.
  - intros (y & Hy & E). apply str_eqb_eq in E. now subst.
  - intros H. exists x. split; auto. apply str_eqb_refl.
Qed.

Lemma has_char_In c s : has_char c s = true <-> In c s.
Proof.
  unfold has_char. rewrite existsb_exists. split.
  - intros (y & Hy & E). apply N.eqb_eq in E. now subst.
  - intros H. exists c. split; auto. apply N.eqb_refl.
Qed.
Lemma has_char_false c s : has_char c s = false <-> ~ In c s.
Proof. rewrite <- not_true_iff_false, has_char_In. reflexivity. Qed.

(** ** Prefixes, substrings *)

Lemma prefixb_app p s : prefixb p (p ++ s) = true.
Proof. induction p; simpl; auto. now rewrite N.eqb_refl, IHp. Qed.
Lemma prefixb_spec p s : prefixb p s = true <-> exists r, s = p ++ r.
Proof.
  split.
  - revert s; induction p as [|x p IH]; intros s H; simpl in *; [now exists s|].
    destruct s as [|y s]; [discriminate|].
    apply andb_true_iff in H as [E H]. apply N.eqb_eq in E. destruct (IH _ H) as [r ->].
    exists r. now subst.
  - intros [r ->]. apply prefixb_app.
Qed.
Lemma suffixb_spec p s : suffixb p s = true <-> exists r, s = r ++ p.
Proof.
  unfold suffixb. rewrite prefixb_spec. split.
  - intros [r H]. exists (rev r). apply (f_equal (@rev N)) in H.
    rewrite rev_involutive, rev_app_distr, rev_involutive in H. exact H.
  - intros [r ->]. exists (rev r). apply rev_app_distr.
Qed.
Lemma contains_spec p s : contains p s = true <-> exists a b, s = a ++ p ++ b.
Proof.
  induction s as [|c s IH]; simpl; rewrite orb_true_iff, prefixb_spec.
  - split.
    + intros [[r H]|H]; [|discriminate]. exists [], r. exact H.
    + intros (a & b & H). destruct a; [|discriminate]. left. now exists b.
  - rewrite IH. split.
    + intros [[r H]|(a & b & H)]; [exists [], r; exact H|].
      exists (c :: a), b. simpl. now f_equal.
    + intros (a & b & H). destruct a as [|x a]; simpl in H.
      * left. now exists b.
      * right. injection H as -> H. now exists a, b.
Qed.
Lemma contains_false p s : contains p s = false <-> forall a b, s <> a ++ p ++ b.
Proof.
  rewrite <- not_true_iff_false, contains_spec. split; intros H.
  - intros a b ->. apply H. now exists a, b.
  - intros (a & b & ->). exact (H a b eq_refl).
Qed.
(** A text without some character of [p] does not contain [p]. *)
Lemma contains_not_char p c s : In c p -> ~ In c s -> contains p s = false.
Proof.
  intros Hp Hs. apply contains_false. intros a b ->. apply Hs.
  rewrite !in_app_iff. auto.
Qed.
Lemma contains_app_l p a b : contains p a = true -> contains p (a ++ b) = true.
Proof.
  rewrite !contains_spec. intros (x & y & ->). exists x, (y ++ b). now rewrite <- !app_assoc.
Qed.
Lemma contains_app_r p a b : contains p b = true -> contains p (a ++ b) = true.
Proof.
  rewrite !contains_spec. intros (x & y & ->). exists (a ++ x), y. now rewrite <- !app_assoc.
Qed.

(** ** split and join *)

Lemma split_on_nonnil c s : split_on c s <> [].
Proof.
  destruct s as [|x s]; simpl; [discriminate|]. destruct (N.eqb x c); [discriminate|].
  now destruct (split_on c s).
Qed.
Lemma split_on_none c s : ~ In c s -> split_on c s = [s].
Proof.
  induction s as [|x s IH]; simpl; auto. intros H.
  destruct (N.eqb_spec x c); [subst; exfalso; auto|]. rewrite IH; auto.
Qed.
Lemma split_on_app c a b : ~ In c a -> split_on c (a ++ c :: b) = a :: split_on c b.
Proof.
  induction a as [|x a IH]; simpl; intros H.
  - now rewrite N.eqb_refl.
  - destruct (N.eqb_spec x c); [subst; exfalso; auto|]. rewrite IH; auto.
Qed.
Lemma split_on_gen c a b : split_on c (a ++ c :: b) = split_on c a ++ split_on c b.
Proof.
  induction a as [|x a IH]; cbn [app split_on].
  - now rewrite N.eqb_refl.
  - destruct (N.eqb x c); [now rewrite IH|]. rewrite IH.
    destruct (split_on c a) as [|w ws] eqn:E; [now destruct (split_on_nonnil c a)|reflexivity].
Qed.
Lemma join_split c s : join_with [c] (split_on c s) = s.
Proof.
  induction s as [|x s IH]; simpl; auto.
  destruct (N.eqb_spec x c).
  - subst. pose proof (split_on_nonnil c s). destruct (split_on c s); [easy|].
    simpl in *. now f_equal.
  - destruct (split_on c s) as [|w ws] eqn:E; [now apply split_on_nonnil in E|].
    simpl in *. destruct ws; simpl in *; congruence.
Qed.
Lemma join_with_cons sep w ws : ws <> [] -> join_with sep (w :: ws) = w ++ sep ++ join_with sep ws.
Proof. destruct ws; [easy|reflexivity]. Qed.
Lemma split_join c l :
  l <> [] -> Forall (fun w => ~ In c w) l -> split_on c (join_with [c] l) = l.
Proof.
  induction l as [|w l IH]; [easy|]. intros _ H. inversion H; subst.
  destruct l as [|v l].
  - simpl. now apply split_on_none.
  - rewrite join_with_cons by easy. simpl app. rewrite split_on_app by auto.
    f_equal. apply IH; easy.
Qed.
Lemma split_on_no_sep c s : Forall (fun w => ~ In c w) (split_on c s).
Proof.
  induction s as [|x s IH]; simpl; [now repeat constructor|].
  destruct (N.eqb_spec x c); [now constructor|].
  destruct (split_on c s) as [|w ws]; [repeat constructor; simpl; intuition|].
  inversion IH; subst. constructor; auto. simpl; intuition.
Qed.
Lemma join_with_app sep l1 l2 :
  l1 <> [] -> l2 <> [] -> join_with sep (l1 ++ l2) = join_with sep l1 ++ sep ++ join_with sep l2.
Proof.
  induction l1 as [|w l1 IH]; [easy|]. intros _ H2. destruct l1 as [|v l1].
  - simpl. destruct l2; easy.
  - change ((w :: v :: l1) ++ l2) with (w :: ((v :: l1) ++ l2)).
    rewrite join_with_cons by easy. rewrite IH by easy.
    rewrite (join_with_cons sep w (v :: l1)) by easy. now rewrite <- !app_assoc.
Qed.
Lemma join_with_In c l x : In x (join_with [c] l) -> x = c \/ exists w, In w l /\ In x w.
Proof.
  induction l as [|w l IH]; [easy|]. destruct l as [|v l].
  - simpl. intros H. right. exists w. auto.
  - rewrite join_with_cons by easy. rewrite !in_app_iff. simpl In at 2.
    intros [H|[[H|[]]|H]]; auto.
    + right. exists w. simpl; auto.
    + destruct (IH H) as [H'|(u & Hu & Hx)]; auto. right. exists u. simpl in *; intuition.
Qed.

Lemma cut_first_app c a b : ~ In c a -> cut_first c (a ++ c :: b) = Some (a, b).
Proof.
  induction a as [|x a IH]; simpl; intros H.
  - now rewrite N.eqb_refl.
  - destruct (N.eqb_spec x c); [subst; exfalso; auto|]. rewrite IH; auto.
Qed.
Lemma cut_first_none c s : cut_first c s = None <-> ~ In c s.
Proof.
  induction s as [|x s IH]; simpl; [intuition|].
  destruct (N.eqb_spec x c); [subst; split; [discriminate|intros H; exfalso; auto]|].
  destruct (cut_first c s) as [[a b]|]; split; intros H; try discriminate; try congruence.
  - exfalso. destruct IH as [_ IH]. discriminate IH. auto.
  - intros [?|?]; [auto|]. now apply IH.
Qed.
Lemma cut_first_some c s a b : cut_first c s = Some (a, b) -> s = a ++ c :: b /\ ~ In c a.
Proof.
  revert a b; induction s as [|x s IH]; simpl; [discriminate|]. intros a b.
  destruct (N.eqb_spec x c).
  - intros H; injection H as <- <-. subst. simpl. auto.
  - destruct (cut_first c s) as [[a' b']|] eqn:E; [|discriminate].
    intros H; injection H as <- <-. destruct (IH _ _ eq_refl) as [-> ?].
    split; [reflexivity|]. simpl; intuition.
Qed.
Lemma cut_last_app c a b : ~ In c b -> cut_last c (a ++ c :: b) = Some (a, b).
Proof.
  intros H. unfold cut_last. rewrite rev_app_distr. simpl. rewrite <- app_assoc. simpl.
  rewrite cut_first_app by (now rewrite <- in_rev). now rewrite !rev_involutive.
Qed.
Lemma cut_last_none c s : cut_last c s = None <-> ~ In c s.
Proof.
  unfold cut_last. rewrite (in_rev s), <- cut_first_none.
  destruct (cut_first c (rev s)) as [[? ?]|]; split; congruence.
Qed.
Lemma cut_last_some c s a b : cut_last c s = Some (a, b) -> s = a ++ c :: b /\ ~ In c b.
Proof.
  unfold cut_last. destruct (cut_first c (rev s)) as [[x y]|] eqn:E; [|discriminate].
  intros H; injection H as <- <-. apply cut_first_some in E as [E H].
  split; [|now rewrite <- in_rev].
  apply (f_equal (@rev N)) in E. rewrite rev_involutive, rev_app_distr in E.
  simpl in E. now rewrite <- app_assoc in E.
Qed.

(** ** span and strip *)

Lemma span_eq p s : fst (span p s) ++ snd (span p s) = s.
Proof.
  induction s as [|x s IH]; simpl; auto. destruct (p x); auto.
  destruct (span p s); simpl in *. now f_equal.
Qed.
Lemma span_fst p s : forallb p (fst (span p s)) = true.
Proof.
  induction s as [|x s IH]; simpl; auto. destruct (p x) eqn:E; auto.
  destruct (span p s); simpl in *. now rewrite E.
Qed.
Lemma span_snd p s x r : snd (span p s) = x :: r -> p x = false.
Proof.
  induction s as [|y s IH]; simpl; [discriminate|]. destruct (p y) eqn:E.
  - destruct (span p s); simpl in *; auto.
  - simpl. congruence.
Qed.
Definition stops (p : N -> bool) (s : str) : Prop :=
  match s with [] => True | x :: _ => p x = false end.
Lemma span_app p a b : forallb p a = true -> stops p b -> span p (a ++ b) = (a, b).
Proof.
  induction a as [|x a IH]; simpl.
  - destruct b as [|y b]; simpl; auto. intros _ ->. reflexivity.
  - intros H Hb. apply andb_true_iff in H as [-> H]. now rewrite IH.
Qed.
Lemma span_all p a : forallb p a = true -> span p a = (a, []).
Proof. intros H. rewrite <- (app_nil_r a) at 1. now apply span_app. Qed.

Lemma lstrip_id p s : stops p s -> lstrip_p p s = s.
Proof. unfold lstrip_p. destruct s as [|x s]; simpl; auto. now intros ->. Qed.
Lemma rstrip_id p s : stops p (rev s) -> rstrip_p p s = s.
Proof. intros H. unfold rstrip_p. rewrite lstrip_id by auto. apply rev_involutive. Qed.
Lemma strip_id p s : stops p s -> stops p (rev s) -> strip_p p s = s.
Proof. intros H1 H2. unfold strip_p. rewrite lstrip_id by auto. now apply rstrip_id. Qed.
Lemma rstrip_app p a b : forallb p b = true -> stops p (rev a) -> rstrip_p p (a ++ b) = a.
Proof.
  intros Hb Ha. unfold rstrip_p, lstrip_p. rewrite rev_app_distr, span_app; auto.
  - apply rev_involutive.
  - rewrite forallb_forall in *. intros x Hx. apply Hb. now apply in_rev.
Qed.
Lemma rstrip_all p b : forallb p b = true -> rstrip_p p b = [].
Proof. intros H. apply (rstrip_app p [] b); simpl; auto. Qed.
Lemma rstrip_decomp p s :
  exists t, s = rstrip_p p s ++ t /\ forallb p t = true /\ stops p (rev (rstrip_p p s)).
Proof.
  unfold rstrip_p, lstrip_p. exists (rev (fst (span p (rev s)))). split; [|split].
  - rewrite <- rev_app_distr, span_eq. now rewrite rev_involutive.
  - pose proof (span_fst p (rev s)) as H. rewrite forallb_forall in *. intros x Hx. apply H.
    now apply in_rev.
  - rewrite rev_involutive. unfold stops.
    destruct (snd (span p (rev s))) eqn:E; auto. eapply span_snd; eauto.
Qed.

(** ** replace *)

Lemma replace_char_id a b s : ~ In a s -> replace_char a b s = s.
Proof.
  induction s as [|x s IH]; simpl; auto. intros H.
  destruct (N.eqb_spec x a); [subst; exfalso; auto|]. f_equal; auto.
Qed.
Lemma replace_char_back a b s : ~ In b s -> replace_char b a (replace_char a b s) = s.
Proof.
  induction s as [|x s IH]; simpl; auto. intros H. rewrite IH by auto. f_equal.
  destruct (N.eqb_spec x a); subst.
  - now rewrite N.eqb_refl.
  - destruct (N.eqb_spec x b); auto. subst. exfalso; auto.
Qed.
Lemma replace_char_app a b s t : replace_char a b (s ++ t) = replace_char a b s ++ replace_char a b t.
Proof. apply map_app. Qed.
Lemma replace_char_notin a b s : a <> b -> ~ In a (replace_char a b s).
Proof.
  intros Hab. induction s as [|x s IH]; simpl; auto.
  intros [H|H]; auto. destruct (N.eqb_spec x a); subst; auto.
Qed.
Lemma replace_go_id pat rep s : pat <> [] -> contains pat s = false -> replace_go 0 pat rep s = s.
Proof.
  induction s as [|c s IH]; intros Hp H; [reflexivity|].
  cbn [contains] in H. apply orb_false_iff in H as [H1 H2].
  cbn [replace_go]. rewrite H1. f_equal. auto.
Qed.
Lemma replace_id pat rep s : pat <> [] -> contains pat s = false -> replace pat rep s = s.
Proof. apply replace_go_id. Qed.
Lemma replace_go_skip pat rep a s : replace_go (length a) pat rep (a ++ s) = replace_go 0 pat rep s.
Proof. induction a; simpl; auto. Qed.
Lemma replace_head pat rep s :
  pat <> [] -> replace pat rep (pat ++ s) = rep ++ replace pat rep s.
Proof.
  destruct pat as [|c p]; [easy|]. intros _. unfold replace.
  cbn [app replace_go]. change (c :: p ++ s) with ((c :: p) ++ s).
  rewrite prefixb_app. f_equal. cbn [length Nat.pred]. apply replace_go_skip.
Qed.

(** ** Order and sorting *)

Lemma str_ltb_irrefl a : str_ltb a a = false.
Proof. induction a as [|x a IH]; simpl; auto. now rewrite N.ltb_irrefl, N.eqb_refl, IH. Qed.
Lemma str_ltb_trans a b c : str_ltb a b = true -> str_ltb b c = true -> str_ltb a c = true.
Proof.
  revert b c; induction a as [|x a IH]; destruct b as [|y b], c as [|z c]; simpl; try easy.
  rewrite !orb_true_iff, !andb_true_iff, !N.ltb_lt, !N.eqb_eq.
  intros [H|[-> H]] [H'|[-> H']]; [left; lia|auto|auto|right; split; eauto].
Qed.
Lemma str_ltb_total a b : str_ltb a b = false -> str_ltb b a = false -> a = b.
Proof.
  revert b; induction a as [|x a IH]; destruct b as [|y b]; simpl; try easy.
  rewrite !orb_false_iff, !andb_false_iff, !N.ltb_ge, !N.eqb_neq.
  intros [H1 H2] [H3 H4]. assert (x = y) by lia. subst. f_equal.
  apply IH; intuition.
Qed.
Definition slt (a b : str) : Prop := str_ltb a b = true.
Definition sle (a b : str) : Prop := str_ltb b a = false.

Lemma sle_trans a b c : sle a b -> sle b c -> sle a c.
Proof.
  unfold sle. intros H1 H2. destruct (str_ltb c a) eqn:E; auto.
  destruct (str_ltb b c) eqn:E2.
  - rewrite (str_ltb_trans b c a) in H1; auto.
  - assert (b = c) by (now apply str_ltb_total). subst. congruence.
Qed.

Lemma insert_perm x l : Permutation (x :: l) (insert_sorted x l).
Proof.
  induction l as [|y l IH]; simpl; auto. destruct (str_ltb y x); auto.
  transitivity (y :: x :: l); [constructor|]. now constructor.
Qed.
Lemma sort_perm l : Permutation l (sort_strs l).
Proof.
  induction l as [|x l IH]; simpl; auto.
  transitivity (x :: sort_strs l); [now constructor|apply insert_perm].
Qed.
Lemma insert_sorted_sorted x l : StronglySorted sle l -> StronglySorted sle (insert_sorted x l).
Proof.
  induction 1 as [|y l Hl IH Hy]; simpl; [now repeat constructor|].
  destruct (str_ltb y x) eqn:E.
  - constructor; auto. rewrite Forall_forall in *. intros z Hz.
    apply (Permutation_in _ (Permutation_sym (insert_perm x l))) in Hz. destruct Hz as [<-|Hz]; auto.
    unfold sle. destruct (str_ltb x y) eqn:E2; auto.
    pose proof (str_ltb_trans _ _ _ E E2). now rewrite str_ltb_irrefl in H.
  - constructor; [now constructor|]. constructor; [exact E|].
    rewrite Forall_forall in *. intros z Hz. eapply sle_trans; [exact E|auto].
Qed.
Lemma sort_sorted l : StronglySorted sle (sort_strs l).
Proof. induction l; simpl; [constructor|now apply insert_sorted_sorted]. Qed.
Lemma sort_In x l : In x (sort_strs l) <-> In x l.
Proof.
  split; apply Permutation_in; [apply Permutation_sym|]; apply sort_perm.
Qed.
Lemma sort_NoDup l : NoDup l -> NoDup (sort_strs l).
Proof. apply Permutation_NoDup, sort_perm. Qed.
Lemma sorted_strict l : StronglySorted sle l -> NoDup l -> StronglySorted slt l.
Proof.
  induction 1 as [|x l Hl IH Hx]; intros Hn; constructor; inversion Hn; subst; auto.
  rewrite Forall_forall in *. intros z Hz. pose proof (Hx z Hz) as H. unfold sle, slt in *.
  destruct (str_ltb x z) eqn:E; auto. assert (x = z) by (now apply str_ltb_total). subst. easy.
Qed.
Lemma sort_strict l : NoDup l -> StronglySorted slt (sort_strs l).
Proof. intros H. apply sorted_strict; [apply sort_sorted|now apply sort_NoDup]. Qed.
Lemma slt_NoDup l : StronglySorted slt l -> NoDup l.
Proof.
  induction 1 as [|x l Hl IH Hx]; constructor; auto. intros H. rewrite Forall_forall in Hx.
  apply Hx in H. unfold slt in H. now rewrite str_ltb_irrefl in H.
Qed.
Lemma sort_id l : StronglySorted slt l -> sort_strs l = l.
Proof.
  induction 1 as [|x l Hl IH Hx]; simpl; auto. rewrite IH.
  destruct l as [|y l]; simpl; auto. inversion Hx; subst.
  destruct (str_ltb y x) eqn:E; auto.
  pose proof (str_ltb_trans _ _ _ H1 E). now rewrite str_ltb_irrefl in H.
Qed.
Lemma sorted_ext l1 l2 :
  StronglySorted slt l1 -> StronglySorted slt l2 -> (forall x, In x l1 <-> In x l2) -> l1 = l2.
Proof.
  intros H1; revert l2; induction H1 as [|x l1 Hl1 IH Hx]; intros l2 H2 E.
  - destruct l2 as [|y l2]; auto. exfalso. apply (E y). now left.
  - destruct H2 as [|y l2 Hl2 Hy].
    + exfalso. apply (E x). now left.
    + assert (Hxy : x = y).
      { destruct (E x) as [Ex _]. destruct (E y) as [_ Ey].
        destruct (Ex (or_introl eq_refl)) as [?|Hin]; auto.
        destruct (Ey (or_introl eq_refl)) as [?|Hin2]; auto.
        rewrite Forall_forall in *. pose proof (str_ltb_trans _ _ _ (Hx _ Hin2) (Hy _ Hin)) as H.
        now rewrite str_ltb_irrefl in H. }
      subst y. f_equal. apply IH; auto. intros z. rewrite Forall_forall in *.
      split; intros Hz.
      * destruct (proj1 (E z) (or_intror Hz)) as [<-|]; auto.
        specialize (Hx _ Hz). unfold slt in Hx. now rewrite str_ltb_irrefl in Hx.
      * destruct (proj2 (E z) (or_intror Hz)) as [<-|]; auto.
        specialize (Hy _ Hz). unfold slt in Hy. now rewrite str_ltb_irrefl in Hy.
Qed.
Lemma sort_filter (f : str -> bool) l :
  NoDup l -> sort_strs (filter f l) = filter f (sort_strs l).
Proof.
  intros H. apply sorted_ext.
  - apply sort_strict. now apply NoDup_filter.
  - pose proof (sort_strict l H) as S. induction S as [|x l' Hl' IH Hx]; simpl; [constructor|].
    destruct (f x); auto. constructor; auto. rewrite Forall_forall in *.
    intros z Hz. apply filter_In in Hz. now apply Hx.
  - intros x. rewrite sort_In, !filter_In, sort_In. reflexivity.
Qed.

Lemma dedup_In x l : In x (dedup l) <-> In x l.
Proof.
  induction l as [|y l IH]; simpl; [reflexivity|].
  destruct (str_in y l) eqn:E.
  - rewrite IH. apply str_in_In in E. split; auto. intros [<-|]; auto.
  - simpl. now rewrite IH.
Qed.
Lemma dedup_NoDup l : NoDup (dedup l).
Proof.
  induction l as [|y l IH]; simpl; [constructor|]. destruct (str_in y l) eqn:E; auto.
  constructor; auto. rewrite dedup_In. intros H. apply str_in_In in H. congruence.
Qed.

(** ** Dictionaries *)

Section Dict.
Context {V : Type}.
Implicit Type d : dict V.

Lemma dget_In k v d : dget k d = Some v -> In (k, v) d.
Proof.
  induction d as [|[k' v'] d IH]; simpl; [discriminate|].
  destruct (str_eqb k k') eqn:E; auto. apply str_eqb_eq in E. intros H; injection H as ->.
  subst. auto.
Qed.
Lemma dget_none k d : dget k d = None <-> ~ In k (map fst d).
Proof.
  induction d as [|[k' v'] d IH]; simpl; [intuition|].
  destruct (str_eqb k k') eqn:E.
  - apply str_eqb_eq in E. subst. split; [discriminate|]. intros H; exfalso; auto.
  - apply str_eqb_neq in E. rewrite IH. intuition.
Qed.
Lemma dhas_In k d : dhas k d = true <-> In k (map fst d).
Proof.
  unfold dhas. destruct (dget k d) as [v|] eqn:E.
  - split; auto. intros _. apply dget_In in E. now apply (in_map fst) in E.
  - split; [discriminate|]. intros H. now apply dget_none in E.
Qed.
Lemma dget_In_NoDup k v d : NoDup (map fst d) -> In (k, v) d -> dget k d = Some v.
Proof.
  induction d as [|[k' v'] d IH]; simpl; [easy|]. intros H; inversion H; subst.
  intros [E|Hin].
  - injection E as -> ->. now rewrite str_eqb_refl.
  - destruct (str_eqb k k') eqn:E; auto. apply str_eqb_eq in E. subst.
    exfalso. apply H2. now apply (in_map fst) in Hin.
Qed.
Lemma dget_dset k v k' d : dget k' (dset k v d) = if str_eqb k' k then Some v else dget k' d.
Proof.
  induction d as [|[k1 v1] d IH]; simpl.
  - destruct (str_eqb k' k); auto.
  - destruct (str_eqb k k1) eqn:E; simpl.
    + apply str_eqb_eq in E. subst. destruct (str_eqb k' k1); auto.
    + rewrite IH. destruct (str_eqb k' k1) eqn:E2; auto.
      apply str_eqb_eq in E2. subst. rewrite str_eqb_sym, E. reflexivity.
Qed.
Lemma dget_ddel k k' d :
  NoDup (map fst d) -> dget k' (ddel k d) = if str_eqb k' k then None else dget k' d.
Proof.
  induction d as [|[k1 v1] d IH]; simpl; intros H.
  - destruct (str_eqb k' k); auto.
  - inversion H; subst. destruct (str_eqb k k1) eqn:E; simpl.
    + apply str_eqb_eq in E. subst. destruct (str_eqb k' k1) eqn:E2; auto.
      apply str_eqb_eq in E2. subst. now apply dget_none.
    + rewrite IH by auto. destruct (str_eqb k' k1) eqn:E2; auto.
      apply str_eqb_eq in E2. subst. now rewrite str_eqb_sym, E.
Qed.
Lemma dset_keys k v d : map fst (dset k v d) = if dhas k d then map fst d else map fst d ++ [k].
Proof.
  induction d as [|[k1 v1] d IH]; simpl; auto. unfold dhas in *; simpl.
  destruct (str_eqb k k1) eqn:E; simpl; auto.
  rewrite IH. destruct (dget k d); auto.
Qed.
Lemma dset_new k v d : dhas k d = false -> dset k v d = d ++ [(k, v)].
Proof.
  induction d as [|[k1 v1] d IH]; simpl; auto. unfold dhas in *; simpl.
  destruct (str_eqb k k1); [discriminate|]. intros H. now rewrite IH.
Qed.
Lemma NoDup_dset k v d : NoDup (map fst d) -> NoDup (map fst (dset k v d)).
Proof.
  intros H. rewrite dset_keys. destruct (dhas k d) eqn:E; auto.
  apply NoDup_Add with (a := k) (l := map fst d).
  - rewrite <- (app_nil_r (map fst d)) at 1. apply Add_app.
  - split; auto. intros Hin. apply dhas_In in Hin. congruence.
Qed.
Lemma ddel_incl k d kv : In kv (ddel k d) -> In kv d.
Proof.
  induction d as [|[k1 v1] d IH]; simpl; auto.
  destruct (str_eqb k k1); simpl; intuition.
Qed.
Lemma NoDup_ddel k d : NoDup (map fst d) -> NoDup (map fst (ddel k d)).
Proof.
  induction d as [|[k1 v1] d IH]; simpl; auto. intros H; inversion H; subst.
  destruct (str_eqb k k1); auto. simpl. constructor; auto.
  intros Hin. apply H2. apply in_map_iff in Hin as ([a b] & <- & Hin).
  apply ddel_incl in Hin. now apply (in_map fst) in Hin.
Qed.
Lemma ddel_none k d : dget k d = None -> ddel k d = d.
Proof.
  induction d as [|[k1 v1] d IH]; simpl; auto. destruct (str_eqb k k1); [discriminate|].
  intros H. now rewrite IH.
Qed.
Lemma dget_dupdate k d e :
  dget k (dupdate d e) = match dget k (rev e) with Some v => Some v | None => dget k d end.
Proof.
  unfold dupdate. revert d; induction e as [|[k1 v1] e IH]; intros d; simpl; auto.
  rewrite IH, dget_dset.
  assert (A : forall l : dict V, dget k (l ++ [(k1, v1)])
              = match dget k l with Some v => Some v | None => if str_eqb k k1 then Some v1 else None end).
  { induction l as [|[k2 v2] l IHl]; simpl; auto. destruct (str_eqb k k2); auto. }
  rewrite A. destruct (dget k (rev e)); auto. destruct (str_eqb k k1); auto.
Qed.
Lemma dget_rev k d : NoDup (map fst d) -> dget k (rev d) = dget k d.
Proof.
  intros H. destruct (dget k d) as [v|] eqn:E.
  - apply dget_In_NoDup.
    + rewrite map_rev. eapply Permutation_NoDup; [apply Permutation_rev|auto].
    + apply -> in_rev. now apply dget_In.
  - apply dget_none in E. apply dget_none. rewrite map_rev. now rewrite <- in_rev.
Qed.
End Dict.
