(** The matcher does what the patterns mean. *)
From Verif Require Import Str Fnmatch SpecFn StrFacts.

Lemma reads_ranges f : forall l, (length l <= f)%nat -> reads l (ranges_of f l).
Proof.
  induction f as [|f IH]; intros l H; [destruct l; [constructor|cbn in H; lia]|].
  destruct l as [|a [|m [|z l]]]; cbn [ranges_of].
  - constructor.
  - apply rd_one; [discriminate|]. apply IH. cbn in *. lia.
  - apply rd_one; [discriminate|]. apply IH. cbn in *. lia.
  - destruct (m =? cMinus)%N eqn:E.
    + apply N.eqb_eq in E as ->. apply rd_range. apply IH. cbn in *. lia.
    + apply rd_one; [|apply IH; cbn in *; lia]. intros z' l' X. injection X as -> _ _. discriminate.
Qed.
Lemma reads_det l rs : reads l rs -> forall rs', reads l rs' -> rs = rs'.
Proof.
  induction 1 as [|a z l rs R IH|a l rs N R IH]; intros rs' R'; inversion R'; subst; auto.
  - f_equal. auto.
  - exfalso. match goal with H : forall _ _, _ <> _ |- _ => now apply (H z l) end.
  - exfalso. now apply (N z l0).
  - f_equal. auto.
Qed.
Lemma in_ranges_member c rs : in_ranges c rs = true <-> member c rs.
Proof.
  unfold in_ranges, member. rewrite existsb_exists. split.
  - intros ([a z] & I & H). apply andb_true_iff in H as [H1 H2]. apply N.leb_le in H1, H2. exists a, z. auto.
  - intros (a & z & I & H1 & H2). exists (a, z). split; auto. apply andb_true_iff. split; now apply N.leb_le.
Qed.
Lemma cut_close_some l a r : cut_close l = Some (a, r) <-> l = a ++ cClose :: r /\ ~ In cClose a.
Proof.
  revert a. induction l as [|c l IH]; intros a; cbn.
  - split; [discriminate|]. intros [E _]. now destruct a.
  - destruct (c =? cClose)%N eqn:E.
    + apply N.eqb_eq in E as ->. split.
      * intros X. injection X as <- <-. auto.
      * intros [X N]. destruct a as [|x a]; [now injection X as ->|]. injection X as <- _. exfalso. apply N. now left.
    + apply N.eqb_neq in E. destruct (cut_close l) as [[a' r']|] eqn:F.
      * split.
        -- intros X. injection X as <- <-. destruct (proj1 (IH a') eq_refl) as [-> N]. split; auto. intros [X|X]; auto.
        -- intros [X N]. destruct a as [|x a]; [injection X as -> _; easy|]. injection X as <- X.
           assert (Y : Some (a', r') = Some (a, r)) by (apply IH; split; auto; intros Z; apply N; now right).
           injection Y as -> ->. reflexivity.
      * split; [discriminate|]. intros [X N]. destruct a as [|x a]; [injection X as -> _; easy|]. injection X as <- X.
        assert (Y : None = Some (a, r)) by (apply IH; split; auto; intros Z; apply N; now right). discriminate.
Qed.
Lemma in_split_first (c : N) l : In c l -> exists a r, l = a ++ c :: r /\ ~ In c a.
Proof.
  induction l as [|x l IH]; [easy|]. intros H. destruct (N.eq_dec x c) as [->|N].
  - exists [], l. auto.
  - destruct H as [H|H]; [easy|]. destruct (IH H) as (a & r & -> & Na). exists (x :: a), r. split; auto. intros [X|X]; auto.
Qed.
Lemma cut_close_none l : cut_close l = None <-> ~ In cClose l.
Proof.
  split.
  - intros H I. apply in_split_first in I as (a & r & E & N). assert (X : cut_close l = Some (a, r)) by now apply cut_close_some.
    congruence.
  - intros N. destruct (cut_close l) as [[a r]|] eqn:E; auto. apply cut_close_some in E as [-> _]. exfalso. apply N.
    apply in_app_iff. right. now left.
Qed.

Definition bang (neg : bool) : list N := if neg then [cBang] else [].
Lemma bracket_some l neg a r : bracket l = Some (neg, a, r) <->
  l = bang neg ++ a ++ cClose :: r /\ a <> [] /\ (neg = false -> hd 0%N a <> cBang) /\ ~ In cClose (tl a).
Proof.
  assert (Core : forall l1 a r, (match l1 with
     | c :: l2 => if (c =? cClose)%N
               then match cut_close l2 with Some (a, r) => Some (neg, c :: a, r) | None => None end
               else match cut_close l1 with Some (a, r) => Some (neg, a, r) | None => None end
     | [] => None end) = Some (neg, a, r) <-> l1 = a ++ cClose :: r /\ a <> [] /\ ~ In cClose (tl a)).
  { clear. intros l1 a r. destruct l1 as [|c l2].
    - split; [discriminate|]. intros (E & _). now destruct a.
    - destruct (c =? cClose)%N eqn:E.
      + apply N.eqb_eq in E as ->. split.
        * destruct (cut_close l2) as [[a' r']|] eqn:F; [|discriminate]. intros X. injection X as <- <-.
          apply cut_close_some in F as [-> N]. repeat split; auto. discriminate.
        * intros (E & Na & N). destruct a as [|x a]; [easy|]. injection E as <- E. cbn in N.
          assert (F : cut_close l2 = Some (a, r)) by now apply cut_close_some. now rewrite F.
      + apply N.eqb_neq in E. split.
        * destruct (cut_close (c :: l2)) as [[a' r']|] eqn:F; [|discriminate]. intros X. injection X as <- <-.
          apply cut_close_some in F as [F N]. split; auto. destruct a' as [|x a']; [injection F as -> _; easy|].
          split; [discriminate|]. intros Y. apply N. now right.
        * intros (F & Na & N). destruct a as [|x a]; [easy|]. injection F as <- F. cbn in N.
          assert (X : cut_close (c :: l2) = Some (c :: a, r)).
          { apply cut_close_some. split; [cbn; now rewrite F|]. intros [Y|Y]; auto. }
          now rewrite X. }
  unfold bracket. destruct l as [|c l].
  { cbn. split; [discriminate|]. intros (E & _). destruct neg; [discriminate|]. cbn in E. now destruct a. }
  destruct (c =? cBang)%N eqn:E.
  - apply N.eqb_eq in E as ->. cbn [tl]. destruct neg.
    + rewrite (Core l a r). cbn [bang app]. split.
      * intros (-> & Na & N). repeat split; auto. discriminate.
      * intros (X & Na & _ & N). injection X as ->. auto.
    + split.
      * destruct l as [|x l]; [discriminate|]. destruct (x =? cClose)%N; [destruct (cut_close l) as [[? ?]|]|destruct (cut_close (x :: l)) as [[? ?]|]]; discriminate.
      * intros (X & Na & H & _). cbn in X. destruct a as [|y a]; [easy|]. injection X as <- _. now destruct (H eq_refl).
  - apply N.eqb_neq in E. destruct neg.
    + split.
      * destruct (c =? cClose)%N; [destruct (cut_close l) as [[? ?]|]|destruct (cut_close (c :: l)) as [[? ?]|]]; discriminate.
      * intros (X & _). injection X as X _. congruence.
    + rewrite (Core (c :: l) a r). cbn [bang app]. split.
      * intros (X & Na & N). repeat split; auto. intros _. destruct a as [|y a]; [easy|]. injection X as <- _. exact E.
      * intros (X & Na & _ & N). auto.
Qed.
Lemma bracket_none l : bracket l = None <-> forall body q, l = body ++ cClose :: q -> body = [] \/ body = [cBang].
Proof.
  split.
  - intros H body q ->. destruct body as [|c body]; auto. right.
    destruct (N.eq_dec c cBang) as [->|Nc].
    + destruct body as [|x body]; auto. exfalso.
      assert (X : exists a r, (x :: body) ++ cClose :: q = a ++ cClose :: r /\ a <> [] /\ ~ In cClose (tl a)).
      { destruct (in_split_first cClose (body ++ cClose :: q)) as (a & r & E & N); [apply in_app_iff; right; now left|].
        exists (x :: a), r. cbn. rewrite E. repeat split; auto. discriminate. }
      destruct X as (a & r & E & Na & N). assert (Y : bracket ((cBang :: x :: body) ++ cClose :: q) = Some (true, a, r)).
      { apply bracket_some. split; [cbn in *; now rewrite E|]. repeat split; auto. discriminate. }
      congruence.
    + exfalso. assert (X : exists a r, (c :: body) ++ cClose :: q = a ++ cClose :: r /\ a <> [] /\ hd 0%N a = c /\ ~ In cClose (tl a)).
      { destruct (in_split_first cClose (body ++ cClose :: q)) as (a & r & E & N); [apply in_app_iff; right; now left|].
        exists (c :: a), r. cbn. rewrite E. repeat split; auto. discriminate. }
      destruct X as (a & r & E & Na & Hc & N). assert (Y : bracket ((c :: body) ++ cClose :: q) = Some (false, a, r)).
      { apply bracket_some. split; auto. repeat split; auto. intros _. congruence. }
      congruence.
  - intros H. destruct (bracket l) as [[[neg a] r]|] eqn:E; auto. exfalso. apply bracket_some in E as (-> & Na & Hh & N).
    rewrite app_assoc in H. destruct (H _ _ eq_refl) as [X|X].
    + apply app_eq_nil in X. tauto.
    + destruct neg; cbn in X; [injection X as ->; easy|]. subst a. now apply (Hh eq_refl).
Qed.

Lemma match_star its s : match_items (IStar :: its) s = true <-> exists a b, s = a ++ b /\ match_items its b = true.
Proof.
  induction s as [|c s IH].
  - cbn. rewrite orb_false_r. split.
    + intros H. now exists [], [].
    + intros (a & b & E & H). symmetry in E. now apply app_eq_nil in E as [_ ->].
  - change (match_items (IStar :: its) (c :: s)) with (match_items its (c :: s) || match_items (IStar :: its) s). rewrite orb_true_iff, IH. split.
    + intros [H|(a & b & -> & H)]; [now exists [], (c :: s)|now exists (c :: a), b].
    + intros (a & b & E & H). destruct a as [|x a]; [left; cbn in E; now subst|]. injection E as <- ->. right. now exists a, b.
Qed.

Lemma items_spec f : forall p n, (length p <= f)%nat -> match_items (items_of f p) n = true <-> shell p n.
Proof.
  induction f as [|f IH]; intros p n H.
  - destruct p; [|cbn in H; lia]. cbn. destruct n; (split; [intros X; try discriminate; constructor|intros X; try reflexivity; inversion X]).
  - destruct p as [|c p]; [cbn; destruct n; (split; [intros X; try discriminate; constructor|intros X; try reflexivity; inversion X])|].
    cbn in H. assert (Hp : (length p <= f)%nat) by lia. cbn [items_of].
    destruct (c =? cStar)%N eqn:E1; [|destruct (c =? cQuest)%N eqn:E2; [|destruct (c =? cOpen)%N eqn:E3]].
    + apply N.eqb_eq in E1 as ->. rewrite match_star. split.
      * intros (a & b & -> & M). apply sh_star. now apply IH.
      * intros S. inversion S; subst; try discriminate.
        -- exists a, n0. split; auto. now apply IH.
        -- exfalso. match goal with H : ~ In _ _ |- _ => apply H; cbn; auto end.
    + apply N.eqb_eq in E2 as ->. cbn [match_items one]. split.
      * destruct n as [|x n]; [discriminate|]. cbn. intros M. apply sh_any. now apply IH.
      * intros S. inversion S; subst; try discriminate.
        -- cbn. now apply IH.
        -- exfalso. match goal with H : ~ In _ _ |- _ => apply H; cbn; auto end.
    + apply N.eqb_eq in E3 as ->. destruct (bracket p) as [[[neg a] r]|] eqn:Eb.
      * apply bracket_some in Eb as (-> & Na & Hh & N).
        assert (Hr : (length r <= f)%nat) by (rewrite !app_length in Hp; cbn in Hp; lia).
        assert (Hin : forall x, in_ranges x (ranges_of (length a) a) = true <-> member x (ranges_of (length a) a)) by (intros x; apply in_ranges_member).
        pose proof (reads_ranges (length a) a (le_n _)) as Rd. cbn [match_items one]. split.
        -- destruct n as [|x n]; [discriminate|]. rewrite andb_true_iff. intros [M1 M2]. apply IH in M2; auto. destruct neg; cbn [bang app xorb] in *.
           ++ eapply sh_not_set; eauto. rewrite <- Hin. destruct (in_ranges _ _); easy.
           ++ eapply sh_set; eauto. rewrite <- Hin. destruct (in_ranges _ _); easy.
        -- assert (Uniq : forall neg' a' r', bang neg ++ a ++ cClose :: r = bang neg' ++ a' ++ cClose :: r' -> a' <> [] ->
               (neg' = false -> hd 0%N a' <> cBang) -> ~ In cClose (tl a') -> neg' = neg /\ a' = a /\ r' = r).
           { intros neg' a' r' E N1 N2 N3.
             assert (X : bracket (bang neg ++ a ++ cClose :: r) = Some (neg, a, r)) by (apply bracket_some; auto).
             assert (Y : bracket (bang neg ++ a ++ cClose :: r) = Some (neg', a', r')) by (apply bracket_some; auto).
             rewrite X in Y. injection Y as -> -> ->. auto. }
           intros S. inversion S as [|? ? ? ? E|? ? ? ? E|body rs p' x n' R1 R2 R3 R4 R5 R6 E|body rs p' x n' R1 R2 R4 R5 R6 E|? ? Ho ? E|? ? ? Hn ? E]; subst.
           ++ destruct (Uniq false body p' (eq_sym E)) as (<- & -> & ->); auto. pose proof (reads_det _ _ R1 _ Rd) as ->.
              apply andb_true_iff. split; [|now apply IH]. apply Hin in R5. rewrite R5. reflexivity.
           ++ destruct (Uniq true body p' (eq_sym E)) as (<- & -> & ->); auto; [discriminate|]. pose proof (reads_det _ _ R1 _ Rd) as ->.
              apply andb_true_iff. split; [|now apply IH]. rewrite <- Hin in R5. cbn. destruct (in_ranges _ _); auto; now destruct R5.
           ++ exfalso. destruct (Ho (bang neg ++ a) r) as [X|X]; [now rewrite <- app_assoc| |].
              ** apply app_eq_nil in X. tauto.
              ** destruct neg; cbn in X; [injection X as ->; easy|]. subst a. now apply (Hh eq_refl).
           ++ exfalso. apply Hn. cbn. auto.
      * cbn [match_items one]. pose proof (proj1 (bracket_none p) Eb) as Ho. split.
        -- destruct n as [|x n]; [discriminate|]. rewrite andb_true_iff. intros [M1 M2]. apply N.eqb_eq in M1 as <-.
           apply sh_open; auto. now apply IH.
        -- intros S. inversion S as [|? ? ? ? E|? ? ? ? E|body rs p' x n' R1 R2 R3 R4 R5 R6 E|body rs p' x n' R1 R2 R4 R5 R6 E|? ? Ho' ? E|? ? ? Hn ? E]; subst.
           ++ exfalso. destruct (Ho body p' eq_refl) as [->| ->]; [easy|]. now apply R3.
           ++ exfalso. destruct (Ho (33%N :: body) p' eq_refl) as [X|X]; [discriminate|]. injection X as ->. easy.
           ++ apply andb_true_iff. split; [apply N.eqb_refl|]. now apply IH.
           ++ exfalso. apply Hn. cbn. auto.
    + apply N.eqb_neq in E1, E2, E3. cbn [match_items one]. split.
      * destruct n as [|x n]; [discriminate|]. rewrite andb_true_iff. intros [M1 M2]. apply N.eqb_eq in M1 as <-.
        apply sh_char; [cbn; unfold cStar, cQuest, cOpen in *; intuition congruence|]. now apply IH.
      * intros S. inversion S; subst; try (now destruct E1); try (now destruct E2); try (now destruct E3).
        apply andb_true_iff. split; [apply N.eqb_refl|]. now apply IH.
Qed.
Theorem fnmatch_spec n p : fnmatch n p = true <-> shell p n.
Proof. apply items_spec. apply le_n. Qed.
