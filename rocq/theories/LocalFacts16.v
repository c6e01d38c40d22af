(** Chains of links between local files; execute bits. *)
From Coq Require Import Lia.
From Verif Require Import Str Exc Utf8 UriParse BaseUri StrFacts UriFacts SpecUri UriFacts2 UriFacts3 UriFacts4 UriFacts5 UriFacts6.
From Verif Require Import Mem SpecMem MemFacts MemFacts2 MemFacts3 MemFacts4 MemFacts5 MemFacts7 MemFacts9 MemUri.
From Verif Require Import Generic SpecGen GenFacts1 GenFacts2 GenFacts3.
From Verif Require Import Misc Posix Local SpecLocal LocalFacts1 LocalFacts2 LocalFacts3 LocalFacts6 LocalFacts7 LocalFacts8 LocalFacts12 LocalFacts14 LocalFacts15.

Section Chains.
Variable x : pst.
Hypothesis So : sound x.
Local Notation T := (p_tree x).
Lemma points_snoc p q : points x p q -> exists i n, p = i ++ [n].
Proof.
  intros H. destruct (snoc_cases p) as [->|(i & n & ->)]; [|eauto]. destruct (so_root x So) as (mo & mt & R). unfold points in H. congruence.
Qed.
Lemma chain_names n p q : chain x n p q -> Forall plain_name q -> Forall plain_name p.
Proof. intros [|? ? ? ? G]; auto. intros _. apply G. Qed.
Lemma chain_walk n p q : chain x n p q -> Forall plain_name q -> forall b r, n <= b -> pwalk T true b [] (p ++ r) = pwalk T true (b - n) [] (q ++ r).
Proof.
  induction 1 as [q|n p p' q G Po C IH]; intros Pq b r L; [now rewrite Nat.sub_0_r|].
  destruct b as [|b]; [lia|]. destruct (points_snoc _ _ Po) as (i & m & ->).
  rewrite (walk_through x So b i m p' r true); auto; [|apply G|eapply chain_names; eauto]. rewrite IH by (auto; lia). reflexivity.
Qed.
Lemma chain_loop n p q : chain x n p q -> Forall plain_name q -> forall b r, b < n -> pwalk T true b [] (p ++ r) = Raise (OSError ELOOP).
Proof.
  induction 1 as [q|n p p' q G Po C IH]; intros Pq b r L; [lia|]. destruct (points_snoc _ _ Po) as (i & m & ->).
  destruct b as [|b].
  - assert (D : is_dir_at x i) by (apply (so_dir x So i [m]); [easy|unfold points in Po; congruence]).
    destruct G as [G _]. apply Forall_app in G as [Gi Gm]. inversion Gm as [|? ? Gm' _]; subst. rewrite <- app_assoc.
    rewrite (walk_down x So true 0 ([m] ++ r) i []) by auto. cbn [app]. destruct (plain_step m Gm') as [S1 S2].
    destruct D as (mo & mt & D'). cbn [pwalk]. unfold points in Po. rewrite D', S1, S2, Po. cbn [negb]. now destruct r.
  - rewrite (walk_through x So b i m p' r true); auto; [|apply G|eapply chain_names; eauto]. apply IH; auto. lia.
Qed.
Lemma known_walk b c q : Forall plain_name q -> known x q -> pwalk T true b [] q = pwalk T true c [] q.
Proof.
  intros P [(f & E & L)|(E & i & n & -> & D)].
  - now rewrite !(walk_at x So _ q f).
  - now rewrite !(walk_gap x So).
Qed.
Lemma look_chain n p q r : chain x n p q -> n <= 40 -> Forall plain_name (p ++ r) -> Forall plain_name (q ++ r) -> known x (q ++ r) ->
  plook x true (abs_path (p ++ r)) = plook x true (abs_path (q ++ r)).
Proof.
  intros C L Pp Pq K. rewrite !plook_abs by auto. rewrite (chain_walk n p q C); [|now apply Forall_app in Pq|exact L]. now apply known_walk.
Qed.
Lemma look_loop n p q r : chain x n p q -> 40 < n -> Forall plain_name (p ++ r) -> Forall plain_name q ->
  plook x true (abs_path (p ++ r)) = Raise (OSError ELOOP).
Proof. intros C L Pp Pq. rewrite !plook_abs by auto. now apply (chain_loop n p q). Qed.
(** A link that leads to itself *)
Lemma chain_self p : plain_path p -> points x p p -> forall n, chain x n p p.
Proof. intros G Po n. induction n; [constructor|]. econstructor; eauto. Qed.
End Chains.

(** Operations that only depend on the lookup *)
Lemma same_tests x p q : plook x true p = plook x true q -> forall g, os_test true g p x = os_test true g q x.
Proof. intros E g. unfold os_test, os_stat. now rewrite E. Qed.

(** *** Execute bits *)
Lemma mode_bits mo m : (0 <= mo < 4096)%Z -> Z.land m exec_mask = m ->
  perm (Z.lor (Z.land (Z.lor 32768 mo) (Z.lnot exec_mask)) m) = Z.lor (Z.land mo (Z.lnot exec_mask)) m.
Proof.
  intros B Hm. unfold perm. apply Z.bits_inj'. intros k Hk.
  rewrite !Z.land_spec, !Z.lor_spec, !Z.land_spec, !Z.lor_spec, !Z.lnot_spec by auto.
  assert (M : Z.testbit m k = andb (Z.testbit m k) (Z.testbit exec_mask k)) by (rewrite <- Z.land_spec; now rewrite Hm).
  destruct (Z.leb_spec 12 k) as [L|L].
  - assert (B4 : Z.testbit 4095 k = false) by (apply Z.bits_above_log2; [lia|]; apply Z.lt_le_trans with 12%Z; [reflexivity|lia]).
    assert (Bm : Z.testbit exec_mask k = false) by (apply Z.bits_above_log2; [unfold exec_mask; lia|]; apply Z.lt_le_trans with 12%Z; [reflexivity|lia]).
    assert (Bo : Z.testbit mo k = false).
    { destruct (Z.eq_dec mo 0) as [->|N]; [apply Z.bits_0|]. apply Z.bits_above_log2; [lia|]. apply Z.lt_le_trans with 12%Z; auto. apply Z.log2_lt_pow2; lia. }
    rewrite B4, M, Bm, Bo. now rewrite !andb_false_r.
  - assert (B4 : Z.testbit 4095 k = true) by (change 4095%Z with (Z.ones 12); apply Z.ones_spec_low; lia).
    assert (B8 : Z.testbit 32768 k = false) by (change 32768%Z with (2 ^ 15)%Z; apply Z.pow2_bits_false; lia).
    rewrite B4, B8. now rewrite andb_true_r.
Qed.
Lemma walk_raises x f b : forall cur comps e, pwalk (p_tree x) f b cur comps = Raise e -> exists n, e = OSError n.
Proof.
  induction b as [b IH] using lt_wf_ind. intros cur comps. revert cur.
  induction comps as [|c comps IHc]; intros cur o H; unfold pwalk in H; fold pwalk in H; destruct b.
  all: cbn in H.
  all: destruct (pget cur (p_tree x)) as [[]|] eqn:Ec; try discriminate.
  all: try (injection H as <-; eauto; fail).
  all: destruct (str_eqb c [] || str_eqb c dot); [now apply IHc in H|].
  all: destruct (str_eqb c dotdot); [now apply IHc in H|].
  all: destruct (pget (cur ++ [c]) (p_tree x)) as [[]|] eqn:En; try (now apply IHc in H).
  all: try (destruct comps; [discriminate|]; injection H as <-; eauto; fail).
  all: match type of H with (if ?y then _ else _) = _ => destruct y end; try discriminate; try (injection H as <-; eauto; fail).
  destruct target; [injection H as <-; eauto|]. eapply IH; [|exact H]. lia.
Qed.
Lemma test_total f g p x : exists b, os_test f g p x = (Ok b, x).
Proof.
  unfold os_test, os_stat. destruct (plook x f p) as [[]|e] eqn:E; eauto.
  unfold plook in E. destruct (has_char 0 p); [injection E as <-; eauto|]. destruct p; [injection E as <-; eauto|].
  apply walk_raises in E as [en ->]. eauto.
Qed.
(** With links followed, info() is stat(). *)
Lemma info_follow u x : loc_info u true x = (let! e <- os_stat true (u_path u); ret (mkBunch (st_mtime e) (st_mode e) (st_size e))) x.
Proof.
  unfold loc_info. unfold bind at 1. destruct (test_total false is_plink (u_path u) x) as [b E]. unfold loc_islink, path_islink. rewrite E.
  now rewrite andb_false_r.
Qed.
Lemma set_exec_follow u m x : loc_set_exec u m x =
  (let! e <- os_stat true (u_path u); os_chmod (u_path u) (Z.lor (Z.land (st_mode e) (Z.lnot exec_mask)) m)) x.
Proof.
  unfold loc_set_exec. unfold bind at 1. rewrite info_follow. unfold bind, ret, os_stat. destruct (plook x true (u_path u)) as [[q e|]|]; auto. cbn [i_mode].
  unfold loc_set_mode, bind. destruct (test_total false is_plink (u_path u) x) as [b E]. unfold loc_islink, path_islink. now rewrite E.
Qed.
