(** Two memory connections used by one call *)
From Coq Require Import Lia.
From Verif Require Import Str Exc Utf8 UriParse BaseUri StrFacts Mem MemOps Generic Fnmatch UriOps Prog Registry SpecReg RegFacts RegFacts2
  MemFacts MemFacts9 GenFacts9 GenFacts10 LockFacts World Net Pair SpecNet SpecNetTwo NetFacts NetFacts2 NetFacts3 NetFacts4 NetFacts5.

Lemma framed2_refl c d N : framed2 c d N N. Proof. now constructor. Qed.
Lemma framed2_trans c d N1 N2 N3 : framed2 c d N1 N2 -> framed2 c d N2 N3 -> framed2 c d N1 N3.
Proof.
  intros [A1 A2 A3 A4 A5 A6 A7 A8 A9 A10] [B1 B2 B3 B4 B5 B6 B7 B8 B9 B10]. constructor; try congruence; intros i Hi Hj; [rewrite B7 by assumption|rewrite B8 by assumption]; auto.
Qed.
Lemma framed2_swap c d N N' : framed2 c d N N' -> framed2 d c N N'.
Proof. intros [A1 A2 A3 A4 A5 A6 A7 A8 A9 A10]. constructor; auto. Qed.
Lemma used_framed2 c d N : framed2 c d N (mkNet (set_used (n_reg N) c (r_now (n_reg N))) (n_fs N) (n_epoch N) (n_held N)).
Proof. constructor; cbn; auto. intros i Hi _. apply Nat.eqb_neq in Hi. now rewrite Hi. Qed.
Lemma at_framed2 {B} c d (m : M mst B) N : seqs m -> wf (fs_of N c) -> framed2 c d N (snd (at_conn c m N)).
Proof.
  intros Sq W. destruct (frame_seqs m (fs_of N c) Sq W) as [[_ Fh _ _] _]. unfold at_conn. destruct (m (fs_of N c)) as [r s]. cbn [snd] in *. cbn in Fh. constructor; cbn; auto.
  intros i Hi _. unfold fs_of. cbn. apply Nat.eqb_neq in Hi. now rewrite Hi, Fh.
Qed.

Section Two.
Variables (a b : str) (c d : nat) (N0 : net) (side : uri -> bool).
Hypothesis A : authority a.
Hypothesis B : authority b.
Hypothesis Sa : served a c N0.
Hypothesis Sb : served b d N0.
Hypothesis D : c <> d.
Hypothesis side_a : forall u, ours a u -> side u = true.
Hypothesis side_b : forall u, ours b u -> side u = false.
Definition R2 (s : mst * mst) (N : net) : Prop :=
  fs_of N c = fst s /\ fs_of N d = snd s /\ framed2 c d N0 N /\ tidyq noq (fst s) /\ tidyq noq (snd s) /\ wf (fst s) /\ wf (snd s).
Definition P2 (u : uri) : Prop := ours a u \/ ours b u.

Lemma served_framed2 x i N : framed2 c d N0 N -> served x i N0 -> served x i N.
Proof. intros F [S1 S2]. split; [now rewrite (ft_schemes _ _ _ _ F)|]. intros u O. rewrite (ft_conns _ _ _ _ F). now apply S2. Qed.
Lemma at1_both {X} (Q : X -> Prop) (m : M mst X) : neat noq Q m -> seqs m -> both R2 Q (on1 m) (at_conn c m).
Proof.
  intros H Sq [s t] N (E1 & E2 & F & T1 & T2 & W1 & W2). cbn [fst snd] in *. subst s t. destruct (H _ T1) as (H1 & H2 & H3 & H4).
  destruct (frame_seqs m (fs_of N c) Sq W1) as [[_ Fh _ _] W']. pose proof (at_framed2 c d m N Sq W1) as AF.
  unfold on1. cbn [fst snd]. unfold at_conn in *. destruct (m (fs_of N c)) as [r s'] eqn:Em. cbn [fst snd] in *. cbn in Fh.
  split; [reflexivity|]. split; [|exact H4]. unfold R2. cbn [fst snd]. split; [|split; [|split; [exact (framed2_trans _ _ _ _ _ F AF)|exact (conj H1 (conj T2 (conj W' W2)))]]].
  - unfold fs_of. cbn. rewrite Nat.eqb_refl. unfold fs_of in H2, H3. cbn in H2, H3. rewrite <- H2, <- H3. now destruct s'.
  - unfold fs_of. cbn. destruct (Nat.eqb_spec d c) as [E|_]; [congruence|]. now rewrite Fh.
Qed.
Lemma at2_both {X} (Q : X -> Prop) (m : M mst X) : neat noq Q m -> seqs m -> both R2 Q (on2 m) (at_conn d m).
Proof.
  intros H Sq [s t] N (E1 & E2 & F & T1 & T2 & W1 & W2). cbn [fst snd] in *. subst s t. destruct (H _ T2) as (H1 & H2 & H3 & H4).
  destruct (frame_seqs m (fs_of N d) Sq W2) as [[_ Fh _ _] W']. pose proof (at_framed2 d c m N Sq W2) as AF.
  unfold on2. cbn [fst snd]. unfold at_conn in *. destruct (m (fs_of N d)) as [r s'] eqn:Em. cbn [fst snd] in *. cbn in Fh.
  split; [reflexivity|]. split; [|exact H4]. unfold R2. cbn [fst snd]. split; [|split; [|split; [exact (framed2_trans _ _ _ _ _ F (framed2_swap _ _ _ _ AF))|exact (conj T1 (conj H1 (conj W1 W')))]]].
  - unfold fs_of. cbn. destruct (Nat.eqb_spec c d) as [E|_]; [congruence|]. now rewrite Fh.
  - unfold fs_of. cbn. rewrite Nat.eqb_refl. unfold fs_of in H2, H3. cbn in H2, H3. rewrite <- H2, <- H3. now destruct s'.
Qed.
Lemma enter1 u s N : ours a u -> R2 s N -> exists N', enter u N = (Ok c, N') /\ R2 s N'.
Proof.
  intros O (E1 & E2 & F & T). eexists. split; [exact (enter_served a u c N A O (served_framed2 a c N F Sa))|].
  split; [exact E1|]. split; [exact E2|]. split; [|exact T]. exact (framed2_trans _ _ _ _ _ F (used_framed2 c d N)).
Qed.
Lemma enter2 u s N : ours b u -> R2 s N -> exists N', enter u N = (Ok d, N') /\ R2 s N'.
Proof.
  intros O (E1 & E2 & F & T). eexists. split; [exact (enter_served b u d N B O (served_framed2 b d N F Sb))|].
  split; [exact E1|]. split; [exact E2|]. split; [|exact T]. exact (framed2_trans _ _ _ _ _ F (framed2_swap _ _ _ _ (used_framed2 d c N))).
Qed.
Lemma method2 {X} (Q : X -> Prop) u (m : M mst X) : P2 u -> neat noq Q m -> seqs m -> both R2 Q (World.both side u m m) (method u m).
Proof.
  intros P H Sq s N HR. unfold method, bind, World.both. destruct P as [O|O].
  - rewrite (side_a u O). destruct (enter1 u s N O HR) as (N' & -> & R'). now apply at1_both.
  - rewrite (side_b u O). destruct (enter2 u s N O HR) as (N' & -> & R'). now apply at2_both.
Qed.
Lemma within2 {X} (Q : X -> Prop) u (m : M mst X) : P2 u -> neat noq Q m -> seqs m -> both R2 Q (World.both side u m m) (within u m).
Proof.
  intros P H Sq s N HR. pose proof HR as (_ & _ & F & _). unfold within, bind, current, World.both. destruct P as [O|O].
  - rewrite (side_a u O), (proj2 (served_framed2 a c N F Sa) u O). now apply at1_both.
  - rewrite (side_b u O), (proj2 (served_framed2 b d N F Sb) u O). now apply at2_both.
Qed.
Lemma path2 u : P2 u -> clear_path noq u.
Proof. intros [O|O]; [exact (path_noq a A u O)|exact (path_noq b B u O)]. Qed.
Lemma keys_ab u v : ours a u -> ours b v -> key_eqb (u_key u) (u_key v) = false.
Proof.
  intros Ou Ov. destruct (key_eqb (u_key u) (u_key v)) eqn:E; [|reflexivity]. exfalso. apply D.
  pose proof (proj2 Sa u Ou) as E1. pose proof (proj2 Sb v Ov) as E2. apply key_eqb_eq in E. rewrite (kget_same _ _ _ E) in E1. congruence.
Qed.
Lemma keys_ba u v : ours b u -> ours a v -> key_eqb (u_key u) (u_key v) = false.
Proof.
  intros Ou Ov. destruct (key_eqb (u_key u) (u_key v)) eqn:E; [|reflexivity]. exfalso. apply D.
  pose proof (proj2 Sa v Ov) as E1. pose proof (proj2 Sb u Ou) as E2. apply key_eqb_eq in E. rewrite (kget_same _ _ _ E) in E2. congruence.
Qed.
Lemma fetch_both u : P2 u -> both R2 any (World.both side u (mem_fetch u) (mem_fetch u)) (method u (mem_fetch u)).
Proof.
  intros P. apply method2; [exact P| |].
  - apply (neat_bind noq any); [apply (neat_open noq noq_incl); now apply path2|]. intros h _. apply (neat_bind noq any); [apply neat_h_read|]. intros [x|x] _; first [now apply neat_ret|apply neat_raise].
  - apply seqs_bind; [apply seqs_open|]. intros h. apply seqs_bind; [apply seqs_h_read|]. intros [x|x]; apply seqs_pure; first [apply pure_ret|apply pure_raise].
Qed.
Lemma put_both u l : P2 u -> both R2 any (World.both side u (mem_put u l) (mem_put u l)) (method u (mem_put u l)).
Proof.
  intros P. apply method2; [exact P| |].
  - apply (neat_bind noq any); [apply (neat_open noq noq_incl); now apply path2|]. intros h _. destruct l; [now apply neat_ret|apply neat_h_write].
  - apply seqs_bind; [apply seqs_open|]. intros h. destruct l; [apply seqs_pure, pure_ret|apply seqs_h_write].
Qed.
Definition two : backend (mst * mst) := world mem_backend mem_backend mem_fetch mem_put mem_fetch mem_put side.
Lemma content2 u v : P2 u -> P2 v -> both R2 any (b_copy_content two u v) (net_content u v).
Proof.
  intros Pu Pv. change (b_copy_content two u v) with (world_content mem_backend mem_backend mem_fetch mem_put mem_fetch mem_put side u v). unfold world_content, net_content.
  pose proof (fetch_both u Pu) as Fe. pose proof (fun l => put_both v l Pv) as Pt. unfold World.both in Fe, Pt. unfold mem_backend; cbn [b_copy_content].
  destruct Pu as [Ou|Ou], Pv as [Ov|Ov].
  - rewrite (side_a u Ou), (side_a v Ov) in *. rewrite (ours_key a A u v Ou Ov), key_eqb_refl. intros s N HR. unfold bind.
    destruct (enter1 u s N Ou HR) as (N1 & -> & R1). destruct (enter1 v s N1 Ov R1) as (N2 & -> & R2'). apply at1_both; auto using seqs_content. apply (neat_content noq noq_incl); apply (path_noq a); assumption.
  - rewrite (side_a u Ou), (side_b v Ov) in *. rewrite (keys_ab u v Ou Ov). apply (both_bind R2 any); [exact Fe|]. intros l _. apply Pt.
  - rewrite (side_b u Ou), (side_a v Ov) in *. rewrite (keys_ba u v Ou Ov). apply (both_bind R2 any); [exact Fe|]. intros l _. apply Pt.
  - rewrite (side_b u Ou), (side_b v Ov) in *. rewrite (ours_key b B u v Ou Ov), key_eqb_refl. intros s N HR. unfold bind.
    destruct (enter2 u s N Ou HR) as (N1 & -> & R1). destruct (enter2 v s N1 Ov R1) as (N2 & -> & R2'). apply at2_both; auto using seqs_content. apply (neat_content noq noq_incl); apply (path_noq b); assumption.
Qed.
Lemma two_paired : paired R2 two net_backend P2 noq any (fun u => u_path u <> []).
Proof.
  constructor; cbn [b_hook b_exists b_isfile b_isdir b_islink b_listdir b_removefile b_removedir b_mkdir b_readlink b_copystat b_removefile_by b_symlink_by two world mem_backend net_backend]; intros.
  - apply method2; [assumption|apply neat_hook|apply seqs_pure, pure_hook].
  - apply within2; [assumption|apply neat_exists|apply seqs_pure, pure_exists].
  - apply within2; [assumption|apply neat_isfile|apply seqs_pure, pure_isfile].
  - apply within2; [assumption|apply neat_isdir|apply seqs_pure, pure_isdir].
  - apply within2; [assumption|apply neat_islink|apply seqs_pure, pure_islink].
  - apply within2; [assumption|apply neat_listdir|apply seqs_pure, pure_listdir].
  - apply within2; [assumption|apply neat_removefile|apply seqs_removefile].
  - apply within2; [assumption|apply neat_removedir|apply seqs_removedir].
  - apply within2; [assumption|apply (neat_mkdir noq noq_incl); now apply path2|exact (seqs_op (OpMkdir u) Logic.I)].
  - apply within2; [assumption|apply neat_readlink|apply seqs_pure, pure_readlink].
  - apply within2; [assumption|apply neat_copystat|apply seqs_copystat].
  - now apply content2.
  - apply within2; [assumption|apply neat_removefile|apply seqs_removefile].
  - apply within2; [assumption|apply (neat_symlink noq noq_incl); now apply path2|apply seqs_symlink].
Qed.
Lemma div2 u n r : P2 u -> noq n -> u_div u n = Ok r -> P2 r.
Proof. intros [O|O] Hn E; [left; exact (ours_div a A u n r O Hn E)|right; exact (ours_div b B u n r O Hn E)]. Qed.
Lemma split2 u x n : P2 u -> u_path u <> [] -> u_split u = Ok (x, n) -> P2 x.
Proof. intros [O|O] Hn E; [left; exact (ours_split a A u x n O Hn E)|right; exact (ours_split b B u x n O Hn E)]. Qed.
Lemma last2 u : P2 u -> noq (u_last u).
Proof. intros [O|O]; [exact (last_noq a A u O)|exact (last_noq b B u O)]. Qed.
Lemma rest2 u k : P2 u -> noq (strip_p is_space (skipn k (u_path u))).
Proof. intros [O|O]; [exact (rest_noq a A u k O)|exact (rest_noq b B u k O)]. Qed.
Lemma copy2 fuel r ig fl u v : P2 u -> P2 v -> both R2 any (u_copy two fuel r ig fl u v) (u_copy net_backend fuel r ig fl u v).
Proof. intros Pu Pv. eapply both_copy; eauto using two_paired, div2, split2, last2, rest2. Qed.
Lemma move2 fuel u v : P2 u -> P2 v -> both R2 any (u_move two fuel u v) (u_move net_backend fuel u v).
Proof. intros Pu Pv. eapply both_move; eauto using two_paired, div2, split2, last2, rest2. Qed.
End Two.
