(** C126: locks where there are several memory file systems. *)
From Verif Require Import Str Exc Utf8 UriParse BaseUri StrFacts SpecUri Mem MemOps SpecMem Generic SpecGen UriOps Prog Registry SpecReg Locks LockBlock Net SpecNet NetLock.
From Verif Require Import MemFacts9 GenFacts1 GenFacts2 GenFacts10 LockFacts PropsMem PropsBlock Pair NetFacts NetFacts2 NetFacts3 NetFacts5 PropsNet.
Local Open Scope string_scope.
Local Open Scope list_scope.

(** [s] with the clock and the epoch of the whole *)
Lemma fs_at_eq {A} c (m : M mst A) N r s : m (fs_of N c) = (r, s) -> m_now s = r_now (n_reg N) -> m_epoch s = n_epoch N ->
  exists N', at_conn c m N = (r, N') /\ fs_of N' c = s /\ framed c N N' /\ n_held N' = m_held s /\ n_reg N' = n_reg N /\ n_epoch N' = n_epoch N.
Proof.
  intros E En Ee. unfold at_conn. rewrite E. eexists. split; [reflexivity|]. split.
  - unfold fs_of. cbn. rewrite Nat.eqb_refl. destruct s. cbn in *. now subst.
  - split; [|repeat split]. constructor; cbn; auto. intros i Hi. apply Nat.eqb_neq in Hi. now rewrite Hi.
Qed.
(** The outcome of asking for a lock in one of the file systems: the file is there and empty, in the others nothing happens.
    Whether it is granted depends on the locks held anywhere. *)
Theorem C126_block_partial {A} a u c p fail (body : nat -> handle -> M net A) N hs : net_reach (N, hs) -> authority a -> ours a u -> open_as (n_reg N) (u_key u) c ->
  silent (fs_of N c) -> writable (view (fs_of N c)) u p ->
  exists h l N2, block_start (fs_of N c) u p h l (fs_of N2 c) /\ framed c N N2 /\ n_held N2 = l :: n_held N /\
    (~ In l (n_held N) -> forall r N3, body c h N2 = (r, N3) -> n_held N3 = l :: n_held N ->
      exists N4, net_lock u fail false body N = (r, N4) /\ n_held N4 = n_held N /\ n_reg N4 = n_reg N3 /\ (forall i, i <> c -> n_fs N4 i = n_fs N3 i) /\ fs_of N4 c = set_held (fs_of N3 c) (n_held N)) /\
    (In l (n_held N) -> forall cleanup,
      exists N4, net_lock u fail cleanup body N = (Raise (if fail then LockFileObtainException else OutOfFuel), N4) /\ framed c N N4 /\ n_held N4 = n_held N /\ fs_of N4 c = set_held (fs_of N2 c) (n_held N)).
Proof.
  intros Re Au Ou Op Si Wr. pose proof (C110_reachable N hs c Re) as Rc. apply net_reach_ok in Re. pose proof (served_open a 0 N u c Au (proj1 Re) Ou Op) as Sv.
  pose proof (enter_served a u c N Au Ou Sv) as En. set (N1 := mkNet _ _ _ _) in En. assert (F1 : fs_of N1 c = fs_of N c) by reflexivity.
  assert (Fr1 : framed c N N1) by apply set_used_framed.
  destruct (start_lock (fs_of N c) u p (reachable_wf _ Rc) Wr) as (h & l & s1 & s2 & E1 & Es & E2 & Bs & W2 & _).
  destruct (bs_rest _ _ _ _ _ _ Bs) as (B1 & B2 & B3). destruct (writable_addr _ _ _ Wr) as [cs Ad].
  destruct (lock_open_spec u (fs_of N c) h l s1 (reachable_wf _ Rc) E1) as (_ & Frs & _).
  assert (Hk : at_conn c (mem_hook u (lit "lock")) N1 = (Ok tt, mkNet (n_reg N1) (fun i => if Nat.eqb i c then fs_of N1 c else n_fs N1 i) (n_epoch N1) (n_held N1))).
  { unfold at_conn. rewrite F1, (silent_hook (fs_of N c) u cs _ Si Ad). reflexivity. }
  set (N1' := mkNet (n_reg N1) _ _ _) in Hk. assert (F1' : fs_of N1' c = fs_of N c).
  { unfold fs_of at 1. cbn. rewrite Nat.eqb_refl. reflexivity. }
  assert (Fr1' : framed c N1 N1'). { constructor; cbn; auto. intros i Hi. apply Nat.eqb_neq in Hi. now rewrite Hi. }
  assert (E1' : lock_open u (fs_of N1' c) = (Ok (h, l), s1)) by now rewrite F1'.
  assert (N1s : m_now s1 = r_now (n_reg N1') /\ m_epoch s1 = n_epoch N1' /\ m_held s1 = n_held N).
  { subst s2. cbn in B1, B2. split; [exact B1|]. split; [exact B2|]. now rewrite (fr_held _ _ Frs). }
  destruct N1s as (Nn & Ne & Nh). destruct (fs_at_eq c (lock_open u) N1' _ _ E1' Nn Ne) as (N5 & A5 & F5 & Fr5 & H5 & G5 & P5).
  assert (E2' : try_acquire l (fs_of N5 c) = (if is_held l (fs_of N c) then (Ok false, s1) else (Ok true, s2))) by now rewrite F5.
  set (N2 := mkNet (n_reg N5) (fun i => if Nat.eqb i c then s2 else n_fs N5 i) (n_epoch N5) (l :: n_held N)).
  assert (F2 : fs_of N2 c = s2).
  { unfold fs_of. cbn. rewrite Nat.eqb_refl, G5, P5. subst s2. cbn in *. rewrite <- Nn, <- Ne. reflexivity. }
  assert (Fr2 : framed c N N2).
  { apply (framed_trans c N N1 N2 Fr1). apply (framed_trans c N1 N1' N2 Fr1'). apply (framed_trans c N1' N5 N2 Fr5). constructor; cbn; auto. intros i Hi. apply Nat.eqb_neq in Hi. now rewrite Hi. }
  exists h, l, N2. rewrite F2. split; [exact Bs|]. split; [exact Fr2|]. split; [reflexivity|]. split.
  - intros NI r N3 Eb H3. assert (Ac : at_conn c (try_acquire l) N5 = (Ok true, N2)).
    { unfold at_conn. rewrite E2', (held_no l (fs_of N c) NI). unfold N2. subst s2. reflexivity. }
    unfold net_lock, net_lock_enter, bind. rewrite En, Hk, A5. cbn [fst snd]. rewrite Ac. unfold ret. rewrite Eb. unfold net_lock_exit, bind, at_conn.
    rewrite (release_one l (n_held N) (fs_of N3 c) H3). cbn [ret]. eexists. split; [reflexivity|]. cbn. split; [reflexivity|]. split; [reflexivity|]. split.
    + intros i Hi. apply Nat.eqb_neq in Hi. now rewrite Hi.
    + unfold fs_of at 1. cbn. rewrite Nat.eqb_refl. reflexivity.
  - intros I cl. assert (Ih : is_held l (fs_of N c) = true) by now apply is_held_in.
    assert (E2n : try_acquire l (fs_of N5 c) = (Ok false, s1)) by now rewrite E2', Ih.
    assert (S1n : m_now s1 = r_now (n_reg N5) /\ m_epoch s1 = n_epoch N5) by (rewrite G5, P5; now split).
    destruct (fs_at_eq c (try_acquire l) N5 _ _ E2n (proj1 S1n) (proj2 S1n)) as (N6 & A6 & F6 & Fr6 & H6 & G6 & P6).
    unfold net_lock, net_lock_enter, bind. rewrite En, Hk, A5. cbn [fst snd]. rewrite A6. cbn [raise]. eexists. split; [reflexivity|]. split.
    + apply (framed_trans c N N1 N6 Fr1). apply (framed_trans c N1 N1' N6 Fr1'). now apply (framed_trans c N1' N5 N6 Fr5).
    + split; [now rewrite H6|]. rewrite F6. subst s2. cbn. rewrite <- Nh. now destruct s1.
Qed.
Print Assumptions C126_block_partial.
(** Every block, with cleanup or without, whether the lock is granted or not, and whatever can be opened: the statement does
    in the file system of its URI what it does in a lone one (C84) where the locks held anywhere are held, and leaves the others.
    The block is any code that keeps to this file system. *)
Definition keeps_to {A} (c : nat) (N : net) (body : nat -> handle -> M net A) (alone : handle -> M mst A) : Prop :=
  forall h N1, framed c N N1 -> tidy (fs_of N1 c) ->
    exists N2, body c h N1 = (fst (alone h (fs_of N1 c)), N2) /\ fs_of N2 c = snd (alone h (fs_of N1 c)) /\ framed c N1 N2 /\ tidy (fs_of N2 c).
Lemma neat_lock_open u : neat noq any (mem_open u (Some (lit "w"))) -> neat noq any (lock_open u).
Proof. intros H. apply (neat_bind noq any); [exact H|]. intros h _. apply (neat_bind noq any); [apply neat_get_file|]. intros f _. now apply neat_ret. Qed.
Lemma neat_acquire l : neat noq any (try_acquire l).
Proof. intros s T. unfold try_acquire. destruct (is_held l s); repeat split; auto. Qed.
Lemma neat_release l : neat noq any (release l).
Proof. intros s T. unfold release. destruct (is_held l s); repeat split; auto. Qed.
Theorem C126_alone {A} a u c fail cleanup (body : nat -> handle -> M net A) alone N hs : net_reach (N, hs) -> authority a -> ours a u -> open_as (n_reg N) (u_key u) c ->
  tidy (fs_of N c) -> keeps_to c N body alone ->
  exists N', net_lock u fail cleanup body N = (fst (with_lock u fail cleanup alone (fs_of N c)), N') /\
    fs_of N' c = snd (with_lock u fail cleanup alone (fs_of N c)) /\ framed c N N' /\ n_held N' = m_held (snd (with_lock u fail cleanup alone (fs_of N c))).
Proof.
  intros Re Au Ou Op Td Kp. apply net_reach_ok in Re. pose proof (served_open a 0 N u c Au (proj1 Re) Ou Op) as Sv.
  enough (G : exists N', net_lock u fail cleanup body N = (fst (with_lock u fail cleanup alone (fs_of N c)), N') /\ R c N (snd (with_lock u fail cleanup alone (fs_of N c))) N').
  { destruct G as (N' & E & (E1 & E2 & E3)). exists N'. rewrite <- E1. split; [exact E|]. split; [reflexivity|]. now split. }
  assert (HR : R c N (fs_of N c) N) by (split; [reflexivity|split; [apply framed_refl|now apply tidy_nodes]]).
  unfold net_lock, net_lock_enter, with_lock, hooked, bind. rewrite (enter_is a c N Au Sv u (fs_of N c) N Ou HR).
  pose proof (enter_R c N (fs_of N c) N HR) as R1. cbn [b_hook mem_backend].
  destruct (at_both c N any (mem_hook u (lit "lock")) (neat_hook noq u _) _ _ R1) as (E1 & R2 & _).
  destruct (mem_hook u (lit "lock") (fs_of N c)) as [[[]|e] s1], (at_conn c (mem_hook u (lit "lock")) _) as [r1 N1]; cbn [fst snd] in E1, R2; subst r1; [|now exists N1].
  destruct (at_both c N any (lock_open u) (neat_lock_open u (neat_mem_open noq noq_incl u _ (path_noq a Au u Ou))) _ _ R2) as (E2 & R3 & _).
  destruct (lock_open u s1) as [[[h l]|e] s2], (at_conn c (lock_open u) N1) as [r2 N2]; cbn [fst snd] in E2, R3; subst r2; [|now exists N2].
  destruct (at_both c N any (try_acquire l) (neat_acquire l) _ _ R3) as (E3 & R4 & _). cbn [fst snd].
  assert (Ne : forall e, fst (try_acquire l s2) <> Raise e) by (intros e; unfold try_acquire; destruct (is_held l s2); discriminate).
  destruct (try_acquire l s2) as [[[|]|e] s3], (at_conn c (try_acquire l) N2) as [r3 N3]; cbn [fst snd] in E3, R4; subst r3; [| |now destruct (Ne e)].
  2:{ exists N3. now cbn. }
  unfold ret. destruct R4 as (F4 & G4 & T4). destruct (Kp h N3 G4) as (N4 & E4 & F5 & G5 & T5); [rewrite F4; now apply tidy_nodes|]. rewrite E4. rewrite F4 in *.
  assert (R5 : R c N (snd (alone h s3)) N4) by (split; [exact F5|split; [exact (framed_trans _ _ _ _ G4 G5)|rewrite <- F5; now apply tidy_nodes]]).
  destruct (alone h s3) as [r s4]. cbn [fst snd] in *. unfold net_lock_exit, lock_exit, bind.
  destruct (at_both c N any (release l) (neat_release l) _ _ R5) as (E6 & R6 & _).
  destruct (release l s4) as [[[]|e] s5], (at_conn c (release l) N4) as [r5 N5]; cbn [fst snd] in E6, R6; subst r5; [|now exists N5].
  destruct cleanup; [|exists N5; now cbn].
  assert (Bt : both (R c N) any (u_remove mem_backend 0 false u) (u_remove net_backend 0 false u)) by (eapply both_remove; [exact (net_paired a c N Au Sv)|exact (ours_div a Au)|exact Ou]).
  destruct (Bt _ _ R6) as (E7 & R7 & _).
  destruct (u_remove mem_backend 0 false u s5) as [[[]|e] s6], (u_remove net_backend 0 false u N5) as [r6 N6]; cbn [fst snd] in E7, R7; subst r6; now exists N6.
Qed.
Print Assumptions C126_alone.
(** False of the code: a lock in one file system keeps others from locking the file of that path in another one, which loses
    its contents.  ("memory:///" and joe's file system; both_open has /d/f in joe's.) *)
Definition read_file (u : uri) : M net pyval := let! c <- enter u; at_conn c (let! h <- u_open u (Some (lit "rb")); h_read h (-1)).
Definition two_locks : M net (res unit) :=
  net_ask 5 (UMkdir (nu "memory:///d")) ;;
  net_lock (nu "memory:///d/f") true false (fun _ _ => fun N => let (r, N') := net_lock (nu "memory://joe@/d/f") true false (fun _ _ => ret tt) N in (Ok r, N')).
Theorem C126_refuted : net_reach both_open /\
  (exists r N, two_locks (fst both_open) = (Ok r, N) /\ r = Raise LockFileObtainException /\
    fst (read_file (nu "memory://joe@/d/f") (fst both_open)) = Ok (VBytes (lit "xyz")) /\ fst (read_file (nu "memory://joe@/d/f") N) = Ok (VBytes [])).
Proof. split; [exact both_reach|]. do 2 eexists. split; [vm_compute; reflexivity|]. split; [reflexivity|]. split; vm_compute; reflexivity. Qed.
Print Assumptions C126_refuted.
(** The hypotheses hold of joe's file and of a file that is not locked elsewhere. *)
Example C126_witness : let u := nu "memory://joe@/d/f" in net_reach both_open /\ authority (lit "joe@") /\ ours (lit "joe@") u /\ open_as (n_reg (fst both_open)) (u_key u) 0 /\
  silent (fs_of (fst both_open) 0) /\ writable (view (fs_of (fst both_open) 0)) u [lit "d"; lit "f"] /\
  fst (net_lock u true false (fun c h => at_conn c (h_write h (VStr (lit "lorem")))) (fst both_open)) = Ok tt /\
  (let N := snd (net_lock u true false (fun c h => at_conn c (h_write h (VStr (lit "lorem")))) (fst both_open)) in
   fst (read_file u N) = Ok (VBytes (lit "lorem")) /\ n_held N = []).
Proof.
  cbv zeta. split; [exact both_reach|]. split; [auth|]. split; [mine "/d/f"|]. split; [exists (u_key (nu "memory://joe@/d/f")); split; [now repeat split|vm_compute; now left]|].
  split. { intros p cb u name H. vm_compute in H. contradiction. }
  split. { apply wr_file; [|do 3 eexists; vm_compute; reflexivity]. exists [lit "d"; lit "f"]. split.
    - split; [vm_compute; reflexivity|]. split; [|discriminate]. repeat constructor; vm_compute; intuition discriminate.
    - apply resolves_entry. left. do 3 eexists. vm_compute. reflexivity. }
  repeat split; vm_compute; reflexivity.
Qed.
(** A block that writes keeps to its file system; with cleanup joe's file is gone afterwards, the files of the other one are not. *)
Definition joe_writes : nat -> handle -> M net unit := fun c h => at_conn c (h_write h (VStr (lit "lorem"))).
Example C126_alone_witness : let u := nu "memory://joe@/d/f" in tidy (fs_of (fst both_open) 0) /\
  keeps_to 0 (fst both_open) joe_writes (fun h => h_write h (VStr (lit "lorem"))) /\
  fst (net_lock u true true joe_writes (fst both_open)) = Ok tt /\ n_held (snd (net_lock u true true joe_writes (fst both_open))) = [] /\
  fst (net_ask 5 (UExists u) (fst both_open)) = Ok (ABool true) /\ fst (net_ask 5 (UExists u) (snd (net_lock u true true joe_writes (fst both_open)))) = Ok (ABool false) /\
  fst (net_ask 5 (UExists (nu "memory://joe@/d")) (snd (net_lock u true true joe_writes (fst both_open)))) = Ok (ABool true).
Proof.
  cbv zeta. split; [apply C110_witness|]. split.
  { intros h N1 F Td. destruct (at_both 0 (fst both_open) any (h_write h (VStr (lit "lorem"))) (neat_h_write noq h _) (fs_of N1 0) N1 (conj eq_refl (conj F (proj1 (tidy_nodes _) Td)))) as (E1 & (E2 & E3 & E4) & _).
    pose proof (at_framed 0 (h_write h (VStr (lit "lorem"))) N1) as Fr. unfold joe_writes. destruct (at_conn 0 _ N1) as [r N2]. cbn [fst snd] in *. exists N2. subst r. split; [reflexivity|]. split; [exact E2|]. split; [exact Fr|].
    apply tidy_nodes. now rewrite E2. }
  repeat split; vm_compute; reflexivity.
Qed.
