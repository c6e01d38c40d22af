(** Properties C52 and C53: locks of the memory backend. *)
From Coq Require Import Lia Permutation.
From Verif Require Import Str Exc Utf8 UriParse BaseUri StrFacts SpecUri Mem MemOps SpecMem Generic UriOps Locks.
From Verif Require Import MemFacts MemFacts2 MemFacts3 MemFacts4 MemFacts7 MemFacts9 MemUri MemFacts10 GenFacts10 LockFacts PropsMem PropsGeneric.

(** ** C52 *)
(** Thread [t] is inside the with-block of a lock on the file object [n]. *)
Definition in_block (t : locker) (n : nat) : Prop := exists u cl l, t = KIn u cl n l.
(** The path a file was created with. *)
Definition made_as (s : mst) (n : nat) (p : str) : Prop := exists f, m_heap s n = NFile f /\ f_path f = p.

(** Any number of threads, each with its own URI and flags, any operations in between.
    Partial: no memory connection is opened and no lock taken away meanwhile (see the refuted theorems). *)
Theorem C52_exclusion_partial s ts evs : reachable s -> m_held s = [] -> Forall k_starting ts -> Forall peaceful evs ->
  let c := kruns evs (mkK s ts) in
  forall i j t u n, nth_error (k_threads c) i = Some t -> nth_error (k_threads c) j = Some u ->
    in_block t n -> in_block u n -> i = j.
Proof.
  intros R H0 F Q c i j t u n Hi Hj (u1 & cl1 & l1 & ->) (u2 & cl2 & l2 & ->).
  destruct (k_inv_runs evs _ _ Q (k_inv_begin s ts (reachable_wf s R) H0 F)) as (rest & I & _). fold c in I.
  assert (l1 = l2). { pose proof (ki_ok _ _ I) as K. rewrite Forall_forall in K. eapply lock_of_fun; [apply (K _ (nth_error_In _ _ Hi))|apply (K _ (nth_error_In _ _ Hj))]. }
  subst l2. eapply inside_one; eauto; reflexivity.
Qed.
Print Assumptions C52_exclusion_partial.
(** Also for different file objects made with the same path, one after the other. *)
Theorem C52_same_path_partial s ts evs : reachable s -> m_held s = [] -> Forall k_starting ts -> Forall peaceful evs ->
  let c := kruns evs (mkK s ts) in
  forall i j t u n n' p, nth_error (k_threads c) i = Some t -> nth_error (k_threads c) j = Some u ->
    in_block t n -> in_block u n' -> made_as (k_mem c) n p -> made_as (k_mem c) n' p -> i = j.
Proof.
  intros R H0 F Q c i j t u n n' p Hi Hj (u1 & cl1 & l1 & ->) (u2 & cl2 & l2 & ->) (f1 & E1 & P1) (f2 & E2 & P2).
  destruct (k_inv_runs evs _ _ Q (k_inv_begin s ts (reachable_wf s R) H0 F)) as (rest & I & _). fold c in I.
  assert (l1 = l2).
  { pose proof (ki_ok _ _ I) as K. rewrite Forall_forall in K. pose proof (K _ (nth_error_In _ _ Hi)) as [_ (g1 & G1 & ->)].
    pose proof (K _ (nth_error_In _ _ Hj)) as [_ (g2 & G2 & ->)]. fold c in E1, E2. congruence. }
  subst l2. eapply inside_one; eauto; reflexivity.
Qed.
Print Assumptions C52_same_path_partial.
(** The loser: with fail_on_lock the exception at once and nothing else; without it waits. *)
Theorem C52_loser_partial s ts evs : reachable s -> m_held s = [] -> Forall k_starting ts -> Forall peaceful evs ->
  let c := kruns evs (mkK s ts) in
  forall i j t n u fail cl l, nth_error (k_threads c) i = Some t -> in_block t n ->
    nth_error (k_threads c) j = Some (KOpen u fail cl n l) ->
    kapply (KRun j) c = if fail then mkK (k_mem c) (kreplace j (KDone (Raise LockFileObtainException)) (k_threads c)) else c.
Proof.
  intros R H0 F Q c i j t n u fail cl l Hi (u1 & cl1 & l1 & ->) Hj.
  destruct (k_inv_runs evs _ _ Q (k_inv_begin s ts (reachable_wf s R) H0 F)) as (rest & I & _). fold c in I.
  assert (l1 = l). { pose proof (ki_ok _ _ I) as K. rewrite Forall_forall in K. eapply lock_of_fun; [apply (K _ (nth_error_In _ _ Hi))|apply (K _ (nth_error_In _ _ Hj))]. }
  subst l1. assert (Hl : is_held l (k_mem c) = true).
  { apply is_held_in. eapply Permutation_in; [symmetry; apply (ki_perm _ _ I)|]. apply in_or_app. left. apply in_flat_map.
    eexists. split; [apply (nth_error_In _ _ Hi)|left; reflexivity]. }
  cbn [kapply]. rewrite Hj. cbn [lstep]. unfold try_acquire. rewrite Hl. destruct fail; reflexivity.
Qed.
Print Assumptions C52_loser_partial.
(** The winner: when no thread is inside with that lock the next one gets in. *)
Theorem C52_winner_partial s ts evs : reachable s -> m_held s = [] -> Forall k_starting ts -> Forall peaceful evs -> Forall untaken evs ->
  let c := kruns evs (mkK s ts) in
  forall j u fail cl n l, nth_error (k_threads c) j = Some (KOpen u fail cl n l) ->
    (forall i u' cl' n' p, nth_error (k_threads c) i = Some (KIn u' cl' n' l) -> made_as (k_mem c) n p -> ~ made_as (k_mem c) n' p) ->
    nth_error (k_threads (kapply (KRun j) c)) j = Some (KIn u cl n l).
Proof.
  intros R H0 F Q U c j u fail cl n l Hj Free.
  destruct (k_inv_runs evs _ _ Q (k_inv_begin s ts (reachable_wf s R) H0 F)) as (rest & I & E). rewrite (E U) in I. fold c in I.
  pose proof (ki_ok _ _ I) as K. rewrite Forall_forall in K. pose proof (K _ (nth_error_In _ _ Hj)) as [Kn (f & Hf & El)].
  assert (Hl : is_held l (k_mem c) = false).
  { destruct (is_held l (k_mem c)) eqn:H; [|reflexivity]. exfalso. apply is_held_in in H. eapply Permutation_in in H; [|apply (ki_perm _ _ I)].
    rewrite app_nil_r in H. apply in_flat_map in H. destruct H as (t & Ht & Hin). destruct t as [| |u' cl' n' l'| |]; cbn [inside] in Hin; try contradiction.
    destruct Hin as [->|[]]. pose proof (K _ Ht) as [_ (f' & Hf' & El')]. apply In_nth_error in Ht. destruct Ht as [i Hi]. apply (Free i u' cl' n' (f_path f) Hi).
    - exists f. auto.
    - exists f'. split; [exact Hf'|]. congruence. }
  cbn [kapply]. rewrite Hj. cbn [lstep]. unfold try_acquire. rewrite Hl. cbn [k_threads].
  assert (X : forall (l0 : list locker) j0 t t', nth_error l0 j0 = Some t -> nth_error (kreplace j0 t' l0) j0 = Some t').
  { induction l0 as [|x l0 IH]; intros [|j0] t t' Hx; cbn in *; try discriminate; [reflexivity|]. eapply IH, Hx. }
  eapply X, Hj.
Qed.
Print Assumptions C52_winner_partial.

(** *** Examples *)
Definition df : uri := U ["d"; "f"]%string.
Definition at_df (fail cleanup : bool) : locker := KStart df fail cleanup.
Definition three : list locker := [at_df false false; at_df true false; KStart (U ["l"; "f"]%string) false true].
(** The first is inside, the second has lost, the third (through a link to the directory) waits; then the
    first leaves and the third gets in. *)
Example C52_witness : reachable demo /\ m_held demo = [] /\ Forall k_starting three /\
  Forall peaceful [KRun 0; KRun 0; KAct (AUri 9 (URemove false (U ["e"]%string))); KRun 1; KRun 1; KRun 2; KRun 2] /\
  let c := kruns [KRun 0; KRun 0; KAct (AUri 9 (URemove false (U ["e"]%string))); KRun 1; KRun 1; KRun 2; KRun 2] (mkK demo three) in
  nth_error (k_threads c) 0 = Some (KIn df false 2 (0, lit "d/f")) /\
  nth_error (k_threads c) 1 = Some (KDone (Raise LockFileObtainException)) /\
  nth_error (k_threads c) 2 = Some (KOpen (U ["l"; "f"]%string) false true 2 (0, lit "d/f")) /\
  let c' := kruns [KRun 0; KRun 2] c in
  nth_error (k_threads c') 2 = Some (KIn (U ["l"; "f"]%string) true 2 (0, lit "d/f")).
Proof.
  split; [apply demo_reachable|]. split; [vm_compute; reflexivity|]. split; [repeat constructor|]. split; [repeat constructor|].
  cbv zeta. split; [vm_compute; reflexivity|]. split; [vm_compute; reflexivity|]. split; vm_compute; reflexivity.
Qed.
(** A new memory connection forgets all locks: two threads inside on one file. *)
Theorem C52_refuted : reachable demo /\ m_held demo = [] /\
  let c := kruns [KRun 0; KRun 0; KAct (AOp OpEpoch); KRun 1; KRun 1] (mkK demo [at_df false false; at_df true false]) in
  exists t u, nth_error (k_threads c) 0 = Some t /\ nth_error (k_threads c) 1 = Some u /\ in_block t 2 /\ in_block u 2.
Proof.
  split; [apply demo_reachable|]. split; [vm_compute; reflexivity|]. cbv zeta.
  exists (KIn df false 2 (0, lit "d/f")), (KIn df false 2 (1, lit "d/f")). split; [vm_compute; reflexivity|]. split; [vm_compute; reflexivity|].
  split; do 3 eexists; reflexivity.
Qed.
Print Assumptions C52_refuted.
(** So does _manipulate(unlock=True) by any other thread. *)
Theorem C52_unlock_refuted : reachable demo /\ m_held demo = [] /\
  let c := kruns [KRun 0; KRun 0; KFrees df; KRun 1; KRun 1] (mkK demo [at_df false false; at_df true false]) in
  exists t u, nth_error (k_threads c) 0 = Some t /\ nth_error (k_threads c) 1 = Some u /\ in_block t 2 /\ in_block u 2.
Proof.
  split; [apply demo_reachable|]. split; [vm_compute; reflexivity|]. cbv zeta.
  exists (KIn df false 2 (0, lit "d/f")), (KIn df false 2 (0, lit "d/f")). split; [vm_compute; reflexivity|]. split; [vm_compute; reflexivity|].
  split; do 3 eexists; reflexivity.
Qed.
Print Assumptions C52_unlock_refuted.
(** Locks belong to the path a file was made with.  Thread 0 holds /d/x, made through the link /l; then the
    file is removed and made again; thread 1 gets the lock of the same URI as well. *)
Theorem C52_alias_refuted : reachable demo /\ m_held demo = [] /\
  let x := U ["d"; "x"]%string in
  let c := kruns [KAct (AUri 9 (UOpen (U ["l"; "x"]%string) (Some (lit "w")))); KRun 0; KRun 0; KAct (AUri 9 (URemove false x)); KRun 1; KRun 1]
             (mkK demo [KStart x false false; KStart x true false]) in
  exists n n' l l', nth_error (k_threads c) 0 = Some (KIn x false n l) /\ nth_error (k_threads c) 1 = Some (KIn x false n' l').
Proof.
  split; [apply demo_reachable|]. split; [vm_compute; reflexivity|]. cbv zeta. do 4 eexists. split; vm_compute; reflexivity.
Qed.
Print Assumptions C52_alias_refuted.
(** With cleanup the file goes after the lock is released: the next holder's file is removed under it, and
    its own clean-up raises. *)
Theorem C52_cleanup_refuted : reachable demo /\ m_held demo = [] /\
  let c := kruns [KRun 0; KRun 0; KRun 1; KRun 0; KRun 1; KRun 0] (mkK demo [at_df false true; at_df false true]) in
  in_block (nth 1 (k_threads c) (KDone (Ok tt))) 2 /\ view (k_mem c) (P ["d"; "f"]%string) = None /\
  nth_error (k_threads (kruns [KRun 1; KRun 1] c)) 1 = Some (KDone (Raise FileDoesNotExistError)).
Proof.
  split; [apply demo_reachable|]. split; [vm_compute; reflexivity|]. cbv zeta.
  split; [do 3 eexists; vm_compute; reflexivity|]. split; vm_compute; reflexivity.
Qed.
Print Assumptions C52_cleanup_refuted.

(** ** C53 *)
(** What a refused lock does: the file is emptied and gets a new time and mode; nothing else changes. *)
Theorem C53_refused_partial s u s' : reachable s -> ~ addr u [] -> lock_enter u s = (Raise LockFileObtainException, s') ->
  exists p, writable (view s) u p /\ put_at (view s) (view s') p (EFile [] (m_now s) 0) /\ m_held s' = m_held s.
Proof.
  intros R N E. pose proof (reachable_wf s R) as W. unfold lock_enter in E. unfold bind at 1 in E.
  destruct (lock_open u s) as [[[h l]|e] s1] eqn:O.
  - destruct (lock_open_spec u s h l s1 W O) as (W1 & F1 & _).
    unfold lock_open in O. unfold bind at 1 in O. destruct (mem_open u (Some (lit "w")) s) as [[h1|e1] s2] eqn:Om; [|discriminate].
    assert (s1 = s2) as ->.
    { unfold bind in O. pose proof (pure_get_file (h_node h1) s2) as X. destruct (get_file (h_node h1) s2) as [[f|x] s3]; [|discriminate].
      cbn [snd ret] in *. injection O as _ _ <-. exact X. }
    destruct (C25_success_partial s u (lit "w") h1 s2 R N eq_refl eq_refl Om) as (p & Wr).
    destruct (open_writable s u false p W Wr) as (s3 & hd & f & Eo & _ & _ & _ & _ & _ & _ & Pt).
    rewrite mem_open_write in Om by reflexivity. change (has_char 98 (lit "w")) with false in Om. rewrite Om in Eo. injection Eo as <- <-.
    unfold bind, try_acquire in E. cbn [fst snd] in E. destruct (is_held l s2); [|discriminate]. injection E as <-.
    exists p. split; [exact Wr|]. split; [exact Pt|]. apply F1.
  - (* the open itself does not raise this *)
    exfalso. injection E as -> <-. unfold lock_open in O. unfold bind at 1 in O.
    destruct (mem_open u (Some (lit "w")) s) as [[h1|e1] s2] eqn:Om.
    + destruct (open_write_inv s u false h1 s2 W N) as (p & Wr); [rewrite <- mem_open_write with (o := lit "w") by reflexivity; exact Om|].
      destruct (open_writable s u false p W Wr) as (s3 & hd & f & Eo & _ & Op & _).
      rewrite mem_open_write in Om by reflexivity. change (has_char 98 (lit "w")) with false in Om. rewrite Om in Eo. injection Eo as <- <-.
      unfold bind, get_file, bind, get_node_obj in O. rewrite (op_file _ _ _ _ _ _ Op) in O. discriminate.
    + injection O as -> ->. rewrite mem_open_write in Om by reflexivity. now apply open_write_no_lock in Om.
Qed.
Print Assumptions C53_refused_partial.
(** So a refused caller loses whatever the file held. *)
Theorem C53_loses_partial s u s' p d mt mo : reachable s -> ~ addr u [] -> writable (view s) u p ->
  lock_enter u s = (Raise LockFileObtainException, s') -> view s p = Some (EFile d mt mo) ->
  view s' p = Some (EFile [] (m_now s) 0) /\ forall q, q <> p -> view s' q = view s q.
Proof.
  intros R N Wr E V. destruct (C53_refused_partial s u s' R N E) as (p' & Wr' & [P1 P2] & _).
  destruct (open_writable s u false p (reachable_wf s R) Wr) as (s1 & h1 & f1 & E1 & _ & _ & _ & _ & _ & _ & Q1 & Q2).
  destruct (open_writable s u false p' (reachable_wf s R) Wr') as (s2 & h2 & f2 & E2 & _ & _ & _ & _ & _ & _ & T1 & T2).
  rewrite E1 in E2. injection E2 as _ <-.
  assert (X : view s1 p = view s' p).
  { destruct (list_eq_dec (list_eq_dec N.eq_dec) p p') as [->|D]; [congruence|]. rewrite (T2 p D), (P2 p D). reflexivity. }
  split; [congruence|]. intros q Hq. destruct (list_eq_dec (list_eq_dec N.eq_dec) q p') as [->|D]; [|apply P2, D].
  rewrite P1, <- T1. apply Q2, Hq.
Qed.
Print Assumptions C53_loses_partial.

(** *** Examples *)
(** The demo state while somebody holds the lock of /d/f. *)
Definition locked : mst := run_ops (demo_ops ++ [OpHeld [(0, lit "d/f")]]) (init_mem 5 0).
Lemma locked_reachable : reachable locked. Proof. eexists 5%Z, 0%nat, _. reflexivity. Qed.
Theorem C53_refuted : reachable locked /\ ~ addr df [] /\
  view locked (P ["d"; "f"]%string) = Some (EFile (lit "hello" ++ [10%N] ++ lit "world") 99 420) /\
  fst (lock_enter df locked) = Raise LockFileObtainException /\
  view (snd (lock_enter df locked)) (P ["d"; "f"]%string) = Some (EFile [] 7 0).
Proof.
  split; [apply locked_reachable|]. split; [rewrite addr_nil; vm_compute; discriminate|].
  split; [vm_compute; reflexivity|]. split; vm_compute; reflexivity.
Qed.
Print Assumptions C53_refuted.
Example C53_witness : writable (view locked) df (P ["d"; "f"]%string).
Proof.
  apply wr_file; [|do 3 eexists; vm_compute; reflexivity]. exists (P ["d"; "f"]%string). split; [apply mem_addr; good|].
  apply resolves_entry. left. do 3 eexists. vm_compute. reflexivity.
Qed.
