(** Property C84: the with-block of a lock of the memory backend. *)
From Verif Require Import Str Exc Utf8 UriParse BaseUri StrFacts SpecUri Mem MemOps SpecMem Generic SpecGen UriOps Locks LockBlock.
From Verif Require Import MemFacts MemFacts2 MemFacts3 MemFacts4 MemFacts5 MemFacts6 MemFacts7 MemFacts8 MemFacts9 MemUri MemFacts10 GenFacts1 GenFacts2 GenFacts10 LockFacts PropsMem PropsGeneric PropsLock.

Lemma lock_open_writable s u p : wf s -> writable (view s) u p ->
  exists h l s1 f, lock_open u s = (Ok (h, l), s1) /\ opened s s1 u h p f /\ l = (m_epoch s1, f_path f) /\ h = mkHandle (h_node h) false false /\
    put_at (view s) (view s1) p (EFile [] (m_now s) 0).
Proof.
  intros W Wr. destruct (open_writable s u false p W Wr) as (s1 & h & f & E & Eh & Op & _ & _ & _ & _ & Pt).
  assert (E' : lock_open u s = (Ok (h, f_lock f), s1)).
  { unfold lock_open, bind at 1. rewrite mem_open_write by reflexivity. change (has_char 98 (lit "w")) with false. rewrite E.
    unfold bind, get_file, bind, get_node_obj. rewrite (op_file _ _ _ _ _ _ Op). reflexivity. }
  destruct (lock_open_spec u s h (f_lock f) s1 W E') as (_ & _ & _ & f' & Ef & _ & El).
  pose proof (eq_trans (eq_sym (op_file _ _ _ _ _ _ Op)) Ef) as X. injection X as <-.
  exists h, (f_lock f), s1, f. split; [exact E'|]. split; [exact Op|]. split; [exact El|]. split; [exact Eh|exact Pt].
Qed.
(** Opening a file again gives the same file object. *)
Lemma reopen_node s u b q c f : wf s -> denotes (view s) u (Found q) -> phys (m_heap s) root_id q = Some c -> m_heap s c = NFile f ->
  exists s', open_for_write u b s = (Ok (mkHandle c false b), s') /\ file_upd s s' c f (mkFile (f_path f) [] 0 (m_now s) 0 (m_epoch s, f_path f)).
Proof.
  intros W (cs & A & R2) P E. destruct (snoc_cases cs) as [->|(init & n & ->)].
  { apply leads_root in R2. injection R2 as ->. cbn in P. injection P as <-. destruct (wf_root _ _ W) as (es & mt & mo & E'). congruence. }
  destruct (leads_prefix s W _ _ _ R2) as (d & R & Hd).
  destruct (leads_taken s W _ _ _ _ R R2) as [_ Hn].
  destruct (place_dir s W init n d R Hd) as (i & es & mt & mo & Pi & F & B & T1 & T2).
  rewrite T2 in Hn. destruct (dget n es) as [j|] eqn:G; [|easy].
  rewrite (run_write_taken s W u b init n d i es mt mo j (Found q) A R Pi F G R2). cbn [res_of]. rewrite P, E. cbn [is_dir].
  destruct (run_reset s c f E) as (s' & K & U). unfold bind. rewrite K. exists s'. split; [reflexivity|exact U].
Qed.

Lemma writable_addr t u p : writable t u p -> exists cs, addr u cs.
Proof. intros [q X | q (cs & A & _) _]; [inversion X|]; eauto. Qed.
Lemma hook_lock {A} s u p fail cl (body : handle -> M mst A) : silent s -> writable (view s) u p ->
  with_lock u fail cl body s = match lock_open u s with
  | (Raise e, s1) => (Raise e, s1)
  | (Ok (h, l), s1) =>
      match try_acquire l s1 with
      | (Ok true, s2) => let (r, s3) := body h s2 in
                         match lock_exit u l cl s3 with
                         | (Raise e, s4) => (Raise e, s4)
                         | (Ok _, s4) => (r, s4)
                         end
      | (_, s2) => (Raise (if fail then LockFileObtainException else OutOfFuel), s2)
      end
  end.
Proof.
  intros Q Wr. destruct (writable_addr _ _ _ Wr) as [cs A0]. unfold with_lock, hooked, bind at 1. cbn [b_hook mem_backend]. now rewrite (silent_hook s u cs _ Q A0).
Qed.
(** What the body finds: the file is there, empty, open for writing, and its lock is held: that of the file's path at
    the time it was made. *)
Record block_start (s : mst) (u : uri) (p : list str) (h : handle) (l : lock_id) (s2 : mst) : Prop := {
  bs_tree : put_at (view s) (view s2) p (EFile [] (m_now s) 0);
  bs_file : phys (m_heap s2) root_id p = Some (h_node h);
  bs_handle : h_readable h = false /\ h_binary h = false;
  bs_held : m_held s2 = l :: m_held s;
  bs_lock : exists f, m_heap s2 (h_node h) = NFile f /\ l = (m_epoch s2, f_path f);
  bs_rest : m_now s2 = m_now s /\ m_epoch s2 = m_epoch s /\ m_cbs s2 = m_cbs s }.

Lemma release_one l ls s : m_held s = l :: ls -> release l s = (Ok tt, set_held s ls).
Proof. intros H. unfold release, is_held. rewrite H. cbn [existsb drop_lock]. now rewrite (proj2 (lock_eqb_eq l l) eq_refl). Qed.
Lemma start_lock s u p : wf s -> writable (view s) u p ->
  exists h l s1 s2, lock_open u s = (Ok (h, l), s1) /\ s2 = set_held s1 (l :: m_held s) /\ try_acquire l s1 = (if is_held l s then (Ok false, s1) else (Ok true, s2)) /\
    block_start s u p h l s2 /\ wf s2 /\
    exists f, m_heap s2 (h_node h) = NFile f /\ l = (m_epoch s2, f_path f) /\ denotes (view s2) u (Found p).
Proof.
  intros W Wr. destruct (lock_open_writable s u p W Wr) as (h & l & s1 & f & E & Op & El & Eh & Pt).
  destruct (op_rest _ _ _ _ _ _ Op) as (R1 & R2 & R3 & R4).
  exists h, l, s1, (set_held s1 (l :: m_held s)). split; [exact E|]. split; [reflexivity|]. split.
  { unfold try_acquire, is_held. rewrite R3. reflexivity. }
  split; [|split; [apply wf_held, (op_wf _ _ _ _ _ _ Op)|exists f; repeat split; auto; [apply (op_file _ _ _ _ _ _ Op)|apply (op_at _ _ _ _ _ _ Op)]]].
  constructor; auto.
  - apply (op_phys _ _ _ _ _ _ Op).
  - now rewrite Eh.
  - exists f. split; [apply (op_file _ _ _ _ _ _ Op)|exact El].
Qed.
Lemma held_no l s : ~ In l (m_held s) -> is_held l s = false.
Proof. intros H. destruct (is_held l s) eqn:E; auto. now apply is_held_in in E. Qed.
Lemma start_free s u p : wf s -> writable (view s) u p ->
  exists h l s1 s2, lock_open u s = (Ok (h, l), s1) /\ (~ In l (m_held s) -> try_acquire l s1 = (Ok true, s2)) /\ block_start s u p h l s2.
Proof.
  intros W Wr. destruct (start_lock s u p W Wr) as (h & l & s1 & s2 & E1 & _ & E2 & Bs & _). exists h, l, s1, s2. split; [exact E1|]. split; [|exact Bs].
  intros N. now rewrite held_no in E2.
Qed.

(** The body is any code after which the same locks are held.  Then the lock is free, the tree is what the body left, and
    the statement ends as the body did; with cleanup the file is gone.  If the lock was held the body does not run.
    Partial: the URI is neither the root nor one that cannot be opened; callbacks do not raise. *)
Theorem C84_block_partial {A} s u p fail (body : handle -> M mst A) : reachable s -> silent s -> writable (view s) u p ->
  exists h l s2, block_start s u p h l s2 /\
    (~ In l (m_held s) -> forall r s3, body h s2 = (r, s3) -> m_held s3 = l :: m_held s ->
      with_lock u fail false body s = (r, set_held s3 (m_held s))) /\
    (In l (m_held s) -> forall cleanup,
      with_lock u fail cleanup body s = (Raise (if fail then LockFileObtainException else OutOfFuel), set_held s2 (m_held s))).
Proof.
  intros R Q Wr. destruct (start_lock s u p (reachable_wf s R) Wr) as (h & l & s1 & s2 & E1 & Es & E2 & Bs & _).
  exists h, l, s2. split; [exact Bs|]. split.
  - intros N r s3 Eb H3. rewrite hook_lock with (p := p) by auto. rewrite E1, E2, (held_no _ _ N), Eb. unfold lock_exit, bind. now rewrite release_one with (ls := m_held s).
  - intros I cl. rewrite hook_lock with (p := p) by auto. rewrite E1, E2. apply is_held_in in I. rewrite I. f_equal. subst s2.
    pose proof (bs_held _ _ _ _ _ _ Bs) as Hh. destruct (lock_open_spec u s h l s1 (reachable_wf s R) E1) as (_ & Fr & _). rewrite <- (fr_held _ _ Fr). now destruct s1.
Qed.
Theorem C84_cleanup_partial {A} s cs u p fail (body : handle -> M mst A) : reachable s -> silent s -> mem_at cs u -> writable (view s) u p ->
  exists h l s2, block_start s u p h l s2 /\
    forall r s3 d n, ~ In l (m_held s) -> body h s2 = (r, s3) -> m_held s3 = l :: m_held s -> reachable s3 -> silent s3 ->
      placed (view s3) cs d n -> is_efile (view s3 (d ++ [n])) \/ is_elink (view s3 (d ++ [n])) ->
      exists s4, with_lock u fail true body s = (r, s4) /\ m_held s4 = m_held s /\ cut_at (view s3) (view s4) (d ++ [n]).
Proof.
  intros R Q A0 Wr. rewrite (mem_at_eq _ _ A0) in *. destruct (start_free s _ p (reachable_wf s R) Wr) as (h & l & s1 & s2 & E1 & E2 & Bs).
  exists h, l, s2. split; [exact Bs|]. intros r s3 d n N Eb H3 R3 Q3 Pl Hf. rewrite hook_lock with (p := p) by auto. rewrite E1, (E2 N), Eb. unfold lock_exit, bind at 1. rewrite release_one with (ls := m_held s) by auto.
  destruct Pl as (init & -> & G & F & L & D).
  destruct (remove_leaf (set_held s3 (m_held s)) (wf_held _ _ (reachable_wf _ R3)) Q3 init n G F d L D 0 false Hf) as (s4 & E4 & _ & C & SR).
  rewrite E4. exists s4. split; [reflexivity|]. split; [apply SR|exact C].
Qed.
(** A body that has removed the file itself: with cleanup the statement raises, whatever the body returned or raised. *)
Theorem C84_gone_refuted {A} s cs u p fail (body : handle -> M mst A) : reachable s -> silent s -> mem_at cs u -> writable (view s) u p ->
  exists h l s2, block_start s u p h l s2 /\
    forall r s3 d n, ~ In l (m_held s) -> body h s2 = (r, s3) -> m_held s3 = l :: m_held s -> reachable s3 -> silent s3 ->
      placed (view s3) cs d n -> view s3 (d ++ [n]) = None ->
      with_lock u fail true body s = (Raise FileDoesNotExistError, set_held s3 (m_held s)).
Proof.
  intros R Q A0 Wr. rewrite (mem_at_eq _ _ A0) in *. destruct (start_free s _ p (reachable_wf s R) Wr) as (h & l & s1 & s2 & E1 & E2 & Bs).
  exists h, l, s2. split; [exact Bs|]. intros r s3 d n N Eb H3 R3 Q3 Pl Hf. rewrite hook_lock with (p := p) by auto. rewrite E1, (E2 N), Eb. unfold lock_exit, bind at 1. rewrite release_one with (ls := m_held s) by auto.
  destruct Pl as (init & -> & G & F & L & D).
  rewrite (remove_absent (set_held s3 (m_held s)) (wf_held _ _ (reachable_wf _ R3)) Q3 init n G F d L D 0 false Hf). reflexivity.
Qed.
(** The lock of the same file inside the block: refused, or never granted; the outer block frees its lock. *)
Theorem C84_nested {A} s u p fail fail2 cl2 (body : handle -> M mst A) : reachable s -> silent s -> writable (view s) u p -> m_held s = [] ->
  exists s', with_lock u fail false (fun _ => with_lock u fail2 cl2 body) s = (Raise (if fail2 then LockFileObtainException else OutOfFuel), s') /\
    m_held s' = [] /\ put_at (view s) (view s') p (EFile [] (m_now s) 0).
Proof.
  intros R Q Wr H0. destruct (start_lock s u p (reachable_wf s R) Wr) as (h & l & s1 & s2 & E1 & _ & E2 & Bs & W2 & f & Hf & El & De).
  rewrite held_no in E2 by (rewrite H0; auto). destruct Bs as [T1 T2 T3 T4 _ (T5 & T6 & T7)].
  assert (Wr2 : writable (view s2) u p).
  { apply wr_file; [exact De|]. destruct T1 as [T1 _]. rewrite T1. do 3 eexists. reflexivity. }
  destruct (lock_open_writable s2 u p W2 Wr2) as (h' & l' & s3 & f' & E3 & Op & El' & _ & Pt).
  destruct (op_rest _ _ _ _ _ _ Op) as (R1 & R2 & R3 & R4).
  assert (Ep : f_path f' = f_path f).
  { destruct (reopen_node s2 u false p (h_node h) f W2 De T2 Hf) as (s3' & E3' & U). pose proof E3 as E3c. unfold lock_open, bind at 1 in E3c. rewrite mem_open_write in E3c by reflexivity.
    change (has_char 98 (lit "w")) with false in E3c. rewrite E3' in E3c. unfold bind, get_file, bind, get_node_obj in E3c. cbn [h_node] in E3c.
    rewrite (fu_new _ _ _ _ _ U) in E3c. unfold ret in E3c. injection E3c as <- _ <-. pose proof (eq_trans (eq_sym (op_file _ _ _ _ _ _ Op)) (fu_new _ _ _ _ _ U)) as X. injection X as ->. reflexivity. }
  assert (l' = l) as ->. { subst l l'. now rewrite R2, Ep. }
  rewrite hook_lock with (p := p) by auto. rewrite E1, E2. rewrite hook_lock with (p := p) by (auto; intros ? ? ? ?; rewrite T7; apply Q). rewrite E3. unfold try_acquire.
  assert (Hl : is_held l s3 = true) by (apply is_held_in; rewrite R3, T4; now left). rewrite Hl. unfold lock_exit, bind. rewrite release_one with (ls := []) by congruence.
  eexists. split; [reflexivity|]. split; [reflexivity|]. destruct T1 as [T1 T1'], Pt as [P1 P2]. split.
  - change (view (set_held s3 [])) with (view s3). now rewrite P1, T5.
  - intros q Hq. change (view (set_held s3 [])) with (view s3). rewrite P2, T1'; auto.
Qed.
Print Assumptions C84_block_partial.
Print Assumptions C84_cleanup_partial.
Print Assumptions C84_gone_refuted.
Print Assumptions C84_nested.

(** *** Examples: a body that writes and raises, one that removes the file *)
Definition lorem (h : handle) : M mst unit := h_write h (VStr (lit "lorem")) ;; raise ValueError.
Lemma df_writable : writable (view demo) df (P ["d"; "f"]%string).
Proof.
  apply wr_file; [|do 3 eexists; vm_compute; reflexivity]. exists (P ["d"; "f"]%string). split; [apply mem_addr; good|].
  apply resolves_entry. left. do 3 eexists. vm_compute. reflexivity.
Qed.
Example C84_witness : reachable demo /\ silent demo /\ writable (view demo) df (P ["d"; "f"]%string) /\ m_held demo = [] /\
  (let c := with_lock df false false lorem demo in fst c = Raise ValueError /\ m_held (snd c) = [] /\
   view (snd c) (P ["d"; "f"]%string) = Some (EFile (lit "lorem") 7 0)) /\
  (let c := with_lock df false true lorem demo in fst c = Raise ValueError /\ m_held (snd c) = [] /\
   view (snd c) (P ["d"; "f"]%string) = None) /\
  (let c := with_lock df false true (fun _ => mem_removefile df ;; raise ValueError) demo in
   fst c = @Raise unit FileDoesNotExistError /\ m_held (snd c) = []) /\
  fst (with_lock df true true (fun _ => with_lock df true true lorem) demo) = Raise LockFileObtainException.
Proof.
  split; [exact demo_reachable|]. split; [exact demo_silent|]. split; [exact df_writable|]. split; [vm_compute; reflexivity|].
  cbv zeta. repeat split; vm_compute; reflexivity.
Qed.
