(** Facts about the locks of the memory backend. *)
From Coq Require Import Lia Permutation.
From Verif Require Import Str Exc Utf8 UriParse BaseUri StrFacts Mem MemOps SpecUri SpecMem Generic UriOps Locks.
From Verif Require Import MemFacts MemFacts2 MemFacts3 MemFacts4 MemFacts5 MemFacts6 MemFacts7 MemFacts8 MemFacts9 MemFacts10 GenFacts10.

(** *** Files keep the path they were made with *)
Record frame (s s' : mst) : Prop := {
  fr_epoch : m_epoch s' = m_epoch s;
  fr_held : m_held s' = m_held s;
  fr_next : m_next s <= m_next s';
  fr_files : forall i f, i < m_next s -> m_heap s i = NFile f ->
               exists f', m_heap s' i = NFile f' /\ f_path f' = f_path f }.
Lemma frame_refl s : frame s s.
Proof. constructor; auto. intros i f _ H. eauto. Qed.
Lemma frame_trans a b c : frame a b -> frame b c -> frame a c.
Proof.
  intros [E H N F] [E' H' N' F']. constructor; try congruence; try lia. intros i f Hi Hf.
  destruct (F i f Hi Hf) as (f1 & H1 & P1). destruct (F' i f1) as (f2 & H2 & P2); [lia|exact H1|]. exists f2. split; [exact H2|congruence].
Qed.
Definition steady {A} (m : M mst A) : Prop := forall s, frame s (snd (m s)).
Lemma steady_pure {A} (m : M mst A) : pure m -> steady m.
Proof. intros H s. rewrite H. apply frame_refl. Qed.
Lemma steady_bind {A C} (m : M mst A) (k : A -> M mst C) : steady m -> (forall a, steady (k a)) -> steady (bind m k).
Proof.
  intros Hm Hk s. unfold bind. specialize (Hm s). destruct (m s) as [[a|e] s']; cbn [snd] in *; [|exact Hm].
  eapply frame_trans; [exact Hm|apply Hk].
Qed.
Lemma steady_obj {A} i (k : node -> M mst A) : (forall s, frame s (snd (k (m_heap s i) s))) -> steady (bind (get_node_obj i) k).
Proof. intros H s. apply H. Qed.
Lemma steady_file {A} i (k : file -> M mst A) : (forall s f, m_heap s i = NFile f -> frame s (snd (k f s))) -> steady (bind (get_file i) k).
Proof.
  intros H s. unfold get_file, bind, get_node_obj, ret, raise. destruct (m_heap s i) as [f| |] eqn:E; [|apply frame_refl|apply frame_refl].
  apply H, E.
Qed.
Lemma frame_upd s i n : (forall f, m_heap s i = NFile f -> exists f', n = NFile f' /\ f_path f' = f_path f) -> frame s (snd (upd i n s)).
Proof.
  intros H. constructor; cbn [upd snd set_heap m_epoch m_held m_next m_heap]; auto. intros j f Hj Hf. unfold heap_set.
  destruct (Nat.eqb j i) eqn:E; [|eauto]. apply Nat.eqb_eq in E. subst j. apply H in Hf. destruct Hf as (f' & -> & P). eauto.
Qed.
Lemma steady_alloc n : steady (alloc n).
Proof.
  intros s. constructor; cbn [alloc snd m_epoch m_held m_next m_heap]; auto. intros j f Hj Hf. unfold heap_set.
  destruct (Nat.eqb j (m_next s)) eqn:E; [|eauto]. apply Nat.eqb_eq in E. lia.
Qed.
Lemma frame_set_file s i f data pos mt : m_heap s i = NFile f -> frame s (snd (set_file i data pos mt f s)).
Proof. intros H. apply frame_upd. intros f' H'. rewrite H in H'. injection H' as <-. eexists. split; [reflexivity|reflexivity]. Qed.
Lemma steady_create p n i : steady (create_child p n i).
Proof. apply steady_obj. intros s. destruct (m_heap s p) eqn:E; try apply frame_refl. apply frame_upd. congruence. Qed.
Lemma steady_del p n : steady (del_child p n).
Proof. apply steady_obj. intros s. destruct (m_heap s p) eqn:E; try apply frame_refl. destruct (dhas n entries); [|apply frame_refl]. apply frame_upd. congruence. Qed.
Lemma frame_attrs s i mt mo : frame s (snd (upd i (set_attrs (m_heap s i) mt mo) s)).
Proof. apply frame_upd. intros f ->. eexists. split; reflexivity. Qed.

Lemma steady_mkdir u : steady (mem_mkdir u).
Proof.
  unfold mem_mkdir. apply steady_bind; [apply steady_pure, pure_lift|intros p]. destruct p as [|c p]; [apply steady_pure, pure_ret|].
  apply steady_bind; [apply steady_pure, pure_parent|intros nd]. apply steady_bind; [apply steady_obj; intros s; destruct (m_heap s nd); apply frame_refl|intros b].
  destruct b; [apply steady_pure, pure_raise|]. apply steady_bind; [apply steady_pure, pure_get|intros s].
  apply steady_bind; [apply steady_alloc|intros i]. apply steady_create.
Qed.
Lemma steady_symlink t u : steady (mem_symlink t u).
Proof.
  unfold mem_symlink. apply steady_bind; [apply steady_pure, pure_lift|intros p]. destruct p as [|c p]; [apply steady_pure, pure_ret|].
  apply steady_bind; [apply steady_pure, pure_parent|intros nd]. apply steady_bind; [apply steady_obj; intros s; destruct (m_heap s nd); apply frame_refl|intros b].
  destruct b; [apply steady_pure, pure_raise|]. apply steady_bind; [apply steady_pure, pure_get|intros s].
  apply steady_bind; [apply steady_alloc|intros i]. apply steady_create.
Qed.
Lemma steady_set_info u a b f : steady (mem_set_info u a b f).
Proof. unfold mem_set_info. apply steady_bind; [apply steady_pure, pure_lookup_node|intros i]. apply steady_obj. intros s. apply frame_attrs. Qed.
Lemma steady_open u o : steady (mem_open u o).
Proof.
  assert (Seek : forall i a b, steady (file_seek i a b)).
  { intros i a b. apply steady_file. intros s f E. unfold bind, lift. destruct (bio_seek _ _ _ _); [|apply frame_refl]. apply frame_set_file, E. }
  unfold mem_open, open_for_read, open_for_write, open_for_append. destruct (match o with None => true | Some _ => _ end).
  - apply steady_bind; [apply steady_pure, pure_lookup_node|intros i]. apply steady_bind; [apply Seek|intros _; apply steady_pure, pure_ret].
  - destruct o as [o|]; [|apply steady_pure, pure_raise]. destruct (has_char 119 o); [|destruct (has_char 97 o); [|apply steady_pure, pure_raise]].
    + apply steady_bind; [apply steady_pure, pure_lift|intros p]. apply steady_bind; [apply steady_pure, pure_parent|intros nd]. cbv zeta.
      apply steady_bind; [apply steady_obj; intros s; destruct (m_heap s nd); apply frame_refl|intros b]. destruct b.
      * apply steady_bind; [apply steady_pure; intros s; reflexivity|intros c]. apply steady_bind; [apply steady_pure; intros s; reflexivity|intros b].
        destruct b; [apply steady_pure, pure_raise|]. apply steady_bind; [apply steady_pure, pure_lift|intros i].
        apply steady_bind; [|intros _; apply steady_pure, pure_ret]. apply steady_file. intros s f E. unfold bind, get. apply frame_upd.
        intros f' E'. rewrite E in E'. injection E' as <-. eexists. split; reflexivity.
      * apply steady_bind; [apply steady_pure, pure_get|intros s]. apply steady_bind; [apply steady_alloc|intros i].
        apply steady_bind; [apply steady_create|intros _; apply steady_pure, pure_ret].
    + apply steady_bind; [apply steady_pure, pure_lookup_node|intros i]. apply steady_file. intros s f E.
      apply (steady_bind (file_seek i (Z.of_nat (file_len (f_data f))) 0) (fun _ => ret (mkHandle i false (has_char 98 o)))); [apply Seek|intros; apply steady_pure, pure_ret].
Qed.
Lemma steady_drop {A} (m : M mst A) : steady m -> steady (drop m).
Proof. intros H. apply steady_bind; [exact H|intros; apply steady_pure, pure_ret]. Qed.
Lemma steady_write i b : steady (file_write i b).
Proof. apply steady_file. intros s f E. destruct (bio_write _ _ _) as [d p]. unfold bind, get. apply frame_set_file, E. Qed.
Lemma steady_read i z : steady (file_read i z).
Proof. apply steady_file. intros s f E. destruct (bio_read _ _ _) as [d p]. unfold bind. rewrite (surjective_pairing (set_file _ _ _ _ _ s)). apply (frame_set_file s i f), E. Qed.
Lemma steady_readline i : steady (file_readline i).
Proof. apply steady_file. intros s f E. unfold bind. rewrite (surjective_pairing (set_file _ _ _ _ _ s)). apply (frame_set_file s i f), E. Qed.

Definition calm_op (o : op) : Prop := match o with OpEpoch | OpHeld _ => False | _ => True end.
Lemma steady_op o : calm_op o -> steady (run_op o).
Proof.
  destruct o; intros C; try destruct C; cbn [run_op];
    try (apply steady_drop);
    auto using steady_pure, pure_exists, pure_isfile, pure_isdir, pure_islink, pure_readlink, pure_listdir, pure_info, pure_mtime,
      pure_isexec, steady_mkdir, steady_symlink, steady_set_info, steady_open.
  - intros s. constructor; cbn; auto. intros i f _ H. eauto.
  - unfold mem_removefile. apply steady_bind; [apply steady_pure, pure_lift|intros p]. apply steady_bind; [apply steady_pure; intros s; reflexivity|intros pc].
    destruct (fst pc); [apply steady_del|apply steady_pure, pure_ret].
  - unfold mem_removedir. apply steady_bind; [apply steady_pure, pure_lift|intros p]. apply steady_bind; [apply steady_pure; intros s; reflexivity|intros pc].
    destruct (fst pc); [|apply steady_pure, pure_ret]. cbv zeta. apply steady_bind; [apply steady_pure; intros s; reflexivity|intros o].
    apply steady_bind; [apply steady_pure, pure_lift|intros i]. apply steady_bind; [apply steady_pure, pure_obj|intros x].
    destruct x as [f|[|] mt mo|t mt mo]; try apply steady_pure, pure_raise. apply steady_del.
  - unfold mem_copystat. apply steady_bind; [apply steady_pure, pure_lookup_node|intros i]. apply steady_bind; [apply steady_pure, pure_lookup_node|intros j].
    apply steady_bind; [apply steady_pure, pure_obj|intros x]. apply steady_obj. intros s. apply frame_attrs.
  - unfold mem_set_exec. apply steady_bind; [apply steady_pure, pure_info|intros x]. apply steady_set_info.
  - unfold mem_manip_mtime. apply steady_bind; [apply steady_pure, pure_lookup_node|intros i]. apply steady_obj. intros s. apply frame_attrs.
  - unfold mem_manip_callback. apply steady_bind; [apply steady_pure, pure_lift|intros p]. intros s. constructor; cbn; auto. intros i f _ H. eauto.
  - unfold h_read. destruct (negb _); [apply steady_pure, pure_raise|]. apply steady_bind; [apply steady_read|intros x; apply steady_pure, pure_lift].
  - unfold h_write. apply steady_bind; [apply steady_pure, pure_lift|intros x]. destruct x; [apply steady_pure, pure_raise|apply steady_write].
  - apply steady_file. intros s f E. unfold bind, lift. destruct (bio_seek _ _ _ _); [|apply frame_refl]. apply frame_set_file, E.
  - apply steady_file. intros s f E. apply frame_refl.
  - apply steady_file. intros s f E. cbv zeta. match goal with |- context[if ?b then _ else _] => destruct b end; [apply frame_refl|]. unfold bind. rewrite (surjective_pairing (set_file _ _ _ _ _ s)). apply (frame_set_file s _ f), E.
  - unfold h_readline. apply steady_bind; [apply steady_readline|intros x; apply steady_pure, pure_lift].
  - unfold h_next. apply steady_bind; [apply steady_readline|intros x]. destruct x; [apply steady_pure, pure_ret|]. apply steady_bind; [apply steady_pure, pure_lift|intros; apply steady_pure, pure_ret].
  - apply steady_file. intros s f E. apply frame_set_file, E.
Qed.
Lemma frame_ops l s : Forall plain l -> wf s -> frame s (run_ops l s) /\ wf (run_ops l s).
Proof.
  revert s. induction l as [|o l IH]; intros s P W; [split; [apply frame_refl|exact W]|]. inversion P as [|? ? Po Pl]; subst. unfold run_ops in *. cbn [fold_left].
  assert (F : frame s (snd (run_op o s))) by (apply steady_op; destruct o; cbn in *; auto).
  destruct (IH _ Pl (proj1 (run_op_safe o s W))) as [F' W']. split; [eapply frame_trans; eassumption|exact W'].
Qed.
Lemma frame_seqs {A} (m : M mst A) s : seqs m -> wf s -> frame s (snd (m s)) /\ wf (snd (m s)).
Proof. intros Q W. destruct (Q s) as (l & P & ->). apply frame_ops; assumption. Qed.
Definition calm_act (a : act) : Prop := match a with AOp o => calm_op o | AUri _ _ => True end.
Lemma frame_act a s : calm_act a -> wf s -> frame s (snd (run_act a s)) /\ wf (snd (run_act a s)).
Proof.
  destruct a as [f o|o]; cbn [run_act calm_act]; intros C W.
  - apply frame_seqs; [apply uop_ops|exact W].
  - split; [apply steady_op, C|apply (run_op_safe o s W)].
Qed.

(** *** Opening for a lock *)
Lemma lock_open_spec u s h l s' : wf s -> lock_open u s = (Ok (h, l), s') ->
  wf s' /\ frame s s' /\ h_node h < m_next s' /\ exists f, m_heap s' (h_node h) = NFile f /\ f_lock f = l /\ l = (m_epoch s', f_path f).
Proof.
  intros W E. unfold lock_open in E. unfold bind at 1 in E. pose proof (safe_open u (Some (lit "w")) s W) as [W1 _].
  pose proof (steady_open u (Some (lit "w")) s) as F1.
  destruct (mem_open u (Some (lit "w")) s) as [[h1|e] s1] eqn:O; [|discriminate]. cbn [snd] in *.
  assert (K : h_node h1 < m_next s1 /\ exists f, m_heap s1 (h_node h1) = NFile f /\ f_lock f = (m_epoch s1, f_path f)).
  { clear E. unfold mem_open in O. change (has_char 114 (lit "w")) with false in O. change (has_char 119 (lit "w")) with true in O. cbn match in O.
    unfold open_for_write, bind at 1, lift in O. destruct (mem_path u) as [p|]; [|discriminate]. unfold bind at 1 in O.
    destruct (parent_node p s) as [[nd|] s2] eqn:Pn; [|discriminate]. assert (s2 = s) as ->. { pose proof (pure_parent p s) as X. rewrite Pn in X. exact X. }
    apply parent_val in Pn; [|exact W]. cbv zeta in O. unfold bind at 1, node_has, bind at 1, get_node_obj in O.
    destruct (m_heap s nd) as [|es mt mo|] eqn:Hn; try discriminate. cbn [ret] in O.
    destruct (dhas (last (steps_of p) []) es).
    - unfold bind at 1 in O. destruct (child (m_heap s) true max_links nd (last (steps_of p) []) true) as [o|] eqn:C; [|discriminate].
      unfold bind at 1 in O. destruct (match o with Some c => is_dir (m_heap s c) | None => false end); [discriminate|].
      unfold bind at 1, lift in O. destruct o as [c|]; [|discriminate]. cbn [need] in O. unfold bind at 1, file_reset, bind at 1, get_file, bind at 1, get_node_obj in O.
      pose proof (child_val (m_heap s) (m_next s) true W _ _ _ _ _ Pn C) as V. specialize (V c eq_refl).
      destruct (m_heap s c) as [f| |] eqn:Hc; try discriminate. cbn [ret] in O. unfold bind, get, upd, set_heap, ret in O.
      injection O as <- <-. cbn [h_node m_next m_heap m_epoch]. split; [exact V|]. unfold heap_set. rewrite Nat.eqb_refl. eexists. split; reflexivity.
    - unfold bind at 1, get in O. unfold bind at 1, alloc in O. unfold bind at 1, create_child, bind at 1, get_node_obj in O. cbn [m_heap] in O.
      unfold heap_set at 1 in O. destruct (Nat.eqb nd (m_next s)) eqn:En; [apply Nat.eqb_eq in En; lia|]. rewrite Hn in O. unfold upd, set_heap, ret in O.
      injection O as <- <-. cbn [h_node m_next m_heap m_epoch]. split; [lia|]. unfold heap_set at 1. rewrite (proj2 (Nat.eqb_neq (m_next s) nd)) by lia.
      unfold heap_set. rewrite Nat.eqb_refl. eexists. split; reflexivity. }
  destruct K as [K1 (f & K2 & K3)]. unfold bind, get_file, bind, get_node_obj in E. rewrite K2 in E. unfold ret in E. injection E as <- <- <-.
  split; [exact W1|]. split; [exact F1|]. split; [exact K1|]. exists f. auto.
Qed.
Lemma lock_open_fail u s e s' : wf s -> lock_open u s = (Raise e, s') -> wf s' /\ frame s s'.
Proof.
  intros W E. assert (Q : steady (lock_open u)).
  { apply steady_bind; [apply steady_open|intros h]. apply steady_bind; [apply steady_pure, pure_get_file|intros f; apply steady_pure, pure_ret]. }
  specialize (Q s). rewrite E in Q. split; [|exact Q].
  unfold lock_open in E. unfold bind at 1 in E. pose proof (safe_open u (Some (lit "w")) s W) as [W1 _].
  destruct (mem_open u (Some (lit "w")) s) as [[h1|e1] s1]; cbn [snd] in *; [|injection E as <- <-; exact W1].
  unfold bind in E. pose proof (pure_get_file (h_node h1) s1) as X. destruct (get_file (h_node h1) s1) as [[f|x] s2]; cbn [snd] in X; [discriminate|].
  injection E as <- <-. subst. exact W1.
Qed.

(** *** The locks held *)
Lemma lock_eqb_eq a b : lock_eqb a b = true <-> a = b.
Proof.
  destruct a as [a1 a2], b as [b1 b2]. unfold lock_eqb. cbn [fst snd]. rewrite Bool.andb_true_iff, Nat.eqb_eq, str_eqb_eq. split.
  - intros [-> ->]. reflexivity.
  - intros [= -> ->]. auto.
Qed.
Lemma is_held_in l s : is_held l s = true <-> In l (m_held s).
Proof.
  unfold is_held. rewrite existsb_exists. split.
  - intros (x & Hx & E). apply lock_eqb_eq in E. subst. exact Hx.
  - intros H. exists l. split; [exact H|now apply lock_eqb_eq].
Qed.
Lemma drop_perm l ls : In l ls -> Permutation ls (l :: drop_lock l ls).
Proof.
  induction ls as [|x ls IH]; intros Hi; [destruct Hi|]. cbn [drop_lock]. destruct (lock_eqb l x) eqn:E.
  - apply lock_eqb_eq in E. subst. reflexivity.
  - destruct Hi as [->|Hi]; [rewrite (proj2 (lock_eqb_eq l l) eq_refl) in E; discriminate|].
    rewrite (IH Hi) at 1. apply perm_swap.
Qed.
Definition inside (t : locker) : list lock_id := match t with KIn _ _ _ l => [l] | _ => [] end.
Definition lock_of (s : mst) (n : nat) (l : lock_id) : Prop :=
  n < m_next s /\ exists f, m_heap s n = NFile f /\ l = (m_epoch s, f_path f).
Definition k_ok (s : mst) (t : locker) : Prop :=
  match t with KOpen _ _ _ n l | KIn _ _ n l => lock_of s n l | _ => True end.
Record k_inv (c : kconfig) (rest : list lock_id) : Prop := {
  ki_wf : wf (k_mem c);
  ki_perm : Permutation (m_held (k_mem c)) (flat_map inside (k_threads c) ++ rest);
  ki_nodup : NoDup (m_held (k_mem c));
  ki_ok : Forall (k_ok (k_mem c)) (k_threads c) }.
Lemma lock_of_frame s s' n l : frame s s' -> lock_of s n l -> lock_of s' n l.
Proof.
  intros [E H N F] [Hn (f & Hf & ->)]. split; [lia|]. destruct (F n f Hn Hf) as (f' & Hf' & P). exists f'. rewrite E, P. auto.
Qed.
Lemma k_ok_frame s s' t : frame s s' -> k_ok s t -> k_ok s' t.
Proof. intros F. destruct t; cbn [k_ok]; auto; apply lock_of_frame, F. Qed.
Lemma k_ok_held s l t : k_ok s t -> k_ok (set_held s l) t.
Proof. destruct t; exact (fun H => H). Qed.
Lemma wf_held s l : wf s -> wf (set_held s l).
Proof. exact (fun H => H). Qed.
Lemma k_replace_split i t t' ts : nth_error ts i = Some t ->
  exists a b, ts = a ++ t :: b /\ kreplace i t' ts = a ++ t' :: b.
Proof.
  revert ts. induction i as [|i IH]; intros [|x ts] E; cbn in E; try discriminate.
  - injection E as ->. exists [], ts. auto.
  - destruct (IH ts E) as (a & b & -> & H). exists (x :: a), b. cbn [kreplace app]. rewrite H. auto.
Qed.
Lemma inside_mid (a b : list locker) t : Permutation (flat_map inside (a ++ t :: b)) (inside t ++ flat_map inside (a ++ b)).
Proof.
  rewrite !flat_map_app. cbn [flat_map]. rewrite app_assoc.
  rewrite (Permutation_app_comm (flat_map inside a) (inside t)), <- app_assoc. reflexivity.
Qed.
(** A step of a thread: frame, and what it does to the locks. *)
Lemma lstep_spec t s t' s' : wf s -> k_ok s t -> lstep t s = Some (t', s') -> (forall l, inside t = [l] -> In l (m_held s)) ->
  wf s' /\ k_ok s' t' /\ (forall u, k_ok s u -> k_ok s' u) /\
  ((m_held s' = m_held s /\ inside t = [] /\ inside t' = [])
   \/ (exists l, inside t = [] /\ inside t' = [l] /\ ~ In l (m_held s) /\ m_held s' = l :: m_held s)
   \/ (exists l, inside t = [l] /\ inside t' = [] /\ m_held s' = drop_lock l (m_held s))).
Proof.
  intros W K E Hin. destruct t as [u fail cl|u fail cl n l|u cl n l|u|r]; cbn [lstep] in E; try discriminate.
  - destruct (lock_open u s) as [[[h l]|e] s1] eqn:O; injection E as <- <-.
    + destruct (lock_open_spec u s h l s1 W O) as (W1 & F1 & N1 & f & Hf & _ & Hl). cbn [fst snd k_ok].
      split; [exact W1|]. split; [split; [exact N1|exists f; auto]|]. split; [intros x; now apply k_ok_frame|].
      left. split; [apply F1|]. auto.
    + destruct (lock_open_fail u s e s1 W O) as [W1 F1]. split; [exact W1|]. split; [exact I|]. split; [intros x; now apply k_ok_frame|].
      left. split; [apply F1|]. auto.
  - unfold try_acquire in E. destruct (is_held l s) eqn:H.
    + destruct fail; [|discriminate]. injection E as <- <-. split; [exact W|]. split; [exact I|]. split; [auto|]. left. auto.
    + injection E as <- <-. split; [exact W|]. split; [exact K|]. split; [intros x; apply k_ok_held|]. right. left. exists l.
      repeat split. intros Hi. apply is_held_in in Hi. congruence.
  - unfold release in E. rewrite (proj2 (is_held_in l s)) in E by (apply Hin; reflexivity). injection E as <- <-.
    split; [exact W|]. split; [destruct cl; exact I|]. split; [intros x; apply k_ok_held|]. right. right. exists l. destruct cl; auto.
  - assert (S : frame s (snd (u_remove mem_backend 0 false u s)) /\ wf (snd (u_remove mem_backend 0 false u s))) by (apply frame_seqs; [apply seqs_remove|exact W]).
    destruct (u_remove mem_backend 0 false u s) as [r s1]. cbn [snd] in S. injection E as <- <-. destruct S as [F1 W1].
    split; [exact W1|]. split; [exact I|]. split; [intros x; now apply k_ok_frame|]. left. split; [apply F1|]. auto.
Qed.
Definition untaken (e : kevent) : Prop := match e with KTakes _ => False | _ => True end.
Lemma k_inv_step e c rest : peaceful e -> k_inv c rest -> exists rest', k_inv (kapply e c) rest' /\ (untaken e -> rest' = rest).
Proof.
  intros Q [W P N K]. destruct e as [i|a|u|u]; cbn [kapply peaceful] in *; [| | |destruct Q].
  - destruct (nth_error (k_threads c) i) as [t|] eqn:Ei; [|exists rest; split; [constructor; assumption|auto]].
    destruct (lstep t (k_mem c)) as [[t' s']|] eqn:Es; [|exists rest; split; [constructor; assumption|auto]].
    exists rest. split; [|auto]. destruct (k_replace_split i t t' _ Ei) as (a & b & Ea & Eb). rewrite Ea in *. rewrite Eb.
    assert (Kt : k_ok (k_mem c) t). { rewrite Forall_forall in K. apply K. apply in_or_app. right. left. reflexivity. }
    rewrite inside_mid in P.
    assert (Hin : forall l, inside t = [l] -> In l (m_held (k_mem c))).
    { intros l E. eapply Permutation_in; [symmetry; exact P|]. rewrite E. left. reflexivity. }
    destruct (lstep_spec t _ t' s' W Kt Es Hin) as (W' & Kt' & Fr & L).
    apply Forall_app in K. destruct K as [Ka Kb]. inversion Kb as [|x y _ Kb']; subst x y.
    constructor; cbn [k_mem k_threads].
    + exact W'.
    + rewrite inside_mid. destruct L as [(E1 & E2 & E3)|[(l & E1 & E2 & E3 & E4)|(l & E1 & E2 & E3)]].
      * rewrite E1, E3. rewrite E2 in P. exact P.
      * rewrite E4, E2. rewrite E1 in P. cbn [app] in *. constructor. exact P.
      * rewrite E3, E2. rewrite E1 in P. cbn [app] in *. apply (Permutation_cons_inv (a := l)). rewrite <- drop_perm by auto. exact P.
    + destruct L as [(E1 & E2 & E3)|[(l & E1 & E2 & E3 & E4)|(l & E1 & E2 & E3)]].
      * rewrite E1. exact N.
      * rewrite E4. constructor; assumption.
      * rewrite E3. pose proof (Permutation_NoDup (drop_perm l _ (Hin l E1)) N) as X. inversion X. assumption.
    + apply Forall_app. split; [|constructor; [exact Kt'|]]; (eapply Forall_impl; [|eassumption]); auto.
  - assert (C : calm_act a). { destruct a as [|[]]; cbn in *; auto. }
    destruct (frame_act a (k_mem c) C W) as [F W']. exists rest. split; [|auto]. constructor; cbn [k_mem k_threads].
    + exact W'.
    + rewrite (fr_held _ _ F). exact P.
    + rewrite (fr_held _ _ F). exact N.
    + eapply Forall_impl; [|exact K]. intros t. now apply k_ok_frame.
  - destruct (mem_path u) as [p|]; [|exists rest; split; [constructor; assumption|intros []]].
    unfold try_acquire. destruct (is_held (m_epoch (k_mem c), p) (k_mem c)) eqn:H; cbn [snd].
    + exists rest. split; [constructor; assumption|intros []].
    + exists ((m_epoch (k_mem c), p) :: rest). split; [|intros []]. constructor; cbn [k_mem k_threads set_held m_held].
      * exact W.
      * rewrite <- Permutation_middle. constructor. exact P.
      * constructor; [|exact N]. intros Hi. apply is_held_in in Hi. congruence.
      * eapply Forall_impl; [|exact K]. intros t. apply k_ok_held.
Qed.
Lemma k_inv_runs l : forall c rest, Forall peaceful l -> k_inv c rest -> exists rest', k_inv (kruns l c) rest' /\ (Forall untaken l -> rest' = rest).
Proof.
  induction l as [|e l IH]; intros c rest Q I; [exists rest; auto|]. inversion Q as [|x y Qe Ql]; subst. unfold kruns in *. cbn [fold_left].
  destruct (k_inv_step e c rest Qe I) as (r1 & I1 & U1). destruct (IH _ r1 Ql I1) as (r2 & I2 & U2). exists r2. split; [exact I2|].
  intros U. inversion U; subst. rewrite U2 by assumption. auto.
Qed.
Lemma k_inv_begin s ts : wf s -> m_held s = [] -> Forall k_starting ts -> k_inv (mkK s ts) [].
Proof.
  intros W H F. constructor; cbn [k_mem k_threads].
  - exact W.
  - rewrite H, app_nil_r. replace (flat_map inside ts) with (@nil lock_id); [constructor|].
    induction F as [|t ts Ht F IH]; [reflexivity|]. cbn [flat_map]. rewrite <- IH. destruct t; try destruct Ht; reflexivity.
  - rewrite H. constructor.
  - eapply Forall_impl; [|exact F]. intros t Ht. destruct t; try destruct Ht. exact I.
Qed.
Lemma inside_two (a b c : list locker) t u l rest : inside t = [l] -> inside u = [l] -> ~ NoDup (flat_map inside (a ++ t :: b ++ u :: c) ++ rest).
Proof.
  intros H1 H2 Hn. rewrite flat_map_app in Hn. cbn [flat_map] in Hn. rewrite flat_map_app in Hn. cbn [flat_map] in Hn. rewrite H1, H2 in Hn.
  rewrite <- !app_assoc in Hn. induction (flat_map inside a) as [|z m IH]; cbn [app] in Hn; inversion Hn; subst; [|auto].
  match goal with H : ~ In _ _ |- _ => apply H end. apply in_or_app. right. left. reflexivity.
Qed.
Lemma k_split_two (ts : list locker) i j t u : i < j -> nth_error ts i = Some t -> nth_error ts j = Some u ->
  exists a b c, ts = a ++ t :: b ++ u :: c.
Proof.
  intros Hij Hi Hj. apply nth_error_split in Hi. destruct Hi as (a & r & -> & <-).
  rewrite nth_error_app2 in Hj by lia. destruct (j - length a) as [|m] eqn:E; [lia|]. cbn [nth_error] in Hj.
  apply nth_error_split in Hj. destruct Hj as (b & c & -> & _). eauto.
Qed.
Lemma inside_one c rest i j t u l : k_inv c rest -> nth_error (k_threads c) i = Some t -> nth_error (k_threads c) j = Some u ->
  inside t = [l] -> inside u = [l] -> i = j.
Proof.
  intros [W P N K] Hi Hj It Iu. pose proof (Permutation_NoDup P N) as Hnd.
  destruct (Nat.lt_total i j) as [H|[H|H]]; [|exact H|]; exfalso.
  - destruct (k_split_two _ _ _ _ _ H Hi Hj) as (x & y & z & E). rewrite E in Hnd. eapply inside_two; [| |exact Hnd]; eassumption.
  - destruct (k_split_two _ _ _ _ _ H Hj Hi) as (x & y & z & E). rewrite E in Hnd. eapply inside_two; [| |exact Hnd]; eassumption.
Qed.
Lemma lock_of_fun s n l l' : lock_of s n l -> lock_of s n l' -> l = l'.
Proof. intros [_ (f & H & ->)] [_ (f' & H' & ->)]. rewrite H in H'. injection H' as <-. reflexivity. Qed.

(** Opening for writing never refuses for a lock. *)
Lemma open_write_no_lock s u b s' : wf s -> ~ addr u [] -> open_for_write u b s <> (Raise LockFileObtainException, s').
Proof.
  intros W R H. destruct (place_total s u) as [sl P]. destruct sl as [|p|p|e].
  - inversion P; now destruct R.
  - destruct (open_writable s u b p W) as (x & y & z & E & _); [now constructor|congruence].
  - inversion P as [| |init n d A L D N E| | |]; subst.
    destruct (leads_total (m_heap s) (init ++ [n])) as [o O].
    destruct (outcome_cases o) as [[q ->]|F].
    + destruct (leads_real _ _ W _ _ O) as [K|K].
      * destruct (open_writable s u b q W) as (x & y & z & E & _); [|congruence]. apply wr_file; auto. now exists (init ++ [n]).
      * rewrite (open_write_dir s W u b q (init ++ [n])) in H; auto; [discriminate|now destruct init].
    + rewrite (open_write_dead s W u b (d ++ [n]) (init ++ [n]) o) in H; auto. destruct o; discriminate.
  - rewrite (open_write_noplace s W u b e P) in H. inversion P; subst; try discriminate. destruct o; discriminate.
Qed.
