(** Operations that change the structure of the tree. *)
From Verif Require Import Str Exc Utf8 UriParse BaseUri StrFacts Mem SpecUri SpecMem MemFacts MemFacts2 MemFacts3 MemFacts4.

Lemma snoc_inj {A} (a b : list A) x y : a ++ [x] = b ++ [y] -> a = b /\ x = y.
Proof. apply app_inj_tail. Qed.

Definition added (s : mst) (i : nat) (n : str) (leaf : node) : mst :=
  mkM (heap_add (m_heap s) (m_next s) i n leaf) (S (m_next s)) (m_now s) (m_epoch s) (m_held s) (m_cbs s).
Definition deleted (s : mst) (i : nat) (n : str) (es : dict nat) (mt mo : Z) : mst :=
  set_heap s (heap_set (m_heap s) i (NDir (ddel n es) mt mo)).

(** Files keep their identity and content. *)
Definition files_kept (s s' : mst) : Prop :=
  (m_next s <= m_next s')%nat /\ forall i, i < m_next s -> is_dir (m_heap s i) = false -> m_heap s' i = m_heap s i.

Section O.
Variable s : mst.
Hypothesis W : wf s.
Local Notation h := (m_heap s).
Local Notation t := (view s).

Lemma run_add i n leaf es mt mo :
  i < m_next s -> h i = NDir es mt mo ->
  (let! j <- alloc leaf; create_child i n j) s = (Ok tt, added s i n leaf).
Proof.
  intros Hi E. unfold bind, alloc, create_child, bind, get_node_obj, upd, added. cbn [m_heap].
  rewrite (heap_add_eq _ _ _ _ _ _ _ _ Hi E). rewrite heap_set_other by lia. rewrite E. reflexivity.
Qed.
Lemma added_spec d i n leaf es mt mo :
  phys h root_id d = Some i -> h i = NDir es mt mo -> dhas n es = false -> no_entries leaf ->
  wf (added s i n leaf) /\ put_at t (view (added s i n leaf)) (d ++ [n]) (entry_of leaf) /\
  same_rest s (added s i n leaf) /\ files_kept s (added s i n leaf) /\
  phys (m_heap (added s i n leaf)) root_id (d ++ [n]) = Some (m_next s) /\ m_heap (added s i n leaf) (m_next s) = leaf.
Proof.
  intros P E N L. assert (Hi := phys_root_lt _ _ _ _ W P).
  split; [|split; [|split; [|split; [split|split]]]]; cbn.
  - eapply wfh_add; eauto.
  - eapply tree_add; eauto.
  - repeat split.
  - lia.
  - intros j Hj Hd. rewrite (heap_add_at _ _ _ _ _ _ _ _ _ Hi E). destruct (Nat.eqb_spec j i) as [->|].
    + now rewrite E in Hd.
    + destruct (Nat.eqb_spec j (m_next s)); [lia|reflexivity].
  - rewrite (phys_add_new _ _ _ _ _ _ _ _ W Hi E N L d P []). reflexivity.
  - rewrite (heap_add_at _ _ _ _ _ _ _ _ _ Hi E). destruct (Nat.eqb_spec (m_next s) i); [lia|]. now rewrite Nat.eqb_refl.
Qed.

(** What [place] means for the heap. *)
Lemma place_dir init n d :
  leads t init (Found d) -> is_edir (t d) ->
  exists i es mt mo, phys h root_id d = Some i /\ h i = NDir es mt mo /\ i < m_next s /\
    phys h root_id (d ++ [n]) = dget n es /\ t (d ++ [n]) = option_map (fun j => entry_of (h j)) (dget n es).
Proof.
  intros R Hd. destruct (leads_phys _ _ W _ _ R) as (i & P & L & B).
  destruct (tree_dir _ _ _ P Hd) as (es & mt & mo & E). destruct (tree_snoc _ _ _ _ _ _ n P E) as [T1 T2].
  exists i, es, mt, mo. auto 6.
Qed.

(** *** A common form of mkdir and symlink *)
Definition make (u : uri) (leaf : mst -> node) : M mst unit :=
  let! p <- lift (mem_path u);
  match p with
  | [] => ret tt
  | _ =>
      let! nd <- parent_node p;
      let name := last (steps_of p) [] in
      let! present <- node_has nd name;
      if present then raise (OSError EEXIST)
      else let! s <- get; let! i <- alloc (leaf s); create_child nd name i
  end.
Lemma mkdir_make u : mem_mkdir u = make u (fun s => NDir [] (m_now s) 0).
Proof. reflexivity. Qed.
Lemma symlink_make target u : mem_symlink target u = make u (fun s => NLink target (m_now s) 0).
Proof. reflexivity. Qed.

Lemma make_top u leaf : place t u Top -> make u leaf s = (Ok tt, s).
Proof. intros H. inversion H. apply addr_nil in H0. unfold make, bind, lift. now rewrite H0. Qed.
Lemma make_noplace u leaf e : place t u (NoPlace e) -> make u leaf s = (Raise e, s).
Proof.
  intros H. inversion H as [| | |init n d A R Hd|init n o A R N|B]; subst.
  - destruct (addr_snoc_path _ _ _ A) as (p & P & Hp & E). unfold make, bind, lift. rewrite P. destruct p; [easy|].
    rewrite (run_parent s W _ _ _ _ E R). destruct (leads_phys _ _ W _ _ R) as (i & Pi & L & B). cbn [res_of rbind].
    rewrite Pi. cbn [need]. unfold node_has, bind, get_node_obj. destruct (h i) eqn:F; auto.
    exfalso. apply Hd. eapply dir_tree; eauto.
  - destruct (addr_snoc_path _ _ _ A) as (p & P & Hp & E). unfold make, bind, lift. rewrite P. destruct p; [easy|].
    rewrite (run_parent s W _ _ _ _ E R). now rewrite res_throw.
  - apply addr_none in B. unfold make, bind, lift. now rewrite B.
Qed.
Lemma make_taken u leaf p : place t u (Taken p) -> make u leaf s = (Raise (OSError EEXIST), s).
Proof.
  intros H. inversion H as [| |init n d A R Hd Hn| | |]; subst.
  destruct (addr_snoc_path _ _ _ A) as (p & P & Hp & E). unfold make, bind, lift. rewrite P. destruct p; [easy|].
  rewrite (run_parent s W _ _ _ _ E R). destruct (place_dir init n d R Hd) as (i & es & mt & mo & Pi & F & B & _ & T).
  cbn [res_of rbind]. rewrite Pi. cbn [need]. unfold node_has, bind, get_node_obj. rewrite F, E, last_snoc. cbn [ret].
  unfold dhas. rewrite T in Hn. destruct (dget n es); easy.
Qed.
Lemma make_free u leaf p : place t u (Free p) -> no_entries (leaf s) ->
  exists s', make u leaf s = (Ok tt, s') /\ wf s' /\ put_at t (view s') p (entry_of (leaf s)) /\ same_rest s s' /\ files_kept s s'.
Proof.
  intros H L. inversion H as [|init n d A R Hd Hn| | | |]; subst.
  destruct (addr_snoc_path _ _ _ A) as (p & P & Hp & E). unfold make, bind, lift. rewrite P. destruct p; [easy|].
  rewrite (run_parent s W _ _ _ _ E R). destruct (place_dir init n d R Hd) as (i & es & mt & mo & Pi & F & B & _ & T).
  cbn [res_of rbind]. rewrite Pi. cbn [need]. unfold node_has, bind, get_node_obj. rewrite F, E, last_snoc. cbn [ret].
  rewrite T in Hn. assert (N : dhas n es = false) by (unfold dhas; now destruct (dget n es)). rewrite N.
  unfold get. exists (added s i n (leaf s)). destruct (added_spec d i n (leaf s) es mt mo Pi F N L) as (X1 & X2 & X3 & X4 & _).
  split; [|auto]. exact (run_add i n (leaf s) es mt mo B F).
Qed.

(** Every URI names a place, and only one. *)
Lemma place_total u : exists sl, place t u sl.
Proof.
  destruct (mem_path u) as [p|e] eqn:M.
  - assert (A : exists cs, addr u cs).
    { destruct p as [|c p]; [exists []; now apply addr_nil|]. exists (steps_of (c :: p)).
      apply addr_path. exists (c :: p). split; auto. right. split; [discriminate|auto]. }
    destruct A as [cs A]. destruct cs as [|n init] using rev_ind; [exists Top; now constructor|]. clear IHinit.
    destruct (leads_total h init) as [o R]. destruct (outcome_cases o) as [[d ->]|F].
    + destruct (edir_dec (t d)) as [Hd|Hd].
      * destruct (t (d ++ [n])) eqn:T.
        -- exists (Taken (d ++ [n])). eapply pl_taken; eauto. congruence.
        -- exists (Free (d ++ [n])). eapply pl_free; eauto.
      * eexists. eapply pl_notdir; eauto.
    + eexists. eapply pl_fail; eauto.
  - eexists. apply pl_bad. apply addr_none. unfold mem_path in *. destruct (u_path u); [congruence|].
    destruct (N.eqb n cSlash); congruence.
Qed.
Lemma place_det u a b : place t u a -> place t u b -> a = b.
Proof.
  intros H H'.
  assert (D : forall cs cs', addr u cs -> addr u cs' -> cs = cs') by (intros; eapply addr_inj; eauto).
  assert (D2 : forall cs o o', leads t cs o -> leads t cs o' -> o = o') by (intros; eapply leads_det; eauto).
  inversion H as [A|init n d A R Hd Hn|init n d A R Hd Hn|init n d A R Hd|init n o A R N|B]; subst;
  inversion H' as [A'|init' n' d' A' R' Hd' Hn'|init' n' d' A' R' Hd' Hn'|init' n' d' A' R' Hd'|init' n' o' A' R' N'|B']; subst;
  try reflexivity;
  try (exfalso; eapply B; eassumption); try (exfalso; eapply B'; eassumption);
  try (specialize (D _ _ A A'));
  try (destruct init; discriminate); try (destruct init'; discriminate);
  try (apply snoc_inj in D as [<- <-]; specialize (D2 _ _ _ R R'); try injection D2 as <-;
       congruence || (exfalso; subst; eapply N; reflexivity) || (exfalso; subst; eapply N'; reflexivity) || (exfalso; auto)).
Qed.
End O.
