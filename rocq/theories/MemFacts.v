(** The invariant of the node heap and how updates change the tree. *)
From Verif Require Import Str Exc Utf8 UriParse BaseUri StrFacts Mem SpecUri SpecMem.

Record wfh (h : nat -> node) (next : nat) : Prop := {
  wf_pos : 0 < next;
  wf_root : exists es mt mo, h root_id = NDir es mt mo;
  wf_child : forall i es mt mo n j, i < next -> h i = NDir es mt mo -> In (n, j) es -> i < j < next;
  wf_names : forall i es mt mo, i < next -> h i = NDir es mt mo -> NoDup (map fst es);
  wf_parent : forall i i' es es' mt mo mt' mo' n n' j, i < next -> i' < next ->
    h i = NDir es mt mo -> h i' = NDir es' mt' mo' -> In (n, j) es -> In (n', j) es' -> i = i' /\ n = n';
  wf_free : forall i, next <= i -> is_file (h i) = false }.
Definition wf (s : mst) : Prop := wfh (m_heap s) (m_next s).

Lemma list_snoc_ind {A} (P : list A -> Prop) :
  P [] -> (forall l x, P l -> P (l ++ [x])) -> forall l, P l.
Proof. intros H1 H2 l. induction l using rev_ind; auto. Qed.

Lemma phys_app h i p q : phys h i (p ++ q) = match phys h i p with Some j => phys h j q | None => None end.
Proof.
  revert i; induction p as [|n p IH]; intros i; cbn; [reflexivity|].
  destruct (h i); auto. destruct (dget n entries); auto.
Qed.
Lemma phys_snoc h i p n :
  phys h i (p ++ [n]) = match phys h i p with
                        | Some j => match h j with NDir es _ _ => dget n es | _ => None end
                        | None => None
                        end.
Proof.
  rewrite phys_app. destruct (phys h i p); auto. cbn. destruct (h n0); auto. now destruct (dget n entries).
Qed.

Lemma phys_lt h next p i j : wfh h next -> i < next -> phys h i p = Some j -> i <= j < next.
Proof.
  intros W. revert i; induction p as [|n p IH]; intros i Hi; cbn; intros H.
  - injection H as <-. lia.
  - destruct (h i) eqn:E; try discriminate. destruct (dget n entries) eqn:D; try discriminate.
    apply dget_In in D. destruct (wf_child _ _ W _ _ _ _ _ _ Hi E D).
    apply IH in H; lia.
Qed.
Lemma phys_root_lt h next p j : wfh h next -> phys h root_id p = Some j -> j < next.
Proof. intros W H. apply (phys_lt h next) in H; auto; [lia|apply W]. Qed.

Lemma phys_snoc_inv h p n j :
  phys h root_id (p ++ [n]) = Some j ->
  exists i es mt mo, phys h root_id p = Some i /\ h i = NDir es mt mo /\ dget n es = Some j.
Proof.
  rewrite phys_snoc. destruct (phys h root_id p); try discriminate. destruct (h n0) eqn:E; try discriminate. eauto 8.
Qed.

Lemma phys_inj h next p q i : wfh h next -> phys h root_id p = Some i -> phys h root_id q = Some i -> p = q.
Proof.
  intros W. revert q i; induction p as [|p n IH] using rev_ind; intros q i Hp Hq.
  - destruct q as [|q m _] using rev_ind; [reflexivity|].
    apply phys_snoc_inv in Hq as (k & es & mt & mo & Hk & Ek & Dk).
    cbn in Hp. injection Hp as <-. apply dget_In in Dk.
    assert (L := phys_root_lt _ _ _ _ W Hk). destruct (wf_child _ _ W _ _ _ _ _ _ L Ek Dk). unfold root_id in *. lia.
  - apply phys_snoc_inv in Hp as (k & es & mt & mo & Hk & Ek & Dk).
    assert (L := phys_root_lt _ _ _ _ W Hk). apply dget_In in Dk.
    destruct q as [|q m _] using rev_ind.
    + cbn in Hq. injection Hq as <-. destruct (wf_child _ _ W _ _ _ _ _ _ L Ek Dk). unfold root_id in *. lia.
    + apply phys_snoc_inv in Hq as (k' & es' & mt' & mo' & Hk' & Ek' & Dk').
      assert (L' := phys_root_lt _ _ _ _ W Hk'). apply dget_In in Dk'.
      destruct (wf_parent _ _ W _ _ _ _ _ _ _ _ _ _ _ L L' Ek Ek' Dk Dk') as [-> ->].
      f_equal. eapply IH; eauto.
Qed.

Lemma heap_set_same h i n : heap_set h i n i = n.
Proof. unfold heap_set. now rewrite Nat.eqb_refl. Qed.
Lemma heap_set_other h i n j : j <> i -> heap_set h i n j = h j.
Proof. unfold heap_set. intros H. apply Nat.eqb_neq in H. now rewrite H. Qed.

(** Directory entries of a node. *)
Definition dir_entries (n : node) : option (dict nat) := match n with NDir es _ _ => Some es | _ => None end.

Lemma phys_ext h h' i p : (forall j, dir_entries (h' j) = dir_entries (h j)) -> phys h' i p = phys h i p.
Proof.
  intros H. revert i; induction p as [|n p IH]; intros i; cbn; [reflexivity|].
  specialize (H i). destruct (h i), (h' i); cbn in H; try discriminate; auto. injection H as ->.
  destruct (dget n entries); auto.
Qed.

(** *** Replacing a node by one with the same entries *)
Lemma set_entries h i n j : dir_entries n = dir_entries (h i) -> dir_entries (heap_set h i n j) = dir_entries (h j).
Proof. intros H. unfold heap_set. destruct (Nat.eqb_spec j i) as [->|]; auto. Qed.
Lemma phys_set h i n p : dir_entries n = dir_entries (h i) -> phys (heap_set h i n) root_id p = phys h root_id p.
Proof. intros H. apply phys_ext. intros j. now apply set_entries. Qed.
Lemma wfh_set h next i n :
  wfh h next -> dir_entries n = dir_entries (h i) -> (is_file n = true -> i < next) -> wfh (heap_set h i n) next.
Proof.
  intros W H Hf.
  assert (D : forall j es mt mo, heap_set h i n j = NDir es mt mo -> exists mt' mo', h j = NDir es mt' mo').
  { intros j es mt mo E. assert (X := set_entries h i n j H). rewrite E in X. cbn in X.
    destruct (h j); try discriminate. injection X as ->. eauto. }
  constructor.
  - apply W.
  - destruct (wf_root _ _ W) as (es & mt & mo & E).
    assert (X := set_entries h i n root_id H). rewrite E in X. cbn in X.
    destruct (heap_set h i n root_id); try discriminate. injection X as ->. eauto.
  - intros j es mt mo m k Hj E I. apply D in E as (mt' & mo' & E). eapply wf_child; eauto.
  - intros j es mt mo Hj E. apply D in E as (mt' & mo' & E). eapply wf_names; eauto.
  - intros j j' es es' mt mo mt' mo' m m' k Hj Hj' E E' I I'.
    apply D in E as (? & ? & E). apply D in E' as (? & ? & E'). eapply wf_parent; [apply W|..]; eauto.
  - intros j Hj. unfold heap_set. destruct (Nat.eqb_spec j i) as [->|]; [|now apply W].
    destruct (is_file n) eqn:E; auto. specialize (Hf eq_refl). lia.
Qed.
Lemma tree_set h next i n p :
  wfh h next -> dir_entries n = dir_entries (h i) -> phys h root_id p = Some i ->
  put_at (tree_of h) (tree_of (heap_set h i n)) p (entry_of n).
Proof.
  intros W H Hp. unfold put_at, tree_of. rewrite phys_set by auto. rewrite Hp. cbn. split.
  - now rewrite heap_set_same.
  - intros q Hq. rewrite phys_set by auto. destruct (phys h root_id q) eqn:E; auto. cbn.
    rewrite heap_set_other; auto. intros ->. apply Hq. eapply phys_inj; eauto.
Qed.
(** A node outside the tree. *)
Lemma tree_set_detached h i n :
  dir_entries n = dir_entries (h i) -> (forall p, phys h root_id p <> Some i) ->
  same_tree (tree_of h) (tree_of (heap_set h i n)).
Proof.
  intros H Hp q. unfold tree_of. rewrite phys_set by auto. destruct (phys h root_id q) eqn:E; auto. cbn.
  rewrite heap_set_other; auto. intros ->. eapply Hp; eauto.
Qed.

(** *** Adding an entry *)
Definition no_entries (n : node) : Prop := forall es, dir_entries n = Some es -> es = [].
(** What [alloc] followed by [create_child] does to the heap. *)
Definition heap_add (h : nat -> node) (next i : nat) (name : str) (leaf : node) : nat -> node :=
  match heap_set h next leaf i with
  | NDir es mt mo => heap_set (heap_set h next leaf) i (NDir (dset name next es) mt mo)
  | _ => heap_set h next leaf
  end.
Lemma heap_add_eq h next i name leaf es mt mo :
  i < next -> h i = NDir es mt mo ->
  heap_add h next i name leaf = heap_set (heap_set h next leaf) i (NDir (dset name next es) mt mo).
Proof. intros H E. unfold heap_add. rewrite heap_set_other by lia. now rewrite E. Qed.

Lemma heap_add_at h next i name leaf es mt mo j :
  i < next -> h i = NDir es mt mo ->
  heap_add h next i name leaf j = if Nat.eqb j i then NDir (dset name next es) mt mo
                                  else if Nat.eqb j next then leaf else h j.
Proof. intros H E. rewrite (heap_add_eq _ _ _ _ _ _ _ _ H E). reflexivity. Qed.

Section Add.
Variables (h : nat -> node) (next i : nat) (name : str) (leaf : node) (es : dict nat) (mt mo : Z).
Hypothesis (W : wfh h next) (Hi : i < next) (E : h i = NDir es mt mo) (N : dhas name es = false)
  (L : no_entries leaf).
Let h' := heap_add h next i name leaf.

Lemma add_at j : h' j = if Nat.eqb j i then NDir (es ++ [(name, next)]) mt mo
                        else if Nat.eqb j next then leaf else h j.
Proof. unfold h'. rewrite (heap_add_at _ _ _ _ _ _ _ _ _ Hi E). now rewrite dset_new. Qed.

Lemma add_entries j es' mt' mo' : j < S next -> h' j = NDir es' mt' mo' ->
  (j = i /\ es' = es ++ [(name, next)]) \/ (j = next /\ es' = []) \/ (j <> i /\ j < next /\ h j = NDir es' mt' mo').
Proof.
  intros Hj. rewrite add_at. destruct (Nat.eqb_spec j i) as [->|].
  - intros [= <- <- <-]. auto.
  - destruct (Nat.eqb_spec j next) as [->|].
    + intros F. right; left. split; auto. apply L. now rewrite F.
    + intros F. right; right. repeat split; auto. lia.
Qed.

Lemma wfh_add : wfh h' (S next).
Proof.
  assert (Ch : forall j es' mt' mo' n k, j < S next -> h' j = NDir es' mt' mo' -> In (n, k) es' ->
     (j = i /\ n = name /\ k = next) \/ (j < next /\ k < next /\ j < k /\ exists es0 mt0 mo0, h j = NDir es0 mt0 mo0 /\ In (n, k) es0)).
  { intros j es' mt' mo' n k Hj F I. destruct (add_entries _ _ _ _ Hj F) as [[-> ->]|[[-> ->]|(Hji & Hjn & F')]].
    - apply in_app_iff in I as [I|[[= <- <-]|[]]]; auto.
      right. destruct (wf_child _ _ W _ _ _ _ _ _ Hi E I). repeat split; eauto.
    - easy.
    - right. destruct (wf_child _ _ W _ _ _ _ _ _ Hjn F' I). repeat split; eauto. }
  constructor.
  - lia.
  - rewrite add_at. destruct (wf_root _ _ W) as (e & m & o & F).
    destruct (Nat.eqb_spec root_id i); eauto. destruct (Nat.eqb_spec root_id next) as [e0|]; eauto.
    assert (X := wf_pos _ _ W). unfold root_id in e0. lia.
  - intros j es' mt' mo' n k Hj F I. destruct (Ch _ _ _ _ _ _ Hj F I) as [(-> & -> & ->)|(? & ? & ? & _)]; lia.
  - intros j es' mt' mo' Hj F. destruct (add_entries _ _ _ _ Hj F) as [[-> ->]|[[-> ->]|(Hji & Hjn & F')]].
    + rewrite <- (dset_new name next es) by auto. apply NoDup_dset. eapply wf_names; eauto.
    + constructor.
    + eapply wf_names; eauto.
  - intros j j' es1 es2 mt1 mo1 mt2 mo2 n n' k Hj Hj' F F' I I'.
    destruct (Ch _ _ _ _ _ _ Hj F I) as [(-> & -> & ->)|(? & ? & ? & ? & ? & ? & G & GI)];
    destruct (Ch _ _ _ _ _ _ Hj' F' I') as [(-> & -> & K)|(? & ? & ? & ? & ? & ? & G' & GI')]; auto; try lia.
    eapply (wf_parent _ _ W j j'); eauto.
  - intros j Hj. rewrite add_at. destruct (Nat.eqb_spec j i); [reflexivity|].
    destruct (Nat.eqb_spec j next); [lia|]. apply W. lia.
Qed.

(** Below an old node other than [i], nothing changes. *)
Lemma phys_add_none j p : j < next -> phys h j p = None ->
  (forall r, phys h j r = Some i -> ~ exists x, p = r ++ name :: x) -> phys h' j p = None.
Proof.
  revert j; induction p as [|n p IH]; intros j Hj Hp Hr; [discriminate|].
  cbn in *. rewrite add_at. destruct (Nat.eqb_spec j i) as [->|Hji].
  - rewrite E in Hp. destruct (str_eq_dec n name) as [->|Hn].
    + exfalso. apply (Hr [] eq_refl). now exists p.
    + assert (D : dget n (es ++ [(name, next)]) = dget n es).
      { rewrite <- (dset_new name next es) by auto. rewrite dget_dset.
        now apply str_eqb_neq in Hn as ->. }
      rewrite D. destruct (dget n es) eqn:G; auto. apply IH; auto.
      * apply dget_In in G. destruct (wf_child _ _ W _ _ _ _ _ _ Hi E G). lia.
      * intros r Hr1 [x ->]. apply (Hr (n :: r)); [cbn; now rewrite E, G|]. exists x. reflexivity.
  - destruct (Nat.eqb_spec j next); [lia|]. destruct (h j) eqn:F; auto. destruct (dget n entries) eqn:G; auto.
    apply IH; auto.
    + apply dget_In in G. destruct (wf_child _ _ W _ _ _ _ _ _ Hj F G). lia.
    + intros r Hr1 [x ->]. apply (Hr (n :: r)); [cbn; now rewrite F, G|]. exists x. reflexivity.
Qed.
Lemma phys_add_some j p k : j < next -> phys h j p = Some k -> phys h' j p = Some k.
Proof.
  revert j; induction p as [|n p IH]; intros j Hj; cbn; auto. rewrite add_at.
  destruct (Nat.eqb_spec j i) as [->|].
  - rewrite E. assert (D : forall v, dget n es = Some v -> dget n (es ++ [(name, next)]) = Some v).
    { intros v Hv. rewrite <- (dset_new name next es) by auto. rewrite dget_dset.
      destruct (str_eqb n name) eqn:X; auto. apply str_eqb_eq in X. subst. unfold dhas in N. now rewrite Hv in N. }
    destruct (dget n es) eqn:G; try discriminate. rewrite (D _ eq_refl). apply IH.
    apply dget_In in G. destruct (wf_child _ _ W _ _ _ _ _ _ Hi E G). lia.
  - destruct (Nat.eqb_spec j next); [lia|]. destruct (h j) eqn:F; try discriminate.
    destruct (dget n entries) eqn:G; try discriminate. apply IH.
    apply dget_In in G. destruct (wf_child _ _ W _ _ _ _ _ _ Hj F G). lia.
Qed.
Lemma phys_add_leaf p : phys h' next p = match p with [] => Some next | _ => None end.
Proof.
  destruct p as [|n p]; [reflexivity|]. cbn. rewrite add_at. destruct (Nat.eqb_spec next i); [lia|].
  rewrite Nat.eqb_refl. destruct leaf; auto. specialize (L _ eq_refl). now subst.
Qed.

Variable d : list str.
Hypothesis Hd : phys h root_id d = Some i.

Lemma phys_add_new r : phys h' root_id (d ++ name :: r) = match r with [] => Some next | _ => None end.
Proof.
  rewrite phys_app. rewrite (phys_add_some root_id d i (wf_pos _ _ W) Hd). cbn [phys]. rewrite add_at, Nat.eqb_refl.
  rewrite <- (dset_new name next es) by auto. rewrite dget_dset, str_eqb_refl. apply phys_add_leaf.
Qed.
Lemma phys_add_old p : (forall r, p <> d ++ name :: r) -> phys h' root_id p = phys h root_id p.
Proof.
  intros Hp. destruct (phys h root_id p) eqn:F.
  - apply phys_add_some; auto. apply W.
  - apply phys_add_none; auto; [apply W|]. intros r Hr [x ->].
    rewrite (phys_inj _ _ _ _ _ W Hr Hd) in Hp. eapply Hp; eauto.
Qed.
Lemma tree_add : put_at (tree_of h) (tree_of h') (d ++ [name]) (entry_of leaf).
Proof.
  unfold put_at, tree_of. rewrite phys_add_new. cbn. split.
  - rewrite add_at. destruct (Nat.eqb_spec next i); [lia|]. now rewrite Nat.eqb_refl.
  - intros q Hq.
    assert (Ent : forall k, phys h root_id q = Some k -> entry_of (h' k) = entry_of (h k)).
    { intros k Hk. rewrite add_at. destruct (Nat.eqb_spec k i) as [->|]; [now rewrite E|].
      apply phys_root_lt with (next := next) in Hk; auto. destruct (Nat.eqb_spec k next); [lia|reflexivity]. }
    destruct (list_eq_dec str_eq_dec (firstn (length d + 1) q) (d ++ [name])) as [Hq2|Hq2].
    + assert (Eq : q = d ++ name :: skipn (length d + 1) q).
      { rewrite <- (firstn_skipn (length d + 1) q) at 1. rewrite Hq2. now rewrite <- app_assoc. }
      rewrite Eq. rewrite phys_add_new. destruct (skipn (length d + 1) q) eqn:G; [easy|].
      rewrite phys_app, Hd. cbn [phys]. rewrite E. unfold dhas in N. destruct (dget name es); [discriminate|reflexivity].
    + rewrite phys_add_old.
      * destruct (phys h root_id q) eqn:F; auto. cbn. f_equal. now apply Ent.
      * intros r ->. apply Hq2. change (name :: r) with ([name] ++ r). rewrite app_assoc.
        rewrite firstn_app. rewrite firstn_all2 by (rewrite app_length; cbn; lia).
        rewrite app_length. cbn. replace (length d + 1 - (length d + 1)) with 0 by lia. cbn. now rewrite app_nil_r.
Qed.
End Add.

(** *** Removing an entry *)
Section Del.
Variables (h : nat -> node) (next i : nat) (name : str) (es : dict nat) (mt mo : Z).
Hypothesis (W : wfh h next) (Hi : i < next) (E : h i = NDir es mt mo).
Let h' := heap_set h i (NDir (ddel name es) mt mo).

Lemma del_at j : h' j = if Nat.eqb j i then NDir (ddel name es) mt mo else h j.
Proof. reflexivity. Qed.
Lemma del_entries j es' mt' mo' : h' j = NDir es' mt' mo' ->
  exists es0, h j = NDir es0 mt' mo' /\ (forall kv, In kv es' -> In kv es0) /\ (NoDup (map fst es0) -> NoDup (map fst es')).
Proof.
  rewrite del_at. destruct (Nat.eqb_spec j i) as [->|].
  - intros [= <- <- <-]. exists es. split; [auto|]. split; [apply ddel_incl|apply NoDup_ddel].
  - intros F. exists es'. auto.
Qed.
Lemma wfh_del : wfh h' next.
Proof.
  constructor.
  - apply W.
  - rewrite del_at. destruct (Nat.eqb_spec root_id i); eauto. apply W.
  - intros j es' mt' mo' n k Hj F I. destruct (del_entries _ _ _ _ F) as (es0 & F' & I' & _).
    eapply wf_child; eauto.
  - intros j es' mt' mo' Hj F. destruct (del_entries _ _ _ _ F) as (es0 & F' & _ & D'). apply D'. eapply wf_names; eauto.
  - intros j j' es1 es2 mt1 mo1 mt2 mo2 n n' k Hj Hj' F F' I I'.
    destruct (del_entries _ _ _ _ F) as (? & G & GI & _). destruct (del_entries _ _ _ _ F') as (? & G' & GI' & _).
    eapply (wf_parent _ _ W j j'); eauto.
  - intros j Hj. rewrite del_at. destruct (Nat.eqb_spec j i); [reflexivity|]. now apply W.
Qed.
Variable d : list str.
Hypothesis Hd : phys h root_id d = Some i.
Lemma phys_del j p : j < next ->
  (forall r, phys h j r = Some i -> ~ exists x, p = r ++ name :: x) -> phys h' j p = phys h j p.
Proof.
  revert j; induction p as [|n p IH]; intros j Hj Hr; [reflexivity|]. cbn. rewrite del_at.
  assert (Sub : forall entries mt mo k, h j = NDir entries mt mo -> dget n entries = Some k -> phys h' k p = phys h k p).
  { intros en m o k F G. apply IH.
    - apply dget_In in G. destruct (wf_child _ _ W _ _ _ _ _ _ Hj F G). lia.
    - intros r Hr1 [x ->]. apply (Hr (n :: r)); [cbn; now rewrite F, G|]. exists x. reflexivity. }
  destruct (Nat.eqb_spec j i) as [->|].
  - rewrite E. rewrite dget_ddel by (eapply wf_names; eauto). destruct (str_eqb n name) eqn:X.
    + apply str_eqb_eq in X. subst. exfalso. apply (Hr [] eq_refl). now exists p.
    + destruct (dget n es) eqn:G; auto. eapply Sub; eauto.
  - destruct (h j) eqn:F; auto. destruct (dget n entries) eqn:G; auto. eapply Sub; eauto.
Qed.
Lemma tree_del : cut_at (tree_of h) (tree_of h') (d ++ [name]).
Proof.
  assert (P : phys h' root_id d = Some i).
  { rewrite phys_del; auto; [apply W|]. intros r Hr [x ->].
    rewrite phys_app, Hr in Hd. cbn in Hd. rewrite E in Hd. destruct (dget name es) eqn:G; [|discriminate].
    apply dget_In in G. destruct (wf_child _ _ W _ _ _ _ _ _ Hi E G).
    apply (phys_lt h next) in Hd; auto. lia. }
  split.
  - intros r. unfold tree_of. rewrite <- app_assoc, phys_app, P. cbn. rewrite del_at, Nat.eqb_refl.
    rewrite dget_ddel by (eapply wf_names; eauto). now rewrite str_eqb_refl.
  - intros q Hq. unfold tree_of. rewrite phys_del.
    + destruct (phys h root_id q); auto. cbn. f_equal. rewrite del_at. destruct (Nat.eqb_spec n i) as [->|]; auto.
      now rewrite E.
    + apply W.
    + intros r Hr [x ->]. apply (Hq x). rewrite (phys_inj _ _ _ _ _ W Hr Hd). now rewrite <- app_assoc.
Qed.
End Del.
