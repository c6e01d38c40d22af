(** Two memory file systems with the same tree, time and callbacks cannot be told apart: node numbers, the order of
    the entries and the positions of files do not show. *)
From Coq Require Import Lia Sorted.
From Verif Require Import Str Exc Utf8 UriParse BaseUri StrFacts SpecUri Mem SpecMem MemFacts MemFacts2 MemFacts3 MemFacts4 MemFacts5 MemFacts6 MemFacts7 MemFacts10.
From Verif Require Import Generic GenFacts1 GenFacts3 Resp MemOps Fnmatch UriOps Prog.

(** The two sides of an open file: both nodes are files with the same content, attributes and position, reached by
    the same paths (by none once the file is removed). *)
Definition opair (s1 s2 : mst) (w : nat * nat) : Prop :=
  fst w < m_next s1 /\ snd w < m_next s2 /\
  (exists f g, m_heap s1 (fst w) = NFile f /\ m_heap s2 (snd w) = NFile g /\ f_pos f = f_pos g /\ f_data f = f_data g /\ f_mtime f = f_mtime g /\ f_mode f = f_mode g) /\
  forall p, phys (m_heap s1) root_id p = Some (fst w) <-> phys (m_heap s2) root_id p = Some (snd w).
Section Open.
(** The files that are open, on both sides *)
Variable O : list (nat * nat).
Record alike (s1 s2 : mst) : Prop := {
  al_wf1 : wf s1; al_wf2 : wf s2; al_tree : same_tree (view s1) (view s2); al_now : m_now s1 = m_now s2; al_cbs : forall p, callback_at s1 p = callback_at s2 p;
  al_open : forall w, In w O -> opair s1 s2 w; al_inj : forall w w', In w O -> In w' O -> (fst w = fst w' <-> snd w = snd w') }.

Definition twin (s1 s2 : mst) (i j : nat) : Prop := exists p, phys (m_heap s1) root_id p = Some i /\ phys (m_heap s2) root_id p = Some j.
Definition otwin s1 s2 (a b : option nat) : Prop :=
  match a, b with Some i, Some j => twin s1 s2 i j | None, None => True | _, _ => False end.
Definition rel {A B} (Q : A -> B -> Prop) (x : res A) (y : res B) : Prop :=
  match x, y with Ok a, Ok b => Q a b | Raise e, Raise e' => e = e' | _, _ => False end.
Lemma rel_bind {A B C D} (Q : A -> B -> Prop) (Q' : C -> D -> Prop) x y f g :
  rel Q x y -> (forall a b, Q a b -> rel Q' (f a) (g b)) -> rel Q' (rbind x f) (rbind y g).
Proof. intros R F. destruct x, y; cbn in *; auto; easy. Qed.
Definition rr {A B} (Q : A -> B -> mst -> mst -> Prop) (x : res A * mst) (y : res B * mst) : Prop :=
  match x, y with
  | (Ok a, s1), (Ok b, s2) => alike s1 s2 /\ Q a b s1 s2
  | (Raise e, s1), (Raise e', s2) => alike s1 s2 /\ e = e'
  | _, _ => False
  end.
Definition eqr {A} (a b : A) (_ _ : mst) : Prop := a = b.
Lemma rr_bind {A B C D} (Q : A -> B -> mst -> mst -> Prop) (Q' : C -> D -> mst -> mst -> Prop) m1 m2 k1 k2 s1 s2 :
  rr Q (m1 s1) (m2 s2) -> (forall a b x y, alike x y -> Q a b x y -> rr Q' (k1 a x) (k2 b y)) -> rr Q' (bind m1 k1 s1) (bind m2 k2 s2).
Proof. intros R F. unfold bind. destruct (m1 s1) as [[a|e] x], (m2 s2) as [[b|e'] y]; cbn in R; try easy. now apply F. Qed.
Lemma rr_lift {A B} (Q : A -> B -> Prop) x y s1 s2 : alike s1 s2 -> rel Q x y -> rr (fun a b _ _ => Q a b) (lift x s1) (lift y s2).
Proof. intros L R. unfold lift. destruct x, y; cbn in *; auto. Qed.
Lemma rr_same {A} (r : res A) s1 s2 : alike s1 s2 -> rr eqr (r, s1) (r, s2).
Proof. intros L. destruct r; cbn; split; auto. reflexivity. Qed.
Lemma rr_weak {A B} (Q Q' : A -> B -> mst -> mst -> Prop) x y : rr Q x y -> (forall a b s1 s2, alike s1 s2 -> Q a b s1 s2 -> Q' a b s1 s2) -> rr Q' x y.
Proof. intros R F. destruct x as [[a|e] x], y as [[b|e'] y]; cbn in *; try easy. destruct R. auto. Qed.
Lemma rr_resp {A} (m : M mst A) : (forall s1 s2, alike s1 s2 -> rr eqr (m s1) (m s2)) -> resp alike m.
Proof.
  intros H s1 s2 L. specialize (H s1 s2 L). destruct (m s1) as [[a|e] x], (m s2) as [[b|e'] y]; cbn in *; try easy.
  - destruct H as [H ->]. now split.
  - destruct H as [H ->]. now split.
Qed.
Lemma resp_rr {A} (m : M mst A) s1 s2 : resp alike m -> alike s1 s2 -> rr eqr (m s1) (m s2).
Proof.
  intros H L. destruct (H s1 s2 L) as [E1 E2]. destruct (m s1) as [[a|e] x], (m s2) as [[b|e'] y]; cbn in *; try easy; injection E1 as ->; split; auto. reflexivity.
Qed.

Section Twins.
Variables (s1 s2 : mst).
Hypothesis L : alike s1 s2.
Let W1 := al_wf1 _ _ L.
Let W2 := al_wf2 _ _ L.
Let h1 := m_heap s1.
Let h2 := m_heap s2.
Local Notation tw := (twin s1 s2).
Local Notation ot := (otwin s1 s2).

Lemma twin_root : tw root_id root_id. Proof. now exists []. Qed.
Lemma twin_fun i j j' : tw i j -> tw i j' -> j = j'.
Proof.
  intros (p & A1 & A2) (q & B1 & B2). assert (p = q) by (apply (phys_inj (m_heap s1) (m_next s1) p q i W1); auto). subst. congruence.
Qed.
Lemma twin_inj i i' j : tw i j -> tw i' j -> i = i'.
Proof.
  intros (p & A1 & A2) (q & B1 & B2). assert (p = q) by (apply (phys_inj (m_heap s2) (m_next s2) p q j W2); auto). subst. congruence.
Qed.
Lemma twin_entry i j : tw i j -> entry_of (h1 i) = entry_of (h2 j).
Proof.
  intros (p & A1 & A2). pose proof (al_tree _ _ L p) as T. unfold view, tree_of in T. rewrite A1, A2 in T. cbn in T. now injection T as T.
Qed.
Lemma phys_twin p : ot (phys h1 root_id p) (phys h2 root_id p).
Proof.
  pose proof (al_tree _ _ L p) as T. unfold view, tree_of in T. fold h1 h2 in T. destruct (phys h1 root_id p) eqn:E1, (phys h2 root_id p) eqn:E2; cbn in *; try discriminate; auto.
  now exists p.
Qed.
Lemma twin_kid i j es1 mt1 mo1 es2 mt2 mo2 n : tw i j -> h1 i = NDir es1 mt1 mo1 -> h2 j = NDir es2 mt2 mo2 -> ot (dget n es1) (dget n es2).
Proof.
  intros (p & A1 & A2) E1 E2. pose proof (phys_twin (p ++ [n])) as T. rewrite !phys_snoc in T. unfold h1, h2 in *. now rewrite A1, A2, E1, E2 in T.
Qed.
Lemma twin_has i j es1 mt1 mo1 es2 mt2 mo2 n : tw i j -> h1 i = NDir es1 mt1 mo1 -> h2 j = NDir es2 mt2 mo2 -> dhas n es1 = dhas n es2.
Proof.
  intros T E1 E2. pose proof (twin_kid i j es1 mt1 mo1 es2 mt2 mo2 n T E1 E2) as K. unfold dhas. destruct (dget n es1), (dget n es2); easy.
Qed.
(** The node objects of twins: both are files, directories or links. *)
Inductive pair_of : node -> node -> Prop :=
| po_file f g : f_data f = f_data g -> f_mtime f = f_mtime g -> f_mode f = f_mode g -> pair_of (NFile f) (NFile g)
| po_dir es1 es2 mt mo : (forall n, ot (dget n es1) (dget n es2)) -> pair_of (NDir es1 mt mo) (NDir es2 mt mo)
| po_link tg mt mo : pair_of (NLink tg mt mo) (NLink tg mt mo).
Lemma twin_nodes i j : tw i j -> pair_of (h1 i) (h2 j).
Proof.
  intros T. pose proof (twin_entry i j T) as En. destruct (h1 i) as [f|es mt mo|tg mt mo] eqn:E1, (h2 j) as [g|es' mt' mo'|tg' mt' mo'] eqn:E2; cbn in En; try discriminate.
  - injection En as A1 A2 A3. now constructor.
  - injection En as -> ->. constructor. intros n. eapply twin_kid; eauto.
  - injection En as -> -> ->. constructor.
Qed.

Section Loop.
Variable throw : bool.
Variables ch1 ch2 : nat -> str -> bool -> res (option nat).
Hypothesis C : forall i j n b, tw i j -> rel ot (ch1 i n b) (ch2 j n b).
Definition pairs (a b : option nat * option nat) : Prop := ot (fst a) (fst b) /\ ot (snd a) (snd b).
Lemma loop_twin f l steps : forall p1 p2 c1 c2, ot p1 p2 -> ot c1 c2 ->
  rel pairs (steps_loop h1 throw ch1 f l p1 c1 steps) (steps_loop h2 throw ch2 f l p2 c2 steps).
Proof.
  induction steps as [|n steps IH]; intros p1 p2 c1 c2 Hp Hc; cbn [steps_loop]; [now split|].
  destruct c1 as [c1|], c2 as [c2|]; cbn in Hc; try easy. pose proof (twin_nodes c1 c2 Hc) as N.
  inversion N as [fi gi D1 D2 D3 E1 E2|es1 es2 mt mo K E1 E2|tg mt mo E1 E2]; cbn; auto.
  assert (Eh : dhas n es1 = dhas n es2) by (specialize (K n); unfold dhas; destruct (dget n es1), (dget n es2); easy). rewrite Eh.
  destruct (dhas n es2).
  - eapply rel_bind; [now apply C|]. intros a b Hab. apply IH; auto.
  - destruct throw; cbn; auto. now split.
Qed.
End Loop.
Lemma link_twin i j : tw i j -> is_link (h1 i) = is_link (h2 j).
Proof. intros T. destruct (twin_nodes i j T); reflexivity. Qed.
Lemma child_twin throw k : forall i j n b, tw i j -> rel ot (child h1 throw k i n b) (child h2 throw k j n b).
Proof.
  induction k as [|k IH]; intros i j n b T; cbn [child]; pose proof (twin_nodes i j T) as N;
    inversion N as [fi gi D1 D2 D3 E1 E2|es1 es2 mt mo K E1 E2|tg mt mo E1 E2]; cbn [rel]; auto;
    specialize (K n); destruct (dget n es1) as [a|], (dget n es2) as [c|]; cbn in K; try easy;
    pose proof (twin_nodes a c K) as N'; inversion N' as [f2 g2 D4 D5 D6 F1 F2|es3 es4 mt2 mo2 K2 F1 F2|tg2 mt2 mo2 F1 F2]; cbn [rel otwin]; auto;
    destruct b; cbn [rel otwin]; auto.
  destruct (mem_path tg2) as [p|e]; cbn [rbind rel]; auto.
  eapply rel_bind with (Q := ot).
  - destruct p as [|c0 p]; [cbn; apply twin_root|]. eapply rel_bind; [apply loop_twin; [intros; now apply IH|exact I|apply twin_root]|]. intros x y [_ Hs]. exact Hs.
  - intros [x|] [y|] Hxy; cbn in Hxy; try easy. rewrite (link_twin x y Hxy). destruct (is_link (h2 y)); cbn; auto.
Qed.
Lemma prev_twin throw steps f : rel pairs (get_node_prev h1 throw steps f) (get_node_prev h2 throw steps f).
Proof. unfold get_node_prev. apply loop_twin; [intros; now apply child_twin|exact I|apply twin_root]. Qed.
Lemma get_twin throw steps f : rel ot (get_node h1 throw steps f) (get_node h2 throw steps f).
Proof. unfold get_node. eapply rel_bind; [apply prev_twin|]. intros x y [_ Hs]. exact Hs. Qed.
Lemma path_twin throw u f : rel ot (get_node_for_path h1 throw u f) (get_node_for_path h2 throw u f).
Proof.
  unfold get_node_for_path. destruct (mem_path u) as [[|c p]|e]; cbn [rbind rel]; auto; [apply twin_root|apply get_twin].
Qed.
Lemma need_twin a b : ot a b -> rel tw (need a) (need b).
Proof. destruct a, b; cbn; easy. Qed.
End Twins.

Section Ops.
Variables (s1 s2 : mst).
Hypothesis L : alike s1 s2.
Let W1 := al_wf1 _ _ L.
Let W2 := al_wf2 _ _ L.
Local Notation rt := (fun a b x y => twin x y a b).

Lemma node_twin u f : rr rt (lookup_node u f s1) (lookup_node u f s2).
Proof.
  unfold lookup_node, lookup, bind. pose proof (path_twin s1 s2 L true u f) as R.
  destruct (get_node_for_path (m_heap s1) true u f) as [a|e], (get_node_for_path (m_heap s2) true u f) as [b|e']; cbn [rel] in R; try easy.
  unfold lift. pose proof (need_twin s1 s2 a b R) as R'. destruct (need a), (need b); cbn in *; auto.
Qed.
Lemma parent_twin p : rr rt (parent_node p s1) (parent_node p s2).
Proof.
  unfold parent_node, bind. pose proof (get_twin s1 s2 L true (removelast (Mem.steps_of p)) true) as R.
  destruct (get_node (m_heap s1) true _ true) as [a|e], (get_node (m_heap s2) true _ true) as [b|e']; cbn [rel] in R; try easy.
  unfold lift. pose proof (need_twin s1 s2 a b R) as R'. destruct (need a), (need b); cbn in *; auto.
Qed.
Lemma has_twin i j n : twin s1 s2 i j -> rr eqr (node_has i n s1) (node_has j n s2).
Proof.
  intros T. unfold node_has, bind, get_node_obj. pose proof (twin_nodes s1 s2 L i j T) as N.
  inversion N as [f g D1 D2 D3 E1 E2|es1 es2 mt mo K E1 E2|tg mt mo E1 E2]; cbn; auto. split; auto. unfold eqr.
  specialize (K n). unfold dhas. destruct (dget n es1), (dget n es2); easy.
Qed.

(** What an update does to a pair of related states *)
Lemma alike_put s1' s2' p e : wf s1' -> wf s2' -> same_rest s1 s1' -> same_rest s2 s2' -> put_at (view s1) (view s1') p e -> put_at (view s2) (view s2') p e ->
  (forall w, opair s1 s2 w -> opair s1' s2' w) -> alike s1' s2'.
Proof.
  intros A1 A2 (R1 & _ & _ & R2) (R3 & _ & _ & R4) [P1 P2] [P3 P4] Ho. constructor; auto; try apply (al_inj _ _ L).
  - intros q. destruct (list_eq_dec (list_eq_dec N.eq_dec) q p) as [->|Nq]; [congruence|]. rewrite P2, P4 by auto. apply (al_tree _ _ L).
  - rewrite R1, R3. apply (al_now _ _ L).
  - unfold callback_at. rewrite R2, R4. apply (al_cbs _ _ L).
  - intros w Hw. apply Ho, (al_open _ _ L), Hw.
Qed.
Lemma alike_cut s1' s2' p : wf s1' -> wf s2' -> same_rest s1 s1' -> same_rest s2 s2' -> cut_at (view s1) (view s1') p -> cut_at (view s2) (view s2') p ->
  (forall w, opair s1 s2 w -> opair s1' s2' w) -> alike s1' s2'.
Proof.
  intros A1 A2 (R1 & _ & _ & R2) (R3 & _ & _ & R4) [P1 P2] [P3 P4] Ho. constructor; auto; try apply (al_inj _ _ L).
  - intros q. destruct (below_dec p q) as [[r ->]|Nq]; [now rewrite P1, P3|]. rewrite P2, P4 by auto. apply (al_tree _ _ L).
  - rewrite R1, R3. apply (al_now _ _ L).
  - unfold callback_at. rewrite R2, R4. apply (al_cbs _ _ L).
  - intros w Hw. apply Ho, (al_open _ _ L), Hw.
Qed.
End Ops.

(** ** Every operation *)
Lemma rr_obs {A} (r1 r2 : res A) s1 s2 : alike s1 s2 -> r1 = r2 -> rr eqr (r1, s1) (r2, s2).
Proof. intros L ->. now apply rr_same. Qed.
Lemma dir_twin s1 s2 i j : alike s1 s2 -> twin s1 s2 i j -> is_dir (m_heap s1 i) = is_dir (m_heap s2 j).
Proof. intros L T. destruct (twin_nodes s1 s2 L i j T); reflexivity. Qed.
Lemma file_twin_b s1 s2 i j : alike s1 s2 -> twin s1 s2 i j -> is_file (m_heap s1 i) = is_file (m_heap s2 j).
Proof. intros L T. destruct (twin_nodes s1 s2 L i j T); reflexivity. Qed.
Ltac path := eapply rr_bind; [apply (resp_rr (lift (mem_path _))); auto using resp_lift|]; let q := fresh "q" in intros p q x y L' <-.
Lemma hook_resp u n : resp alike (mem_hook u n).
Proof.
  apply rr_resp. intros s1 s2 L. unfold mem_hook. path.
  pose proof (al_cbs _ _ L' p) as C. unfold callback_at in C. destruct (dget p (m_cbs x)) as [[cb|]|], (dget p (m_cbs y)) as [[cb'|]|]; try discriminate; try now apply rr_same.
  injection C as ->. destruct (cb' u n); now apply rr_same.
Qed.
Ltac err := match goal with e : exc |- _ => destruct e; try match goal with en : errno |- _ => destruct en end; now apply rr_same end.
Lemma isdir_resp u : resp alike (mem_isdir u).
Proof.
  apply rr_resp. intros s1 s2 L. unfold mem_isdir. path. destruct p as [|c p]; [now apply rr_same|]. pose proof (path_twin x y L' false u true) as R.
  destruct (get_node_for_path (m_heap x) false u true) as [[a|]|e], (get_node_for_path (m_heap y) false u true) as [[b|]|e']; cbn [rel otwin] in R; try easy; try now apply rr_same.
  - apply rr_obs; auto. now rewrite (dir_twin x y a b).
  - subst e'. err.
Qed.
Lemma isfile_resp u : resp alike (mem_isfile u).
Proof.
  apply rr_resp. intros s1 s2 L. unfold mem_isfile. path. destruct p as [|c p]; [now apply rr_same|]. pose proof (path_twin x y L' false u true) as R.
  destruct (get_node_for_path (m_heap x) false u true) as [[a|]|e], (get_node_for_path (m_heap y) false u true) as [[b|]|e']; cbn [rel otwin] in R; try easy; try now apply rr_same.
  - apply rr_obs; auto. now rewrite (file_twin_b x y a b).
  - subst e'. err.
Qed.
Lemma exists_resp u : resp alike (mem_exists u).
Proof.
  apply rr_resp. intros s1 s2 L. unfold mem_exists. path. destruct p as [|c p]; [now apply rr_same|]. pose proof (path_twin x y L' false u true) as R.
  destruct (get_node_for_path (m_heap x) false u true) as [[a|]|e], (get_node_for_path (m_heap y) false u true) as [[b|]|e']; cbn [rel otwin] in R; try easy; try now apply rr_same.
  subst e'. err.
Qed.
Lemma islink_resp u : resp alike (mem_islink u).
Proof.
  apply rr_resp. intros s1 s2 L. unfold mem_islink. path. destruct p as [|c p]; [now apply rr_same|]. unfold lookup, bind, get_node_obj. pose proof (path_twin x y L' false u false) as R.
  destruct (get_node_for_path (m_heap x) false u false) as [[a|]|e], (get_node_for_path (m_heap y) false u false) as [[b|]|e']; cbn [rel otwin] in R; try easy; try now apply rr_same.
  apply rr_obs; auto. now rewrite (link_twin x y L' a b).
Qed.
Lemma readlink_resp u : resp alike (mem_readlink u).
Proof.
  apply rr_resp. intros s1 s2 L. unfold mem_readlink. path. destruct p as [|c p]; [now apply rr_same|]. eapply rr_bind; [now apply node_twin|]. clear. intros i j x y L T.
  unfold bind, get_node_obj. destruct (twin_nodes x y L i j T); now apply rr_same.
Qed.
Lemma sort_same (l l' : list str) : NoDup l -> NoDup l' -> (forall n, In n l <-> In n l') -> sort_strs l = sort_strs l'.
Proof. intros N N' H. apply sorted_ext; auto using sort_strict. intros n. now rewrite !sort_In. Qed.
Lemma listdir_resp u : resp alike (mem_listdir u).
Proof.
  apply rr_resp. intros s1 s2 L. unfold mem_listdir. path. unfold bind, get_node_obj. pose proof (get_twin x y L' true (nonempty_steps p) true) as R.
  destruct (get_node (m_heap x) true (nonempty_steps p) true) as [[a|]|e], (get_node (m_heap y) true (nonempty_steps p) true) as [[b|]|e']; cbn [rel otwin] in R; try easy; cbn [need lift].
  - unfold lift. pose proof (twin_nodes x y L' a b R) as N. inversion N as [f g D1 D2 D3 E1 E2|es1 es2 mt mo K E1 E2|tg mt mo E1 E2]; try now apply rr_same.
    apply rr_obs; auto. f_equal. destruct R as (q & P1 & P2). apply sort_same.
    + eapply (wf_names _ _ (al_wf1 _ _ L')); [eapply phys_root_lt; [apply (al_wf1 _ _ L')|exact P1]|eauto].
    + eapply (wf_names _ _ (al_wf2 _ _ L')); [eapply phys_root_lt; [apply (al_wf2 _ _ L')|exact P2]|eauto].
    + intros n. specialize (K n). pose proof (dget_none n es1) as Z1. pose proof (dget_none n es2) as Z2. destruct (in_dec (list_eq_dec N.eq_dec) n (map fst es1)), (in_dec (list_eq_dec N.eq_dec) n (map fst es2)); try tauto; destruct (dget n es1), (dget n es2); cbn in K; try easy; exfalso; intuition discriminate.
Qed.
(** New entries *)
Lemma opair_kept s1 s2 s1' s2' (P : list str -> Prop) : files_kept s1 s1' -> files_kept s2 s2' ->
  (forall p k, k < m_next s1 -> (phys (m_heap s1') root_id p = Some k <-> phys (m_heap s1) root_id p = Some k /\ P p)) ->
  (forall p k, k < m_next s2 -> (phys (m_heap s2') root_id p = Some k <-> phys (m_heap s2) root_id p = Some k /\ P p)) -> forall w, opair s1 s2 w -> opair s1' s2' w.
Proof.
  intros [A1 A2] [B1 B2] P1 P2 w (W1 & W2 & (f & g & E1 & E2 & R) & Hp). split; [lia|]. split; [lia|]. split.
  - exists f, g. rewrite A2, B2; auto; [now rewrite E2|now rewrite E1].
  - intros p. rewrite P1, P2 by auto. now rewrite Hp.
Qed.
Lemma added_phys s d i n leaf es mt mo : wf s -> phys (m_heap s) root_id d = Some i -> m_heap s i = NDir es mt mo -> dhas n es = false -> no_entries leaf ->
  forall p k, k < m_next s -> (phys (m_heap (added s i n leaf)) root_id p = Some k <-> phys (m_heap s) root_id p = Some k /\ True).
Proof.
  intros Wf P E N Nl p k Hk. assert (Hi := phys_root_lt _ _ _ _ Wf P). destruct (below_dec (d ++ [n]) p) as [[r ->]|Np].
  - rewrite <- app_assoc. cbn [app]. assert (X := phys_add_new _ _ _ _ _ _ _ _ Wf Hi E N Nl d P r). cbn in X |- *. rewrite X. rewrite phys_app, P. cbn [phys]. rewrite E. unfold dhas in N. destruct (dget n es); [discriminate|].
    destruct r; split; try easy. intros [= <-]. lia.
  - assert (X := phys_add_old _ _ _ _ leaf _ _ _ Wf Hi E N d P p). cbn. rewrite X; [tauto|]. intros r ->. apply (Np r). now rewrite <- app_assoc.
Qed.
Lemma deleted_phys s d i n es mt mo : wf s -> phys (m_heap s) root_id d = Some i -> m_heap s i = NDir es mt mo ->
  forall p k, k < m_next s -> (phys (m_heap (deleted s i n es mt mo)) root_id p = Some k <-> phys (m_heap s) root_id p = Some k /\ ~ exists r, p = (d ++ [n]) ++ r).
Proof.
  intros Wf P E p k Hk. assert (Hi := phys_root_lt _ _ _ _ Wf P). destruct (below_dec (d ++ [n]) p) as [B|Np].
  - destruct (deleted_spec s Wf d i n es mt mo P E) as (_ & [C _] & _). destruct B as [r ->]. specialize (C r). split; [|intros [_ X]; exfalso; apply X; now exists r].
    intros X. unfold view, tree_of in C. rewrite X in C. discriminate.
  - assert (X : phys (m_heap (deleted s i n es mt mo)) root_id p = phys (m_heap s) root_id p).
    { cbn. eapply phys_del; eauto; [apply (wf_pos _ _ Wf)|]. intros r Hr [x ->]. assert (r = d) by (eapply phys_inj; eauto). subst. apply (Np x). now rewrite <- app_assoc. }
    rewrite X. split; [intros Y; split; auto; intros [r Hr]; now apply (Np r)|tauto].
Qed.
Lemma added_twin s1 s2 i j n leaf1 leaf2 es1 mt1 mo1 es2 mt2 mo2 : alike s1 s2 -> twin s1 s2 i j -> m_heap s1 i = NDir es1 mt1 mo1 -> m_heap s2 j = NDir es2 mt2 mo2 ->
  dhas n es1 = false -> dhas n es2 = false -> no_entries leaf1 -> no_entries leaf2 -> entry_of leaf1 = entry_of leaf2 ->
  alike (added s1 i n leaf1) (added s2 j n leaf2) /\ twin (added s1 i n leaf1) (added s2 j n leaf2) (m_next s1) (m_next s2) /\
  m_heap (added s1 i n leaf1) (m_next s1) = leaf1 /\ m_heap (added s2 j n leaf2) (m_next s2) = leaf2 /\ files_kept s1 (added s1 i n leaf1) /\ files_kept s2 (added s2 j n leaf2).
Proof.
  intros L (d & P1 & P2) E1 E2 H1 H2 N1 N2 En.
  destruct (added_spec s1 (al_wf1 _ _ L) d i n leaf1 es1 mt1 mo1) as (A1 & A2 & A3 & A4 & A5 & A6); auto.
  destruct (added_spec s2 (al_wf2 _ _ L) d j n leaf2 es2 mt2 mo2) as (B1 & B2 & B3 & B4 & B5 & B6); auto.
  split; [eapply (alike_put s1 s2 L); eauto; [now rewrite En|]; apply (opair_kept _ _ _ _ (fun _ => True)); [auto|auto|apply (added_phys s1 d i n leaf1 es1 mt1 mo1)|apply (added_phys s2 d j n leaf2 es2 mt2 mo2)]; auto; [apply (al_wf1 _ _ L)|apply (al_wf2 _ _ L)]|]. split; [now exists (d ++ [n])|]. repeat split; auto; try apply A4; try apply B4.
Qed.
Lemma has_cases s1 s2 i j n : alike s1 s2 -> twin s1 s2 i j ->
  (node_has i n s1 = (Raise AttributeError, s1) /\ node_has j n s2 = (Raise AttributeError, s2)) \/
  exists es1 es2 mt mo, m_heap s1 i = NDir es1 mt mo /\ m_heap s2 j = NDir es2 mt mo /\ dhas n es1 = dhas n es2 /\
    node_has i n s1 = (Ok (dhas n es2), s1) /\ node_has j n s2 = (Ok (dhas n es2), s2).
Proof.
  intros L T. unfold node_has, bind, get_node_obj. pose proof (twin_nodes s1 s2 L i j T) as N.
  inversion N as [f g D1 D2 D3 E1 E2|es1 es2 mt mo K E1 E2|tg mt mo E1 E2]; [now left| |now left]. right. exists es1, es2, mt, mo.
  assert (Eh : dhas n es1 = dhas n es2) by (specialize (K n); unfold dhas; destruct (dget n es1), (dget n es2); easy). unfold ret. rewrite Eh. auto.
Qed.
Lemma make_resp u leaf : (forall x y, alike x y -> no_entries (leaf x) /\ no_entries (leaf y) /\ entry_of (leaf x) = entry_of (leaf y)) -> resp alike (make u leaf).
Proof.
  intros Hl. apply rr_resp. intros s1 s2 L. unfold make. path. destruct p as [|c p]; [now apply rr_same|]. eapply rr_bind; [now apply parent_twin|].
  clear - Hl. intros i j x y L T. cbv zeta. destruct (has_cases x y i j (last (Mem.steps_of (c :: p)) []) L T) as [[A1 A2]|(es1 & es2 & mt & mo & E1 & E2 & Eh & A1 & A2)].
  { unfold bind. rewrite A1, A2. now apply rr_same. }
  erewrite (bind_ok _ _ x) by exact A1. erewrite (bind_ok _ _ y) by exact A2. destruct (dhas _ es2) eqn:Eb; [now apply rr_same|].
  erewrite (bind_ok _ _ x) by reflexivity. erewrite (bind_ok _ _ y) by reflexivity.
  destruct (Hl x y L) as (H1 & H2 & H3). pose proof T as (d & P1 & P2).
  rewrite (run_add x i _ (leaf x) es1 mt mo (phys_root_lt _ _ _ _ (al_wf1 _ _ L) P1) E1), (run_add y j _ (leaf y) es2 mt mo (phys_root_lt _ _ _ _ (al_wf2 _ _ L) P2) E2).
  split; [|reflexivity]. eapply added_twin; eauto.
Qed.
Lemma mkdir_resp u : resp alike (mem_mkdir u).
Proof. rewrite mkdir_make. apply make_resp. intros x y L. rewrite (al_now _ _ L). split; [|split; [|reflexivity]]; intros es E; now injection E as <-. Qed.
Lemma symlink_resp t u : resp alike (mem_symlink t u).
Proof. rewrite symlink_make. apply make_resp. intros x y L. rewrite (al_now _ _ L). split; [|split; [|reflexivity]]; intros es E; discriminate. Qed.
(** Removal *)
Lemma del_twin s1 s2 i j n : alike s1 s2 -> twin s1 s2 i j -> rr eqr (del_child i n s1) (del_child j n s2).
Proof.
  intros L T. pose proof (twin_nodes s1 s2 L i j T) as N. unfold del_child. erewrite (bind_ok _ _ s1), (bind_ok _ _ s2) by reflexivity.
  inversion N as [f g D1 D2 D3 E1 E2|es1 es2 mt mo K E1 E2|tg mt mo E1 E2]; try now apply rr_same.
  assert (Eh : dhas n es1 = dhas n es2) by (specialize (K n); unfold dhas; destruct (dget n es1), (dget n es2); easy). rewrite Eh.
  destruct (dhas n es2) eqn:Eb; [|now apply rr_same]. destruct T as (d & P1 & P2). split; [|reflexivity].
  destruct (deleted_spec s1 (al_wf1 _ _ L) d i n es1 mt mo) as (A1 & A2 & A3 & A4); auto.
  destruct (deleted_spec s2 (al_wf2 _ _ L) d j n es2 mt mo) as (B1 & B2 & B3 & B4); auto.
  eapply (alike_cut s1 s2 L); eauto. apply (opair_kept _ _ _ _ (fun p => ~ exists r, p = (d ++ [n]) ++ r)); [auto|auto|apply (deleted_phys s1 d i n es1 mt mo)|apply (deleted_phys s2 d j n es2 mt mo)]; auto; [apply (al_wf1 _ _ L)|apply (al_wf2 _ _ L)].
Qed.
Lemma removefile_resp u : resp alike (mem_removefile u).
Proof.
  apply rr_resp. intros s1 s2 L. unfold mem_removefile. path. pose proof (prev_twin x y L' true (nonempty_steps p) false) as R. unfold bind.
  destruct (get_node_prev (m_heap x) true (nonempty_steps p) false) as [[a ?]|e], (get_node_prev (m_heap y) true (nonempty_steps p) false) as [[b ?]|e']; cbn [rel] in R; try easy.
  destruct R as [R _]. cbn [fst] in *. destruct a, b; cbn in R; try easy; try now apply rr_same. now apply del_twin.
Qed.
Lemma removedir_resp u : resp alike (mem_removedir u).
Proof.
  apply rr_resp. intros s1 s2 L. unfold mem_removedir. path. pose proof (prev_twin x y L' true (nonempty_steps p) true) as R. unfold bind.
  destruct (get_node_prev (m_heap x) true (nonempty_steps p) true) as [[a ?]|e], (get_node_prev (m_heap y) true (nonempty_steps p) true) as [[b ?]|e']; cbn [rel] in R; try easy.
  destruct R as [R _]. cbn [fst] in *. destruct a as [a|], b as [b|]; cbn in R; try easy; try now apply rr_same.
  pose proof (child_twin x y L' true max_links a b (u_last u) true R) as C.
  destruct (child (m_heap x) true max_links a (u_last u) true) as [[c|]|], (child (m_heap y) true max_links b (u_last u) true) as [[d|]|]; cbn [rel otwin] in C; try easy; try now apply rr_same.
  unfold lift, need, get_node_obj. pose proof (twin_nodes x y L' c d C) as N. inversion N as [f g D1 D2 D3 E1 E2|es1 es2 mt mo K E1 E2|tg mt mo E1 E2]; try now apply rr_same.
  destruct es1 as [|[m1 k1] es1], es2 as [|[m2 k2] es2]; try now apply rr_same.
  - now apply del_twin.
  - specialize (K m2). cbn in K. rewrite str_eqb_refl in K. easy.
  - specialize (K m1). cbn in K. rewrite str_eqb_refl in K. easy.
Qed.
(** Attributes *)
Lemma attrs_twin s1 s2 i j mt mo : alike s1 s2 -> twin s1 s2 i j -> rr eqr (upd i (set_attrs (m_heap s1 i) mt mo) s1) (upd j (set_attrs (m_heap s2 j) mt mo) s2).
Proof.
  intros L T. pose proof (twin_entry s1 s2 L i j T) as En. destruct T as (p & P1 & P2).
  destruct (upd_attrs s1 (al_wf1 _ _ L) p i mt mo P1) as (x & Ex & A1 & A2 & A3 & _).
  destruct (upd_attrs s2 (al_wf2 _ _ L) p j mt mo P2) as (y & Ey & B1 & B2 & B3 & _).
  rewrite Ex, Ey. split; [|reflexivity]. rewrite <- En in B2. eapply (alike_put s1 s2 L); eauto.
  unfold upd, set_heap in Ex, Ey. injection Ex as <-. injection Ey as <-. intros w (W1 & W2 & (f & g & E1 & E2 & Q1 & Q2 & Q3 & Q4) & Hp). unfold opair; cbn. split; [auto|]. split; [auto|]. split.
  - destruct (Nat.eq_dec (fst w) i) as [Ei|Ni].
    + assert (Ej : snd w = j) by (apply (f_equal Some) in Ei; rewrite <- P1 in Ei; assert (X := proj1 (Hp p) (eq_sym Ei)); congruence).
      rewrite <- Ei, <- Ej, !heap_set_same, E1, E2. cbn. eexists _, _. split; [reflexivity|]. split; [reflexivity|]. cbn. auto.
    + assert (Nj : snd w <> j) by (intros Ej; apply (f_equal Some) in Ej; rewrite <- P2 in Ej; assert (X := proj2 (Hp p) (eq_sym Ej)); congruence).
      rewrite !heap_set_other by auto. exists f, g. auto 10.
  - intros q. rewrite !phys_set by apply set_attrs_entries. apply Hp.
Qed.
Lemma node_same s1 s2 i j : alike s1 s2 -> twin s1 s2 i j -> node_mtime (m_heap s1 i) = node_mtime (m_heap s2 j) /\ node_mode (m_heap s1 i) = node_mode (m_heap s2 j) /\
  node_size (m_heap s1 i) = node_size (m_heap s2 j).
Proof.
  intros L T. destruct (node_attrs (m_heap s1 i)) as (A1 & A2 & A3). destruct (node_attrs (m_heap s2 j)) as (B1 & B2 & B3). pose proof (twin_entry s1 s2 L i j T) as En.
  rewrite A1, A2, A3, B1, B2, B3. now rewrite En.
Qed.
Lemma info_resp u f : resp alike (mem_info u f).
Proof.
  apply rr_resp. intros s1 s2 L. unfold mem_info. eapply rr_bind; [now apply node_twin|]. clear. intros i j x y L T. destruct (node_same x y i j L T) as (E1 & E2 & E3).
  apply rr_obs; auto. now rewrite E1, E2, E3.
Qed.
Lemma set_info_resp u mo mt f : resp alike (mem_set_info u mo mt f).
Proof.
  apply rr_resp. intros s1 s2 L. unfold mem_set_info. eapply rr_bind; [now apply node_twin|]. clear. intros i j x y L T. destruct (node_same x y i j L T) as (E1 & E2 & E3).
  erewrite (bind_ok _ _ x), (bind_ok _ _ y) by reflexivity. rewrite E1, E2. now apply attrs_twin.
Qed.
Lemma mtime_resp u : resp alike (mem_mtime u).
Proof.
  apply rr_resp. intros s1 s2 L. unfold mem_mtime. eapply rr_bind; [now apply node_twin|]. clear. intros i j x y L T. destruct (node_same x y i j L T) as (E1 & E2 & E3).
  apply rr_obs; auto. now rewrite E1.
Qed.
Lemma manip_mtime_resp u t : resp alike (mem_manip_mtime u t).
Proof.
  apply rr_resp. intros s1 s2 L. unfold mem_manip_mtime. eapply rr_bind; [now apply node_twin|]. clear. intros i j x y L T. destruct (node_same x y i j L T) as (E1 & E2 & E3).
  erewrite (bind_ok _ _ x), (bind_ok _ _ y) by reflexivity. rewrite E2. now apply attrs_twin.
Qed.
Lemma manip_callback_resp u cb : resp alike (mem_manip_callback u cb).
Proof.
  apply rr_resp. intros s1 s2 L. unfold mem_manip_callback. path. split; [|reflexivity]. destruct L' as [A1 A2 A3 A4 A5 A6 A7]. constructor; cbn; auto.
  intros q. specialize (A5 q). unfold callback_at in *. cbn [m_cbs]. rewrite !dget_dset. now destruct (str_eqb q p).
Qed.
Lemma isexec_resp u m : resp alike (mem_isexec u m).
Proof. unfold mem_isexec. apply resp_bind; [apply info_resp|]. intros. apply resp_ret. Qed.
Lemma set_exec_resp u m : resp alike (mem_set_exec u m).
Proof. unfold mem_set_exec. apply resp_bind; [apply info_resp|]. intros. apply set_info_resp. Qed.
Lemma node_bind {A B} (Q : A -> B -> mst -> mst -> Prop) s1 s2 u f k1 k2 : alike s1 s2 -> (forall i j, twin s1 s2 i j -> rr Q (k1 i s1) (k2 j s2)) ->
  rr Q (bind (lookup_node u f) k1 s1) (bind (lookup_node u f) k2 s2).
Proof.
  intros L H. pose proof (node_twin s1 s2 L u f) as R. unfold lookup_node, lookup, bind, lift in *.
  destruct (get_node_for_path (m_heap s1) true u f) as [[a|]|e], (get_node_for_path (m_heap s2) true u f) as [[b|]|e']; cbn in *; try easy. now apply H.
Qed.
Lemma copystat_resp u v : resp alike (mem_copystat u v).
Proof.
  apply rr_resp. intros x y L. unfold mem_copystat. apply node_bind; auto. intros i j T. apply node_bind; auto. intros i' j' T'. destruct (node_same x y i j L T) as (A1 & A2 & A3).
  erewrite (bind_ok _ _ x), (bind_ok _ _ y) by reflexivity. erewrite (bind_ok _ _ x), (bind_ok _ _ y) by reflexivity. rewrite A1, A2. now apply attrs_twin.
Qed.
End Open.
(** ** Open files *)
Lemma alike_incl O O' s1 s2 : incl O' O -> alike O s1 s2 -> alike O' s1 s2.
Proof. intros I L. constructor; try apply L; intros; try apply L; apply I; assumption. Qed.
(** One file is changed in the same way on both sides. *)
Lemma fupd_alike O s1 s2 s1' s2' i j f g f' g' : alike O s1 s2 -> (forall p, phys (m_heap s1) root_id p = Some i <-> phys (m_heap s2) root_id p = Some j) ->
  (forall w, In w O -> (fst w = i <-> snd w = j)) -> file_upd s1 s1' i f f' -> file_upd s2 s2' j g g' ->
  f_data f' = f_data g' -> f_mtime f' = f_mtime g' -> f_mode f' = f_mode g' -> f_pos f' = f_pos g' -> alike ((i, j) :: O) s1' s2'.
Proof.
  intros L Hp Hw U1 U2 D1 D2 D3 D4. pose proof (fu_rest _ _ _ _ _ U1) as (R1 & _ & _ & R2). pose proof (fu_rest _ _ _ _ _ U2) as (R3 & _ & _ & R4). constructor.
  - eapply file_upd_wf; [apply (al_wf1 _ _ _ L)|exact U1].
  - eapply file_upd_wf; [apply (al_wf2 _ _ _ L)|exact U2].
  - intros p. rewrite (file_upd_view _ _ _ _ _ p U1), (file_upd_view _ _ _ _ _ p U2). pose proof (phys_twin _ _ _ L p) as T. pose proof (al_tree _ _ _ L p) as V. specialize (Hp p).
    destruct (phys (m_heap s1) root_id p) as [a|], (phys (m_heap s2) root_id p) as [b|]; cbn in T; try easy.
    destruct (Nat.eqb_spec a i) as [->|Na], (Nat.eqb_spec b j) as [->|Nb]; auto.
    + now rewrite D1, D2, D3.
    + exfalso. assert (X := proj1 Hp eq_refl). congruence.
    + exfalso. assert (X := proj2 Hp eq_refl). congruence.
  - rewrite R1, R3. apply L.
  - unfold callback_at. rewrite R2, R4. apply L.
  - intros w [<-|Iw].
    + unfold opair; cbn. rewrite (fu_next _ _ _ _ _ U1), (fu_next _ _ _ _ _ U2). split; [apply (file_alloc _ _ f); [apply (al_wf1 _ _ _ L)|apply (fu_old _ _ _ _ _ U1)]|].
      split; [apply (file_alloc _ _ g); [apply (al_wf2 _ _ _ L)|apply (fu_old _ _ _ _ _ U2)]|]. split.
      * exists f', g'. split; [apply (fu_new _ _ _ _ _ U1)|]. split; [apply (fu_new _ _ _ _ _ U2)|]. auto.
      * intros p. rewrite (file_upd_phys _ _ _ _ _ p U1), (file_upd_phys _ _ _ _ _ p U2). apply Hp.
    + destruct (al_open _ _ _ L w Iw) as (A1 & A2 & (fa & gb & A3 & A4 & A5) & A6). unfold opair. rewrite (fu_next _ _ _ _ _ U1), (fu_next _ _ _ _ _ U2). split; [auto|]. split; [auto|]. split.
      * specialize (Hw w Iw). destruct (Nat.eq_dec (fst w) i) as [Ei|Ni].
        -- rewrite Ei, (proj1 Hw Ei). exists f', g'. split; [apply (fu_new _ _ _ _ _ U1)|]. split; [apply (fu_new _ _ _ _ _ U2)|]. auto.
        -- assert (Nj : snd w <> j) by tauto. exists fa, gb. rewrite (fu_else _ _ _ _ _ U1 _ Ni), (fu_else _ _ _ _ _ U2 _ Nj). auto.
      * intros p. rewrite (file_upd_phys _ _ _ _ _ p U1), (file_upd_phys _ _ _ _ _ p U2). apply A6.
  - intros w w' [<-|I] [<-|I']; cbn; [tauto| |now apply Hw|now apply (al_inj _ _ _ L)]. specialize (Hw w' I'). split; intros E; symmetry in E |- *; now apply Hw.
Qed.
Definition onf {A} O (m1 m2 : M mst A) : Prop := forall s1 s2, alike O s1 s2 -> rr O eqr (m1 s1) (m2 s2).
Lemma onf_bind {A B} O (m1 m2 : M mst A) (k1 k2 : A -> M mst B) : onf O m1 m2 -> (forall a, onf O (k1 a) (k2 a)) -> onf O (bind m1 k1) (bind m2 k2).
Proof. intros H K s1 s2 L. eapply rr_bind; [apply H, L|]. intros a b x y L' <-. now apply K. Qed.
Lemma onf_same {A} O (r : res A) : onf O (fun s => (r, s)) (fun s => (r, s)).
Proof. intros s1 s2 L. now apply rr_same. Qed.
Section File.
Variables (O : list (nat * nat)) (i j : nat).
Hypothesis I : In (i, j) O.
Lemma fgot s1 s2 : alike O s1 s2 -> exists f g, m_heap s1 i = NFile f /\ m_heap s2 j = NFile g /\ f_pos f = f_pos g /\ f_data f = f_data g /\ f_mtime f = f_mtime g /\ f_mode f = f_mode g.
Proof. intros L. destruct (al_open _ _ _ L _ I) as (_ & _ & F & _). exact F. Qed.
Lemma fmove s1 s2 s1' s2' f g f' g' : alike O s1 s2 -> file_upd s1 s1' i f f' -> file_upd s2 s2' j g g' ->
  f_data f' = f_data g' -> f_mtime f' = f_mtime g' -> f_mode f' = f_mode g' -> f_pos f' = f_pos g' -> alike O s1' s2'.
Proof.
  intros L U1 U2 D1 D2 D3 D4. apply (alike_incl ((i, j) :: O)); [intros w Hw; now right|]. eapply fupd_alike; eauto; [apply (al_open _ _ _ L _ I)|].
  intros w Hw. apply (al_inj _ _ _ L w (i, j) Hw I).
Qed.
Ltac got f g := intros s1 s2 L; destruct (fgot s1 s2 L) as (f & g & E1 & E2 & Ep & Ed & Em & Eo).
Ltac moved U1 U2 := split; [eapply (fmove _ _ _ _ _ _ _ _ ltac:(eassumption) U1 U2); cbn; congruence|reflexivity].
Lemma onf_read z : onf O (file_read i z) (file_read j z).
Proof. got f g. destruct (run_read s1 i f E1 z) as (x & -> & U1), (run_read s2 j g E2 z) as (y & -> & U2). rewrite Ed, Ep in *. moved U1 U2. Qed.
Lemma onf_write d : onf O (file_write i d) (file_write j d).
Proof. got f g. destruct (run_write s1 i f E1 d) as (x & -> & U1), (run_write s2 j g E2 d) as (y & -> & U2). rewrite Ed, Ep, (al_now _ _ _ L) in *. moved U1 U2. Qed.
Lemma onf_seek to wh : onf O (file_seek i to wh) (file_seek j to wh).
Proof.
  got f g. pose proof (run_seek s1 i f E1 to wh) as R1. pose proof (run_seek s2 j g E2 to wh) as R2. rewrite Ed, Ep in *. destruct (bio_seek (f_data g) (f_pos g) to wh).
  - destruct R1 as (x & -> & U1), R2 as (y & -> & U2). moved U1 U2.
  - rewrite R1, R2. now apply rr_same.
Qed.
Lemma onf_tell : onf O (file_tell i) (file_tell j).
Proof. got f g. unfold file_tell. erewrite (bind_ok _ _ s1), (bind_ok _ _ s2) by (eapply run_get; eauto). rewrite Ep. now apply rr_same. Qed.
Lemma onf_trunc o : onf O (file_truncate i o) (file_truncate j o).
Proof.
  got f g. pose proof (run_truncate s1 i f E1 o) as R1. pose proof (run_truncate s2 j g E2 o) as R2. cbv zeta in *. rewrite Ed, Ep in *. destruct (_ <? 0)%Z.
  - rewrite R1, R2. now apply rr_same.
  - destruct R1 as (x & -> & U1), R2 as (y & -> & U2). moved U1 U2.
Qed.
Lemma onf_close : onf O (file_close i) (file_close j).
Proof. got f g. destruct (run_close s1 i f E1) as (x & -> & U1), (run_close s2 j g E2) as (y & -> & U2). rewrite Ed in *. moved U1 U2. Qed.
Lemma onf_line : onf O (file_readline i) (file_readline j).
Proof. got f g. destruct (run_readline s1 i f E1) as (x & -> & U1), (run_readline s2 j g E2) as (y & -> & U2). rewrite Ed, Ep in *. moved U1 U2. Qed.
Lemma onf_get {A} (k : nat -> M mst A) (k' : nat -> M mst A) : (forall n, onf O (k n) (k' n)) -> onf O (let! f <- get_file i; k (length (f_data f))) (let! f <- get_file j; k' (length (f_data f))).
Proof. intros H. got f g. erewrite (bind_ok _ _ s1), (bind_ok _ _ s2) by (eapply run_get; eauto). rewrite Ed. now apply H. Qed.
End File.
(** Handles *)
Definition hpair O (h k : handle) : Prop := In (h_node h, h_node k) O /\ h_readable h = h_readable k /\ h_binary h = h_binary k.
Section Handle.
Variables (O : list (nat * nat)) (h k : handle).
Hypothesis H : hpair O h k.
Lemma onf_hread z : onf O (h_read h z) (h_read k z).
Proof.
  destruct H as (I & R & B). unfold h_read, proxy_decode. rewrite R, B. destruct (negb _); [apply onf_same|]. apply onf_bind; [now apply onf_read|]. intros. apply onf_same.
Qed.
Lemma onf_hwrite v : onf O (h_write h v) (h_write k v).
Proof.
  destruct H as (I & R & B). unfold h_write, proxy_encode. rewrite B. apply onf_bind; [apply onf_same|]. intros [t|b]; [apply onf_same|now apply onf_write].
Qed.
Lemma onf_hline : onf O (h_readline h) (h_readline k).
Proof. destruct H as (I & R & B). unfold h_readline, proxy_decode. rewrite B. apply onf_bind; [now apply onf_line|]. intros. apply onf_same. Qed.
Lemma onf_hnext : onf O (h_next h) (h_next k).
Proof.
  destruct H as (I & R & B). unfold h_next, proxy_decode. rewrite B. apply onf_bind; [now apply onf_line|]. intros [|c l]; [apply onf_same|]. apply onf_bind; [apply onf_same|]. intros. apply onf_same.
Qed.
Lemma onf_hash n : forall fed, onf O (hash_blocks n h fed) (hash_blocks n k fed).
Proof.
  induction n as [|n IH]; intros fed; cbn [hash_blocks]; [apply onf_same|]. apply onf_bind; [apply onf_hread|]. intros [t|[|c b]]; try apply onf_same. apply IH.
Qed.
End Handle.
Lemma onf_copy n block O h k h' k' : hpair O h k -> hpair O h' k' -> onf O (copyfileobj n h h' block) (copyfileobj n k k' block).
Proof.
  intros H H'. induction n as [|n IH]; cbn [copyfileobj]; [apply onf_same|]. apply onf_bind; [now apply onf_hread|].
  intros [[|c t]|[|c b]]; try apply onf_same; (apply onf_bind; [now apply onf_hwrite|]; intros; exact IH).
Qed.
(** Opening: one more pair of open files *)
Definition opn O (m : M mst handle) : Prop := forall s1 s2, alike O s1 s2 ->
  match m s1, m s2 with
  | (Ok h, x), (Ok k, y) => h_readable h = h_readable k /\ h_binary h = h_binary k /\ alike ((h_node h, h_node k) :: O) x y
  | (Raise e, x), (Raise e', y) => e = e' /\ alike O x y
  | _, _ => False
  end.
Lemma opn_bind {A} O (m : M mst A) k : resp (alike O) m -> (forall a, opn O (k a)) -> opn O (bind m k).
Proof.
  intros H K s1 s2 L. destruct (H s1 s2 L) as [E1 E2]. unfold bind. destruct (m s1) as [[a|e] x], (m s2) as [[b|e'] y]; cbn in *; try easy; injection E1 as ->; auto. now apply K.
Qed.
Lemma opn_raise O e : opn O (raise e). Proof. intros s1 s2 L. now split. Qed.
Lemma twin_paths O s1 s2 i j : alike O s1 s2 -> twin s1 s2 i j -> forall p, phys (m_heap s1) root_id p = Some i <-> phys (m_heap s2) root_id p = Some j.
Proof.
  intros L (q & P1 & P2) p. split; intros P.
  - assert (p = q) by (apply (phys_inj (m_heap s1) (m_next s1) p q i); auto; apply L). now subst.
  - assert (p = q) by (apply (phys_inj (m_heap s2) (m_next s2) p q j); auto; apply L). now subst.
Qed.
Lemma twin_open O s1 s2 i j w : alike O s1 s2 -> twin s1 s2 i j -> In w O -> (fst w = i <-> snd w = j).
Proof.
  intros L (q & P1 & P2) Iw. destruct (al_open _ _ _ L w Iw) as (_ & _ & _ & Hp). specialize (Hp q). split; intros <-.
  - apply proj1 in Hp. specialize (Hp P1). congruence.
  - apply proj2 in Hp. specialize (Hp P2). congruence.
Qed.
Lemma fopen O s1 s2 s1' s2' i j f g f' g' : alike O s1 s2 -> twin s1 s2 i j -> file_upd s1 s1' i f f' -> file_upd s2 s2' j g g' ->
  f_data f' = f_data g' -> f_mtime f' = f_mtime g' -> f_mode f' = f_mode g' -> f_pos f' = f_pos g' -> alike ((i, j) :: O) s1' s2'.
Proof. intros L T. intros. eapply fupd_alike; eauto using twin_paths. intros w Hw. eapply twin_open; eauto. Qed.
Definition opnr O (r1 r2 : res handle * mst) : Prop :=
  match r1, r2 with
  | (Ok h, x), (Ok k, y) => h_readable h = h_readable k /\ h_binary h = h_binary k /\ alike ((h_node h, h_node k) :: O) x y
  | (Raise e, x), (Raise e', y) => e = e' /\ alike O x y
  | _, _ => False
  end.
Lemma opnr_bind {A B} O (Q : A -> B -> mst -> mst -> Prop) (m1 : M mst A) (m2 : M mst B) k1 k2 s1 s2 : rr O Q (m1 s1) (m2 s2) ->
  (forall a b x y, alike O x y -> Q a b x y -> opnr O (k1 a x) (k2 b y)) -> opnr O (bind m1 k1 s1) (bind m2 k2 s2).
Proof.
  intros R H. unfold bind. destruct (m1 s1) as [[a|e] x], (m2 s2) as [[b|e'] y]; cbn in *; try easy; destruct R; auto.
Qed.
Lemma node_opn O u f k : (forall s1 s2 i j, alike O s1 s2 -> twin s1 s2 i j -> opnr O (k i s1) (k j s2)) -> opn O (bind (lookup_node u f) k).
Proof. intros H s1 s2 L. apply (opnr_bind O (fun a b x y => twin x y a b)); [now apply node_twin|]. intros a b x y L' T. now apply H. Qed.
Lemma open_read_opn O u b : opn O (open_for_read u b).
Proof.
  apply node_opn. intros s1 s2 i j L T. pose proof (twin_nodes O s1 s2 L i j T) as N.
  inversion N as [f g D1 D2 D3 E1 E2|es1 es2 mt mo K E1 E2|tg mt mo E1 E2]; try (unfold file_seek, get_file, bind, get_node_obj; rewrite <- E1, <- E2; now split).
  symmetry in E1, E2. pose proof (run_seek s1 i f E1 0 0) as (x & R1 & U1). pose proof (run_seek s2 j g E2 0 0) as (y & R2 & U2). erewrite (bind_ok _ _ s1), (bind_ok _ _ s2) by eassumption.
  cbn. split; [auto|]. split; [auto|]. eapply fopen; eauto.
Qed.
Lemma open_append_opn O u b : opn O (open_for_append u b).
Proof.
  apply node_opn. intros s1 s2 i j L T. pose proof (twin_nodes O s1 s2 L i j T) as N.
  inversion N as [f g D1 D2 D3 E1 E2|es1 es2 mt mo K E1 E2|tg mt mo E1 E2]; try (unfold file_seek, get_file, bind, get_node_obj; rewrite <- E1, <- E2; now split).
  symmetry in E1, E2. erewrite (bind_ok _ _ s1), (bind_ok _ _ s2) by (eapply run_get; eauto). rewrite D1.
  pose proof (run_seek s1 i f E1 (Z.of_nat (file_len (f_data g))) 0) as R1. pose proof (run_seek s2 j g E2 (Z.of_nat (file_len (f_data g))) 0) as R2.
  unfold bio_seek in R1, R2. cbn [Z.eqb] in R1, R2. destruct (_ <? 0)%Z; [unfold bind; rewrite R1, R2; now split|].
  destruct R1 as (x & R1 & U1), R2 as (y & R2 & U2). erewrite (bind_ok _ _ s1), (bind_ok _ _ s2) by eassumption.
  cbn. split; [auto|]. split; [auto|]. eapply fopen; eauto.
Qed.
Lemma open_write_opn O u b : opn O (open_for_write u b).
Proof.
  unfold open_for_write. apply opn_bind; [apply resp_lift|]. intros p s1 s2 L. apply (opnr_bind O (fun a b x y => twin x y a b)); [now apply parent_twin|]. clear s1 s2 L. intros i j x y L' T. cbv zeta. set (n := last (Mem.steps_of p) []).
  destruct (has_cases O x y i j n L' T) as [[A1 A2]|(es1 & es2 & mt & mo & E1 & E2 & Eh & A1 & A2)].
  { unfold bind. rewrite A1, A2. now split. }
  erewrite (bind_ok _ _ x) by exact A1. erewrite (bind_ok _ _ y) by exact A2. destruct (dhas n es2) eqn:Eb.
  - pose proof (child_twin O x y L' true max_links i j n true T) as C. unfold bind at 1 5.
    destruct (child (m_heap x) true max_links i n true) as [o1|], (child (m_heap y) true max_links j n true) as [o2|]; cbn [rel] in C; try easy.
    erewrite (bind_ok _ _ x), (bind_ok _ _ y) by reflexivity.
    destruct o1 as [a|], o2 as [c|]; cbn [otwin] in C; try easy. pose proof (twin_nodes O x y L' a c C) as N.
    inversion N as [f g D1 D2 D3 F1 F2|es3 es4 mt' mo' K F1 F2|tg mt' mo' F1 F2]; cbn [is_dir need]; [|now split|].
    + symmetry in F1, F2. erewrite (bind_ok _ _ x), (bind_ok _ _ y) by reflexivity. destruct (run_reset x a f F1) as (x' & R1 & U1), (run_reset y c g F2) as (y' & R2 & U2).
      erewrite (bind_ok _ _ x), (bind_ok _ _ y) by eassumption. cbn. split; [auto|]. split; [auto|]. eapply fopen; eauto. cbn. apply (al_now _ _ _ L').
    + erewrite (bind_ok _ _ x), (bind_ok _ _ y) by reflexivity. unfold file_reset, get_file, bind, get_node_obj. rewrite <- F1, <- F2. now split.
  - erewrite (bind_ok _ _ x) by reflexivity. erewrite (bind_ok _ _ y) by reflexivity. pose proof T as (d & P1 & P2).
    set (l1 := new_file p (m_now x) (m_epoch x)). set (l2 := new_file p (m_now y) (m_epoch y)).
    assert (G1 : no_entries l1) by (intros es E; discriminate). assert (G2 : no_entries l2) by (intros es E; discriminate).
    assert (G3 : entry_of l1 = entry_of l2) by (cbn; now rewrite (al_now _ _ _ L')).
    destruct (added_twin O x y i j n l1 l2 es1 mt mo es2 mt mo L' T E1 E2 Eh Eb G1 G2 G3) as (Q1 & Q2 & Q3 & Q4 & Q5 & Q6).
    pose proof (run_add x i n l1 es1 mt mo (phys_root_lt _ _ _ _ (al_wf1 _ _ _ L') P1) E1) as R1. pose proof (run_add y j n l2 es2 mt mo (phys_root_lt _ _ _ _ (al_wf2 _ _ _ L') P2) E2) as R2.
    assert (K : forall s leaf i0, (let! i <- alloc leaf; create_child i0 n i ;; ret (mkHandle i false b)) s =
        ((let! r <- (let! i <- alloc leaf; create_child i0 n i); ret (mkHandle (m_next s) false b)) s)).
    { intros s leaf i0. unfold bind, alloc, ret. destruct (create_child i0 n (m_next s) _) as [[|]]; reflexivity. }
    rewrite !K. erewrite (bind_ok _ _ x) by exact R1. erewrite (bind_ok _ _ y) by exact R2. cbn. split; [auto|]. split; [auto|].
    assert (T' : forall w, In w O -> fst w <> m_next x /\ snd w <> m_next y) by (intros w Hw; destruct (al_open _ _ _ L' w Hw) as (B1 & B2 & _); lia).
    pose proof (fopen O _ _ _ _ _ _ _ _ _ _ Q1 Q2 (file_upd_refl _ _ _ Q3) (file_upd_refl _ _ _ Q4)) as Z. apply Z; cbn; auto. apply (al_now _ _ _ L').
Qed.
Lemma mem_open_opn O u o : opn O (mem_open u o).
Proof.
  unfold mem_open. destruct o as [o|]; [|apply open_read_opn]. destruct (has_char 114 o); [apply open_read_opn|]. destruct (has_char 119 o); [apply open_write_opn|].
  destruct (has_char 97 o); [apply open_append_opn|apply opn_raise].
Qed.
Lemma u_open_opn O u o : opn O (u_open u o).
Proof. unfold u_open. apply opn_bind; [apply hook_resp|]. intros _. apply mem_open_opn. Qed.
(** Opening, then something with the handle *)
Lemma opn_use {A} O m (k k' : handle -> M mst A) : opn O m -> (forall h h', h_readable h = h_readable h' -> h_binary h = h_binary h' -> onf ((h_node h, h_node h') :: O) (k h) (k' h')) -> onf O (bind m k) (bind m k').
Proof.
  intros H K s1 s2 L. specialize (H s1 s2 L). unfold bind. destruct (m s1) as [[h|e] x], (m s2) as [[h'|e'] y]; try easy.
  - destruct H as (R & B & L'). specialize (K h h' R B x y L'). assert (D : forall a b, alike ((h_node h, h_node h') :: O) a b -> alike O a b) by (intros a b; apply alike_incl; intros w Hw; now right).
    destruct (k h x) as [[a|e] x'], (k' h' y) as [[a'|e'] y']; cbn in *; intuition.
Qed.
Lemma onf_resp {A} O (m : M mst A) : onf O m m -> resp (alike O) m.
Proof. intros H. apply rr_resp. exact H. Qed.
Lemma content_resp O u v : resp (alike O) (mem_copy_content u v).
Proof.
  apply onf_resp. unfold mem_copy_content. apply opn_use; [apply u_open_opn|]. intros h h' R B. apply opn_use; [apply u_open_opn|]. intros k k' R' B'.
  apply (onf_get ((h_node k, h_node k') :: (h_node h, h_node h') :: O) (h_node h) (h_node h') (or_intror (or_introl eq_refl)) (fun n => copyfileobj (S n) h k 8192) (fun n => copyfileobj (S n) h' k' 8192)). intros n. apply onf_copy; unfold hpair; cbn; auto 6.
Qed.
Lemma md5_resp {D} O (H : list N -> D) u : resp (alike O) (u_md5 H u).
Proof.
  unfold u_md5. apply resp_bind; [apply hook_resp|]. intros _. apply onf_resp, opn_use; [apply u_open_opn|]. intros h h' R B.
  apply (onf_get ((h_node h, h_node h') :: O) (h_node h) (h_node h') (or_introl eq_refl) (fun n => let! bs <- hash_blocks (S n) h []; ret (H bs)) (fun n => let! bs <- hash_blocks (S n) h' []; ret (H bs))).
  intros n. apply onf_bind; [apply onf_hash; unfold hpair; cbn; auto 6|]. intros. apply onf_same.
Qed.
Lemma mem_keeps O : keeps (alike O) mem_backend.
Proof.
  constructor; cbn; intros; try apply hook_resp; try apply exists_resp; try apply isfile_resp; try apply isdir_resp; try apply islink_resp; try apply removefile_resp; try apply removedir_resp;
    try apply mkdir_resp; try apply symlink_resp; try apply readlink_resp; try apply copystat_resp; try apply content_resp.
  apply resp_bind; [apply listdir_resp|]. intros. apply resp_ret.
Qed.
(** ** Programs *)
Ltac asked := unfold answered; apply resp_bind; [|intros; apply resp_ret].
Lemma ask_resp O fuel o : resp (alike O) (ask fuel o).
Proof.
  pose proof (mem_keeps O) as K. destruct o; cbn [ask]; match goal with |- resp _ (answered _ (u_open _ _)) => idtac | _ => asked; try (match goal with |- resp _ (hooked _ _ _ _) => apply (resp_hooked _ mem_backend K) end) end.
  - apply (resp_copy _ mem_backend K).
  - apply copystat_resp.
  - apply (resp_move _ mem_backend K).
  - apply (resp_remove _ mem_backend K).
  - apply onf_resp. unfold answered. apply opn_use; [apply u_open_opn|]. intros. apply onf_same.
  - apply (resp_makedirs _ mem_backend K).
  - apply (resp_mkdir _ mem_backend K).
  - apply (resp_exists _ mem_backend K).
  - apply (resp_isfile _ mem_backend K).
  - apply (resp_isdir _ mem_backend K).
  - apply isexec_resp.
  - apply set_exec_resp.
  - apply (resp_islink _ mem_backend K).
  - apply readlink_resp.
  - apply symlink_resp.
  - apply mtime_resp.
  - apply (resp_walk _ mem_backend K).
  - unfold u_listdir. apply (resp_hooked _ mem_backend K). apply listdir_resp.
  - apply info_resp.
  - apply set_info_resp.
  - apply resp_raise.
  - apply (resp_glob _ mem_backend K). intros. apply listdir_resp.
  - apply md5_resp.
  - apply resp_ret.
  - apply manip_mtime_resp.
  - apply manip_callback_resp.
Qed.
(** Two sessions that no call tells apart *)
Definition hrel (h k : handle) : Prop := h_readable h = h_readable k /\ h_binary h = h_binary k.
Definition both (hs ks : list handle) : list (nat * nat) := map (fun p => (h_node (fst p), h_node (snd p))) (combine hs ks).
Definition srel (σ τ : session) : Prop := Forall2 hrel (snd σ) (snd τ) /\ alike (both (snd σ) (snd τ)) (fst σ) (fst τ).
Lemma state_rel m σ τ : (forall O, resp (alike O) m) -> srel σ τ -> fst (on_state m σ) = fst (on_state m τ) /\ srel (snd (on_state m σ)) (snd (on_state m τ)).
Proof.
  intros H [F L]. unfold on_state. destruct (H _ _ _ L) as [E1 E2]. destruct (m (fst σ)) as [r x], (m (fst τ)) as [r' y]. cbn in *. split; [auto|]. now split.
Qed.
Lemma both_nth hs ks k h h' : nth_error hs k = Some h -> nth_error ks k = Some h' -> In (h_node h, h_node h') (both hs ks).
Proof.
  revert ks k. induction hs as [|a hs IH]; intros [|b ks] [|k]; cbn; try discriminate.
  - intros [= ->] [= ->]. now left.
  - intros A B. right. eapply IH; eauto.
Qed.
Lemma handle_rel k (f : handle -> M mst answer) σ τ : (forall O h h', hpair O h h' -> onf O (f h) (f h')) -> srel σ τ ->
  fst (on_handle k f σ) = fst (on_handle k f τ) /\ srel (snd (on_handle k f σ)) (snd (on_handle k f τ)).
Proof.
  intros H [F L]. unfold on_handle. assert (N : match nth_error (snd σ) k, nth_error (snd τ) k with Some h, Some h' => hrel h h' | None, None => True | _, _ => False end).
  { clear -F. revert k. induction F as [|a b l l' R F IH]; intros [|k]; cbn; auto. apply IH. }
  destruct (nth_error (snd σ) k) as [h|] eqn:E1, (nth_error (snd τ) k) as [h'|] eqn:E2; try easy.
  destruct N as [N1 N2]. assert (P : hpair (both (snd σ) (snd τ)) h h') by (split; [eapply both_nth; eauto|auto]). specialize (H _ h h' P _ _ L). unfold on_state.
  destruct (f h (fst σ)) as [[a|e] x], (f h' (fst τ)) as [[b|e'] y]; cbn in H; try easy; destruct H as [L' E]; cbn; (split; [congruence|now split]).
Qed.
Lemma call_rel c σ τ : srel σ τ -> fst (do_call c σ) = fst (do_call c τ) /\ srel (snd (do_call c σ)) (snd (do_call c τ)).
Proof.
  intros R. destruct c; cbn [do_call];
    try (apply handle_rel; [|exact R]; intros O h h' P; unfold answered; apply onf_bind; [|intros; apply onf_same]).
  - apply state_rel; auto. intros O. apply ask_resp.
  - destruct R as [F L]. pose proof (u_open_opn _ u options _ _ L) as R. destruct (u_open u options (fst σ)) as [[h|e] x], (u_open u options (fst τ)) as [[h'|e'] y]; try easy.
    + destruct R as (R1 & R2 & R3). cbn. split; [auto|]. split; cbn; [apply Forall2_app; auto; constructor; [now split|constructor]|].
      eapply alike_incl; [|exact R3]. intros w Hw. unfold both in *. apply in_map_iff in Hw as ([a b] & <- & Hw). cbn [fst snd].
      assert (Le : length (snd σ) = length (snd τ)) by (clear -F; induction F; cbn; auto).
      clear -Hw Le. revert Hw Le. generalize (snd σ) (snd τ). intros l. induction l as [|c l IH]; intros [|d l']; cbn; try discriminate; intros Hw Le.
      * destruct Hw as [[= <- <-]|[]]. now left.
      * destruct Hw as [[= <- <-]|Hw]; [right; now left|]. injection Le as Le. destruct (IH l' Hw Le) as [X|X]; [now left|right; now right].
    + destruct R as [-> R]. cbn. split; [auto|]. now split.
  - apply onf_hread, P.
  - apply onf_hwrite, P.
  - apply onf_seek, P.
  - apply onf_tell, P.
  - apply onf_trunc, P.
  - apply onf_hline, P.
  - apply onf_hnext, P.
  - apply onf_close, P.
  - apply state_rel; auto. intros O s1 s2 L. split; [reflexivity|]. destruct L as [A1 A2 A3 A4 A5 A6 A7]. constructor; cbn; auto.
Qed.
Theorem run_rel {X} (p : prog X) : forall σ τ, srel σ τ -> fst (run p σ) = fst (run p τ) /\ srel (snd (run p σ)) (snd (run p τ)).
Proof.
  induction p as [x|c k IH]; intros σ τ R; cbn [run]; [now split|]. destruct (call_rel c σ τ R) as [E1 E2].
  destruct (do_call c σ) as [r a], (do_call c τ) as [r' b]. cbn in E1, E2. subst r'. now apply IH.
Qed.
