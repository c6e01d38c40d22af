(** Properties C67 to C70: copying, removing, creating directories, walking and globbing local files; moves on both
    backends.  SpecLocal.v says what the theorems are stated with.  Local files are those of Posix.v. *)
From Coq Require Import Lia Sorted.
From Verif Require Import Str Exc Utf8 UriParse BaseUri StrFacts Utf8Facts SpecUri Mem SpecMem MemOps Generic SpecGen UriOps.
From Verif Require Import UriFacts2 UriFacts3 MemFacts MemFacts2 MemFacts3 MemFacts4 MemFacts5 MemFacts6 MemFacts7 MemFacts9 MemUri MemFacts10 PropsMem.
From Verif Require Import GenFacts1 GenFacts2 GenFacts3 GenFacts4 GenFacts5 Enum PropsGeneric PropsCopy PropsWalk Fnmatch SpecFn.
From Verif Require Import Misc Posix Local SpecLocal Program LocalFacts1 LocalFacts2 LocalFacts3 LocalFacts4 LocalFacts5 LocalFacts6 LocalFacts7 LocalFacts8 LocalFacts9 LocalFacts10.
From Verif Require Import LocalFacts11 LocalFacts12 LocalFacts13 LocalFacts14 LocalFacts15 LocalFacts16 LocalFacts17 PropsLocal2.
Open Scope string_scope.
Open Scope list_scope.
Local Notation LB := loc_backend.

(** What the memory backend does, the local one does. *)
Lemma follow_ok {A B} (R : A -> B -> mst -> Prop) m l a s' : sim R m l -> m = (Ok a, s') -> exists b x', l = (Ok b, x') /\ twin s' x' /\ R a b s'.
Proof. intros H ->. exact H. Qed.
Lemma follow_raise {A B} (R : A -> B -> mst -> Prop) m l e s' : sim R m l -> m = (Raise e, s') -> e <> AttributeError -> exists x', l = (Raise e, x') /\ twin s' x'.
Proof. intros H -> N. destruct e; try exact H. congruence. Qed.
Lemma content_none x p : ordinary x -> (content x p = None <-> pget p (p_tree x) = None).
Proof.
  intros O. unfold content. destruct (pget p (p_tree x)) as [[]|] eqn:E; split; try discriminate; auto. now apply (or_unlinked x O) in E.
Qed.
Lemma tw_eq s s' x x' p : twin s x -> twin s' x' -> view s' p = view s p -> content x' p = content x p.
Proof. intros T T' E. now rewrite (content_seen s' x' T'), (content_seen s x T), E. Qed.

Lemma absent_below x p r : sound x -> pget p (p_tree x) = None -> pget (p ++ r) (p_tree x) = None.
Proof.
  intros So H. induction r as [|n r IH] using rev_ind; [now rewrite app_nil_r|]. rewrite app_assoc.
  destruct (pget ((p ++ r) ++ [n]) (p_tree x)) eqn:E; auto. destruct (so_up x So (p ++ r) n) as (? & ? & ?); congruence.
Qed.

(** ** C67 *)
(** A copied file: the content is at the destination (in it, if it is a directory), nothing else changes, and it
    stays where it was.  Partial: trees without links. *)
Theorem C67_copy_file_partial x i n q q' u v d ignore follow fuel : ordinary x -> file_at (i ++ [n]) u -> file_at q v -> plain_path q' ->
  content x (i ++ [n]) = Some (Some d) -> goes_to x n q q' -> is_file_at x q' \/ free_at x q' -> q' <> i ++ [n] ->
  exists x', u_copy LB fuel false ignore follow u v x = (Ok tt, x') /\ ordinary x' /\
    content x' q' = Some (Some d) /\ forall y, y <> q' -> content x' y = content x y.
Proof.
  intros O Hu Hv Gq' Hc Hg Hw N. rewrite (file_at_eq _ _ Hu), (file_at_eq _ _ Hv). destruct Hu as [Gp _], Hv as [Gq _].
  destruct (ordinary_mirror x O) as (s & R & Q & Mi & _). assert (T : twin s x) by (split; auto; now apply reachable_wf).
  pose proof (proj1 (tw_file s x T _ _) Hc) as (mt & mo & E).
  assert (Di : is_dir_at x i) by (apply (so_up x (or_sound x O) i n); intros Z; unfold content in Hc; rewrite Z in Hc; discriminate).
  destruct (C39_copy_file_partial s (i ++ [n]) i n (i ++ [n]) d mt mo q q' q' follow ignore fuel R Q) as (s' & Es & Pt & _); auto using plain_good.
  - now apply (tw_placed s x T).
  - apply (tw_entry s x T). congruence.
  - right. apply (tw_nolink s x T).
  - now apply (tw_dest s x T).
  - now apply (tw_writable s x T).
  - destruct (follow_ok _ _ _ _ _ (copy_file_sim fuel ignore follow (i ++ [n]) q Gp Gq (plain_join x i n q q' Gp Gq Gq' Hg (or_sound x O)) s x T) Es) as ([] & x' & Ex & T' & _).
    exists x'. split; [exact Ex|]. split; [exact (twin_ordinary s' x' T')|]. destruct Pt as [P1 P2]. split.
    + rewrite (content_seen s' x' T'), P1. reflexivity.
    + intros y Ny. apply (tw_eq s s'); auto.
Qed.
Print Assumptions C67_copy_file_partial.
(** A directory copied recursively to a place that does not exist yet: everything below it is there, with the
    directories on the way; nothing else changes.  Partial: trees without links and without names that begin or end
    with a blank; the destination is not below the source. *)
Theorem C67_copy_tree_partial x i n q j b u v follow fuel : ordinary x -> file_at (i ++ [n]) u -> file_at q v -> plain_path (j ++ b) ->
  (forall p, pget p (p_tree x) <> None -> Forall unpadded p) -> Forall unpadded q ->
  is_dir_at x (i ++ [n]) -> goes_to x n q (j ++ b) -> b <> [] -> is_dir_at x j -> (forall m b', b = m :: b' -> pget (j ++ [m]) (p_tree x) = None) ->
  ~ below (i ++ [n]) j -> (length (p_tree x) <= fuel)%nat -> (length b < fuel)%nat ->
  exists x', u_copy LB fuel true [] follow u v x = (Ok tt, x') /\ ordinary x' /\
    (forall b1 b2, b = b1 ++ b2 -> content x' (j ++ b1) = Some None) /\
    (forall y, content x' ((j ++ b) ++ y) = content x ((i ++ [n]) ++ y)) /\
    (forall z, (forall b1 b2, b = b1 ++ b2 -> z <> j ++ b1) -> ~ below (j ++ b) z -> content x' z = content x z).
Proof.
  intros O Hu Hv Gq' Up Uq Dp Hg Nb Dj Hn Nbl Hf Hbf. rewrite (file_at_eq _ _ Hu), (file_at_eq _ _ Hv). destruct Hu as [Gp _], Hv as [Gq _].
  destruct (ordinary_mirror x O) as (s & R & Q & Mi & Hl). assert (T : twin s x) by (split; auto; now apply reachable_wf).
  pose proof (tw_gap s x T j b Dj Hn) as Gap.
  assert (Un : forall p, view s p <> None -> Forall unpadded p) by (intros p Hp; apply Up; now rewrite <- (tw_none s x T)).
  destruct (C41_copy_real_partial s i n q (j ++ b) j b follow fuel R Q) as (s' & Es & _ & R1 & R2 & R3 & R4); auto using plain_good.
  - now apply (tw_dir s x T).
  - intros r Hr. apply plain_good. now apply (mi_names _ _ Mi).
  - intros r (mt & mo & Hr). assert (Hr' : view s ((i ++ [n]) ++ r) <> None) by congruence. apply Un in Hr'. now apply Forall_app in Hr'.
  - intros r Hr. now apply (tw_nolink s x T) in Hr.
  - now apply (tw_dest s x T).
  - intros r ->. apply Nbl. now exists r.
  - lia.
  - assert (Np : i ++ [n] <> []) by (destruct i; discriminate).
    destruct (follow_ok _ _ _ _ _ (copy_dir_sim fuel [] follow (i ++ [n]) q Gp Gq (plain_join x i n q (j ++ b) Gp Gq Gq' Hg (or_sound x O)) s x T Np Un Uq) Es) as ([] & x' & Ex & T' & _).
    assert (Dir : forall b1 b2, b = b1 ++ b2 -> content x' (j ++ b1) = Some None).
    { intros b1 b2 E. destruct b1 as [|m b1].
      - rewrite app_nil_r, (tw_eq s s' x x' j T T').
        + now apply content_dir.
        + apply R3. intros z Hz. destruct b as [|m b]; [easy|]. cbn in Hz. apply (f_equal (@length _)) in Hz. rewrite !app_length in Hz. cbn in Hz. lia.
      - rewrite (content_seen s' x' T'), (R1 (m :: b1) b2 E); [reflexivity|discriminate]. }
    exists x'. split; [exact Ex|]. split; [exact (twin_ordinary s' x' T')|]. split; [exact Dir|]. split.
    + intros [|m y].
      * rewrite !app_nil_r. rewrite (Dir b []) by (now rewrite app_nil_r). symmetry. now apply content_dir.
      * rewrite (content_seen s' x' T'), (content_seen s x T), <- (app_assoc j b). remember (m :: y) as my.
        assert (Nm : my <> []) by (subst; discriminate). destruct (view s' (j ++ b ++ my)) as [e|] eqn:E'.
        -- apply (R2 my e Nm) in E' as (e0 & E0 & ->). rewrite E0. now destruct e0.
        -- destruct (view s ((i ++ [n]) ++ my)) as [e0|] eqn:E0; [|reflexivity].
           assert (X : view s' (j ++ b ++ my) = Some (stamp (m_now s) e0)) by (apply R2; eauto). congruence.
    + intros z Z1 Z2. apply (tw_eq s s'); auto. destruct b as [|m b]; [easy|]. cbn [firstn] in R3.
      assert (Dec : (exists w, z = j ++ [m] ++ w) \/ forall w, z <> j ++ [m] ++ w).
      { destruct (below_dec (j ++ [m]) z) as [[w ->]|H]; [left; exists w; now rewrite <- app_assoc|right; intros w; rewrite app_assoc; apply H]. }
      destruct Dec as [[w ->]|Nz]; [|now apply R3].
      assert (V : view s (j ++ [m] ++ w) = None).
      { apply (tw_none s x T). rewrite app_assoc. apply absent_below; [apply (or_sound x O)|]. eapply Hn. reflexivity. }
      rewrite V. destruct (view s' (j ++ [m] ++ w)) as [e|] eqn:E'; auto. exfalso.
      destruct (R4 (j ++ [m] ++ w)) as [(b1 & b2 & Eb & Ez)|[y Ez]]; auto; [congruence| |].
      * now apply (Z1 b1 b2).
      * apply Z2. exists y. now rewrite <- app_assoc.
Qed.
Print Assumptions C67_copy_tree_partial.
(** A file copied onto itself, or into the directory it is in, is emptied. *)
Theorem C67_self_refuted x i n q u v d ignore follow fuel : ordinary x -> file_at (i ++ [n]) u -> file_at q v ->
  content x (i ++ [n]) = Some (Some d) -> goes_to x n q (i ++ [n]) ->
  exists x', u_copy LB fuel false ignore follow u v x = (Ok tt, x') /\ content x' (i ++ [n]) = Some (Some []) /\
    forall y, y <> i ++ [n] -> content x' y = content x y.
Proof.
  intros O Hu Hv Hc Hg. rewrite (file_at_eq _ _ Hu), (file_at_eq _ _ Hv). destruct Hu as [Gp _], Hv as [Gq _].
  destruct (ordinary_mirror x O) as (s & R & Q & Mi & _). assert (T : twin s x) by (split; auto; now apply reachable_wf).
  pose proof (proj1 (tw_file s x T _ _) Hc) as (mt & mo & E).
  assert (Di : is_dir_at x i) by (apply (so_up x (or_sound x O) i n); intros Z; unfold content in Hc; rewrite Z in Hc; discriminate).
  assert (L : leads (view s) (i ++ [n]) (Found (i ++ [n]))) by (apply (tw_entry s x T); congruence).
  destruct (C40_self s (i ++ [n]) i n (i ++ [n]) d mt mo q (i ++ [n]) follow ignore fuel R Q) as (s' & Es & P1 & P2); auto using plain_good.
  - now apply (tw_placed s x T).
  - right. apply (tw_nolink s x T).
  - now apply (tw_dest s x T).
  - destruct (follow_ok _ _ _ _ _ (copy_file_sim fuel ignore follow (i ++ [n]) q Gp Gq (plain_join x i n q (i ++ [n]) Gp Gq Gp Hg (or_sound x O)) s x T) Es) as ([] & x' & Ex & T' & _).
    exists x'. split; [exact Ex|]. split.
    + rewrite (content_seen s' x' T'), P1. reflexivity.
    + intros y Ny. apply (tw_eq s s'); auto.
Qed.
Print Assumptions C67_self_refuted.
(** *** Concrete cases *)
Lemma loc1_all (f : list str -> bool) p : forallb (fun pe : list str * pent => f (fst pe)) tree0 = true -> pget p (p_tree loc1) <> None -> f p = true.
Proof. intros H I. apply pget_in' in I as [e I]. rewrite forallb_forall in H. exact (H _ I). Qed.
Lemma loc1_ordinary : ordinary loc1.
Proof. split; [apply loc1_sound|apply loc1_unlinked|]. intros p H. apply plain_b_ok. apply (loc1_all plain_b); [reflexivity|exact H]. Qed.
Lemma loc1_unpadded p : pget p (p_tree loc1) <> None -> Forall unpadded p.
Proof.
  intros H. apply Forall_forall. intros n I. apply unpadded_b_ok. pose proof (loc1_all (forallb unpadded_b) p eq_refl H) as X.
  rewrite forallb_forall in X. auto.
Qed.
Example C67_file_witness : ordinary loc1 /\ content loc1 (P ["a"; "f"]) = Some (Some (lit "hello")) /\ goes_to loc1 (lit "f") (P ["b"]) (P ["b"; "f"]) /\
  free_at loc1 (P ["b"; "f"]) /\ forall fuel, let x' := snd (u_copy LB fuel false [] true (FU ["a"; "f"]) (FU ["b"]) loc1) in
  content x' (P ["b"; "f"]) = Some (Some (lit "hello")) /\ content x' (P ["a"; "f"]) = Some (Some (lit "hello")).
Proof.
  split; [apply loc1_ordinary|]. split; [reflexivity|]. split; [left; split; [now exists 493%Z, 5%Z|reflexivity]|].
  split; [|intros fuel; vm_compute; auto]. split; [reflexivity|]. exists (P ["b"]), (lit "f"). split; [reflexivity|now exists 493%Z, 5%Z].
Qed.
Example C67_tree_witness : ordinary loc1 /\ is_dir_at loc1 (P ["a"]) /\ goes_to loc1 (lit "a") (P ["b"; "x"; "y"]) (P ["b"] ++ P ["x"; "y"]) /\
  is_dir_at loc1 (P ["b"]) /\ pget (P ["b"; "x"]) (p_tree loc1) = None /\ ~ below (P ["a"]) (P ["b"]) /\
  content (snd (u_copy LB 20 true [] true (FU ["a"]) (FU ["b"; "x"; "y"]) loc1)) (P ["b"; "x"; "y"; "s"; "g"]) = Some (Some (lit "x")).
Proof.
  split; [apply loc1_ordinary|]. split; [now exists 493%Z, 5%Z|]. split; [right; split; [intros (? & ? & H); vm_compute in H; discriminate|reflexivity]|].
  split; [now exists 493%Z, 5%Z|]. split; [reflexivity|]. split; [intros [r H]; discriminate|vm_compute; reflexivity].
Qed.
Example C67_self_witness : ordinary loc1 /\ content loc1 (P ["a"; "f"]) = Some (Some (lit "hello")) /\ goes_to loc1 (lit "f") (P ["a"; "f"]) (P ["a"; "f"]) /\
  forall fuel, content (snd (u_copy LB fuel false [] true (FU ["a"; "f"]) (FU ["a"; "f"]) loc1)) (P ["a"; "f"]) = Some (Some []).
Proof.
  split; [apply loc1_ordinary|]. split; [reflexivity|]. split; [right; split; [intros (? & ? & H); vm_compute in H; discriminate|reflexivity]|].
  intros fuel. vm_compute. reflexivity.
Qed.

(** ** C68 *)
(** Everything at and below [p] is gone, nothing else changes. *)
Definition gone (x x' : pst) (p : list str) : Prop := (forall r, content x' (p ++ r) = None) /\ forall y, ~ below p y -> content x' y = content x y.
Lemma cut_gone s s' x x' p : twin s x -> twin s' x' -> cut_at (view s) (view s') p -> gone x x' p.
Proof.
  intros T T' [C1 C2]. split.
  - intros r. now rewrite (content_seen s' x' T'), C1.
  - intros y Ny. apply (tw_eq s s'); auto. apply C2. intros r ->. apply Ny. now exists r.
Qed.
(** What is removed: a file; an empty directory; with recursive=True any directory. *)
Theorem C68_remove_partial x i n u recursive fuel : ordinary x -> file_at (i ++ [n]) u ->
  is_file_at x (i ++ [n]) \/
  (is_dir_at x (i ++ [n]) /\ recursive = false /\ forall m, pget ((i ++ [n]) ++ [m]) (p_tree x) = None) \/
  (is_dir_at x (i ++ [n]) /\ recursive = true /\ (length (p_tree x) <= fuel)%nat) ->
  exists x', u_remove LB fuel recursive u x = (Ok tt, x') /\ ordinary x' /\ gone x x' (i ++ [n]).
Proof.
  intros O Hu H. rewrite (file_at_eq _ _ Hu). destruct Hu as [Gp _].
  destruct (ordinary_mirror x O) as (s & R & Q & Mi & Hl). assert (T : twin s x) by (split; auto; now apply reachable_wf).
  assert (Np : i ++ [n] <> []) by (destruct i; discriminate).
  assert (Di : is_dir_at x i).
  { apply (so_up x (or_sound x O) i n). destruct H as [(? & ? & ? & E)|[[(? & ? & E) _]|[(? & ? & E) _]]]; congruence. }
  assert (X : exists s', u_remove mem_backend fuel recursive (mem_uri (i ++ [n])) s = (Ok tt, s') /\ cut_at (view s) (view s') (i ++ [n])).
  { destruct H as [F|[(D & -> & E)|(D & -> & Hf)]].
    - destruct (C34_remove_leaf_partial s (i ++ [n]) i n fuel recursive R Q) as (s' & Es & C & _); eauto; [now apply (tw_placed s x T)|].
      left. apply content_file in F as [d F]. destruct (proj1 (tw_file s x T _ _) F) as (mt & mo & F'). now exists d, mt, mo.
    - destruct (C34_remove_empty_partial s (i ++ [n]) i n fuel R Q) as (s' & Es & C & _); eauto; [now apply (tw_placed s x T)|now apply (tw_dir s x T)|].
      intros m. apply (tw_none s x T). apply E.
    - destruct (C35_remove_tree_partial s (i ++ [n]) fuel R Q) as (s' & Es & C & _); eauto; [now apply (tw_dir s x T)| | |lia].
      + intros r Hr. apply plain_good. now apply (mi_names _ _ Mi).
      + intros y _ Hy. now apply (tw_nolink s x T) in Hy. }
  destruct X as (s' & Es & C). destruct (follow_ok _ _ _ _ _ (remove_sim fuel recursive s x (i ++ [n]) T Gp Np) Es) as ([] & x' & Ex & T' & _).
  exists x'. split; [exact Ex|]. split; [exact (twin_ordinary s' x' T')|now apply (cut_gone s s')].
Qed.
Print Assumptions C68_remove_partial.
(** What is not: a directory with something in it, and what is not there. *)
Theorem C68_remove_full_partial x i n m u fuel : ordinary x -> file_at (i ++ [n]) u -> is_dir_at x (i ++ [n]) ->
  pget ((i ++ [n]) ++ [m]) (p_tree x) <> None ->
  exists x', u_remove LB fuel false u x = (Raise (OSError ENOTEMPTY), x') /\ forall y, content x' y = content x y.
Proof.
  intros O Hu D H. rewrite (file_at_eq _ _ Hu). destruct Hu as [Gp _].
  destruct (ordinary_mirror x O) as (s & R & Q & Mi & Hl). assert (T : twin s x) by (split; auto; now apply reachable_wf).
  assert (Np : i ++ [n] <> []) by (destruct i; discriminate).
  assert (Di : is_dir_at x i) by (apply (so_up x (or_sound x O) i n); destruct D as (? & ? & E); congruence).
  assert (Es : u_remove mem_backend fuel false (mem_uri (i ++ [n])) s = (Raise (OSError ENOTEMPTY), s)).
  { apply (C34_remove_full_partial s (i ++ [n]) i n m fuel R Q); [now apply (tw_placed s x T)|now apply (tw_dir s x T)|]. now rewrite (tw_none s x T). }
  destruct (follow_raise _ _ _ _ _ (remove_sim fuel false s x (i ++ [n]) T Gp Np) Es) as (x' & Ex & T'); [discriminate|].
  exists x'. split; [exact Ex|]. intros y. now apply (tw_eq s s).
Qed.
Print Assumptions C68_remove_full_partial.
Theorem C68_remove_missing_partial x i n u recursive fuel : ordinary x -> file_at (i ++ [n]) u -> free_at x (i ++ [n]) ->
  exists x', u_remove LB fuel recursive u x = (Raise FileDoesNotExistError, x') /\ forall y, content x' y = content x y.
Proof.
  intros O Hu (Fr & i' & n' & E & Di). apply snoc_inj in E as [<- <-]. rewrite (file_at_eq _ _ Hu). destruct Hu as [Gp _].
  destruct (ordinary_mirror x O) as (s & R & Q & Mi & Hl). assert (T : twin s x) by (split; auto; now apply reachable_wf).
  assert (Np : i ++ [n] <> []) by (destruct i; discriminate). apply (tw_none s x T) in Fr.
  assert (Li : leads (view s) i (Found i)) by (apply (tw_entry s x T); rewrite (tw_none s x T); destruct Di as (? & ? & E); congruence).
  apply (tw_dir s x T) in Di.
  assert (Es : u_remove mem_backend fuel recursive (mem_uri (i ++ [n])) s = (Raise FileDoesNotExistError, s)).
  { apply C34_remove_missing_partial; auto using plain_good; [apply (fresh_dir (m_heap s) (m_next s)); auto; apply T| |].
    - apply (rs_app _ _ [] i [n] i _ Li). now apply rs_missing.
    - intros d Ld. pose proof (leads_det (m_heap s) (m_next s) (tw_wf _ _ T) _ _ _ Li Ld) as X. now injection X as <-. }
  destruct (follow_raise _ _ _ _ _ (remove_sim fuel recursive s x (i ++ [n]) T Gp Np) Es) as (x' & Ex & T'); [discriminate|].
  exists x'. split; [exact Ex|]. intros y. now apply (tw_eq s s).
Qed.
Print Assumptions C68_remove_missing_partial.
(** makedirs: all the directories are there, nothing else changes. *)
Theorem C68_makedirs_partial x j b u fuel : ordinary x -> file_at (j ++ b) u -> is_dir_at x j ->
  (forall m b', b = m :: b' -> pget (j ++ [m]) (p_tree x) = None) -> (length b < fuel)%nat ->
  exists x', u_makedirs LB fuel u x = (Ok tt, x') /\ ordinary x' /\
    (forall b1 b2, b = b1 ++ b2 -> content x' (j ++ b1) = Some None) /\
    (forall z, (forall b1 b2, b = b1 ++ b2 -> z <> j ++ b1) -> content x' z = content x z).
Proof.
  intros O Hu D H Hf. rewrite (file_at_eq _ _ Hu). destruct Hu as [Gp _].
  destruct (ordinary_mirror x O) as (s & R & Q & Mi & Hl). assert (T : twin s x) by (split; auto; now apply reachable_wf).
  destruct (C38_makedirs_partial s (j ++ b) j b fuel R Q (plain_good _ Gp) (tw_gap s x T j b D H) Hf) as (s' & Es & (A1 & A2) & _ & K & _).
  destruct (follow_ok _ _ _ _ _ (u_makedirs_sim fuel s x (j ++ b) T Gp) Es) as ([] & x' & Ex & T' & _).
  exists x'. split; [exact Ex|]. split; [exact (twin_ordinary s' x' T')|]. split.
  - intros [|m b1] b2 E.
    + rewrite app_nil_r. apply content_dir in D. rewrite (content_seen s x T) in D. rewrite (content_seen s' x' T').
      destruct (view s j) as [e|] eqn:Ej; [|discriminate]. now rewrite (K j e Ej).
    + rewrite (content_seen s' x' T'), (A1 (m :: b1) b2 E); [reflexivity|discriminate].
  - intros z Hz. apply (tw_eq s s'); auto. apply A2. intros b1 b2 E _. now apply (Hz b1 b2).
Qed.
Print Assumptions C68_makedirs_partial.
Example C68_witness : is_file_at loc1 (P ["a"; "f"]) /\ is_dir_at loc1 (P ["b"]) /\ (forall m, pget (P ["b"] ++ [m]) (p_tree loc1) = None) /\
  is_dir_at loc1 (P ["a"]) /\ pget (P ["a"; "s"]) (p_tree loc1) <> None /\ free_at loc1 (P ["b"; "z"]) /\
  content (snd (u_remove LB 20 true (FU ["a"]) loc1)) (P ["a"; "s"; "g"]) = None /\ content loc1 (P ["a"; "s"; "g"]) = Some (Some (lit "x")) /\
  content (snd (u_makedirs LB 20 (FU ["b"; "x"; "y"]) loc1)) (P ["b"; "x"]) = Some None /\ content loc1 (P ["b"; "x"]) = None.
Proof.
  split; [now exists (lit "hello"), 420%Z, 6%Z|]. split; [now exists 493%Z, 5%Z|]. split.
  - intros m. reflexivity.
  - split; [now exists 493%Z, 5%Z|]. split; [vm_compute; discriminate|]. split.
    + split; [reflexivity|]. exists (P ["b"]), (lit "z"). split; [reflexivity|now exists 493%Z, 5%Z].
    + vm_compute. auto.
Qed.

(** ** C69 *)
Lemma place_named c v : good_path c -> same_place (mem_uri c) v -> file_at c v.
Proof.
  intros G (cs & Hm & Hf). pose proof (mem_at_eq _ _ Hm) as E. assert (X : cs = c).
  { apply addr_mem_eq; auto. rewrite E. apply mem_addr. apply Hm. }
  now subst cs.
Qed.
Lemma visits_unlinked t f cs r q : (forall p, ~ is_elink (t p)) -> visits t f [] cs r q -> visits t false [] cs r q.
Proof. intros N V. induction V; [now apply v_top|]. eapply v_down; eauto. Qed.
Lemma visits_any t f cs r q : visits t false [] cs r q -> visits t f [] cs r q.
Proof. intros V. induction V as [|r q n q' V IH A B C D [X|X]]; [now apply v_top|discriminate|]. eapply v_down; eauto. Qed.
(** [dirs] and [files] are the sorted names of the directories and files in [p]. *)
Definition holds (x : pst) (p dirs files : list str) : Prop :=
  StronglySorted slt dirs /\ StronglySorted slt files /\
  (forall n, In n dirs <-> is_dir_at x (p ++ [n])) /\ (forall n, In n files <-> is_file_at x (p ++ [n])).
(** walk yields every directory at or below the start once, each with the names of the directories and files in it;
    top-down a directory comes before what is below it, bottom-up after; siblings by name.  Nothing changes. *)
Theorem C69_walk_partial x q u td follow fuel : ordinary x -> file_at q u -> is_dir_at x q -> (length (p_tree x) <= fuel)%nat ->
  exists (l : list (list str * list str * list str)) l' x',
    u_walk LB fuel td follow u x = (Ok l', x') /\ (forall y, content x' y = content x y) /\
    Forall2 (fun a b => file_at (q ++ fst (fst a)) (fst (fst b)) /\ snd (fst a) = snd (fst b) /\ snd a = snd b) l l' /\
    StronglySorted (visit_before td) (map (fun a => fst (fst a)) l) /\
    NoDup (map (fun a => fst (fst a)) l) /\
    (forall r, In r (map (fun a => fst (fst a)) l) <-> is_dir_at x (q ++ r)) /\
    (forall r dirs files, In (r, dirs, files) l -> holds x (q ++ r) dirs files).
Proof.
  intros O Hu D Hf. rewrite (file_at_eq _ _ Hu). destruct Hu as [Gp _].
  destruct (ordinary_mirror x O) as (s & R & Q & Mi & Hl). assert (T : twin s x) by (split; auto; now apply reachable_wf).
  pose proof (tw_wf _ _ T) as W. pose proof (proj2 (tw_dir s x T q) D) as D'.
  assert (Nm : forall p, view s p <> None -> plain_path p) by apply (mi_names _ _ Mi).
  assert (Vr : forall r y, visits (view s) follow [] q r y <-> y = q ++ r /\ is_edir (view s (q ++ r))).
  { intros r y. split.
    - intros V. apply visits_unlinked in V; [|apply (tw_nolink s x T)]. apply visits_real in V as [-> ?]; auto.
    - intros [-> Dr]. apply visits_any. apply visits_real; auto. }
  destruct (C46_walk_tree_partial s q q td follow fuel R Q (plain_good _ Gp)) as (l & Es & S & I & Ls); auto.
  - apply (tw_entry s x T). destruct D' as (? & ? & E); congruence.
  - intros r y n V N. apply Vr in V as [-> Dr]. split; [|split].
    + apply plain_good. auto.
    + now apply (fresh_dir (m_heap s) (m_next s)).
    + exists (Found ((q ++ r) ++ [n])). split; [now apply (tw_entry s x T)|cbv; intuition discriminate].
  - intros r y V. apply Vr in V as [-> Dr].
    assert (N : view s (q ++ r) <> None) by (destruct Dr as (? & ? & ->); discriminate).
    apply depth_bound in N; auto. rewrite app_length in N. lia.
  - destruct (follow_ok _ _ _ _ _ (u_walk_sim s x td follow fuel q T Gp) Es) as (l' & x' & Ex & T' & F2 & _).
    exists l, l', x'. split; [exact Ex|]. split; [intros y; now apply (tw_eq s s)|].
    assert (I' : forall r, In r (map (fun a => fst (fst a)) l) <-> is_dir_at x (q ++ r)).
    { intros r. rewrite I, <- (tw_dir s x T). split; [intros [y V]; now apply Vr in V|]. intros Dr. exists (q ++ r). now apply Vr. }
    split; [|split; [exact S|split; [now apply (visit_before_NoDup td)|split; [exact I'|]]]].
    + assert (Gl : forall a, In a l -> good_path (q ++ fst (fst a))).
      { intros a Ha. apply plain_good, Nm. apply (in_map (fun a => fst (fst a))) in Ha. apply I' in Ha. apply (tw_dir s x T) in Ha as (? & ? & E). congruence. }
      clear - F2 Gl. remember (map (fun a => (mem_uri (q ++ fst (fst a)), snd (fst a), snd a)) l) as m eqn:Em. revert l Em Gl.
      induction F2 as [|a b m l' (A & B & C) F2 IH]; intros [|e l] Em Gl; try discriminate; constructor.
      * cbn in Em. injection Em as -> Em. cbn [fst snd] in *. split; auto. apply place_named; auto. apply Gl. now left.
      * cbn in Em. injection Em as -> Em. apply IH; auto. intros a Ha. apply Gl. now right.
    + intros r dirs files Hin. assert (V : visits (view s) follow [] q r (q ++ r)).
      { apply Vr. split; auto. apply (tw_dir s x T). apply I'. apply (in_map (fun a => fst (fst a))) in Hin. exact Hin. }
      destruct (Ls r dirs files _ Hin V) as (S1 & S2 & N1 & N2). split; [exact S1|]. split; [exact S2|].
      split; intros n; [rewrite N1|rewrite N2].
      * split.
        -- intros [H1 H2]. apply (tw_to_dir s x T); auto.
        -- intros H. assert (H' : view s ((q ++ r) ++ [n]) <> None) by (apply (tw_dir s x T) in H as (? & ? & E); congruence).
           split; auto. apply (tw_to_dir s x T); auto.
      * split.
        -- intros [H1 H2]. rewrite (tw_to_dir s x T) in H2 by auto. rewrite (tw_none s x T) in H1. rewrite <- content_file.
           unfold is_dir_at in H2. unfold content. destruct (pget ((q ++ r) ++ [n]) (p_tree x)) as [[]|] eqn:E; eauto; [destruct H2; eauto|now apply (or_unlinked x O) in E|easy].
        -- intros (d & mo & mt & E). assert (H' : view s ((q ++ r) ++ [n]) <> None) by (rewrite (tw_none s x T); congruence).
           split; auto. rewrite (tw_to_dir s x T) by auto. intros (? & ? & E'). congruence.
Qed.
Print Assumptions C69_walk_partial.
(** glob yields the entries of the directory whose names match the pattern, sorted by name. *)
Theorem C69_glob_partial x q u pat : ordinary x -> file_at q u -> is_dir_at x q ->
  exists names l' x', u_glob LB fnmatch u pat x = (Ok l', x') /\ (forall y, content x' y = content x y) /\
    Forall2 (fun n v => file_at (q ++ [n]) v) names l' /\
    StronglySorted slt names /\ forall n, In n names <-> content x (q ++ [n]) <> None /\ shell pat n.
Proof.
  intros O Hu D. rewrite (file_at_eq _ _ Hu). destruct Hu as [Gp _].
  destruct (ordinary_mirror x O) as (s & R & Q & Mi & Hl). assert (T : twin s x) by (split; auto; now apply reachable_wf).
  pose proof (proj2 (tw_dir s x T q) D) as D'.
  assert (Nm : forall p, view s p <> None -> plain_path p) by apply (mi_names _ _ Mi).
  destruct (C47_glob_partial s q q pat R Q (plain_good _ Gp)) as (names & Es & S & I); auto using plain_good.
  - apply (tw_entry s x T). destruct D' as (? & ? & E); congruence.
  - destruct (follow_ok _ _ _ _ _ (glob_sim fnmatch pat s x q T Gp) Es) as (l' & x' & Ex & T' & F2 & _).
    exists names, l', x'. split; [exact Ex|]. split; [intros y; now apply (tw_eq s s)|].
    assert (I' : forall n, In n names <-> content x (q ++ [n]) <> None /\ shell pat n).
    { intros n. rewrite I, (tw_none s x T), (content_none x _ O). reflexivity. }
    split; [|auto]. assert (Gl : forall n, In n names -> good_path (q ++ [n])) by (intros n Hn; apply plain_good, Nm, I; auto).
    clear - F2 Gl. remember (map (fun n => mem_uri (q ++ [n])) names) as m eqn:Em. revert names Em Gl.
    induction F2 as [|a b m l' A F2 IH]; intros [|e l] Em Gl; try discriminate; constructor.
    * cbn in Em. injection Em as -> Em. apply place_named; auto. apply Gl. now left.
    * cbn in Em. injection Em as -> Em. apply IH; auto. intros a Ha. apply Gl. now right.
Qed.
Print Assumptions C69_glob_partial.
Example C69_witness : is_dir_at loc1 (P ["a"]) /\
  fst (u_walk LB 20 true false (FU ["a"]) loc1) = Ok [(FU ["a"], P ["s"], P ["f"]); (FU ["a"; "s"], [], P ["g"])] /\
  fst (u_walk LB 20 false false (FU ["a"]) loc1) = Ok [(FU ["a"; "s"], [], P ["g"]); (FU ["a"], P ["s"], P ["f"])] /\
  fst (u_glob LB fnmatch (FU ["c"]) (lit "[!b]") loc1) = Ok [FU ["c"; "a"]; FU ["c"; "f"]].
Proof. split; [now exists 493%Z, 5%Z|]. split; [|split]; vm_compute; reflexivity. Qed.

(** ** C70 *)
(** One operation on local files, with any URIs and options; it may succeed or raise. *)
Inductive operation : pst -> pst -> Prop :=
| op_copy fuel recursive ignore follow u v x : operation x (snd (u_copy LB fuel recursive ignore follow u v x))
| op_move u v x : operation x (snd (loc_move u v x))
| op_remove fuel recursive u x : operation x (snd (u_remove LB fuel recursive u x))
| op_mkdir u x : operation x (snd (u_mkdir LB u x))
| op_makedirs fuel u x : operation x (snd (u_makedirs LB fuel u x))
| op_write u ds x : operation x (snd (loc_write_all u ds x))
| op_append u ds x : operation x (snd (loc_append_all u ds x))
| op_symlink u v x : operation x (snd (loc_symlink u v x))
| op_set_exec u m x : operation x (snd (loc_set_exec u m x))
| op_copystat u v x : operation x (snd (loc_copystat u v x)).
Inductive operations (x : pst) : pst -> Prop :=
| ops_none : operations x x
| ops_more y z : operations x y -> operation y z -> operations x z.
(** Whatever is done with local files, every entry stays in a directory and nothing is there twice; so the
    hypothesis [sound] of the theorems about local files always holds. *)
Theorem C70_always_sound x x' : sound x -> operations x x' -> sound x'.
Proof.
  intros So H. induction H as [|y z _ IH H]; auto. destruct H.
  - now apply steady_u_copy.
  - now apply steady_loc_move.
  - now apply steady_u_remove.
  - apply steady_hooked; auto. apply steady_loc_mkdir.
  - now apply steady_u_makedirs.
  - now apply steady_loc_write.
  - now apply steady_loc_append.
  - now apply steady_loc_symlink.
  - now apply steady_loc_set_exec.
  - now apply steady_copystat.
Qed.
Print Assumptions C70_always_sound.
(** Read the same way: an existing path has existing directories all the way up. *)
Theorem C70_no_orphans x x' p r : sound x -> operations x x' -> r <> [] -> pget (p ++ r) (p_tree x') <> None -> is_dir_at x' p.
Proof. intros So H N E. apply (so_dir x' (C70_always_sound x x' So H) p r N E). Qed.
Print Assumptions C70_no_orphans.
Example C70_witness : sound loc1 /\ exists x', operations loc1 x' /\ pget (P ["b"; "a"; "s"; "g"]) (p_tree x') = Some (PFile (lit "x") 384 8) /\
  pget (P ["a"]) (p_tree x') = None.
Proof.
  split; [apply loc1_sound|]. exists (snd (loc_move (FU ["a"]) (FU ["b"]) (snd (u_makedirs LB 9 (FU ["z"; "y"]) loc1)))). split.
  - eapply ops_more; [|apply op_move]. eapply ops_more; [|apply op_makedirs]. apply ops_none.
  - vm_compute. auto.
Qed.

(** ** C71 *)
Lemma moved_mirrors s s' x x' p q' : twin s x -> sound x' -> relocated x x' p q' -> plain_path q' -> q' <> [] ->
  (forall r, view s' (p ++ r) = None) -> (forall y, seen (view s' (q' ++ y)) = seen (view s (p ++ y))) -> (forall y, ~ is_elink (view s' (q' ++ y))) ->
  (forall z, ~ below p z -> ~ below q' z -> view s' z = view s z) -> mirrors s' x'.
Proof.
  intros T So (R1 & R2 & R3) Gq Nq V1 V2 V3 V4.
  assert (Ex : forall z, (exists r, z = p ++ r) \/ (exists r, z = q' ++ r) \/ (~ below p z /\ ~ below q' z)).
  { intros z. destruct (below_dec p z) as [H|H]; [now left|]. destruct (below_dec q' z) as [H'|H']; [right; now left|]. right. right.
    split; [intros [r E]; now apply (H r)|intros [r E]; now apply (H' r)]. }
  split.
  - intros z. destruct (Ex z) as [[r ->]|[[r ->]|[N1 N2]]].
    + now rewrite V1, R2.
    + rewrite R1. pose proof (V2 r) as A. pose proof (mi_same _ _ (tw_mirror _ _ T) (p ++ r)) as S. specialize (V3 r).
      destruct (view s' (q' ++ r)) as [[]|] eqn:E'; destruct (view s (p ++ r)) as [[]|]; destruct (pget (p ++ r) (p_tree x)) as [[]|]; cbn in *; try easy; try congruence.
      exfalso. apply V3. eexists. eauto.
    + rewrite V4, R3; [apply (mi_same _ _ (tw_mirror _ _ T))|intros r ->; apply N1; now exists r|intros r ->; apply N2; now exists r|auto|auto].
  - intros z Hz. destruct (Ex z) as [[r ->]|[[r ->]|[N1 N2]]].
    + now rewrite V1 in Hz.
    + assert (H : view s (p ++ r) <> None).
      { specialize (V2 r). specialize (V3 r). destruct (view s' (q' ++ r)) as [[]|] eqn:E; try easy; destruct (view s (p ++ r)); cbn in V2; try easy.
        exfalso. apply V3. eexists. eauto. }
      apply (mi_names _ _ (tw_mirror _ _ T)) in H. destruct H as [H _]. apply Forall_app in H as [_ H]. split.
      * apply Forall_app. split; [apply Gq|exact H].
      * destruct q' as [|c q']; [easy|]. intros c0 cs' E. cbn in E. injection E as <- _. apply (pp_first _ Gq c q' eq_refl).
    + rewrite V4 in Hz by auto. now apply (mi_names _ _ (tw_mirror _ _ T)).
  - apply So.
Qed.
(** A file moved to a free name, into a directory where its name is free, or over another file: the memory backend,
    which copies and removes, and the local one, which renames, leave the same files. *)
Theorem C71_move_file_partial s x i n q q' u v lu lv d fuel : reachable s -> silent s -> mirrors s x ->
  mem_at (i ++ [n]) u -> mem_at q v -> file_at (i ++ [n]) lu -> file_at q lv -> plain_path q' ->
  content x (i ++ [n]) = Some (Some d) -> goes_to x n q q' -> free_at x q' \/ (q' = q /\ is_file_at x q' /\ q' <> i ++ [n]) ->
  exists s' x', u_move mem_backend fuel u v s = (Ok tt, s') /\ loc_move lu lv x = (Ok tt, x') /\ mirrors s' x'.
Proof.
  intros R Q Mi Mu Mv Hu Hv Gq' Hc Hg Hd. assert (T : twin s x) by (split; auto; now apply reachable_wf). pose proof (twin_ordinary s x T) as O. pose proof (or_sound x O) as So.
  rewrite (mem_at_eq _ _ Mu), (mem_at_eq _ _ Mv). pose proof (proj1 Hu) as Gp. pose proof (proj1 Hv) as Gq.
  pose proof (proj1 (tw_file s x T _ _) Hc) as (mt & mo & E).
  assert (Ep : exists mo mt, pget (i ++ [n]) (p_tree x) = Some (PFile d mo mt)).
  { unfold content in Hc. destruct (pget (i ++ [n]) (p_tree x)) as [[]|]; try discriminate. injection Hc as ->. eauto. }
  destruct Ep as (mo' & mt' & Ep).
  assert (Di : is_dir_at x i) by (apply (so_up x So i n); congruence).
  assert (N : q' <> i ++ [n]) by (destruct Hd as [[F _]|(_ & _ & N)]; [intros ->; congruence|exact N]).
  destruct (C44_move_file_partial s (i ++ [n]) i n (i ++ [n]) d mt mo q q' q' fuel R Q) as (s' & Es & (V1 & V2 & V3) & _); auto using plain_good.
  - now apply (tw_placed s x T).
  - apply (tw_entry s x T). congruence.
  - now apply (tw_dest s x T).
  - apply (tw_writable s x T); auto. tauto.
  - assert (L : exists x', loc_move lu lv x = (Ok tt, x') /\ relocated x x' (i ++ [n]) q').
    { destruct Hg as [[Dq ->]|[Dq ->]].
      - apply (C63_into_partial x i n q lu lv _ So Hu Hv Gq' Ep eq_refl Dq); [|intros [X _]; discriminate].
        destruct Hd as [[F _]|(X & _)]; auto. apply (f_equal (@length _)) in X. rewrite app_length in X. cbn in X. lia.
      - apply (C63_to_partial x i n q lu lv _ So Hu Hv Ep eq_refl). destruct Hd as [F|(_ & F & N')]; [left|right]; auto.
        split; auto. intros [X _]; discriminate. }
    destruct L as (x' & Lx & Re). exists s', x'. split; [exact Es|]. split; [exact Lx|].
    assert (Sx : sound x') by (pose proof (steady_loc_move lu lv x So) as X; now rewrite Lx in X).
    assert (Nq' : q' <> []).
    { intros ->. destruct Hd as [[F _]|(_ & (? & ? & ? & F) & _)]; destruct (so_root x So) as (? & ? & X); congruence. }
    assert (Lf : forall r, r <> [] -> view s ((i ++ [n]) ++ r) = None).
    { intros r Nr. apply (tw_none s x T). now apply (nothing_below x _ _ So Ep). }
    assert (Lq : forall r, r <> [] -> view s (q' ++ r) = None).
    { intros r Nr. apply (tw_none s x T). destruct Hd as [[F _]|(_ & (? & ? & ? & F) & _)]; [now apply absent_below|now apply (nothing_below x _ _ So F)]. }
    assert (Ne : forall r, r <> [] -> q' ++ r <> q') by (intros r Nr X; rewrite <- (app_nil_r q') in X at 2; apply app_inv_head in X; easy).
    assert (Bpq : forall r, q' <> (i ++ [n]) ++ r).
    { intros [|c r] X; [now rewrite app_nil_r in X|]. destruct Hd as [[F (j & m & Ej & (? & ? & Dj))]|(_ & (? & ? & ? & F) & _)].
      - rewrite Ej in X. destruct (snoc_cases (c :: r)) as [|(r' & c' & Er)]; [easy|]. rewrite Er, app_assoc in X. apply snoc_inj in X as [-> _].
        destruct r' as [|c2 r2]; [rewrite app_nil_r in Dj; congruence|]. rewrite (nothing_below x _ _ So Ep eq_refl (c2 :: r2)) in Dj; easy.
      - rewrite X, (nothing_below x _ _ So Ep eq_refl (c :: r)) in F; easy. }
    apply (moved_mirrors s s' x x' (i ++ [n]) q'); auto.
    + intros [|c r]; [now rewrite app_nil_r|]. rewrite V3; [now apply Lf| |].
      * intros X. now apply (Bpq (c :: r)).
      * intros X. rewrite <- (app_nil_r (i ++ [n])) in X at 2. now apply app_inv_head in X.
    + intros [|c r]; [now rewrite !app_nil_r, V1, E|]. rewrite (Lf (c :: r)) by easy.
      destruct (list_eq_dec (list_eq_dec BinNat.N.eq_dec) (q' ++ c :: r) (i ++ [n])) as [X|X]; [now rewrite X, V2|].
      rewrite V3; auto; [rewrite Lq; easy|now apply Ne].
    + intros [|c r]; [rewrite app_nil_r, V1; intros (? & ? & ? & X); discriminate|].
      destruct (list_eq_dec (list_eq_dec BinNat.N.eq_dec) (q' ++ c :: r) (i ++ [n])) as [X|X]; [rewrite X, V2; intros (? & ? & ? & Y); discriminate|].
      rewrite V3; [apply (tw_nolink s x T)|now apply Ne|exact X].
    + intros z N1 N2. apply V3; [intros ->; apply N2; exists []; now rewrite app_nil_r|intros ->; apply N1; exists []; now rewrite app_nil_r].
Qed.
Print Assumptions C71_move_file_partial.
(** A directory moved to a free name, or into a directory where its name is free. *)
Theorem C71_move_dir_partial s x i n q q' u v lu lv fuel : reachable s -> silent s -> mirrors s x ->
  mem_at (i ++ [n]) u -> mem_at q v -> file_at (i ++ [n]) lu -> file_at q lv -> plain_path q' ->
  is_dir_at x (i ++ [n]) -> (forall r, is_dir_at x ((i ++ [n]) ++ r) -> Forall unpadded r) ->
  goes_to x n q q' -> free_at x q' -> ~ below (i ++ [n]) q' -> (m_next s <= fuel)%nat -> (1 < fuel)%nat ->
  exists s' x', u_move mem_backend fuel u v s = (Ok tt, s') /\ loc_move lu lv x = (Ok tt, x') /\ mirrors s' x'.
Proof.
  intros R Q Mi Mu Mv Hu Hv Gq' D Up Hg Fr Nb Hf Hf1. assert (T : twin s x) by (split; auto; now apply reachable_wf).
  pose proof (twin_ordinary s x T) as O. pose proof (or_sound x O) as So.
  rewrite (mem_at_eq _ _ Mu), (mem_at_eq _ _ Mv). pose proof (proj1 Hu) as Gp. pose proof (proj1 Hv) as Gq.
  destruct D as (mo & mt & Ep). assert (D' : is_edir (view s (i ++ [n]))) by (apply (tw_dir s x T); eexists; eauto).
  pose proof Fr as (F & j & m & -> & Dj).
  assert (Nj : forall r, j <> (i ++ [n]) ++ r) by (intros r ->; apply Nb; exists (r ++ [m]); now rewrite app_assoc).
  destruct (C44_move_dir_partial s i n q (j ++ [m]) j [m] fuel R Q D') as (s' & Es & _ & V1 & V2 & V3 & V4); auto using plain_good; try easy.
  - intros r Hr. apply plain_good. now apply (mi_names _ _ Mi).
  - intros r Hr. apply Up. now apply (tw_dir s x T).
  - intros r. apply (tw_nolink s x T).
  - now apply (tw_dest s x T).
  - apply (tw_gap s x T); auto. intros m' b' E. injection E as <- <-. exact F.
  - assert (L : exists x', loc_move lu lv x = (Ok tt, x') /\ relocated x x' (i ++ [n]) (j ++ [m])).
    { destruct Hg as [[Dq Eq]|[Dq Eq]].
      - apply snoc_inj in Eq as [-> ->]. apply (C63_into_partial x i n q lu lv _ So Hu Hv Gq' Ep eq_refl Dq F). intros [_ [r ->]]. now apply (Nj r).
      - rewrite <- Eq in *. apply (C63_to_partial x i n _ lu lv _ So Hu Hv Ep eq_refl). left. split; auto. tauto. }
    destruct L as (x' & Lx & Re). exists s', x'. split; [exact Es|]. split; [exact Lx|].
    assert (Sx : sound x') by (pose proof (steady_loc_move lu lv x So) as X; now rewrite Lx in X).
    assert (V2' : forall y, y <> [] -> view s' ((j ++ [m]) ++ y) = match view s ((i ++ [n]) ++ y) with Some e0 => Some (stamp (m_now s) e0) | None => None end).
    { intros y Ny. rewrite <- app_assoc. destruct (view s' (j ++ [m] ++ y)) as [e|] eqn:E'.
      - apply (V2 y e Ny) in E' as (e0 & -> & ->). reflexivity.
      - destruct (view s ((i ++ [n]) ++ y)) as [e0|] eqn:E0; auto. assert (X : view s' (j ++ [m] ++ y) = Some (stamp (m_now s) e0)) by (apply V2; eauto). congruence. }
    assert (V0 : view s' (j ++ [m]) = Some (EDir (m_now s) 0)) by (apply (V3 [m] []); easy).
    apply (moved_mirrors s s' x x' (i ++ [n]) (j ++ [m])); auto using snoc_ne.
    + intros [|c r]; [rewrite !app_nil_r, V0; destruct D' as (? & ? & ->); reflexivity|]. rewrite V2' by easy.
      now destruct (view s ((i ++ [n]) ++ c :: r)) as [[]|].
    + intros [|c r]; [rewrite app_nil_r, V0; intros (? & ? & ? & X); discriminate|]. rewrite V2' by easy.
      pose proof (tw_nolink s x T ((i ++ [n]) ++ c :: r)) as NL. destruct (view s ((i ++ [n]) ++ c :: r)) as [[]|]; intros (? & ? & ? & X); try discriminate.
      apply NL. eexists. eauto.
    + intros z N1 N2. apply V4; [intros y ->; apply N2; exists y; cbn [firstn]; now rewrite <- app_assoc|intros r ->; apply N1; now exists r].
Qed.
Print Assumptions C71_move_dir_partial.
Example C71_witness : exists s, reachable s /\ silent s /\ mirrors s loc1 /\ content loc1 (P ["a"; "f"]) = Some (Some (lit "hello")) /\
  goes_to loc1 (lit "f") (P ["b"]) (P ["b"; "f"]) /\ free_at loc1 (P ["b"; "f"]) /\
  is_dir_at loc1 (P ["a"]) /\ goes_to loc1 (lit "a") (P ["b"]) (P ["b"; "a"]) /\ free_at loc1 (P ["b"; "a"]) /\ ~ below (P ["a"]) (P ["b"; "a"]).
Proof.
  destruct (ordinary_mirror loc1 loc1_ordinary) as (s & R & Q & Mi & _). exists s. split; [exact R|]. split; [exact Q|]. split; [exact Mi|].
  assert (Db : is_dir_at loc1 (P ["b"])) by now exists 493%Z, 5%Z.
  split; [reflexivity|]. split; [left; split; auto|]. split; [split; [reflexivity|]; exists (P ["b"]), (lit "f"); auto|].
  split; [now exists 493%Z, 5%Z|]. split; [left; split; auto|]. split; [split; [reflexivity|]; exists (P ["b"]), (lit "a"); auto|].
  intros [r X]. discriminate.
Qed.
(** Where they differ.  A file moved onto itself, or into the directory it is in: it is deleted in memory; the local
    one stays, or the move is refused. *)
Theorem C71_self_refuted s x i n q u v lu lv d fuel : reachable s -> silent s -> mirrors s x ->
  mem_at (i ++ [n]) u -> mem_at q v -> file_at (i ++ [n]) lu -> file_at q lv ->
  content x (i ++ [n]) = Some (Some d) -> goes_to x n q (i ++ [n]) ->
  (exists s', u_move mem_backend fuel u v s = (Ok tt, s') /\ view s' (i ++ [n]) = None) /\
  exists r, loc_move lu lv x = (r, x) /\ r = if list_eq_dec (list_eq_dec BinNat.N.eq_dec) q (i ++ [n]) then Ok tt else Raise ShutilError.
Proof.
  intros R Q Mi Mu Mv Hu Hv Hc Hg. assert (T : twin s x) by (split; auto; now apply reachable_wf).
  pose proof (twin_ordinary s x T) as O. pose proof (or_sound x O) as So.
  pose proof (proj1 Hu) as Gp. pose proof (proj1 Hv) as Gq. pose proof (proj1 (tw_file s x T _ _) Hc) as (mt & mo & E).
  assert (Ep : exists mo mt, pget (i ++ [n]) (p_tree x) = Some (PFile d mo mt)).
  { unfold content in Hc. destruct (pget (i ++ [n]) (p_tree x)) as [[]|]; try discriminate. injection Hc as ->. eauto. }
  destruct Ep as (mo' & mt' & Ep). assert (Di : is_dir_at x i) by (apply (so_up x So i n); congruence). split.
  - rewrite (mem_at_eq _ _ Mu), (mem_at_eq _ _ Mv).
    destruct (C44_self s (i ++ [n]) i n d mt mo q (i ++ [n]) fuel R Q) as (s' & Es & C1 & _); auto using plain_good.
    + now apply (tw_placed s x T).
    + now apply (tw_dest s x T).
    + apply (tw_entry s x T). congruence.
    + exists s'. split; [exact Es|]. rewrite <- (app_nil_r (i ++ [n])). apply C1.
  - eexists. split; [|reflexivity]. destruct (list_eq_dec (list_eq_dec BinNat.N.eq_dec) q (i ++ [n])) as [Eq|Nq].
    + apply (C63_itself x i n lu lv _ So Hu Ep eq_refl). left. split; [reflexivity|]. now rewrite <- Eq.
    + destruct Hg as [[Dq Eq]|[_ Eq]]; [|congruence]. apply snoc_inj in Eq as [<- _].
      apply (proj1 (C63_taken_partial x i n i lu lv _ So Hu Hv Gp Ep Dq) eq_refl _ Ep eq_refl).
Qed.
Print Assumptions C71_self_refuted.
(** A file moved into a directory that has a file of that name: it is replaced in memory, the local move is refused. *)
Theorem C71_taken_refuted s x i n q u v lu lv d fuel : reachable s -> silent s -> mirrors s x ->
  mem_at (i ++ [n]) u -> mem_at q v -> file_at (i ++ [n]) lu -> file_at q lv -> plain_path (q ++ [n]) ->
  content x (i ++ [n]) = Some (Some d) -> is_dir_at x q -> is_file_at x (q ++ [n]) -> q <> i ->
  (exists s', u_move mem_backend fuel u v s = (Ok tt, s') /\ view s' (i ++ [n]) = None /\ exists mt mo, view s' (q ++ [n]) = Some (EFile d mt mo)) /\
  loc_move lu lv x = (Raise ShutilError, x).
Proof.
  intros R Q Mi Mu Mv Hu Hv Gn Hc Dq Fn Nq. assert (T : twin s x) by (split; auto; now apply reachable_wf).
  pose proof (twin_ordinary s x T) as O. pose proof (or_sound x O) as So.
  pose proof (proj1 Hu) as Gp. pose proof (proj1 Hv) as Gq. pose proof (proj1 (tw_file s x T _ _) Hc) as (mt & mo & E).
  assert (Ep : exists mo mt, pget (i ++ [n]) (p_tree x) = Some (PFile d mo mt)).
  { unfold content in Hc. destruct (pget (i ++ [n]) (p_tree x)) as [[]|]; try discriminate. injection Hc as ->. eauto. }
  destruct Ep as (mo' & mt' & Ep). assert (Di : is_dir_at x i) by (apply (so_up x So i n); congruence).
  assert (N : q ++ [n] <> i ++ [n]) by (intros X; apply snoc_inj in X; tauto). split.
  - rewrite (mem_at_eq _ _ Mu), (mem_at_eq _ _ Mv).
    destruct (C44_move_file_partial s (i ++ [n]) i n (i ++ [n]) d mt mo q (q ++ [n]) (q ++ [n]) fuel R Q) as (s' & Es & (V1 & V2 & _) & _); auto using plain_good.
    + now apply (tw_placed s x T).
    + apply (tw_entry s x T). congruence.
    + apply (tw_dest s x T); auto. left. auto.
    + apply (tw_writable s x T); auto.
    + exists s'. split; [exact Es|]. split; [exact V2|eauto].
  - destruct Fn as (dn & mon & mtn & Fn). apply (proj1 (C63_taken_partial x i n q lu lv _ So Hu Hv Gn Ep Dq) eq_refl _ Fn eq_refl).
Qed.
Print Assumptions C71_taken_refuted.
Example C71_taken_witness : exists s, reachable s /\ silent s /\ mirrors s loc1 /\ content loc1 (P ["a"; "f"]) = Some (Some (lit "hello")) /\
  is_dir_at loc1 (P ["c"]) /\ is_file_at loc1 (P ["c"; "f"]).
Proof.
  destruct (ordinary_mirror loc1 loc1_ordinary) as (s & R & Q & Mi & _). exists s. split; [exact R|]. split; [exact Q|]. split; [exact Mi|].
  split; [reflexivity|]. split; [now exists 493%Z, 5%Z|now exists [], 420%Z, 3%Z].
Qed.
