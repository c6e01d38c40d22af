(** Lemmas for C150: copying block by block. *)
From Coq Require Import Lia.
From Verif Require Import Misc Str Exc UriParse BaseUri StrFacts Mem SpecMem MemFacts MemFacts2 MemFacts3 MemFacts4 MemFacts5 MemFacts6 MemFacts7 MemFacts9 Generic GenFacts1 GenFacts3 GenFacts6 HandleFacts Posix Local Zip World Pieces Resp Resp2 MemTwin LocalFacts1 Prog.

(** *** The loop *)
Section Loop.
Context {S R W : Type}.
Variables (read : R -> M S (list N * R)) (write : W -> list N -> M S W).
(** Reading to the end: the blocks, and the state after it *)
Inductive drains : R -> S -> list (list N) -> S -> Prop :=
| dr_end r s r' s' : read r s = (Ok ([], r'), s') -> drains r s [] s'
| dr_next r s d r' s1 ds s' : d <> [] -> read r s = (Ok (d, r'), s1) -> drains r' s1 ds s' -> drains r s (d :: ds) s'.
Inductive fills : W -> S -> list (list N) -> W -> S -> Prop :=
| fi_end w s : fills w s [] w s
| fi_next w s d w1 s1 ds w' s' : write w d s = (Ok w1, s1) -> fills w1 s1 ds w' s' -> fills w s (d :: ds) w' s'.
Lemma drains_full r s ds s' : drains r s ds s' -> Forall (fun d => d <> []) ds.
Proof. induction 1; constructor; auto. Qed.
End Loop.
Section Both.
Context {S1 S2 R W : Type}.
Lemma pump12 (read : R -> M S1 (list N * R)) (write : W -> list N -> M S2 W) ds : forall fuel r w s1 s2 s1' w' s2',
  drains read r s1 ds s1' -> fills write w s2 ds w' s2' -> length ds < fuel ->
  pump (fun r => on1 (read r)) (fun w d => on2 (write w d)) fuel r w (s1, s2) = (Ok tt, w', (s1', s2')).
Proof.
  induction ds as [|d ds IH]; intros fuel r w s1 s2 s1' w' s2' D F L; (destruct fuel as [|fuel]; [cbn in L; lia|]); cbn [pump]; inversion D; inversion F; subst.
  - unfold on1. cbn [fst snd]. match goal with H : read _ _ = _ |- _ => now rewrite H end.
  - unfold on1 at 1. cbn [fst snd]. match goal with H : read _ _ = _ |- _ => rewrite H end. destruct d as [|c d]; [congruence|]. unfold on2 at 1. cbn [fst snd]. match goal with H : write _ _ _ = _ |- _ => rewrite H end. eapply IH; eauto. cbn in L. lia.
Qed.
Lemma pump21 (read : R -> M S2 (list N * R)) (write : W -> list N -> M S1 W) ds : forall fuel r w s1 s2 s1' w' s2',
  drains read r s2 ds s2' -> fills write w s1 ds w' s1' -> length ds < fuel ->
  pump (fun r => on2 (read r)) (fun w d => on1 (write w d)) fuel r w (s1, s2) = (Ok tt, w', (s1', s2')).
Proof.
  induction ds as [|d ds IH]; intros fuel r w s1 s2 s1' w' s2' D F L; (destruct fuel as [|fuel]; [cbn in L; lia|]); cbn [pump]; inversion D; inversion F; subst.
  - unfold on2. cbn [fst snd]. match goal with H : read _ _ = _ |- _ => now rewrite H end.
  - unfold on2 at 1. cbn [fst snd]. match goal with H : read _ _ = _ |- _ => rewrite H end. destruct d as [|c d]; [congruence|]. unfold on1 at 1. cbn [fst snd]. match goal with H : write _ _ _ = _ |- _ => rewrite H end. eapply IH; eauto. cbn in L. lia.
Qed.
End Both.

(** *** Files that are read and written like this, and in one piece *)
Definition reads_like {S R} (E : S -> S -> Prop) (rd : uri -> M S (list N)) (open_r : uri -> M S R) (left_r : R -> M S nat) (read : R -> M S (list N * R)) : Prop :=
  forall u s, E s s -> match open_r u s with
    | (Raise e, s') => rd u s = (Raise e, s') /\ E s' s'
    | (Ok r, s') => exists ds n s1 s2, left_r r s' = (Ok n, s') /\ length ds <= n /\ drains read r s' ds s1 /\ rd u s = (Ok (concat ds), s2) /\ E s1 s2 /\ E s' s2
    end.
Definition writes_like {S W} (E : S -> S -> Prop) (wr : uri -> list N -> M S unit) (open_w : uri -> M S W) (write : W -> list N -> M S W) (exit_w : W -> M S unit) : Prop :=
  forall u s, E s s -> match open_w u s with
    | (Raise e, s') => (forall d, wr u d s = (Raise e, s')) /\ E s' s'
    | (Ok w, s') => forall ds, Forall (fun d => d <> []) ds -> exists w' s1, fills write w s' ds w' s1 /\
        fst (exit_w w' s1) = fst (wr u (concat ds) s) /\ E (snd (exit_w w' s1)) (snd (wr u (concat ds) s))
    end.
Definition pair_rel {S T} (E : S -> S -> Prop) (F : T -> T -> Prop) (a b : S * T) : Prop := E (fst a) (fst b) /\ F (snd a) (snd b).
Lemma on1_at {S1 S2 A} (m : M S1 A) (a : S1) (b : S2) : on1 m (a, b) = let (r, s) := m a in (r, (s, b)). Proof. reflexivity. Qed.
Lemma on2_at {S1 S2 A} (m : M S2 A) (a : S1) (b : S2) : on2 m (a, b) = let (r, s) := m b in (r, (a, s)). Proof. reflexivity. Qed.
Section Whole.
Context {S1 S2 R W : Type} (E1 : S1 -> S1 -> Prop) (E2 : S2 -> S2 -> Prop).
Lemma whole12 rd wr (open_r : uri -> M S1 R) left_r read (open_w : uri -> M S2 W) write exit_w u v s1 s2 :
  reads_like E1 rd open_r left_r read -> writes_like E2 wr open_w write exit_w -> E1 s1 s1 -> E2 s2 s2 ->
  let x := pieces12 open_r left_r read open_w write exit_w u v (s1, s2) in
  let y := (let! d <- on1 (rd u); on2 (wr v d)) (s1, s2) in fst x = fst y /\ pair_rel E1 E2 (snd x) (snd y).
Proof.
  intros HR HW G1 G2. cbv zeta. specialize (HR u s1 G1). specialize (HW v s2 G2). unfold pieces12, pieces, bind, pair_rel.
  rewrite !on1_at.
  destruct (open_r u s1) as [[r|e] s1'].
  2: { destruct HR as [-> K]. cbn. auto. }
  destruct HR as (ds & n & a & b & L & Ln & D & -> & A1 & A2). rewrite ?on2_at.
  destruct (open_w v s2) as [[w|e] s2'].
  2: { destruct HW as [-> K]. cbn. auto. }
  rewrite on1_at, L. destruct (HW ds (drains_full _ _ _ _ _ D)) as (w' & c & F & X & Y).
  cbn [fst snd]. rewrite (pump12 _ _ ds _ _ _ _ _ _ _ _ D F) by lia. cbn [finish]. rewrite !on2_at.
  destruct (exit_w w' c) as [[[]|e] s3], (wr v (concat ds) s2) as [[[]|e'] s4]; cbn in *; try discriminate; try (injection X as ->); auto.
Qed.
Lemma whole21 rd wr (open_r : uri -> M S2 R) left_r read (open_w : uri -> M S1 W) write exit_w u v s1 s2 :
  reads_like E2 rd open_r left_r read -> writes_like E1 wr open_w write exit_w -> E1 s1 s1 -> E2 s2 s2 ->
  let x := pieces21 open_r left_r read open_w write exit_w u v (s1, s2) in
  let y := (let! d <- on2 (rd u); on1 (wr v d)) (s1, s2) in fst x = fst y /\ pair_rel E1 E2 (snd x) (snd y).
Proof.
  intros HR HW G1 G2. cbv zeta. specialize (HR u s2 G2). specialize (HW v s1 G1). unfold pieces21, pieces, bind, pair_rel.
  rewrite !on2_at.
  destruct (open_r u s2) as [[r|e] s2'].
  2: { destruct HR as [-> K]. cbn. auto. }
  destruct HR as (ds & n & a & b & L & Ln & D & -> & A1 & A2). rewrite ?on1_at.
  destruct (open_w v s1) as [[w|e] s1'].
  2: { destruct HW as [-> K]. cbn. auto. }
  rewrite on2_at, L. destruct (HW ds (drains_full _ _ _ _ _ D)) as (w' & c & F & X & Y).
  cbn [fst snd]. rewrite (pump21 _ _ ds _ _ _ _ _ _ _ _ D F) by lia. cbn [finish]. rewrite !on1_at.
  destruct (exit_w w' c) as [[[]|e] s3], (wr v (concat ds) s1) as [[[]|e'] s4]; cbn in *; try discriminate; try (injection X as ->); auto.
Qed.
End Whole.

(** *** The three kinds of files *)
Section Kinds.
Variable block : Z.
Hypothesis Pos : (0 < block)%Z.
Let nb := Z.to_nat block.
Lemma nb_pos : nb <> 0. Proof. subst nb. lia. Qed.
Lemma first_some {A} (l : list A) : l <> [] -> firstn nb l <> [].
Proof. pose proof nb_pos. destruct l, nb; cbn; congruence. Qed.
(** Cutting into blocks *)
Fixpoint cut (fuel : nat) (l : list N) : list (list N) :=
  match fuel, l with
  | Datatypes.S f, _ :: _ => firstn nb l :: cut f (skipn nb l)
  | _, _ => []
  end.
Lemma cut_nil n : cut n [] = []. Proof. now destruct n. Qed.
Lemma skip_less {A} (l : list A) : l <> [] -> length (skipn nb l) < length l.
Proof. intros H. pose proof nb_pos. rewrite skipn_length. destruct l; [easy|]. cbn [length]. lia. Qed.
Lemma cut_all n : forall l, length l <= n -> concat (cut n l) = l /\ length (cut n l) <= length l.
Proof.
  induction n as [|n IH]; intros l L; [destruct l; cbn in *; auto; lia|]. destruct l as [|c l]; [cbn; auto|].
  cbn [cut]. set (k := c :: l) in *. assert (Q : length (skipn nb k) < length k) by (apply skip_less; discriminate).
  destruct (IH (skipn nb k)) as [A B]; [lia|]. cbn [concat length]. rewrite A. split; [apply firstn_skipn|]. lia.
Qed.

(** Local files *)
Lemma l_drains q d x : fd_data q x = (Ok d, x) -> forall n k, length (skipn k d) <= n ->
  drains (l_read block) (q, k) x (cut n (skipn k d)) x.
Proof.
  intros Q.
  assert (St : forall k, l_read block (q, k) x = (Ok (firstn nb (skipn k d), (q, k + length (firstn nb (skipn k d)))), x)).
  { intros k. unfold l_read. erewrite bind_ok by exact Q. reflexivity. }
  induction n as [|n IH]; intros k L.
  - destruct (skipn k d) as [|c l] eqn:E; [|cbn in L; lia]. cbn. eapply dr_end. rewrite St, E. now rewrite firstn_nil.
  - specialize (St k). destruct (skipn k d) as [|c l] eqn:E; [rewrite firstn_nil in St; eapply dr_end; exact St|].
    cbn [cut]. set (e := c :: l) in *. assert (Ne : e <> []) by discriminate. pose proof (first_some e Ne) as N. pose proof (skip_less e Ne) as Ls. clearbody e.
    eapply dr_next; [exact N|exact St|].
    assert (X : skipn (k + length (firstn nb e)) d = skipn nb e) by (rewrite MemFacts8.skipn_plus, E, MemFacts8.skipn_firstn_length; reflexivity).
    rewrite <- X in Ls |- *. apply IH. lia.
Qed.
Lemma l_reads : reads_like eq loc_read_all l_open_r l_left (l_read block).
Proof.
  intros u x _. unfold l_open_r, loc_read_all, bind. unfold os_open_r. set (r := match plook x true (u_path u) with Ok _ => _ | Raise _ => _ end). clearbody r.
  destruct r as [q|e]; cbn [ret]; auto. destruct (fd_data q x) as [[d|e] y] eqn:E; [|discriminate]. assert (y = x) by (unfold fd_data in E; congruence). subst y.
  exists (cut (length d) d), (length d), x, x. destruct (cut_all (length d) d (le_n _)) as [A B]. split; [unfold l_left, bind; cbn [fst]; now rewrite E|].
  split; [exact B|]. split; [|rewrite A; auto]. exact (l_drains q d x E _ 0 (le_n _)).
Qed.
Lemma pset_twice q a b t : pset q b (pset q a t) = pset q b t.
Proof.
  induction t as [|[p e] t IH]; cbn [pset]; [now rewrite path_eqb_refl|]. destruct (path_eqb q p) eqn:E; cbn [pset]; [now rewrite path_eqb_refl|]. now rewrite E, IH.
Qed.
Definition added_at (q : list str) (d : list N) (x : pst) : pst := snd (fd_append q d x).
Lemma append_at q d x : fd_append q d x = (Ok tt, added_at q d x). Proof. reflexivity. Qed.
Lemma append_twice q d e x : added_at q e (added_at q d x) = added_at q (d ++ e) x.
Proof.
  unfold added_at, fd_append. cbn [snd]. destruct (pget q (p_tree x)) as [[f mo mt| |]|] eqn:E; cbn [snd]; rewrite ?E; auto.
  destruct d as [|c d]; [cbn [app]; now rewrite E|]. cbn [set_tree p_tree p_now app]. rewrite pget_pset, path_eqb_refl.
  destruct e as [|c' e]; [now rewrite app_nil_r|]. unfold set_tree. cbn [p_tree p_cwd p_now p_umask]. now rewrite pset_twice, <- app_assoc.
Qed.
Lemma append_none q x : added_at q [] x = x.
Proof. unfold added_at, fd_append. cbn [snd]. now destruct (pget q (p_tree x)) as [[]|]. Qed.
Lemma l_fills q ds : forall x, fills l_write q x ds q (added_at q (concat ds) x).
Proof.
  induction ds as [|d ds IH]; intros x; cbn [concat]; [rewrite append_none; constructor|].
  eapply fi_next; [unfold l_write, bind; rewrite append_at; reflexivity|]. rewrite <- append_twice. apply IH.
Qed.
Lemma l_writes : writes_like eq (fun u d => loc_write_all u [d]) l_open_w l_write l_exit.
Proof.
  intros u x _. unfold l_open_w, loc_write_all, bind. destruct (os_open_w (u_path u) x) as [[q|e] y]; [|auto].
  intros ds _. exists q, (added_at q (concat ds) y). split; [apply l_fills|]. cbn [concat]. rewrite app_nil_r. now rewrite append_at.
Qed.
(** Two local files: the source may be the destination. *)
Lemma l_pump p q d : p <> q -> forall n k x, fd_data p x = (Ok d, x) -> length (skipn k d) < n ->
  pump (l_read block) l_write n (p, k) q x = (Ok tt, q, added_at q (skipn k d) x).
Proof.
  intros Ne. induction n as [|n IH]; intros k x E L; [lia|]. cbn [pump]. unfold l_read at 1, bind at 1. cbn [fst snd]. rewrite E. cbn [ret].
  fold nb. destruct (skipn k d) as [|c l] eqn:Ek; [rewrite firstn_nil; now rewrite append_none|].
  set (e := c :: l) in *. assert (Nn : e <> []) by discriminate. pose proof (first_some e Nn) as N. pose proof (skip_less e Nn) as Ls. clearbody e.
  destruct (firstn nb e) as [|c' l'] eqn:Ef; [easy|]. set (f := c' :: l') in *. clearbody f.
  unfold l_write at 1, bind at 1. rewrite append_at. cbn [ret].
  assert (X : skipn (k + length f) d = skipn nb e) by (rewrite <- Ef, MemFacts8.skipn_plus, Ek, MemFacts8.skipn_firstn_length; reflexivity).
  rewrite IH.
  - rewrite X, append_twice. rewrite <- Ef, firstn_skipn. reflexivity.
  - unfold fd_data in *. injection E as E. f_equal. f_equal. unfold added_at, fd_append. cbn [snd].
    destruct (pget q (p_tree x)) as [[f' mo mt| |]|]; auto. destruct f; auto. cbn [set_tree p_tree]. rewrite pget_pset.
    destruct (path_eqb p q) eqn:Q; [apply path_eqb_spec in Q; contradiction|exact E].
  - rewrite X. lia.
Qed.
Lemma l_content u v x : loc_pieces block u v x = loc_copy_content u v x.
Proof.
  unfold loc_pieces, pieces, loc_copy_content, l_open_r, bind. destruct (os_open_r (u_path u) x) as [[p|e] y]; [|reflexivity]. cbn [ret].
  unfold l_open_w. destruct (os_open_w (u_path v) y) as [[q|e] z] eqn:W; [|reflexivity].
  unfold l_left, bind. cbn [fst]. destruct (fd_data p z) as [[d|e] z'] eqn:E; [|discriminate]. assert (z' = z) by (unfold fd_data in E; congruence). subst z'.
  cbn [ret]. destruct (path_eqb p q) eqn:Q.
  - apply path_eqb_spec in Q. subst q. assert (d = []); [|subst d].
    { unfold os_open_w, refuse_slashed, sys_open_w in W. destruct (slashed (u_path v)).
      - destruct (plook y false (chop (u_path v))); discriminate.
      - unfold fd_data in E. destruct (plook y true (u_path v)) as [[q' [f mo mt| |]|dd n]|]; try discriminate; injection W as <- <-; cbn [set_tree p_tree] in E;
          rewrite pget_pset, path_eqb_refl in E; cbn in E; now injection E. }
    cbn [length pump]. unfold l_read, bind. cbn [fst snd]. rewrite E. cbn [ret skipn]. rewrite firstn_nil. cbn [finish l_exit ret]. now rewrite append_at, append_none.
  - assert (Ne : p <> q) by (intros ->; now rewrite path_eqb_refl in Q).
    rewrite (l_pump p q d Ne _ 0 z E) by (cbn; lia). reflexivity.
Qed.

(** Members of an archive *)
Lemma z_drains s n : forall r, length r <= n -> drains (z_read block) r s (cut n r) s.
Proof.
  induction n as [|n IH]; intros r L; [destruct r; [|cbn in L; lia]; eapply dr_end; unfold z_read; now rewrite firstn_nil|].
  destruct r as [|c r]; [eapply dr_end; unfold z_read; now rewrite firstn_nil|]. cbn [cut]. set (e := c :: r) in *. assert (Ne : e <> []) by discriminate.
  eapply dr_next; [now apply first_some|reflexivity|]. apply IH. pose proof (skip_less e Ne). fold nb. lia.
Qed.
Lemma z_reads : reads_like eq (fun u => zip_read u (Some (lit "rb"))) z_open_r z_left (z_read block).
Proof.
  intros u s _. unfold z_open_r, zip_read, bind. destruct (zip_open u (Some (lit "rb")) s) as [[[d|p]|e] s'] eqn:E; auto; cbn [ret].
  - destruct (cut_all (length d) d (le_n _)) as [A B]. exists (cut (length d) d), (length d), s', s'. rewrite A. auto 6 using z_drains.
  - exfalso. unfold zip_open, bind in E. destruct (open_zip (Some (lit "rb")) s) as [[|] s1]; [|discriminate]. change (has_char 114 (lit "rb")) with true in E. cbn match in E.
    unfold zip_open_for_reading in E. destruct (z_handle s1) as [h|]; [|discriminate]. destruct (lookup_last _ _); discriminate.
Qed.
Lemma z_fills s ds : forall p b, fills z_write (p, b) s ds (p, b ++ concat ds) s.
Proof.
  induction ds as [|d ds IH]; intros p b; cbn [concat]; [rewrite app_nil_r; constructor|]. eapply fi_next; [reflexivity|]. cbn [fst snd]. rewrite app_assoc. apply IH.
Qed.
Lemma z_writes : writes_like eq (fun u d => zip_write u (lit "wb") d) z_open_w z_write z_exit.
Proof.
  intros u s _. unfold z_open_w, zip_write, bind. destruct (zip_open u (Some (lit "wb")) s) as [[[d|p]|e] s'] eqn:E; cbn [ret].
  - split; [|reflexivity]. intros. reflexivity.
  - intros ds _. exists (p, [] ++ concat ds), s'. split; [apply z_fills|]. now split.
  - split; [|reflexivity]. intros. reflexivity.
Qed.

(** Memory files *)
Notation same := (alike []).
Lemma same_refl s t : same s t -> same s s.
Proof. intros H. constructor; try apply H; try easy. Qed.
Lemma same_wf s : wf s -> same s s.
Proof. intros H. constructor; try easy. Qed.
Lemma same_trans a b c : same a b -> same b c -> same a c.
Proof.
  intros H K. constructor; try easy; [apply H|apply K| |rewrite (al_now _ _ _ H); apply K|].
  - intros p. pose proof (al_tree _ _ _ H p). pose proof (al_tree _ _ _ K p). congruence.
  - intros p. rewrite (al_cbs _ _ _ H p). apply K.
Qed.
Lemma same_upd s s1 s2 i f g g' : wf s -> file_upd s s1 i f g -> file_upd s s2 i f g' -> f_data g = f_data g' -> f_mtime g = f_mtime g' -> f_mode g = f_mode g' -> same s1 s2.
Proof.
  intros W U1 U2 D T Mo. pose proof (fu_rest _ _ _ _ _ U1) as (R1 & _ & _ & R2). pose proof (fu_rest _ _ _ _ _ U2) as (R3 & _ & _ & R4). constructor; try easy.
  - eapply file_upd_wf; eauto.
  - eapply file_upd_wf; eauto.
  - intros p. rewrite (file_upd_view _ _ _ _ _ p U1), (file_upd_view _ _ _ _ _ p U2). now rewrite D, T, Mo.
  - congruence.
  - intros p. unfold callback_at. now rewrite R2, R4.
Qed.
Lemma m_drains i : forall n s f, m_heap s i = NFile f -> length (skipn (f_pos f) (f_data f)) <= n ->
  exists s' k, drains (m_read block) (mkHandle i true true) s (cut n (skipn (f_pos f) (f_data f))) s' /\ file_upd s s' i f (fset f (f_data f) k (f_mtime f)).
Proof.
  assert (Neg : (block <? 0)%Z = false) by (apply Z.ltb_ge; lia).
  assert (St : forall s f, m_heap s i = NFile f -> let out := firstn nb (skipn (f_pos f) (f_data f)) in exists s',
    m_read block (mkHandle i true true) s = (Ok (out, mkHandle i true true), s') /\ file_upd s s' i f (fset f (f_data f) (f_pos f + length out) (f_mtime f))).
  { intros s f E. cbv zeta. destruct (run_read s i f E block) as (s' & R & U). unfold bio_read in R, U. rewrite Neg in R, U. cbn [fst snd] in R, U.
    exists s'. split; [|exact U]. unfold m_read, h_read, bind. cbn [h_readable h_node negb]. rewrite R. reflexivity. }
  induction n as [|n IH]; intros s f E L; destruct (St s f E) as (s1 & R & U); cbv zeta in R, U.
  - destruct (skipn (f_pos f) (f_data f)) as [|c l] eqn:K; [|cbn in L; lia]. rewrite firstn_nil in R, U. eexists _, _. split; [eapply dr_end; exact R|exact U].
  - destruct (skipn (f_pos f) (f_data f)) as [|c l] eqn:K; [rewrite firstn_nil in R, U; eexists _, _; split; [eapply dr_end; exact R|exact U]|].
    cbn [cut]. set (e := c :: l) in *. assert (Ne : e <> []) by discriminate. pose proof (first_some e Ne) as N. pose proof (skip_less e Ne) as Ls. clearbody e.
    set (g := fset f (f_data f) (f_pos f + length (firstn nb e)) (f_mtime f)) in *.
    assert (X : skipn (f_pos g) (f_data g) = skipn nb e) by (cbn [g fset f_pos f_data]; rewrite MemFacts8.skipn_plus, K, MemFacts8.skipn_firstn_length; reflexivity).
    destruct (IH s1 g) as (s2 & k & D & U2); [apply U|rewrite X; lia|]. rewrite X in D. exists s2, k. split; [eapply dr_next; eauto|].
    eapply file_upd_trans; [exact U|]. exact U2.
Qed.
Lemma open_rb u s : wf s -> match u_open u (Some (lit "rb")) s with
  | (Raise e, s') => wf s'
  | (Ok h, s') => wf s' /\ exists f, h = mkHandle (h_node h) true true /\ m_heap s' (h_node h) = NFile f
  end.
Proof.
  intros W. pose proof (u_open_opn [] u (Some (lit "rb")) s s (same_wf s W)) as H. destruct (u_open u (Some (lit "rb")) s) as [[h|e] s'] eqn:E.
  - destruct H as (_ & _ & H). split; [apply H|]. destruct (al_open _ _ _ H _ (or_introl eq_refl)) as (_ & _ & (f & _ & F & _) & _). exists f. split; [|exact F].
    unfold u_open, bind in E. destruct (mem_hook u (lit "open") s) as [[|] s0]; [|discriminate]. unfold mem_open in E. change (has_char 114 (lit "rb")) with true in E. cbn match in E.
    unfold open_for_read, bind in E. destruct (lookup_node u true s0) as [[i|] s2]; [|discriminate]. destruct (file_seek i 0 0 s2) as [[|] s3]; [|discriminate].
    cbn in E. injection E as <- <-. reflexivity.
  - destruct H as (_ & H). apply H.
Qed.
Lemma m_reads : reads_like same mem_fetch m_open_r m_left (m_read block).
Proof.
  intros u s G. pose proof (open_rb u s (al_wf1 _ _ _ G)) as H. unfold m_open_r, mem_fetch, bind. destruct (u_open u (Some (lit "rb")) s) as [[h|e] s'].
  2: { split; [reflexivity|now apply same_wf]. }
  destruct H as (W & f & -> & F). set (i := h_node h) in *. cbn [h_node] in F. set (r := skipn (f_pos f) (f_data f)).
  destruct (run_read s' i f F (-1)) as (s2 & R2 & U2). unfold bio_read in R2, U2. change (-1 <? 0)%Z with true in R2, U2. cbn [fst snd] in R2, U2. fold r in R2, U2.
  destruct (cut_all (length r) r (le_n _)) as [A B]. destruct (m_drains i (length r) s' f F (le_n _)) as (s1 & k & D & U1). fold r in D.
  exists (cut (length r) r), (length (f_data f)), s1, s2. split; [unfold m_left, bind; cbn [h_node]; rewrite (run_get _ _ _ F); reflexivity|].
  split; [subst r; rewrite skipn_length in *; lia|]. split; [exact D|]. split.
  - unfold h_read, bind. cbn [h_readable h_node negb]. rewrite R2. cbn [proxy_decode h_binary lift ret]. now rewrite A.
  - split; [eapply same_upd; eauto|]. eapply same_upd; [exact W|apply file_upd_refl; exact F|exact U2| | |]; reflexivity.
Qed.
Lemma open_wb u s : wf s -> match u_open u (Some (lit "wb")) s with
  | (Raise e, s') => wf s'
  | (Ok h, s') => wf s' /\ exists f, m_heap s' (h_node h) = NFile f /\ f_pos f = length (f_data f)
  end.
Proof.
  intros W. pose proof (u_open_opn [] u (Some (lit "wb")) s s (same_wf s W)) as H. destruct (u_open u (Some (lit "wb")) s) as [[h|e] s'] eqn:E.
  - destruct H as (_ & _ & H). split; [apply H|].
    unfold u_open, bind in E. destruct (mem_hook u (lit "open") s) as [[|] s0] eqn:Hk; [|discriminate].
    assert (W0 : wf s0).
    { pose proof (hook_resp [] u (lit "open") s s (same_wf s W)) as [_ K]. rewrite Hk in K. apply K. }
    change (open_for_write u true s0 = (Ok h, s')) in E.
    unfold open_for_write, bind, lift in E. destruct (mem_path u) as [p|]; [|discriminate].
    pose proof (pure_parent p s0) as P1. destruct (parent_node p s0) as [[nd|] s1] eqn:Ep; [|discriminate]. cbn in P1. subst s1.
    apply parent_val in Ep; auto. unfold node_has, bind, get_node_obj in E. destruct (m_heap s0 nd) as [|es mt mo|] eqn:End; try discriminate. unfold ret at 1 in E.
    destruct (dhas _ es) eqn:Eh.
    + destruct (child _ _ _ _ _ _) as [o|]; [|discriminate]. destruct (match o with Some c => _ | None => false end); [discriminate|].
      destruct (need o) as [c|]; [|discriminate]. destruct (file_reset c s0) as [[[]|] s3] eqn:Er; [|discriminate]. cbn in E. injection E as <- <-. cbn [h_node].
      unfold file_reset, bind, get_file, bind, get_node_obj in Er. destruct (m_heap s0 c) as [f| |] eqn:Ec; try discriminate. cbn in Er. injection Er as <-. cbn [m_heap].
      eexists. split; [apply heap_set_same|reflexivity].
    + unfold get at 1 in E.
      assert (RA := run_add s0 nd (last (Mem.steps_of p) []) (new_file p (m_now s0) (m_epoch s0)) es mt mo Ep End). unfold bind in RA.
      destruct (alloc (new_file p (m_now s0) (m_epoch s0)) s0) as [[j|] s1] eqn:AL; [|discriminate]. rewrite RA in E.
      assert (j = m_next s0) by (unfold alloc in AL; congruence). subst j. unfold ret in E. injection E as <- <-. cbn [h_node added m_heap].
      eexists. rewrite (heap_add_at _ _ _ _ _ _ _ _ _ Ep End). destruct (Nat.eqb_spec (m_next s0) nd) as [Q|_]; [lia|]. rewrite Nat.eqb_refl. split; [reflexivity|]. reflexivity.
  - destruct H as (_ & H). apply H.
Qed.
Lemma m_fills h ds : forall s f, m_heap s (h_node h) = NFile f -> f_pos f = length (f_data f) -> exists s', fills m_write h s ds h s' /\
  file_upd s s' (h_node h) f (fset f (f_data f ++ concat ds) (length (f_data f ++ concat ds)) (match ds with [] => f_mtime f | _ => m_now s end)).
Proof.
  intros s f E P. destruct (writes_end h ds s f E P) as (s' & R & U). exists s'. split; [|exact U]. clear - R. revert s R. induction ds as [|d ds IH]; intros s R; cbn [mapM_] in R.
  - injection R as <-. constructor.
  - unfold bind in R. destruct (h_write h (VBytes d) s) as [[[]|] s1] eqn:W; [|discriminate]. eapply fi_next; [unfold m_write, bind; rewrite W; reflexivity|]. now apply IH.
Qed.
Lemma m_writes : writes_like same mem_put m_open_w m_write m_exit.
Proof.
  intros u s G. pose proof (open_wb u s (al_wf1 _ _ _ G)) as H. unfold m_open_w, mem_put, bind. destruct (u_open u (Some (lit "wb")) s) as [[h|e] s'].
  2: { split; [reflexivity|now apply same_wf]. }
  destruct H as (W & f & F & P). intros ds Nd. destruct (m_fills h ds s' f F P) as (s1 & D & U). exists h, s1. split; [exact D|]. cbn [m_exit ret fst snd].
  destruct ds as [|d ds].
  - cbn [concat ret fst snd]. split; [reflexivity|]. rewrite app_nil_r, <- P, fset_same in U. eapply same_upd; [exact W|exact U|apply file_upd_refl; exact F| | |]; reflexivity.
  - inversion Nd as [|? ? Hd _]; subst. destruct (concat (d :: ds)) as [|c l] eqn:K; [cbn in K; apply app_eq_nil in K; tauto|].
    destruct (writes_end h [c :: l] s' f F P) as (s2 & R & U2). cbn [mapM_] in R. unfold bind in R. destruct (h_write h (VBytes (c :: l)) s') as [[[]|] s3]; [|discriminate].
    cbn in R. injection R as ->. split; [reflexivity|]. cbn [concat] in U2. rewrite app_nil_r in U2. eapply same_upd; [exact W|exact U|exact U2| | |]; reflexivity.
Qed.
End Kinds.
