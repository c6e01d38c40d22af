(** Property C150: copying and moving between file systems block by block (Pieces.v) is the same as reading every
    file to its end and writing it at once (World.v). *)
From Coq Require Import Lia String.
From Verif Require Import Str Exc UriParse BaseUri SpecUri Mem SpecMem MemOps Generic Posix Local Zip World Pieces Prog.
From Verif Require Import MemFacts MemFacts9 MemUri MemTwin PropsMem Resp Resp2 PieceFacts SpecLocal SpecWorld PropsLocal PropsLocal2 PropsZip PropsWorld.
Local Open Scope string_scope.
Local Open Scope list_scope.

(** *** What is meant by the same *)
(** Two states of a memory file system: the same tree (kinds, contents, times, modes), clock and callbacks, and no program
    (Prog.v) that starts there gets another answer. *)
Definition same_mem (s s' : mst) : Prop :=
  same_tree (view s) (view s') /\ m_now s = m_now s' /\ (forall p, callback_at s p = callback_at s' p) /\
  forall X (p : prog X), fst (Prog.run p (s, [])) = fst (Prog.run p (s', [])).
(** Two computations, started in the same state: the same exception or none, and the same states afterwards *)
Definition agree {S1 S2} (E1 : S1 -> S1 -> Prop) (E2 : S2 -> S2 -> Prop) (m m' : M (S1 * S2) unit) (s : S1 * S2) : Prop :=
  fst (m s) = fst (m' s) /\ E1 (fst (snd (m s))) (fst (snd (m' s))) /\ E2 (snd (snd (m s))) (snd (snd (m' s))).

(** *** The backends of World.v *)
Lemma fetch_resp u : resp (alike []) (mem_fetch u).
Proof.
  apply onf_resp. unfold mem_fetch. apply opn_use; [apply u_open_opn|]. intros h h' R B. apply onf_bind; [apply onf_hread; now split; [left|]|].
  intros [t|d]; apply onf_same.
Qed.
Lemma put_resp u d : resp (alike []) (mem_put u d).
Proof.
  apply onf_resp. unfold mem_put. apply opn_use; [apply u_open_opn|]. intros h h' R B. destruct d; [apply onf_same|]. apply onf_hwrite. now split; [left|].
Qed.
Lemma resp_eq {S A} (m : M S A) : resp eq m. Proof. intros s t <-. now split. Qed.
Lemma keeps_eq {S} (b : backend S) : keeps eq b. Proof. constructor; intros; apply resp_eq. Qed.
Section Two.
Context {S1 S2 : Type} (E1 : S1 -> S1 -> Prop) (E2 : S2 -> S2 -> Prop).
Lemma resp_on1 {A} (m : M S1 A) : resp E1 m -> resp (pair_rel E1 E2) (on1 m).
Proof.
  intros H [a b] [c d] [P Q]. destruct (H a c P) as [X Y]. rewrite !on1_at. destruct (m a), (m c). cbn in *. now repeat split.
Qed.
Lemma resp_on2 {A} (m : M S2 A) : resp E2 m -> resp (pair_rel E1 E2) (on2 m).
Proof.
  intros H [a b] [c d] [P Q]. destruct (H b d Q) as [X Y]. rewrite !on2_at. destruct (m b), (m d). cbn in *. now repeat split.
Qed.
Lemma both_sorted (side : uri -> bool) u (m1 : M S1 (list str)) (m2 : M S2 (list str)) s :
  bind (World.both side u m1 m2) (fun l => ret (sort_strs l)) s = World.both side u (let! l <- m1; ret (sort_strs l)) (let! l <- m2; ret (sort_strs l)) s.
Proof.
  unfold World.both. destruct s as [a b]. unfold bind. destruct (side u); [rewrite !on1_at; destruct (m1 a) as [[l|e] s']|rewrite !on2_at; destruct (m2 b) as [[l|e] s']]; reflexivity.
Qed.
Variables (b1 : backend S1) (b2 : backend S2) (rd1 : uri -> M S1 (list N)) (wr1 : uri -> list N -> M S1 unit).
Variables (rd2 : uri -> M S2 (list N)) (wr2 : uri -> list N -> M S2 unit) (side : uri -> bool).
Hypotheses (K1 : keeps E1 b1) (K2 : keeps E2 b2).
Hypotheses (R1 : forall u, resp E1 (rd1 u)) (W1 : forall u d, resp E1 (wr1 u d)) (R2 : forall u, resp E2 (rd2 u)) (W2 : forall u d, resp E2 (wr2 u d)).
Notation w := (world b1 b2 rd1 wr1 rd2 wr2 side).
Lemma keeps_world : keeps (pair_rel E1 E2) w.
Proof.
  constructor; intros; cbn [world b_hook b_exists b_isfile b_isdir b_islink b_listdir b_removefile b_removedir b_mkdir b_symlink b_readlink b_copystat b_copy_content b_removefile_by b_symlink_by];
    try (unfold World.both; destruct (side _); [apply resp_on1, K1|apply resp_on2, K2]).
  - intros s t H. rewrite !both_sorted. revert s t H. change (resp (pair_rel E1 E2) (World.both side u (let! l <- b_listdir b1 u; ret (sort_strs l)) (let! l <- b_listdir b2 u; ret (sort_strs l)))).
    unfold World.both. destruct (side u); [apply resp_on1, K1|apply resp_on2, K2].
  - unfold world_content. destruct (side u), (side v); [apply resp_on1, K1| | |apply resp_on2, K2].
    + apply resp_bind; [apply resp_on1, R1|]. intros. apply resp_on2, W2.
    + apply resp_bind; [apply resp_on2, R2|]. intros. apply resp_on1, W1.
Qed.
Hypothesis (F1 : forall s t, E1 s t -> E1 s s) (F2 : forall s t, E2 s t -> E2 s s) (T1 : forall a b c, E1 a b -> E1 b c -> E1 a c) (T2 : forall a b c, E2 a b -> E2 b c -> E2 a c).
Variable f : uri -> uri -> M (S1 * S2) unit.
Hypothesis C : forall u v s1 s2, E1 s1 s1 -> E2 s2 s2 -> let x := f u v (s1, s2) in let y := b_copy_content w u v (s1, s2) in
  fst x = fst y /\ pair_rel E1 E2 (snd x) (snd y).
Lemma matched_world : matched (pair_rel E1 E2) (with_content w f) w.
Proof.
  pose proof keeps_world as K. constructor; intros; try apply K. intros [a b] [c d] [P Q]. cbn [with_content b_copy_content].
  destruct (C u v a b (F1 _ _ P) (F2 _ _ Q)) as [X1 [X2 X3]]. destruct (ke_content _ _ K u v (a, b) (c, d) (conj P Q)) as [Y1 [Y2 Y3]].
  split; [congruence|]. split; eauto.
Qed.
End Two.
Lemma eq_refl2 {S} (s t : S) : s = t -> s = s. Proof. reflexivity. Qed.
Lemma diag {S1 S2} (E1 : S1 -> S1 -> Prop) (E2 : S2 -> S2 -> Prop) (m : M (S1 * S2) unit) s1 s2 : resp (pair_rel E1 E2) m -> E1 s1 s1 -> E2 s2 s2 ->
  fst (m (s1, s2)) = fst (m (s1, s2)) /\ pair_rel E1 E2 (snd (m (s1, s2))) (snd (m (s1, s2))).
Proof. intros H A B. apply H. now split. Qed.

Section Backends.
Variable block : Z.
Hypothesis Pos : (0 < block)%Z.
Notation same := (alike []).
Lemma match_mem_loc : matched (pair_rel same eq) (mem_loc_by block) mem_loc.
Proof.
  unfold mem_loc_by, mem_loc. apply matched_world; intros; eauto using mem_keeps, keeps_eq, fetch_resp, put_resp, resp_eq, same_refl, same_trans, eq_trans; try reflexivity.
  subst x y. cbn [world b_copy_content]. unfold world_content. destruct (has_scheme "memory" u), (has_scheme "memory" v).
  - apply diag; auto. apply resp_on1, mem_keeps.
  - now apply (whole12 same eq mem_fetch (fun u d => loc_write_all u [d])); [apply m_reads|apply l_writes| |].
  - now apply (whole21 same eq loc_read_all mem_put); [apply l_reads|apply m_writes| |].
  - rewrite !on2_at. rewrite (l_content block Pos). cbn [loc_backend b_copy_content]. destruct (loc_copy_content u v s2). split; [reflexivity|]. split; [first [exact H|reflexivity]|reflexivity].
Qed.
Lemma match_zip_mem : matched (pair_rel eq same) (zip_mem_by block) zip_mem.
Proof.
  unfold zip_mem_by, zip_mem. apply matched_world; intros; eauto using mem_keeps, keeps_eq, fetch_resp, put_resp, resp_eq, same_refl, same_trans, eq_trans; try reflexivity.
  subst x y. cbn [world b_copy_content]. unfold world_content. destruct (has_scheme "zip" u), (has_scheme "zip" v).
  - apply diag; auto. apply resp_on1, resp_eq.
  - now apply (whole12 eq same (fun u => zip_read u (Some (lit "rb"))) mem_put); [apply z_reads|apply m_writes| |].
  - now apply (whole21 eq same mem_fetch (fun u d => zip_write u (lit "wb") d)); [apply m_reads|apply z_writes| |].
  - apply diag; auto. apply resp_on2, mem_keeps.
Qed.
Lemma match_zip_file : matched (pair_rel eq eq) (zip_file_by block) zip_file.
Proof.
  unfold zip_file_by, zip_file. apply matched_world; intros; eauto using keeps_eq, resp_eq, eq_trans; try reflexivity.
  subst x y. cbn [world b_copy_content]. unfold world_content. destruct (has_scheme "zip" u), (has_scheme "zip" v).
  - apply diag; auto. apply resp_on1, resp_eq.
  - now apply (whole12 eq eq (fun u => zip_read u (Some (lit "rb"))) (fun u d => loc_write_all u [d])); [apply z_reads|apply l_writes| |].
  - now apply (whole21 eq eq loc_read_all (fun u d => zip_write u (lit "wb") d)); [apply l_reads|apply z_writes| |].
  - rewrite !on2_at. rewrite (l_content block Pos). cbn [loc_backend b_copy_content]. destruct (loc_copy_content u v s2). split; [reflexivity|]. split; [first [exact H|reflexivity]|reflexivity].
Qed.
Lemma match_mem_mem user : matched (pair_rel same same) (mem_mem_by block user) (mem_mem user).
Proof.
  unfold mem_mem_by, mem_mem. apply matched_world; intros; eauto using mem_keeps, fetch_resp, put_resp, same_refl, same_trans.
  subst x y. cbn [world b_copy_content]. unfold world_content. destruct (opt_eqb (u_user u) user), (opt_eqb (u_user v) user).
  - apply diag; auto. apply resp_on1, mem_keeps.
  - now apply (whole12 same same mem_fetch mem_put); [apply m_reads|apply m_writes| |].
  - now apply (whole21 same same mem_fetch mem_put); [apply m_reads|apply m_writes| |].
  - apply diag; auto. apply resp_on2, mem_keeps.
Qed.

Lemma same_gives s t : same s t -> same_mem s t.
Proof.
  intros H. split; [apply H|]. split; [apply H|]. split; [apply H|]. intros X p. apply (run_rel p). split; [constructor|exact H].
Qed.
Lemma agreed {S1 S2} (E1 G1 : S1 -> S1 -> Prop) (E2 G2 : S2 -> S2 -> Prop) m m' s1 s2 : (forall a b, E1 a b -> G1 a b) -> (forall a b, E2 a b -> G2 a b) ->
  resp2 (pair_rel E1 E2) m m' -> E1 s1 s1 -> E2 s2 s2 -> agree G1 G2 m m' (s1, s2).
Proof. intros H1 H2 R A B. destruct (R (s1, s2) (s1, s2) (conj A B)) as [X [Y Z]]. split; [exact X|]. auto. Qed.

(** ** C150 *)
(** Whatever is copied or moved, from and to whatever, in whatever state, with whatever size of the blocks: the same
    exception or none, the same files afterwards on both sides. *)
Theorem C150_mem_local fuel recursive ignore followlinks u v s x : reachable s ->
  agree same_mem eq (u_copy (mem_loc_by block) fuel recursive ignore followlinks u v) (u_copy mem_loc fuel recursive ignore followlinks u v) (s, x) /\
  agree same_mem eq (u_move (mem_loc_by block) fuel u v) (u_move mem_loc fuel u v) (s, x) /\
  agree same_mem eq (loc_move_to (mem_loc_by block) fuel u v) (loc_move_to mem_loc fuel u v) (s, x).
Proof.
  intros R. pose proof (same_wf s (reachable_wf s R)) as W. pose proof match_mem_loc as K. split; [|split]; (eapply agreed; [apply same_gives|intros ? ? H; exact H| |exact W|reflexivity]).
  - apply r2_copy, K.
  - apply r2_move, K.
  - unfold loc_move_to. destruct (has_scheme "file" v); [|apply r2_fs_move, K]. intros a b H. exact (resp_on2 same eq _ (resp_eq _) a b H).
Qed.
Theorem C150_zip_mem fuel recursive ignore followlinks u v z s : reachable s ->
  agree eq same_mem (u_copy (zip_mem_by block) fuel recursive ignore followlinks u v) (u_copy zip_mem fuel recursive ignore followlinks u v) (z, s) /\
  agree eq same_mem (u_move (zip_mem_by block) fuel u v) (u_move zip_mem fuel u v) (z, s).
Proof.
  intros R. pose proof (same_wf s (reachable_wf s R)) as W. pose proof match_zip_mem as K.
  split; (eapply agreed; [intros ? ? H; exact H|apply same_gives| |reflexivity|exact W]); [apply r2_copy, K|apply r2_move, K].
Qed.
Theorem C150_zip_file fuel recursive ignore followlinks u v z x :
  agree eq eq (u_copy (zip_file_by block) fuel recursive ignore followlinks u v) (u_copy zip_file fuel recursive ignore followlinks u v) (z, x) /\
  agree eq eq (u_move (zip_file_by block) fuel u v) (u_move zip_file fuel u v) (z, x).
Proof.
  pose proof match_zip_file as K.
  split; (eapply agreed; [intros ? ? H; exact H|intros ? ? H; exact H| |reflexivity|reflexivity]); [apply r2_copy, K|apply r2_move, K].
Qed.
Theorem C150_mem_mem user fuel recursive ignore followlinks u v s s' : reachable s -> reachable s' ->
  agree same_mem same_mem (u_copy (mem_mem_by block user) fuel recursive ignore followlinks u v) (u_copy (mem_mem user) fuel recursive ignore followlinks u v) (s, s') /\
  agree same_mem same_mem (u_move (mem_mem_by block user) fuel u v) (u_move (mem_mem user) fuel u v) (s, s').
Proof.
  intros R R'. pose proof (same_wf s (reachable_wf s R)) as W. pose proof (same_wf s' (reachable_wf s' R')) as W'. pose proof (match_mem_mem user) as K.
  split; (eapply agreed; [apply same_gives|apply same_gives| |exact W|exact W']); [apply r2_copy, K|apply r2_move, K].
Qed.
(** A file copied within the local file system, the source being the destination or not *)
Theorem C150_local u v x : loc_pieces block u v x = loc_copy_content u v x.
Proof. now apply l_content. Qed.
End Backends.
Print Assumptions C150_mem_local.
Print Assumptions C150_zip_mem.
Print Assumptions C150_zip_file.
Print Assumptions C150_mem_mem.
Print Assumptions C150_local.

(** Seven bytes in blocks of three *)
Definition seven : mst := run_ops
  [OpMkdir (U ["d"]); OpOpen (U ["d"; "f"]) (Some (lit "wb")); OpWrite (mkHandle 2 false true) (VBytes (lit "abcdefg"))] (init_mem 5 0).
Example C150_blocks_witness :
  let h := mkHandle 2 true true in
  let r1 := m_read 3 h (snd (m_open_r (U ["d"; "f"]) seven)) in let r2 := m_read 3 h (snd r1) in let r3 := m_read 3 h (snd r2) in let r4 := m_read 3 h (snd r3) in
  fst (m_open_r (U ["d"; "f"]) seven) = Ok h /\ (fst r1, fst r2, fst r3, fst r4) = (Ok (lit "abc", h), Ok (lit "def", h), Ok (lit "g", h), Ok ([], h)).
Proof. vm_compute. split; reflexivity. Qed.
(** The directory copied to the local files, the file to an archive, a member of an archive to the local files; the file moved to
    another memory file system; a destination that cannot be opened; a local file copied onto itself. *)
Example C150_witness : reachable seven /\ (0 < 3)%Z /\
  (let x := u_copy (mem_loc_by 3) 9 true [] true (U ["d"]) (FU ["new"]) (seven, loc1) in
   fst x = Ok tt /\ pget (P ["new"; "f"]) (p_tree (snd (snd x))) = Some (PFile (lit "abcdefg") 420 50)) /\
  (let x := u_copy (zip_mem_by 3) 9 false [] true (U ["d"; "f"]) (ZU ["new"]) (open_arch, seven) in
   fst x = Ok tt /\ fst (zip_read (ZU ["new"]) (Some (lit "rb")) (fst (snd x))) = Ok (lit "abcdefg")) /\
  (let x := u_copy (zip_file_by 3) 9 false [] true (ZU ["dir1"; "foo.txt"]) (FU ["b"]) (open_arch, loc1) in
   fst x = Ok tt /\ fst (loc_read_all (FU ["b"; "foo.txt"]) (snd (snd x))) = fst (zip_read (ZU ["dir1"; "foo.txt"]) (Some (lit "rb")) open_arch)) /\
  (let x := u_move (mem_mem_by 3 (Some (lit "a"))) 9 (HU "a" "/d/f") (HU "b" "/d") (seven, init_mem 5 0) in
   fst x = Ok tt /\ view (snd (snd x)) (P ["d"]) = Some (EFile (lit "abcdefg") 5 0) /\ view (fst (snd x)) (P ["d"; "f"]) = None) /\
  fst (u_copy (mem_loc_by 3) 9 false [] true (U ["d"; "f"]) (FU ["gone"; "g"]) (seven, loc1)) = Raise (OSError ENOENT) /\
  (loc_read_all (FU ["a"; "f"]) loc1 <> (Ok [], loc1) /\ fst (loc_read_all (FU ["a"; "f"]) (snd (loc_pieces 3 (FU ["a"; "f"]) (FU ["a"; "f"]) loc1))) = Ok []).
Proof.
  split; [eexists _, _, _; reflexivity|]. split; [reflexivity|]. split; [vm_compute; split; reflexivity|]. split; [vm_compute; split; reflexivity|].
  split; [vm_compute; split; reflexivity|]. split; [vm_compute; repeat split; reflexivity|]. split; [vm_compute; reflexivity|]. split; [vm_compute; discriminate|vm_compute; reflexivity].
Qed.
(** What is not the same: if the destination cannot be opened, nothing was read, so a file that was open before is at
    its start; in World.v it is at the end. *)
Example C150_position :
  let go b := fst (snd (u_copy b 9 false [] true (U ["d"; "f"]) (FU ["gone"; "g"]) (seven, loc1))) in
  fst (file_tell 2 (go (mem_loc_by 3))) = Ok 0 /\ fst (file_tell 2 (go mem_loc)) = Ok 7.
Proof. vm_compute. split; reflexivity. Qed.
