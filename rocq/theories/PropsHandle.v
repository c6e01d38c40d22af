(** Properties C75 to C77: calls on open files, several handles, times of modification (memory backend). *)
From Verif Require Import Str Exc Utf8 UriParse BaseUri Mem SpecUri SpecMem SpecFile SpecHandle StrFacts MemOps
  MemFacts MemFacts2 MemFacts3 MemFacts4 MemFacts5 MemFacts6 MemFacts7 MemFacts8 MemFacts9 MemFacts10 MemFacts11 HandleFacts PropsMem.

(** ** C75 calls on an open file *)
Theorem C75_calls s u m hd s1 : reachable s -> ~ addr u [] -> mem_open u m s = (Ok hd, s1) ->
  exists q start mode, denotes (view s1) u (Found q) /\ starts m (m_now s) (view s q) start mode /\
    forall os, exists vs s2 o, do_hops hd os s1 = (vs, s2) /\
      acts_all match m with None => true | Some x => has_char 114 x end match m with None => false | Some x => has_char 98 x end
        (m_now s) os start vs o /\
      put_at (view s) (view s2) q (EFile (o_data o) (o_mtime o) mode).
Proof.
  intros R NR H. destruct (open_inv s u m hd s1 (reachable_wf s R) NR H) as (q & f & Op & St & Hr & Hb & Pt).
  exists q, (ofl f), (f_mode f). split; [apply Op|]. split; [exact St|]. intros os.
  destruct (do_hops_acts hd os s1 f (op_file _ _ _ _ _ _ Op)) as (vs & s2 & f' & D & U & (_ & Mm & _) & A).
  exists vs, s2, (ofl f'). split; [exact D|]. rewrite Hr, Hb, (rest_now _ _ (op_rest _ _ _ _ _ _ Op)) in A. split; [exact A|].
  destruct (file_upd_put _ _ _ _ _ q (op_wf _ _ _ _ _ _ Op) U (op_phys _ _ _ _ _ _ Op)) as [X Y]. rewrite Mm in X.
  split; [exact X|]. intros r Nr. rewrite Y by auto. now apply Pt.
Qed.
Print Assumptions C75_calls.
(** The answers and the content are determined by that. *)
Theorem C75_determined r b now os o vs o1 vs' o2 :
  acts_all r b now os o vs o1 -> acts_all r b now os o vs' o2 -> vs = vs' /\ o1 = o2.
Proof. apply acts_all_det. Qed.
Print Assumptions C75_determined.
Example C75_witness : exists hd s1, mem_open (U ["d"; "f"]%string) (Some (lit "rb")) demo = (Ok hd, s1) /\
  ~ addr (U ["d"; "f"]%string) [] /\
  let (vs, s2) := do_hops hd [HRead 2; HTell; HSeek (-1) 2; HWrite (VBytes [65; 66]%N); HSeek 14 0; HWrite (VBytes [67]%N);
                              HTruncate (Some 15%Z); HSeek 9 0; HRead (-1); HSeek (-1) 0; HTruncate (Some (-1)%Z); HClose; HTell] s1 in
  vs = [RVal (VBytes [104; 101]%N); RNum 2; RNone; RNone; RNone; RNone; RNum 15; RNone; RVal (VBytes [108; 65; 66; 0; 0; 67]%N);
        RErr ValueError; RErr ValueError; RNone; RNum 0] /\ 
  view s2 (P ["d"; "f"]%string) = Some (EFile (lit "hello" ++ [10%N] ++ lit "worlAB" ++ [0; 0; 67]%N) 7 420).
Proof.
  do 2 eexists. split; [vm_compute; reflexivity|]. split; [intros [A _]; discriminate A|]. vm_compute. auto.
Qed.

(** ** C76 several handles *)
(** Partial: handles on different files are independent, in every interleaving of their calls. *)
Theorem C76_two_files_partial s u1 m1 h1 s1 u2 m2 h2 s2 q1 q2 : reachable s -> ~ addr u1 [] -> ~ addr u2 [] ->
  mem_open u1 m1 s = (Ok h1, s1) -> mem_open u2 m2 s1 = (Ok h2, s2) ->
  denotes (view s1) u1 (Found q1) -> denotes (view s2) u2 (Found q2) -> q1 <> q2 ->
  exists start1 mode1 start2 mode2,
    starts m1 (m_now s) (view s q1) start1 mode1 /\ starts m2 (m_now s) (view s q2) start2 mode2 /\
    forall os, exists vs s3 o1 o2, do_both h1 h2 os s2 = (vs, s3) /\
      acts_all (h_readable h1) (h_binary h1) (m_now s) (only true os) start1 (only true vs) o1 /\
      acts_all (h_readable h2) (h_binary h2) (m_now s) (only false os) start2 (only false vs) o2 /\
      view s3 q1 = Some (EFile (o_data o1) (o_mtime o1) mode1) /\
      view s3 q2 = Some (EFile (o_data o2) (o_mtime o2) mode2) /\
      (forall q, q <> q1 -> q <> q2 -> view s3 q = view s q).
Proof.
  intros R N1 N2 H1 H2 D1 D2 Nq. assert (W := reachable_wf s R).
  destruct (open_inv s u1 m1 h1 s1 W N1 H1) as (p1 & f1 & O1 & S1 & R1 & B1 & P1).
  assert (W1 := op_wf _ _ _ _ _ _ O1).
  destruct (open_inv s1 u2 m2 h2 s2 W1 N2 H2) as (p2 & f2 & O2 & S2 & R2 & B2 & P2).
  assert (W2 := op_wf _ _ _ _ _ _ O2).
  assert (p1 = q1) by (eapply denotes_found_det; [exact W1|apply O1|exact D1]). subst p1.
  assert (p2 = q2) by (eapply denotes_found_det; [exact W2|apply O2|exact D2]). subst p2.
  destruct (open_phys s1 u2 m2 h2 s2 W1 H2) as [Mo Nw].
  assert (Ph1 := Mo _ _ (op_phys _ _ _ _ _ _ O1)).
  assert (Nn : h_node h1 <> h_node h2).
  { intros E. apply Nq. eapply phys_inj; [exact W2|exact Ph1|]. rewrite E. apply O2. }
  assert (F1 := open_others s1 u2 m2 h2 s2 W1 H2 _ _ Nn (op_file _ _ _ _ _ _ O1)).
  exists (ofl f1), (f_mode f1), (ofl f2), (f_mode f2). split; [exact S1|].
  rewrite (rest_now _ _ (op_rest _ _ _ _ _ _ O1)) in S2. rewrite (proj2 P1) in S2 by auto. split; [exact S2|]. intros os.
  destruct (both_acts h1 h2 os Nn s2 f1 f2 q1 q2 W2 F1 (op_file _ _ _ _ _ _ O2) Ph1 (op_phys _ _ _ _ _ _ O2))
    as (vs & s3 & g1 & g2 & X1 & X2 & X3 & (_ & M1 & _) & (_ & M2 & _) & X6 & X7 & X8 & X9 & X10).
  assert (T : m_now s2 = m_now s).
  { now rewrite (rest_now _ _ (op_rest _ _ _ _ _ _ O2)), (rest_now _ _ (op_rest _ _ _ _ _ _ O1)). }
  rewrite T in X6, X7. rewrite M1 in X8. rewrite M2 in X9.
  exists vs, s3, (ofl g1), (ofl g2). repeat (split; [assumption|]).
  intros q Q1 Q2. rewrite X10 by auto. rewrite (proj2 P2) by auto. now apply P1.
Qed.
Print Assumptions C76_two_files_partial.
(** A file removed while open is still there for the handle, and nowhere else. *)
Theorem C76_removed s u m hd s1 q v s2 : reachable s -> ~ addr u [] -> mem_open u m s = (Ok hd, s1) ->
  denotes (view s1) u (Found q) -> mem_removefile v s1 = (Ok tt, s2) -> view s2 q = None ->
  exists start mode, starts m (m_now s) (view s q) start mode /\
    forall os, exists vs s3 o, do_hops hd os s2 = (vs, s3) /\
      acts_all (h_readable hd) (h_binary hd) (m_now s) os start vs o /\ same_tree (view s2) (view s3).
Proof.
  intros R NR H D Rm Vn. destruct (open_inv s u m hd s1 (reachable_wf s R) NR H) as (p & f & Op & St & Hr & Hb & Pt).
  assert (W1 := op_wf _ _ _ _ _ _ Op).
  assert (p = q) by (eapply denotes_found_det; [exact W1|apply Op|exact D]). subst p.
  destruct (removefile_entry v s1 _ s2 W1 Rm) as (K & L & Sr).
  exists (ofl f), (f_mode f). split; [exact St|]. intros os.
  destruct (do_hops_acts hd os s2 f (K _ _ (op_file _ _ _ _ _ _ Op))) as (vs & s3 & f' & E & U & _ & A).
  exists vs, s3, (ofl f'). split; [exact E|].
  rewrite (rest_now _ _ Sr), (rest_now _ _ (op_rest _ _ _ _ _ _ Op)) in A. split; [exact A|].
  intros r. rewrite (file_upd_view _ _ _ _ _ _ U). destruct (phys (m_heap s2) root_id r) as [j|] eqn:P.
  - destruct (Nat.eqb_spec j (h_node hd)) as [->|]; auto.
    assert (r = q) by (eapply phys_inj; [exact W1|apply L; exact P|apply Op]). subst r.
    unfold view, tree_of in Vn. now rewrite P in Vn.
  - unfold view, tree_of. now rewrite P.
Qed.
Print Assumptions C76_removed.
Example C76_witness : exists h1 s1 h2 s2, mem_open (U ["d"; "f"]%string) (Some (lit "rb")) demo = (Ok h1, s1) /\
  mem_open (U ["n"]%string) (Some (lit "wb")) s1 = (Ok h2, s2) /\
  fst (do_both h1 h2 [(true, HRead 2); (false, HWrite (VBytes [65]%N)); (true, HRead 3); (false, HTell)] s2) =
    [(true, RVal (VBytes (lit "he"))); (false, RNone); (true, RVal (VBytes (lit "llo"))); (false, RNum 1)] /\
  exists s3, mem_removefile (U ["d"; "f"]%string) s1 = (Ok tt, s3) /\ view s3 (P ["d"; "f"]%string) = None /\
    fst (do_hops h1 [HRead (-1)] s3) = [RVal (VBytes (lit "hello" ++ [10%N] ++ lit "world"))].
Proof.
  do 4 eexists. split; [vm_compute; reflexivity|]. split; [vm_compute; reflexivity|]. split; [vm_compute; reflexivity|].
  eexists. split; [vm_compute; reflexivity|]. split; vm_compute; reflexivity.
Qed.
(** Two handles on the same file share one position: opening the file again takes the first handle back to
    the beginning, and what one handle has read the other does not get. *)
Theorem C76_shared_refuted s u q d mt mo n : reachable s -> denotes (view s) u (Found q) -> view s q = Some (EFile d mt mo) ->
  exists h1 s1 s2 h2 s3 s4, mem_open u (Some (lit "rb")) s = (Ok h1, s1) /\
    do_hop h1 (HRead (Z.of_nat n)) s1 = (RVal (VBytes (firstn n d)), s2) /\
    mem_open u (Some (lit "rb")) s2 = (Ok h2, s3) /\
    do_hops h1 [HRead (Z.of_nat n)] s3 = ([RVal (VBytes (firstn n d))], s4) /\
    fst (do_hops h2 [HRead (-1)] s4) = [RVal (VBytes (skipn n d))].
Proof.
  intros R D V. assert (W := reachable_wf s R).
  destruct (open_read s W u true q d mt mo D V) as (s1 & h1 & f & E1 & Eh & Op & F1 & F2 & F3 & F4 & T).
  destruct (run_read s1 (h_node h1) f (op_file _ _ _ _ _ _ Op) (Z.of_nat n)) as (s2 & R2 & U2).
  assert (W2 : wf s2) by (eapply file_upd_wf; [apply Op|exact U2]).
  assert (D2 : denotes (view s2) u (Found q)) by (eapply denotes_shape; [eapply file_upd_shape; exact U2|apply Op]).
  assert (V2 : view s2 q = Some (EFile d mt mo)).
  { rewrite (proj1 (file_upd_put _ _ _ _ _ _ (op_wf _ _ _ _ _ _ Op) U2 (op_phys _ _ _ _ _ _ Op))). cbn. now rewrite F1, F3, F4. }
  destruct (open_read s2 W2 u true q d mt mo D2 V2) as (s3 & h2 & g & E2 & Eg & Op2 & G1 & G2 & G3 & G4 & _).
  assert (En : h_node h2 = h_node h1).
  { assert (P := op_phys _ _ _ _ _ _ Op2). destruct (open_phys s2 u (Some (lit "rb")) h2 s3 W2 E2) as [Mo _].
    assert (P' := Mo q (h_node h1)). rewrite (file_upd_phys _ _ _ _ _ _ U2) in P'. rewrite P' in P; [congruence|apply Op]. }
  assert (Gf := op_file _ _ _ _ _ _ Op2). rewrite En in Gf.
  destruct (run_read s3 (h_node h1) g Gf (Z.of_nat n)) as (s4 & R4 & U4).
  destruct (run_read s4 (h_node h1) _ (fu_new _ _ _ _ _ U4) (-1)) as (s5 & R5 & U5).
  assert (B : forall data, fst (bio_read data 0 (Z.of_nat n)) = firstn n data).
  { intros data. unfold bio_read. replace (Z.of_nat n <? 0)%Z with false by (symmetry; apply Z.ltb_ge; lia). now rewrite Nat2Z.id. }
  exists h1, s1, s2, h2, s3, s4. split; [exact E1|]. split; [|split; [exact E2|split]].
  - cbn [do_hop]. unfold answer, h_read, bind. rewrite Eh. cbn [h_readable negb h_node]. rewrite R2. cbn [lift proxy_decode h_binary fst snd]. now rewrite F1, F2, B.
  - cbn [do_hops do_hop]. unfold answer, h_read, bind. rewrite Eh. cbn [h_readable negb h_node]. rewrite R4. cbn [lift proxy_decode h_binary fst snd]. now rewrite G1, G2, B.
  - cbn [do_hops do_hop]. unfold answer, h_read, bind. rewrite Eg. cbn [h_readable negb h_node]. rewrite En, R5.
    cbn [lift proxy_decode h_binary fst snd fset f_data f_pos]. f_equal. f_equal. f_equal. rewrite G1, G2.
    unfold bio_read. cbn [Z.ltb Z.compare fst snd]. replace (Z.of_nat n <? 0)%Z with false by (symmetry; apply Z.ltb_ge; lia).
    rewrite Nat2Z.id, Nat.add_0_l, firstn_length. cbn [skipn]. destruct (Nat.le_gt_cases n (length d)) as [L|L].
    + now rewrite Nat.min_l.
    + rewrite Nat.min_r by lia. rewrite skipn_all, skipn_all2; auto. lia.
Qed.
Print Assumptions C76_shared_refuted.
(** A closed handle goes on working, from the beginning of the file. *)
Theorem C76_closed_refuted s u q d mt mo : reachable s -> denotes (view s) u (Found q) -> view s q = Some (EFile d mt mo) ->
  exists hd s1, mem_open u (Some (lit "rb")) s = (Ok hd, s1) /\
    fst (do_hops hd [HClose; HRead (-1); HClose; HRead (-1)] s1) = [RNone; RVal (VBytes d); RNone; RVal (VBytes d)].
Proof.
  intros R D V. destruct (open_read s (reachable_wf s R) u true q d mt mo D V) as (s1 & h1 & f & E1 & Eh & Op & F1 & F2 & F3 & F4 & T).
  exists h1, s1. split; [exact E1|]. rewrite Eh. assert (E := op_file _ _ _ _ _ _ Op).
  cbn [do_hops do_hop]. unfold answer, h_close, h_read. cbn [h_readable negb h_node].
  destruct (run_close s1 _ f E) as (s2 & K2 & U2). rewrite K2. cbn [fst snd]. unfold bind.
  destruct (run_read s2 _ _ (fu_new _ _ _ _ _ U2) (-1)) as (s3 & K3 & U3). rewrite K3. cbn [lift proxy_decode h_binary fst snd].
  destruct (run_close s3 _ _ (fu_new _ _ _ _ _ U3)) as (s4 & K4 & U4). rewrite K4. cbn [fst snd].
  destruct (run_read s4 _ _ (fu_new _ _ _ _ _ U4) (-1)) as (s5 & K5 & U5). rewrite K5. cbn [lift proxy_decode h_binary fst snd].
  cbn. now rewrite F1.
Qed.
Print Assumptions C76_closed_refuted.
(** A handle opened for reading writes, one opened for writing reads lines. *)
Theorem C76_mode_refuted :
  (exists hd s1 s2, mem_open (U ["d"; "f"]%string) (Some (lit "rb")) demo = (Ok hd, s1) /\
     do_hops hd [HWrite (VBytes (lit "J"))] s1 = ([RNone], s2) /\
     view s2 (P ["d"; "f"]%string) = Some (EFile (lit "Jello" ++ [10%N] ++ lit "world") 7 420)) /\
  (exists hd s1, mem_open (U ["d"; "f"]%string) (Some (lit "ab")) demo = (Ok hd, s1) /\
     fst (do_hops hd [HRead (-1); HSeek 6 0; HReadline] s1) = [RErr (OSError EBADF); RNone; RVal (VBytes (lit "world"))]).
Proof.
  split.
  - do 3 eexists. split; [vm_compute; reflexivity|]. split; vm_compute; reflexivity.
  - do 2 eexists. split; vm_compute; reflexivity.
Qed.
Print Assumptions C76_mode_refuted.

(** ** C77 times of modification *)
Theorem C77_mtime s u q e : reachable s -> denotes (view s) u (Found q) -> view s q = Some e ->
  mem_mtime u s = (Ok (e_mtime e), s) /\
  exists b, mem_info u true s = (Ok b, s) /\ i_mtime b = e_mtime e.
Proof.
  intros R D V. assert (W := reachable_wf s R). split; [now apply (mtime_spec s W u q e)|].
  rewrite (info_spec s W u true q e (ea_follow _ _ _ D) V). eauto.
Qed.
Print Assumptions C77_mtime.
(** Setting it changes nothing else; copystat copies it together with the mode bits. *)
Theorem C77_set s u q e t : reachable s -> denotes (view s) u (Found q) -> view s q = Some e ->
  exists s', mem_manip_mtime u t s = (Ok tt, s') /\ put_at (view s) (view s') q (with_attrs e t (e_mode e)) /\ same_rest s s' /\
    mem_mtime u s' = (Ok t, s').
Proof.
  intros R D V. assert (W := reachable_wf s R).
  destruct (set_info_spec s W u true q e None (Some t) (ea_follow _ _ _ D) V) as (s' & E & W' & Sr & Pt).
  exists s'. split; [|split; [exact Pt|split; [exact Sr|]]].
  - rewrite <- E. unfold mem_manip_mtime, mem_set_info, bind. destruct (lookup_node u true s) as [[i|] s0]; reflexivity.
  - rewrite (mtime_spec s' W' u q (with_attrs e t (e_mode e))).
    + now rewrite with_attrs_mtime.
    + eapply denotes_shape; [|exact D]. eapply put_same_shape; [exact Pt|exact V|apply same_kind_attrs].
    + apply Pt.
Qed.
Print Assumptions C77_set.
Theorem C77_copystat s u v q r e e' : reachable s -> denotes (view s) u (Found q) -> denotes (view s) v (Found r) ->
  view s q = Some e -> view s r = Some e' ->
  exists s', mem_copystat u v s = (Ok tt, s') /\ put_at (view s) (view s') r (with_attrs e' (e_mtime e) (e_mode e)) /\ same_rest s s'.
Proof.
  intros R D D' V V'. destruct (copystat_spec s (reachable_wf s R) u v q r e e' D D' V V') as (s' & E & _ & Sr & Pt). eauto.
Qed.
Print Assumptions C77_copystat.
Theorem C77_failure s u v cs o : reachable s -> addr u cs -> leads (view s) cs o -> (forall q, o <> Found q) ->
  mem_mtime u s = (Raise (err_of o), s) /\ (forall t, mem_manip_mtime u t s = (Raise (err_of o), s)) /\
  mem_copystat u v s = (Raise (err_of o), s) /\
  (forall q, denotes (view s) v (Found q) -> mem_copystat v u s = (Raise (err_of o), s)).
Proof.
  intros R A L N. assert (W := reachable_wf s R). assert (X := run_lookup_fail s W u cs o A L N).
  unfold mem_mtime, mem_manip_mtime, mem_copystat, bind. rewrite X. repeat (split; [now intros|]).
  intros q (cs' & A' & L'). destruct (run_lookup_found s W v cs' q A' L') as (i & _ & Y & _). now rewrite Y, X.
Qed.
Print Assumptions C77_failure.
(** Writing sets it to the present. *)
Theorem C77_write s u m hd s1 os x : reachable s -> ~ addr u [] -> mem_open u m s = (Ok hd, s1) ->
  (exists d, stored (h_binary hd) x d) ->
  let s2 := snd (do_hops hd (os ++ [HWrite x]) s1) in mem_mtime u s2 = (Ok (m_now s), s2).
Proof.
  intros R NR H (dx & Sx). destruct (open_inv s u m hd s1 (reachable_wf s R) NR H) as (q & f & Op & _ & _ & _ & _).
  destruct (do_hops_acts hd (os ++ [HWrite x]) s1 f (op_file _ _ _ _ _ _ Op)) as (vs & s2 & f' & D & U & _ & A).
  cbv zeta. rewrite D. cbn [snd].
  assert (T : f_mtime f' = m_now s1).
  { change (f_mtime f') with (o_mtime (ofl f')). clear D U. revert A. generalize (ofl f), (ofl f'), vs. induction os as [|o os IH]; intros a b ws A; cbn [app] in A.
    - cbn in A. inversion A as [|? ? ? ? ? ? ? B C]; subst. inversion C; subst. inversion B; subst; auto.
      exfalso. eapply stored_unstorable; eauto.
    - cbn in A. inversion A; subst. eapply IH; eauto. }
  rewrite (mtime_spec s2 (file_upd_wf _ _ _ _ _ (op_wf _ _ _ _ _ _ Op) U) u q (EFile (f_data f') (f_mtime f') (f_mode f'))).
  - cbn. now rewrite T, (rest_now _ _ (op_rest _ _ _ _ _ _ Op)).
  - eapply denotes_shape; [eapply file_upd_shape; exact U|apply Op].
  - apply (file_upd_put _ _ _ _ _ q (op_wf _ _ _ _ _ _ Op) U (op_phys _ _ _ _ _ _ Op)).
Qed.
Print Assumptions C77_write.
Example C77_witness : denotes (view demo) (U ["d"; "f"]%string) (Found (P ["d"; "f"]%string)) /\
  fst (mem_mtime (U ["d"; "f"]%string) demo) = Ok 99%Z /\ fst (mem_mtime (U ["l"; "f"]%string) demo) = Ok 99%Z /\
  fst (mem_mtime (U ["d"]%string) (snd (mem_copystat (U ["l"; "f"]%string) (U ["d"]%string) demo))) = Ok 99%Z.
Proof. split; [apply demo_denotes; [good|efile]|]. vm_compute. auto. Qed.
(** Truncating a file does not count as a modification, and new or removed entries do not touch their directory. *)
Theorem C77_refuted :
  (exists hd s1 s2, mem_open (U ["d"; "f"]%string) (Some (lit "rb")) demo = (Ok hd, s1) /\
     do_hops hd [HTruncate (Some 1%Z)] s1 = ([RNum 1], s2) /\ m_now s2 = 7%Z /\
     view s2 (P ["d"; "f"]%string) = Some (EFile (lit "h") 99 420)) /\
  (exists s1, mem_removefile (U ["d"; "f"]%string) demo = (Ok tt, s1) /\ m_now s1 = 7%Z /\
     view demo (P ["d"]%string) = Some (EDir 5 0) /\ view s1 (P ["d"]%string) = Some (EDir 5 0)) /\
  (exists s1, mem_mkdir (U ["d"; "new"]%string) demo = (Ok tt, s1) /\ view s1 (P ["d"]%string) = Some (EDir 5 0)).
Proof.
  split; [|split].
  - do 3 eexists. split; [vm_compute; reflexivity|]. split; [vm_compute; reflexivity|]. split; vm_compute; reflexivity.
  - eexists. split; [vm_compute; reflexivity|]. repeat split; vm_compute; reflexivity.
  - eexists. split; vm_compute; reflexivity.
Qed.
Print Assumptions C77_refuted.
