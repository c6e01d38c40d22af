(** Properties C89 and C90: what has happened before does not show except in the tree, on the memory backend and on
    local files.  Prog.v and LocProg.v say what a program is. *)
From Coq Require Import Permutation.
From Verif Require Import Str Exc Utf8 UriParse BaseUri StrFacts SpecUri Mem SpecMem MemOps Generic SpecGen Fnmatch UriOps Prog.
From Verif Require Import MemFacts MemFacts2 MemFacts9 MemUri GenFacts10 Enum PropsMem PropsGeneric Resp MemTwin.
From Verif Require Import Posix Local SpecLocal LocProg LocTwin PropsLocal2 PropsLocal3.
Local Open Scope string_scope.
Local Open Scope list_scope.

(** ** C89 *)
(** Whatever program: started in two states with the same tree, time and callbacks it gets the same answers, ends
    with the same value, and leaves the same tree. *)
Theorem C89_no_program_tells {X} (p : prog X) s1 s2 : reachable s1 -> reachable s2 -> same_tree (view s1) (view s2) -> m_now s1 = m_now s2 ->
  (forall q, callback_at s1 q = callback_at s2 q) ->
  fst (run p (s1, [])) = fst (run p (s2, [])) /\ same_tree (view (fst (snd (run p (s1, []))))) (view (fst (snd (run p (s2, []))))).
Proof.
  intros R1 R2 T N C. assert (S : srel (s1, []) (s2, [])).
  { split; [constructor|]. cbn. constructor; auto using reachable_wf; [intros w []|intros w w' []]. }
  destruct (run_rel p _ _ S) as [E1 E2]. split; [exact E1|]. apply E2.
Qed.
(** Two histories with one tree: /a/f and /b, made in another order, by way of /c that is gone, with other writes. *)
Definition hist1 : mst := run_ops
  [OpMkdir (U ["a"]); OpOpen (U ["a"; "f"]) (Some (lit "wb")); OpWrite (mkHandle 2 false true) (VBytes (lit "xy")); OpMkdir (U ["b"])] (init_mem 5 0).
Definition hist2 : mst := run_ops
  [OpMkdir (U ["c"]); OpMkdir (U ["b"]); OpMkdir (U ["a"]); OpOpen (U ["a"; "f"]) (Some (lit "wb")); OpWrite (mkHandle 4 false true) (VBytes (lit "x"));
   OpEpoch; OpWrite (mkHandle 4 false true) (VBytes (lit "y")); OpSeek (mkHandle 4 false true) 1 0; OpRemovedir (U ["c"])] (init_mem 5 0).
Example C89_witness : reachable hist1 /\ reachable hist2 /\ same_tree (view hist1) (view hist2) /\ m_now hist1 = m_now hist2 /\
  (forall q, callback_at hist1 q = callback_at hist2 q) /\ m_next hist1 <> m_next hist2 /\ m_heap hist1 <> m_heap hist2.
Proof.
  assert (R1 : reachable hist1) by (eexists _, _, _; reflexivity). assert (R2 : reachable hist2) by (eexists _, _, _; reflexivity).
  split; [exact R1|]. split; [exact R2|]. split.
  - intros p. destruct (view hist1 p) as [e|] eqn:E.
    + rewrite <- E. apply (at_places hist1 (fun p => view hist2 p = view hist1 p)); [now apply reachable_wf| |now rewrite E].
      assert (X : places hist1 = [[]; P ["a"]; P ["a"; "f"]; P ["b"]]) by (vm_compute; reflexivity). rewrite X. repeat constructor; vm_compute; reflexivity.
    + destruct (view hist2 p) as [e|] eqn:E2; [|reflexivity]. exfalso. revert E. apply (at_places hist2 (fun p => view hist1 p <> None)); [now apply reachable_wf| |now rewrite E2].
      assert (X : places hist2 = [[]; P ["b"]; P ["a"]; P ["a"; "f"]]) by (vm_compute; reflexivity). rewrite X. repeat constructor; vm_compute; discriminate.
  - split; [vm_compute; reflexivity|]. split; [intros q; vm_compute; reflexivity|]. split; [vm_compute; discriminate|].
    intros E. apply (f_equal (fun h => h 1%nat)) in E. vm_compute in E. discriminate.
Qed.
(** A program that looks around, follows what it finds, and writes: it opens the first file of the first directory
    for appending, removes it while it is open, writes, and reads another one. *)
Definition nosy : prog (list (res answer)) :=
  Call (CUri 10 (UListdir (U []))) (fun r1 =>
  Call (COpen (U ["a"; "f"]) (Some (lit "ab"))) (fun r2 =>
  Call (CUri 10 (UMove (U ["a"]) (U ["b"]))) (fun r3 =>
  Call (CWrite 0 (VBytes (lit "z"))) (fun r4 =>
  Call (CTell 0) (fun r5 =>
  Call (COpen (U ["b"; "a"; "f"]) None) (fun r6 =>
  Call (CReadline 1) (fun r7 =>
  Call (CUri 10 (UWalk true true (U []))) (fun r8 => Done [r1; r2; r3; r4; r5; r6; r7; r8])))))))).
Example C89_nosy : fst (run nosy (hist1, [])) = fst (run nosy (hist2, [])) /\
  firstn 7 (fst (run nosy (hist1, []))) = [Ok (ANames [lit "a"; lit "b"]); Ok AUnit; Ok AUnit; Ok AUnit; Ok (ANat 3); Ok AUnit; Ok (AVal (VStr (lit "xy")))].
Proof. split; vm_compute; reflexivity. Qed.
Print Assumptions C89_no_program_tells.

(** ** C90 *)
Lemma shuffled_sound x y : sound x -> shuffled x y -> sound y.
Proof.
  intros So Sh. pose proof (sh_perm _ _ Sh) as P. assert (N : NoDup (map fst (p_tree y))) by (apply (Permutation_NoDup (l := map fst (p_tree x))); [apply Permutation_map, P|apply So]).
  assert (G : forall p, pget p (p_tree x) = pget p (p_tree y)) by (apply perm_get; [apply So|exact N|exact P]).
  constructor; [|intros p n|exact N]; rewrite <- !G; apply So.
Qed.
(** Whatever program on local files: the order in which the operating system keeps the entries of directories changes
    no answer, no exception and nothing of the result. *)
Theorem C90_order_does_not_show {X} (p : lprog X) x y : sound x -> Permutation (p_tree x) (p_tree y) -> p_cwd x = p_cwd y -> p_now x = p_now y ->
  p_umask x = p_umask y ->
  fst (lrun p x) = fst (lrun p y) /\ forall q, pget q (p_tree (snd (lrun p x))) = pget q (p_tree (snd (lrun p y))).
Proof.
  intros So P C N U. assert (Sh : shuffled x y) by now constructor.
  assert (E : peq x y) by (constructor; [exact So|now apply (shuffled_sound x)|exact Sh]).
  destruct (lrun_rel p x y E) as [E1 E2]. split; [exact E1|]. intros q. now apply peq_get.
Qed.
(** What two systems list in different order *)
Definition loc1_back : pst := mkP (rev (p_tree loc1)) (p_cwd loc1) (p_now loc1) (p_umask loc1).
Example C90_witness : sound loc1 /\ Permutation (p_tree loc1) (p_tree loc1_back) /\ fst (os_listdir (lit "/") loc1) <> fst (os_listdir (lit "/") loc1_back) /\
  fst (lask (LListdir (FU [])) loc1) = fst (lask (LListdir (FU [])) loc1_back).
Proof. split; [apply loc1_sound|]. split; [apply Permutation_rev|]. split; vm_compute; [discriminate|reflexivity]. Qed.
(** A program that acts on the first name it finds *)
Definition lnosy : lprog (list (res lanswer)) :=
  LCall (LListdir (FU [])) (fun r1 =>
  LCall (LCopy 10 true [] true match r1 with Ok (LNames (n :: _)) => match u_div (FU []) n with Ok u => u | _ => FU ["b"] end | _ => FU ["b"] end (FU ["new"])) (fun r2 =>
  LCall (LWalk 10 true true (FU [])) (fun r3 => LDone [r1; r2; r3]))).
Example C90_lnosy : fst (lrun lnosy loc1) = fst (lrun lnosy loc1_back) /\ nth_error (fst (lrun lnosy loc1)) 1 = Some (Ok LUnit).
Proof. split; vm_compute; reflexivity. Qed.
Print Assumptions C90_order_does_not_show.
