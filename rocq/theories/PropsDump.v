(** Property C78: MemoryFileSystem.dump. *)
From Verif Require Import Str Exc Utf8 UriParse BaseUri StrFacts Utf8Facts SpecUri Mem SpecMem SpecHandle SpecDump Dump MemOps
  MemFacts MemFacts4 MemFacts7 MemFacts9 MemFacts11 HandleFacts DumpFacts PropsMem.
From Coq Require Import Sorted.

Definition content_of (t : tree) (p : list str) : list N := match t p with Some (EFile d _ _) => d | _ => [] end.

(** Whatever the positions of the files are: every entry is written once, in order, files from their position
    on; afterwards the tree is unchanged, and all positions are at the end. *)
Theorem C78_positions image nb s o : reachable s ->
  (forall p, is_efile (view s p) -> exists text, utf8_encode text = Ok (left_of s p)) ->
  (forall p tg mt mo, view s p = Some (ELink tg mt mo) -> exists x, u_str tg = Ok x) ->
  (forall p n, nb = true -> is_efile (view s (p ++ [n])) -> image n = false) ->
  exists s' o2, mem_dump image nb (s, o) = (Ok tt, (s', o ++ lit "MEMORY DUMP: START" ++ [cNL] ++ o2 ++ lit "MEMORY DUMP: END" ++ [cNL])) /\
    listing (view s) (left_of s) [] o2 /\ same_tree (view s) (view s') /\ same_rest s s' /\ (forall p, left_of s' p = []).
Proof.
  intros R A B C. destruct (dump_run image nb s o (reachable_wf s R)) as (s' & o2 & D & L & K & E); auto.
  - intros p. split; auto. apply B.
  - exists s', o2. repeat (split; [assumption||apply K|]). exact E.
Qed.
Print Assumptions C78_positions.
(** Partial: if all positions are at the beginning, the contents are text and no image is to be left out, then
    the contents are written. *)
Theorem C78_dump_partial image nb s o : reachable s ->
  (forall p, left_of s p = content_of (view s) p) ->
  (forall p d mt mo, view s p = Some (EFile d mt mo) -> exists text, utf8_encode text = Ok d) ->
  (forall p tg mt mo, view s p = Some (ELink tg mt mo) -> exists x, u_str tg = Ok x) ->
  (forall p n, nb = true -> is_efile (view s (p ++ [n])) -> image n = false) ->
  exists s' o2, mem_dump image nb (s, o) = (Ok tt, (s', o ++ lit "MEMORY DUMP: START" ++ [cNL] ++ o2 ++ lit "MEMORY DUMP: END" ++ [cNL])) /\
    listing (view s) (content_of (view s)) [] o2 /\ same_tree (view s) (view s').
Proof.
  intros R P A B C. destruct (C78_positions image nb s o R) as (s' & o2 & D & L & K & E); auto.
  - intros p (d & mt & mo & V). rewrite P. unfold content_of. rewrite V. eauto.
  - exists s', o2. split; [exact D|]. split; [|exact K]. inversion L; subst. econstructor; eauto. eapply pieces_ext; eauto.
Qed.
Print Assumptions C78_dump_partial.
(** There is only one such text. *)
Lemma listing_det t left d o o' : listing t left d o -> listing t left d o' -> o = o'.
Proof.
  intros H. revert d o H o'.
  apply (listing_mut t left (fun p o => forall o', piece t left p o' -> o = o')
    (fun d o => forall o', listing t left d o' -> o = o') (fun d ns o => forall o', pieces t left d ns o' -> o = o')).
  - intros p d mt mo text V E o' H. inversion H; subst; try congruence. apply utf8_roundtrip in E.
    match goal with K : utf8_encode _ = _ |- _ => apply utf8_roundtrip in K; rewrite E in K; now injection K as -> end.
  - intros p tg mt mo x V E o' H. inversion H; subst; try congruence.
  - intros p mt mo o V L IH o' H. inversion H; subst; try congruence. do 3 f_equal. now apply IH.
  - intros d names o S M P IH o' H. inversion H as [? names' ? S' M' P']; subst. apply IH. replace names with names'; auto.
    apply sorted_ext; auto. intros n. now rewrite M', M.
  - intros d o' H. now inversion H.
  - intros d n ns o os P IH Q IHq o' H. inversion H; subst. f_equal; auto.
Qed.
Theorem C78_determined t left o o' : listing t left [] o -> listing t left [] o' -> o = o'.
Proof. apply listing_det. Qed.
Print Assumptions C78_determined.

(** All files closed. *)
Definition closed_demo : mst := snd (h_close (mkHandle 2 true true) demo).
Definition no_image (n : str) : bool := false.
Example C78_witness :
  snd (snd (mem_dump no_image false (closed_demo, []))) =
  lit "MEMORY DUMP: START" ++ [cNL] ++
  lit "DIR: memory:///d" ++ [cNL] ++
  lit "DIR: memory:///d/e" ++ [cNL] ++
  lit "--- START memory:///d/f ---" ++ [cNL] ++ lit "hello" ++ [cNL] ++ lit "world" ++ [cNL] ++ lit "--- END ---" ++ [cNL; cNL] ++
  lit "LINK: memory:///dead -> memory:///nowhere" ++ [cNL] ++
  lit "--- START memory:///e ---" ++ [cNL; cNL] ++ lit "--- END ---" ++ [cNL; cNL] ++
  lit "LINK: memory:///l -> memory:///d" ++ [cNL] ++
  lit "LINK: memory:///lf -> memory:///d/f/x" ++ [cNL] ++
  lit "LINK: memory:///loop -> memory:///loop" ++ [cNL] ++
  lit "MEMORY DUMP: END" ++ [cNL] /\
  left_of closed_demo (P ["d"; "f"]%string) = content_of (view closed_demo) (P ["d"; "f"]%string).
Proof. split; vm_compute; reflexivity. Qed.
(** A second dump shows every file empty, in every state whose first dump succeeds as above. *)
Theorem C78_twice_refuted image nb s o : reachable s ->
  (forall p, is_efile (view s p) -> exists text, utf8_encode text = Ok (left_of s p)) ->
  (forall p tg mt mo, view s p = Some (ELink tg mt mo) -> exists x, u_str tg = Ok x) ->
  (forall p n, nb = true -> is_efile (view s (p ++ [n])) -> image n = false) ->
  exists s' s'' o1 o2, mem_dump image nb (s, o) = (Ok tt, (s', o1)) /\
    mem_dump image nb (s', []) = (Ok tt, (s'', lit "MEMORY DUMP: START" ++ [cNL] ++ o2 ++ lit "MEMORY DUMP: END" ++ [cNL])) /\
    listing (view s) (fun _ => []) [] o2.
Proof.
  intros R A B C. destruct (dump_run image nb s o (reachable_wf s R)) as (s' & o2 & D & L & K & E); auto.
  { intros p. split; auto. apply B. }
  destruct (dump_run image nb s' [] (ke_wf _ _ K)) as (s2 & o3 & D2 & L2 & _).
  - intros p. unfold readable_at. rewrite (ke_tree _ _ K), E. split; [|apply B]. intros _. exists []. reflexivity.
  - intros p n. rewrite (ke_tree _ _ K). apply C.
  - exists s', s2. do 2 eexists. split; [exact D|]. split; [exact D2|]. inversion L2; subst. econstructor.
    + eassumption.
    + intros n. rewrite <- (ke_tree _ _ K). auto.
    + eapply pieces_ext; [eassumption| |]; intros; [symmetry; apply (ke_tree _ _ K)|symmetry; apply E].
Qed.
Print Assumptions C78_twice_refuted.
(** What was just written is not shown; a binary file makes the dump raise, after a part of it is written; so
    does an image with no_binary. *)
Theorem C78_refuted :
  view demo (P ["d"; "f"]%string) = Some (EFile (lit "hello" ++ [10%N] ++ lit "world") 99 420) /\
  left_of demo (P ["d"; "f"]%string) = [] /\
  (exists hd s1 s2, mem_open (U ["d"; "f"]%string) (Some (lit "wb")) demo = (Ok hd, s1) /\
     do_hops hd [HWrite (VBytes [255]%N); HClose] s1 = ([RNone; RNone], s2) /\
     fst (mem_dump no_image false (s2, [])) = Raise UnicodeDecodeError) /\
  fst (mem_dump (fun n => str_eqb n (lit "f")) true (closed_demo, [])) = Raise TypeError.
Proof.
  split; [vm_compute; reflexivity|]. split; [vm_compute; reflexivity|]. split; [|vm_compute; reflexivity].
  do 3 eexists. split; [vm_compute; reflexivity|]. split; vm_compute; reflexivity.
Qed.
Print Assumptions C78_refuted.
