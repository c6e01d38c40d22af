(** C159: parts of one memory file system that no link connects do not affect each other. *)
From Coq Require Import Lia.
From Verif Require Import Str Exc StrFacts Utf8 UriParse BaseUri Mem SpecUri SpecMem MemFacts MemFacts9 MemOps Generic UriOps Prog SpecApart ApartFacts ApartFacts2 ApartFacts3 ApartFacts4 ApartFacts5 ApartFacts6 ApartFacts7 ApartFacts8 GenFacts10 PropsMem.

(** [K] and [L] are sets of names at the top of the file system.  [enclosed K t]: below the names of [K] no link leads
    out of them, and the names are ones a URI can carry as they are.  [view s [[]] = None]: no entry with an empty name at
    the top. *)

(** ** A call with URIs of a part sees that part only *)
Theorem C159_own K c s s' : top_names K -> doing_in K c -> u_reachable s -> u_reachable s' -> enclosed K (view s) -> view s [[]] = None -> view s' [[]] = None ->
  same_part K s s' ->
  fst (do_it c s') = fst (do_it c s) /\ same_part K (snd (do_it c s)) (snd (do_it c s')) /\ enclosed K (view (snd (do_it c s))) /\ view (snd (do_it c s)) [[]] = None.
Proof.
  intros T M R R' E B B' S. apply u_reachable_iff in R, R'. apply reachable_wf in R, R'. assert (H : housed K s) by (constructor; auto).
  assert (H' : housed K s') by (constructor; auto; exact (enclosed_same K _ _ (sm_tree _ _ _ S) E)).
  destruct (own_step K T c s s' M H H' S) as (A1 & A2 & [_ A3 A4] & _). auto.
Qed.
(** ** ... and leaves everything else as it is *)
Theorem C159_rest K c s : top_names K -> doing_in K c -> u_reachable s -> enclosed K (view s) -> view s [[]] = None ->
  (forall d p, K d = false -> view (snd (do_it c s)) (d :: p) = view s (d :: p)) /\ m_now (snd (do_it c s)) = m_now s /\
  (forall p, K (hd [] (split_on cSlash p)) = false -> callback_at (snd (do_it c s)) p = callback_at s p).
Proof. intros T M R E B. apply u_reachable_iff in R. apply reachable_wf in R. apply leaves_rest; auto. now constructor. Qed.
(** ** Two parties, each with its part: what one does in between changes no answer the other gets, and nothing in the
    other's part *)
Theorem C159_together K L es s s' : top_names K -> top_names L -> disjoint K L -> Forall (event_in K L) es -> u_reachable s -> u_reachable s' ->
  enclosed K (view s) -> enclosed L (view s) -> view s [[]] = None -> view s' [[]] = None -> same_part K s s' ->
  fst (happen es s) = fst (happen (own_only es) s') /\ same_part K (snd (happen es s)) (snd (happen (own_only es) s')).
Proof.
  intros TK TL D F R R' EK EL B B' S. apply u_reachable_iff in R, R'. apply reachable_wf in R, R'.
  destruct (together K L es TK TL D F s s') as (A1 & A2 & _); auto; try (now constructor).
  constructor; auto. exact (enclosed_same K _ _ (sm_tree _ _ _ S) EK).
Qed.
(** ** Two calls, one of each party, in either order: the same answers, and the same file system (the attributes of the
    root, which are no part of either, left aside) *)
Theorem C159_order K L c d s : top_names K -> top_names L -> disjoint K L -> doing_in K c -> doing_in L d -> u_reachable s ->
  enclosed K (view s) -> enclosed L (view s) -> view s [[]] = None ->
  let s1 := snd (do_it c s) in let s2 := snd (do_it d s) in
  fst (do_it c s2) = fst (do_it c s) /\ fst (do_it d s1) = fst (do_it d s) /\
  (forall n p, view (snd (do_it c s2)) (n :: p) = view (snd (do_it d s1)) (n :: p)) /\
  (forall p, callback_at (snd (do_it c s2)) p = callback_at (snd (do_it d s1)) p) /\ m_now (snd (do_it c s2)) = m_now (snd (do_it d s1)).
Proof.
  intros TK TL D Mc Md R EK EL B s1 s2. apply u_reachable_iff in R. apply reachable_wf in R. assert (HK : housed K s) by now constructor. assert (HL : housed L s) by now constructor.
  pose proof (disjoint_sym K L D) as D'. pose proof (other_step K L d s TL D Md HL) as SK. pose proof (other_step L K c s TK D' Mc HK) as SL. fold s2 in SK. fold s1 in SL.
  destruct (own_step L TL d s s Md HL HL (same_part_refl L s)) as (_ & _ & [W2 EL2 B2] & _). destruct (own_step K TK c s s Mc HK HK (same_part_refl K s)) as (_ & _ & [W1 EK1 B1] & _). fold s1 in W1, EK1, B1. fold s2 in W2, EL2, B2.
  assert (HK2 : housed K s2) by (constructor; auto; exact (enclosed_same K _ _ (sm_tree _ _ _ SK) EK)). assert (HL1 : housed L s1) by (constructor; auto; exact (enclosed_same L _ _ (sm_tree _ _ _ SL) EL)).
  destruct (own_step K TK c s s2 Mc HK HK2 SK) as (A1 & A2 & _). destruct (own_step L TL d s s1 Md HL HL1 SL) as (A3 & A4 & _). fold s1 in A2. fold s2 in A4.
  destruct (leaves_rest K TK c s2 Mc HK2) as (F1 & F2 & F3). destruct (leaves_rest L TL d s1 Md HL1) as (G1 & G2 & G3). destruct (leaves_rest K TK c s Mc HK) as (F4 & F5 & F6). destruct (leaves_rest L TL d s Md HL) as (G4 & G5 & G6).
  fold s1 in F4, F5, F6. fold s2 in G4, G5, G6. split; [exact A1|]. split; [exact A3|]. split; [|split].
  - intros n p. destruct (K n) eqn:Kn.
    + rewrite (sm_tree _ _ _ A2 n p Kn). symmetry. apply G1. now apply D.
    + rewrite (F1 n p Kn). destruct (L n) eqn:Ln; [symmetry; now apply (sm_tree _ _ _ A4)|]. now rewrite (G1 n p Ln), (F4 n p Kn), (G4 n p Ln).
  - intros p. destruct (K (hd [] (split_on cSlash p))) eqn:Kn.
    + rewrite (sm_cbs _ _ _ A2 p) by now right. symmetry. apply G3. now apply D.
    + rewrite (F3 p Kn). destruct (L (hd [] (split_on cSlash p))) eqn:Ln; [symmetry; apply (sm_cbs _ _ _ A4); now right|]. now rewrite (G3 p Ln), (F6 p Kn), (G6 p Ln).
  - now rewrite F2, G2, G5, F5.
Qed.
(** ** The other party may also act in the middle of a call, between any two operations of the file system the method is
    made of ([shared], SpecApart.v) *)
Definition undisturbed (K L : str -> bool) {A} (m1 : M (mst * list (list doing)) A) (m2 : M mst A) : Prop :=
  forall s ns s', u_reachable s -> u_reachable s' -> enclosed K (view s) -> enclosed L (view s) -> view s [[]] = None -> view s' [[]] = None ->
    Forall (Forall (doing_in L)) ns -> same_part K s s' ->
    fst (m1 (s, ns)) = fst (m2 s') /\ same_part K (fst (snd (m1 (s, ns)))) (snd (m2 s')).
Lemma shares_undisturbed K L {A} (Q : A -> Prop) m1 m2 : Pair.both (shares K L) Q m1 m2 -> undisturbed K L m1 m2.
Proof.
  intros H s ns s' R R' EK EL B B' F S. apply u_reachable_iff in R, R'. apply reachable_wf in R, R'. destruct (H (s, ns) s') as (A1 & (_ & _ & _ & _ & A2) & _); [|auto].
  split; [now constructor|]. split; [now constructor|]. split; [exact F|]. split; [|exact S]. constructor; auto. exact (enclosed_same K _ _ (sm_tree _ _ _ S) EK).
Qed.
Theorem C159_during K L : top_names K -> top_names L -> disjoint K L ->
  (forall fuel r ig fl u v, mine K u -> mine K v -> undisturbed K L (u_copy shared fuel r ig fl u v) (u_copy mem_backend fuel r ig fl u v)) /\
  (forall fuel u v, mine K u -> mine K v -> undisturbed K L (u_move shared fuel u v) (u_move mem_backend fuel u v)) /\
  (forall fuel r u, mine K u -> undisturbed K L (u_remove shared fuel r u) (u_remove mem_backend fuel r u)) /\
  (forall fuel u, mine K u -> undisturbed K L (u_makedirs shared fuel u) (u_makedirs mem_backend fuel u)) /\
  (forall fuel td fl u, mine K u -> undisturbed K L (u_walk shared fuel td fl u) (u_walk mem_backend fuel td fl u)) /\
  (forall u pat, mine K u -> undisturbed K L (u_glob shared Fnmatch.fnmatch u pat) (u_glob mem_backend Fnmatch.fnmatch u pat)).
Proof.
  intros TK TL D. split; [|split; [|split; [|split; [|split]]]]; intros.
  - apply (shares_undisturbed K L Pair.any). now apply shared_copy.
  - apply (shares_undisturbed K L Pair.any). now apply shared_move.
  - apply (shares_undisturbed K L Pair.any). now apply shared_remove.
  - apply (shares_undisturbed K L Pair.any). now apply shared_makedirs.
  - apply (shares_undisturbed K L Pair.any). now apply shared_walk.
  - apply (shares_undisturbed K L Pair.any). now apply shared_glob.
Qed.
(** ** Links that lead out, and queries, are left out for a reason *)
Definition uri_at (t : str) : uri := match URI t cSlash [] with Ok u => u | Raise _ => root_uri end.
Definition ua (t : String.string) : uri := uri_at (lit ("memory://" ++ t)%string).
Definition start_mem : mst := init_mem 0 0.
Definition after (cs : list doing) : mst := fold_left (fun s c => snd (do_it c s)) cs start_mem.
Definition bytes_of (t : String.string) : pyval := VBytes (lit t).
Definition wb := Some (lit "wb").
(** With a link below /a to /b, what is written below /a is found below /b. *)
Theorem C159_link_needed : exists s c, s = after [DUri 9 (UMkdir (ua "/a")); DUri 9 (UMkdir (ua "/b")); DUri 9 (USymlink (ua "/b") (ua "/a/l"))] /\
  c = DPut (ua "/a/l/f") wb [bytes_of "x"] /\ fst (do_it c s) = Ok AUnit /\
  view s [lit "b"; lit "f"] = None /\ view (snd (do_it c s)) [lit "b"; lit "f"] = Some (EFile (lit "x") 0 0).
Proof. eexists _, _. repeat (split; [reflexivity|]). vm_compute. repeat split. Qed.
(** remove() takes the name from the text of the URI: with a query, another file than the one asked for goes. *)
Theorem C159_query_needed : exists s c, s = after [DPut (ua "/a") wb [bytes_of "x"]; DPut (ua "/b") wb [bytes_of "y"]] /\
  c = DUri 9 (URemove false (ua "/a?x=/b")) /\ fst (do_it c s) = Ok AUnit /\
  view s [lit "b"] = Some (EFile (lit "y") 0 0) /\ view (snd (do_it c s)) [lit "b"] = None /\ view (snd (do_it c s)) [lit "a"] = Some (EFile (lit "x") 0 0).
Proof. eexists _, _. repeat (split; [reflexivity|]). vm_compute. repeat split. Qed.

(** ** A case of all four *)
Lemma contains_not w t : contains w t = false -> forall x y, t <> x ++ w ++ y. Proof. intros H. now apply PropsMem.not_contains. Qed.
Definition one (n : String.string) : str -> bool := str_eqb (lit n).
Lemma one_top n c r : lit n = c :: r -> c <> cDot -> ~ In cSlash (lit n) -> top_names (one n).
Proof. intros E Nd Ns x H. apply str_eqb_eq in H. subst x. rewrite E in *. split; [discriminate|]. split; [exact Ns|]. intros r' H. injection H as H _. contradiction. Qed.
Lemma mine_one n t u : (t = [] \/ exists r, t = cSlash :: r) -> free_of meta (cSlash :: lit n ++ t) -> contains (lit "((") (cSlash :: lit n ++ t) = false ->
  URI (lit "memory://" ++ cSlash :: lit n ++ t) cSlash [] = Ok u -> mine (one n) u.
Proof.
  intros T F C E. exists (lit n), t. split; [apply str_eqb_refl|]. split; [exact T|]. split; [|exact E]. constructor; [eexists; reflexivity|exact F|now apply contains_not].
Qed.
Ltac mine1 t := apply (mine_one _ (lit t)); [first [left; reflexivity|right; eexists; reflexivity]|intros c Hc Hi; vm_compute in Hc, Hi; intuition congruence|vm_compute; reflexivity|vm_compute; reflexivity].
Definition story : list event :=
  [Own (DUri 9 (UMakedirs (ua "/a/d"))); Other (DUri 9 (UMakedirs (ua "/b/d"))); Own (DPut (ua "/a/d/f") wb [bytes_of "mine"]); Other (DPut (ua "/b/d/f") wb [bytes_of "theirs"]); Time 5;
   Own (DUri 9 (UCopy true [] false (ua "/a/d") (ua "/a/e"))); Other (DUri 9 (URemove true (ua "/b/d"))); Own (DUri 9 (UListdir (ua "/a"))); Own (DGet (ua "/a/e/f") (Some (lit "rb")));
   Other (DUri 9 (UMove (ua "/b") (ua "/b/x"))); Own (DUri 9 (UExists (ua "/a/g")))].
Example C159_witness :
  top_names (one "a") /\ top_names (one "b") /\ disjoint (one "a") (one "b") /\ Forall (event_in (one "a") (one "b")) story /\ u_reachable start_mem /\
  enclosed (one "a") (view start_mem) /\ enclosed (one "b") (view start_mem) /\ view start_mem [[]] = None /\ same_part (one "a") start_mem start_mem /\
  fst (happen story start_mem) = [Ok AUnit; Ok AUnit; Ok AUnit; Ok (ANames [lit "d"; lit "e"]); Ok (AVal (VBytes (lit "mine"))); Ok (ABool false)] /\
  view (snd (happen story start_mem)) [lit "b"] = Some (EDir 0 0) /\ view (snd (happen (own_only story) start_mem)) [lit "b"] = None.
Proof.
  assert (E : forall K, enclosed K (view start_mem)) by (intros K; constructor; [intros c p tg mt mo _ H; discriminate H|intros c p n _ H; now destruct H]).
  split; [apply (one_top "a" 97%N []); [reflexivity|discriminate|cbn; intuition discriminate]|]. split; [apply (one_top "b" 98%N []); [reflexivity|discriminate|cbn; intuition discriminate]|].
  split; [intros c H; apply str_eqb_eq in H; subst c; reflexivity|]. split.
  { unfold story. repeat apply Forall_cons; try apply Forall_nil; cbn [event_in doing_in op_in uop_uri]; try exact I; try split;
      first [mine1 ""%string|mine1 "/d"%string|mine1 "/e"%string|mine1 "/x"%string|mine1 "/g"%string|mine1 "/d/f"%string|mine1 "/e/f"%string]. }
  split; [apply u_reachable_iff, reachable_init|]. split; [apply E|]. split; [apply E|]. split; [reflexivity|]. split; [apply same_part_refl|]. split; [vm_compute; reflexivity|]. split; vm_compute; reflexivity.
Qed.
(** /a/d is copied to /a/e while the other party removes /b/d piece by piece and makes something else. *)
Definition before_copy : mst := snd (happen (firstn 5 story) start_mem).
Definition theirs : list (list doing) :=
  [[]; [DUri 9 (URemove false (ua "/b/d/f"))]; [DUri 9 (URemove true (ua "/b/d")); DUri 9 (UMkdir (ua "/b/e"))]; []; [DPut (ua "/b/e/f") wb [bytes_of "no"]]; [DUri 9 (UMove (ua "/b/e") (ua "/b/x"))]].
Example C159_during_witness :
  Forall (Forall (doing_in (one "b"))) theirs /\ mine (one "a") (ua "/a/d") /\ mine (one "a") (ua "/a/e") /\
  view before_copy [lit "b"; lit "d"; lit "f"] = Some (EFile (lit "theirs") 0 0) /\
  let r := u_copy shared 9 true [] false (ua "/a/d") (ua "/a/e") (before_copy, theirs) in
  fst r = Ok tt /\ snd (snd r) = [] /\ view (fst (snd r)) [lit "a"; lit "e"; lit "f"] = Some (EFile (lit "mine") 0 0) /\
  view (fst (snd r)) [lit "b"; lit "d"] = None /\ view (fst (snd r)) [lit "b"; lit "x"; lit "f"] = Some (EFile (lit "no") 5 0).
Proof.
  split.
  { unfold theirs. repeat apply Forall_cons; try apply Forall_nil; cbn [doing_in op_in uop_uri]; try split;
      first [mine1 ""%string|mine1 "/d"%string|mine1 "/e"%string|mine1 "/x"%string|mine1 "/d/f"%string|mine1 "/e/f"%string]. }
  split; [mine1 "/d"%string|]. split; [mine1 "/e"%string|]. split; [vm_compute; reflexivity|]. vm_compute. repeat split.
Qed.
Print Assumptions C159_own.
Print Assumptions C159_rest.
Print Assumptions C159_together.
Print Assumptions C159_order.
Print Assumptions C159_during.
Print Assumptions C159_link_needed.
Print Assumptions C159_query_needed.
