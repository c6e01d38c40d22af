(** C162: a method for local files is stopped before any of its system calls. *)
From Coq Require Import Lia String.
From Verif Require Import Str Exc UriParse BaseUri StrFacts SpecUri Mem SpecMem Misc Posix Local SpecLocal Generic LocProg LocSteps SpecSteps SpecHome LocalFacts1 LocalFacts6 Resp LocTwin PropsWork PropsStay HomeFacts1 HomeFacts2 HomeFacts4 Pair PropsHome StepFacts StepFacts2 PropsSteps.
Open Scope nat_scope.
Open Scope list_scope.

(** Two runs stopped after as many system calls, where the same is at and below the directory; [J] is about the rest *)
Definition stops_so (D : list str) (J : pst -> Prop) (z y : mortal) : Prop :=
  snd z = snd y /\ sound (fst z) /\ walled D (fst z) /\ sound (fst y) /\ walled D (fst y) /\ same_home D (fst y) (fst z) /\ J (fst z).
Lemma stop_step D J e {A} (Q : A -> Prop) m : about_rest D J -> homely D Q m -> both (stops_so D J) Q (unless_stopped e m) (unless_stopped e m).
Proof.
  intros JD K [x k] [y k'] (E & Sx & Wx & Sy & Wy & H & Jx). cbn [fst snd] in *. subst k'. unfold unless_stopped. cbn [fst snd]. destruct k as [|k].
  - split; [reflexivity|]. split; [|discriminate]. split; [reflexivity|]. cbn. auto 10.
  - destruct (step_own D Q m y x K Sy Sx Wy Wx H) as [E1 H2]. destruct (step_rest D Q m x K Wx) as (G1 & G2 & G3 & G4 & W2 & q). destruct (step_rest D Q m y K Wy) as (_ & _ & _ & _ & W3 & _).
    pose proof (step_sound D Q m x K Sx) as S2. pose proof (step_sound D Q m y K Sy) as S3. pose proof (JD x (snd (m x)) G1 G2 G3 G4 Jx) as J2. destruct (m x) as [r x2], (m y) as [r' y2]. cbn [fst snd] in *.
    split; [exact E1|]. split; [|exact q]. split; [reflexivity|]. cbn. auto 10.
Qed.
Lemma so_kask D J e c : home_dir D -> about_rest D J -> lcall_in D c -> both (stops_so D J) any (kask e c) (kask e c).
Proof. intros HD JD C. apply (so_stask D HD); [|exact C]. intros A Q m. now apply stop_step. Qed.

(** ** Outside the directory nothing has changed, and below it no link leads away, wherever the method is stopped *)
Theorem C162_rest D e c x k : home_dir D -> sound x -> walled D x -> lcall_in D c ->
  let y := fst (snd (kask e c (x, k))) in
  (forall p, (forall r, p <> D ++ r) -> pget p (p_tree y) = pget p (p_tree x)) /\ p_cwd y = p_cwd x /\ p_now y = p_now x /\ p_umask y = p_umask x /\ walled D y /\ sound y.
Proof.
  intros HD Sx Wx C. set (J := fun y => (forall p, (forall r, p <> D ++ r) -> pget p (p_tree y) = pget p (p_tree x)) /\ p_cwd y = p_cwd x /\ p_now y = p_now x /\ p_umask y = p_umask x).
  assert (JD : about_rest D J). { intros a b E1 E2 E3 E4 (F1 & F2 & F3 & F4). split; [intros p Hp; rewrite (E1 p Hp); now apply F1|]. repeat split; congruence. }
  destruct (so_kask D J e c HD JD C (x, k) (x, k)) as (_ & (_ & A1 & A2 & _ & _ & _ & (F1 & F2 & F3 & F4)) & _).
  - split; [reflexivity|]. cbn. split; [exact Sx|]. split; [exact Wx|]. split; [exact Sx|]. split; [exact Wx|]. split; [now constructor|]. now split.
  - cbv zeta. auto 10.
Qed.
(** ** What is left at and below it, and the answer, depend on what was there only *)
Theorem C162_own D e c x y k : home_dir D -> sound x -> sound y -> walled D x -> walled D y -> same_home D x y -> lcall_in D c ->
  fst (kask e c (y, k)) = fst (kask e c (x, k)) /\ same_home D (fst (snd (kask e c (x, k)))) (fst (snd (kask e c (y, k)))).
Proof.
  intros HD Sx Sy Wx Wy H C. destruct (so_kask D (fun _ => True) e c HD ltac:(intros ? ? _ _ _ _ _; exact I) C (y, k) (x, k)) as (E & (_ & _ & _ & _ & _ & H' & _) & _); [|now split].
  split; [reflexivity|]. cbn. auto 10.
Qed.
(** ** A program run afterwards meets a file system for which C160 holds *)
Theorem C162_then {X} D e c (p : lprog X) x y k : home_dir D -> sound x -> sound y -> walled D x -> walled D y -> same_home D x y -> lcall_in D c ->
  let x' := fst (snd (kask e c (x, k))) in let y' := fst (snd (kask e c (y, k))) in
  stays_in D p x' -> fst (lrun p y') = fst (lrun p x') /\ same_home D (snd (lrun p x')) (snd (lrun p y')).
Proof.
  intros HD Sx Sy Wx Wy H C x' y' St. destruct (C162_rest D e c x k HD Sx Wx C) as (_ & _ & _ & _ & Wx' & Sx'). destruct (C162_rest D e c y k HD Sy Wy C) as (_ & _ & _ & _ & Wy' & Sy').
  destruct (C162_own D e c x y k HD Sx Sy Wx Wy H C) as [_ H']. fold x' in Wx', Sx', H'. fold y' in Wy', Sy', H'.
  destruct (C160_program D p x' y' HD Sx' Sy' Wx' Wy' H' St) as (E1 & E2 & _). now split.
Qed.
(** ** It is not all or nothing: stopped between opening and writing, a file that was there is empty *)
Theorem C162_half : exists c, c = LWrite (fu "/a/f"%string) [lit "new"] /\ lcall_in (names_of ["a"]%string) c /\ walled (names_of ["a"]%string) linked_home /\ forall e,
  pget (names_of ["a"; "f"]%string) (p_tree linked_home) = Some (PFile (lit "own") 420 6) /\
  fst (kask e c (linked_home, 1)) = Raise e /\ pget (names_of ["a"; "f"]%string) (p_tree (fst (snd (kask e c (linked_home, 1))))) = Some (PFile [] 420 50) /\
  fst (kask e c (linked_home, 2)) = Ok LUnit /\ pget (names_of ["a"; "f"]%string) (p_tree (fst (snd (kask e c (linked_home, 2))))) = Some (PFile (lit "new") 420 50).
Proof. eexists. split; [reflexivity|]. split; [at_uri (lit "/f")|]. split; [unfold linked_home; wall|]. intros e. vm_compute. auto 10. Qed.
(** ** Cases: a directory copied, and stopped before each system call in turn *)
Theorem C162_witness : let A := names_of ["a"]%string in let c := LCopy 9 true [] false (fu "/a/d"%string) (fu "/a/e"%string) in let e := UserError 0 in
  home_dir A /\ sound busy_home /\ walled A busy_home /\ lcall_in A c /\
  let there k n := pget (names_of n) (p_tree (fst (snd (kask e c (busy_home, k))))) in
  map (fun k => fst (kask e c (busy_home, k))) (seq 0 16) = repeat (Raise e) 15 ++ [Ok LUnit] /\
  map (fun k => there k ["a"; "e"]%string) (seq 0 16) = repeat None 7 ++ repeat (Some (PDir 493 50)) 9 /\
  map (fun k => there k ["a"; "e"; "h"]%string) (seq 0 16) = repeat None 12 ++ [Some (PFile [] 420 50); Some (PFile [] 420 50); Some (PFile (lit "deep") 420 50); Some (PFile (lit "deep") 420 8)] /\
  kask e c (busy_home, 15) = (fst (lask c busy_home), (snd (lask c busy_home), 0)) /\ kask e c (busy_home, 20) = (fst (lask c busy_home), (snd (lask c busy_home), 5)).
Proof.
  cbv zeta. split; [apply home_a|]. split; [apply sound_check; [now exists 493%Z, 5%Z|reflexivity|repeat constructor; cbn; intuition discriminate]|].
  split; [unfold busy_home; wall|]. split; [split; [at_uri (lit "/d")|at_uri (lit "/e")]|]. vm_compute. auto.
Qed.
(** The same where the other directory holds something else, and what is half copied is removed afterwards *)
Definition busy_other : pst := snd (os_unlink (lit "/b/g") busy_home).
Example C162_then_witness : let A := names_of ["a"]%string in let c := LCopy 9 true [] false (fu "/a/d"%string) (fu "/a/e"%string) in let e := UserError 0 in
  let p := LCall (LRemove 9 true (fu "/a/e"%string)) (fun r => LDone r) in let y := fst (snd (kask e c (busy_other, 13))) in
  same_home A busy_home busy_other /\ sound busy_other /\ walled A busy_other /\ pget (names_of ["b"; "g"]%string) (p_tree busy_home) <> pget (names_of ["b"; "g"]%string) (p_tree busy_other) /\
  stays_in A p (fst (snd (kask e c (busy_home, 13)))) /\ pget (names_of ["a"; "e"; "h"]%string) (p_tree y) = Some (PFile [] 420 50) /\
  fst (lrun p y) = Ok LUnit /\ pget (names_of ["a"; "e"]%string) (p_tree (snd (lrun p y))) = None.
Proof.
  cbv zeta. destruct C161_witness as (HA & HB & Ap & So & WA & WB & _).
  destruct (C161_acts (names_of ["a"]%string) (names_of ["b"]%string) _ HB Ap (act_unlink (names_of ["b"]%string) (lit "/b/g") ltac:(at_text "/g"%string)) busy_home So WA WB) as (S1 & H1 & R1 & _).
  split; [exact H1|]. split; [exact S1|]. split; [exact (walled_kept _ _ _ H1 R1 WA)|]. split; [vm_compute; discriminate|]. split; [split; [at_uri (lit "/e")|exact I]|]. vm_compute. auto.
Qed.
Print Assumptions C162_rest.
Print Assumptions C162_own.
Print Assumptions C162_then.
Print Assumptions C162_half.
Print Assumptions C162_witness.
