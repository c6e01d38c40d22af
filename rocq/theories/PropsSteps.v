(** C161: other processes act between the system calls of a method for local files. *)
From Coq Require Import Lia String.
From Verif Require Import Str Exc UriParse BaseUri StrFacts SpecUri Mem SpecMem Misc Posix Local SpecLocal Generic LocProg LocSteps SpecSteps SpecHome LocalFacts1 LocalFacts6 Resp LocTwin PropsWork PropsStay HomeFacts1 HomeFacts2 HomeFacts4 Pair PropsHome StepFacts StepFacts2.
Open Scope nat_scope.
Open Scope list_scope.

(** ** Whatever others do elsewhere: the answer is that of the call alone, and so are the effects *)
Theorem C161_alone D J c x y fs : home_dir D -> about_rest D J -> J x -> sound x -> sound y -> walled D x -> walled D y -> same_home D y x -> Forall (away D J) fs -> lcall_in D c ->
  fst (sask c (x, fs)) = fst (lask c y) /\ same_home D (snd (lask c y)) (fst (snd (sask c (x, fs)))).
Proof.
  intros HD JD Jx Sx Sy Wx Wy H F C. destruct (so_sask D HD J JD c C (x, fs) y) as (E & (_ & _ & _ & _ & H' & _) & _); [|now split].
  split; [exact Sx|]. split; [exact Wx|]. split; [exact Sy|]. split; [exact Wy|]. split; [exact H|]. now split.
Qed.
(** ** And the call does not disturb the others: what they keep true elsewhere stays true *)
Theorem C161_others D J c x fs : home_dir D -> about_rest D J -> J x -> sound x -> walled D x -> Forall (away D J) fs -> lcall_in D c ->
  J (fst (snd (sask c (x, fs)))) /\ walled D (fst (snd (sask c (x, fs)))) /\ sound (fst (snd (sask c (x, fs)))).
Proof.
  intros HD JD Jx Sx Wx F C. destruct (so_sask D HD J JD c C (x, fs) x) as (_ & (A1 & A2 & _ & _ & _ & _ & A3) & _); [|now split].
  split; [exact Sx|]. split; [exact Wx|]. split; [exact Sx|]. split; [exact Wx|]. split; [now constructor|]. now split.
Qed.
(** ** In particular system calls and methods for paths in another directory *)
Lemma walled_rest D E : apart_dirs D E -> about_rest D (walled E).
Proof.
  intros A x y F C N U W. destruct (other_kept E D x y (apart_sym _ _ A) F N U W) as [_ W']. exact W'.
Qed.
Lemma act_away_step D E {A} (Q : A -> Prop) m : apart_dirs D E -> homely E Q m -> away D (walled E) (fun x => snd (m x)).
Proof.
  intros Ap H x Sx WD WE. destruct (step_rest E Q m x H WE) as (F1 & F2 & F3 & F4 & W' & _). destruct (other_kept D E x (snd (m x)) Ap F1 F3 F4 WD) as [S1 W1].
  split; [exact (step_sound E Q m x H Sx)|]. split; [exact S1|]. split; [exact (wa_above _ _ W1)|exact W'].
Qed.
Lemma walled_kept D x y : same_home D x y -> (forall A n B, D = A ++ n :: B -> is_dir_at y A) -> walled D x -> walled D y.
Proof. intros H R W. constructor; [| |exact R]; intros p; rewrite (sa_tree _ _ _ H); apply W. Qed.
Theorem C161_acts D E f : home_dir E -> apart_dirs D E -> acts E f -> away D (walled E) f.
Proof.
  intros HE A F. induction F as [|f g F1 IH1 F2 IH2|c C|p H|p H|p H|t p H1 H2|p m H|p q H1 H2|p H|p H|r b H|p q H1 H2].
  - intros x Sx WD WE. split; [exact Sx|]. split; [now constructor|]. split; [apply (wa_above _ _ WD)|exact WE].
  - intros x Sx WD WE. destruct (IH1 x Sx WD WE) as (S1 & H1 & R1 & W1). destruct (IH2 (f x) S1 (walled_kept D x _ H1 R1 WD) W1) as (S2 & H2 & R2 & W2).
    split; [exact S2|]. split; [now apply (same_trans D x (f x))|]. now split.
  - apply (act_away_step D E any); [exact A|]. split; [intros x0 y0 r1 r2; now apply on_lask|apply lask_resp].
  - apply (act_away_step D E any); [exact A|]. split; [intros x0 y0 r1 r2; now apply on_unlink|apply unlink_resp].
  - apply (act_away_step D E any); [exact A|]. split; [intros x0 y0 r1 r2; now apply on_rmdir|apply rmdir_resp].
  - apply (act_away_step D E any); [exact A|]. split; [intros x0 y0 r1 r2; now apply on_osmkdir|apply mkdir_resp].
  - apply (act_away_step D E any); [exact A|]. split; [intros x0 y0 r1 r2; now apply on_ossymlink|apply symlink_resp].
  - apply (act_away_step D E any); [exact A|]. split; [intros x0 y0 r1 r2; now apply on_chmod|apply chmod_resp].
  - apply (act_away_step D E any); [exact A|]. split; [intros x0 y0 r1 r2; now apply on_oscopystat|apply copystat_resp].
  - apply (act_away_step D E (below_D E)); [exact A|]. split; [intros x0 y0 r1 r2; now apply on_open_w|apply open_w_resp].
  - apply (act_away_step D E (below_D E)); [exact A|]. split; [intros x0 y0 r1 r2; now apply on_open_a|apply open_a_resp].
  - apply (act_away_step D E any); [exact A|]. split; [|apply append_resp]. intros x0 y0 r1 r2. apply on_append; auto. split; [apply below_self|]. intros p Ep. apply app_inv_head in Ep. now subst.
  - apply (act_away_step D E any); [exact A|]. split; [intros x0 y0 r1 r2; now apply on_osrename|apply rename_resp].
Qed.
Theorem C161_two D E c x fs : home_dir D -> home_dir E -> apart_dirs D E -> sound x -> walled D x -> walled E x -> Forall (acts E) fs -> lcall_in D c ->
  fst (sask c (x, fs)) = fst (lask c x) /\ same_home D (snd (lask c x)) (fst (snd (sask c (x, fs)))) /\ walled E (fst (snd (sask c (x, fs)))).
Proof.
  intros HD HE A Sx WD WE F C. assert (F' : Forall (away D (walled E)) fs) by (eapply Forall_impl; [|exact F]; intros f; now apply C161_acts).
  destruct (C161_alone D (walled E) c x x fs HD (walled_rest D E A) WE Sx Sx WD WD) as [E1 E2]; auto; [now constructor|]. destruct (C161_others D (walled E) c x fs HD (walled_rest D E A) WE Sx WD F' C) as (E3 & _). now split; [|split].
Qed.
(** ** Programs: the others act before each system call of each method called *)
Theorem C161_program {X} D J (p : lprog X) x y fs : home_dir D -> about_rest D J -> J x -> sound x -> sound y -> walled D x -> walled D y -> same_home D y x -> Forall (away D J) fs -> stays_in D p y ->
  fst (srun p (x, fs)) = fst (lrun p y) /\ same_home D (snd (lrun p y)) (fst (snd (srun p (x, fs)))) /\ J (fst (snd (srun p (x, fs)))).
Proof.
  intros HD JD Jx Sx Sy Wx Wy H F. assert (Z : steps_so D J (x, fs) y). { split; [exact Sx|]. split; [exact Wx|]. split; [exact Sy|]. split; [exact Wy|]. split; [exact H|]. now split. }
  clear Jx Sx Sy Wx Wy H F. revert y Z. generalize (x, fs) as z. clear x fs. induction p as [a|c k IH]; intros z y Z; cbn [stays_in srun lrun].
  - intros _. destruct Z as (_ & _ & _ & _ & H & _ & Jz). auto.
  - intros [C St]. destruct (so_sask D HD J JD c C z y Z) as (E & Z' & _). destruct (sask c z) as [r z'], (lask c y) as [r' y']. cbn [fst snd] in *. subst r'. now apply IH.
Qed.
(** ** Without others this is the call of LocProg.v, for all URIs and states *)
Definition nobody (z : among) (y : pst) : Prop := z = (y, []).
Lemma no_step {A} (m : M pst A) : both nobody any (between m) m.
Proof. intros z y ->. unfold between. cbn [fst snd hd tl]. destruct (m y) as [r x]. split; [reflexivity|]. now split. Qed.
Lemma no_told {A} (f : A -> lanswer) m1 m2 : both nobody any m1 m2 -> both nobody any (told f m1) (said f m2).
Proof. intros H. unfold told, said. apply (both_bind _ any); [exact H|]. intros a _. now apply both_ret. Qed.
Ltac alone := repeat first [apply no_step|now apply both_ret|apply both_raise|apply both_lift; now intros|apply (both_bind _ any); [|intros ? _]|match goal with |- both _ _ (if ?b then _ else _) _ => destruct b end].
Lemma any_all {A} (l : list A) : Forall any l. Proof. induction l; constructor; [exact I|assumption]. Qed.
Lemma no_list u : both nobody (Forall any) (st_listdir (@between) u) (loc_listdir u).
Proof. apply (both_weak _ any); [|intros; apply any_all]. unfold st_listdir, loc_listdir. alone. Qed.
Lemma no_info u f : both nobody any (st_info (@between) u f) (loc_info u f). Proof. unfold st_info, loc_info, loc_islink. alone. Qed.
Lemma no_mode u m : both nobody any (st_set_mode (@between) u m) (loc_set_mode u m). Proof. unfold st_set_mode, loc_set_mode, loc_islink. alone. Qed.
Lemma no_pair : paired nobody (st_backend (@between)) loc_backend any any any any.
Proof.
  constructor; cbn [st_backend loc_backend b_hook b_exists b_isfile b_isdir b_islink b_listdir b_removefile b_removedir b_mkdir b_readlink b_copystat b_copy_content b_removefile_by b_symlink_by]; intros;
    try apply no_step; try apply no_list.
  - now apply both_ret.
  - unfold st_removedir, loc_removedir, loc_islink. alone.
  - unfold st_mkdir, loc_mkdir. destruct (u_path u); alone.
  - unfold st_readlink, loc_readlink. alone.
  - unfold st_copy_content, loc_copy_content. alone.
Qed.
Lemma no_move u v : both nobody any (st_move (@between) u v) (loc_move u v).
Proof.
  unfold st_move, loc_move, loc_isdir. apply (both_bind _ any); [apply no_step|]. intros sd _. apply (both_bind _ any); [alone|]. intros dd _. apply (both_bind _ any); [alone|]. intros w _.
  unfold st_shmove, sh_move. apply (both_bind _ any); [apply no_step|]. intros d _. apply (both_bind _ any); [alone|]. intros same _. apply (both_bind _ any); [alone|]. intros sl _. destruct (same && negb sl); [apply no_step|]. cbv zeta.
  apply (both_bind _ any); [alone|]. intros th _. destruct th; [apply both_raise|]. set (r := if d then _ else _). intros z y Z. destruct (no_step (os_rename (u_path u) r) z y Z) as (E1 & E2 & _).
  destruct (between _ z) as [r1 z1], (os_rename _ _ y) as [r2 y1]. cbn [fst snd] in *. subst r2. destruct r1 as [a|e]; [now split; [|split]|]. destruct e; try (now split; [|split]).
  revert z1 y1 E2. change (both nobody any (st_move_fallback (@between) (u_path u) (u_path w) r) (sh_move_fallback (u_path u) (u_path w) r)). unfold st_move_fallback, sh_move_fallback, st_move_file, copy_and_remove_file. alone.
Qed.
Theorem C161_same_code c x : sask c (x, []) = (fst (lask c x), (snd (lask c x), [])).
Proof.
  enough (H : both nobody any (stask (@between) c) (lask c)). { destruct (H (x, []) x eq_refl) as (E1 & E2 & _). unfold sask. rewrite (surjective_pairing (stask (@between) c (x, []))). unfold nobody in E2. now rewrite E1, E2. }
  assert (Dv : forall u n r, any u -> any n -> u_div u n = Ok r -> any r) by (intros; exact I). assert (Sp : forall u d n, any u -> any u -> u_split u = Ok (d, n) -> any d) by (intros; exact I).
  assert (La : forall u, any u -> any (u_last u)) by (intros; exact I). assert (Re : forall u k, any u -> any (strip_p is_space (skipn k (u_path u)))) by (intros; exact I).
  pose proof no_pair as P. destruct c; cbn [stask lask]; try apply no_told.
  - exact (both_copy _ _ _ _ _ _ _ P Dv Sp La Re _ _ _ _ _ _ I I).
  - apply no_step.
  - apply no_move.
  - exact (both_remove _ _ _ _ _ _ _ P Dv _ _ _ I).
  - exact (both_makedirs _ _ _ _ _ _ _ P Sp _ _ I).
  - exact (both_mkdir _ _ _ _ _ _ _ P _ I).
  - exact (both_exists _ _ _ _ _ _ _ P _ I).
  - exact (both_isfile _ _ _ _ _ _ _ P _ I).
  - exact (both_isdir _ _ _ _ _ _ _ P _ I).
  - exact (both_islink _ _ _ _ _ _ _ P _ I).
  - apply (both_bind _ any); [apply no_info|]. intros i _. now apply both_ret.
  - apply (both_bind _ any); [apply no_info|]. intros i _. apply no_mode.
  - unfold st_readlink, loc_readlink. alone.
  - apply no_step.
  - apply (both_bind _ any); [apply no_info|]. intros i _. now apply both_ret.
  - apply no_info.
  - apply no_mode.
  - exact (both_any _ _ _ _ (both_walk _ _ _ _ _ _ _ P Dv _ _ _ _ I)).
  - exact (both_any _ _ _ _ (both_listdir _ _ _ _ _ _ _ P _ I)).
  - exact (both_any _ _ _ _ (both_glob _ _ _ _ _ _ _ P Dv _ _ _ I)).
  - unfold st_read_all, loc_read_all. alone.
  - unfold st_write_all, loc_write_all. alone.
  - unfold st_append_all, loc_append_all. alone.
  - apply no_step.
Qed.

(** ** The condition: what another process does at or below the directory shows *)
Theorem C161_apart_needed : exists c f, c = LRemove 9 false (fu "/a/f"%string) /\ f = (fun x => snd (os_unlink (lit "/a/f") x)) /\ lcall_in (names_of ["a"]%string) c /\ walled (names_of ["a"]%string) linked_home /\
  fst (lask c linked_home) = Ok LUnit /\ fst (sask c (linked_home, [(fun x => x); f])) = Raise FileDoesNotExistError.
Proof. eexists _, _. split; [reflexivity|]. split; [reflexivity|]. split; [at_uri (lit "/f")|]. split; [unfold linked_home; wall|]. vm_compute. auto. Qed.
(** ** Cases: a directory is copied while another process makes, fills, renames and removes things in another one *)
Definition busy_home : pst := two_homes [(names_of ["a"; "d"]%string, PDir 493 5); (names_of ["a"; "d"; "h"]%string, PFile (lit "deep") 420 8)].
Definition busy_fs : list (pst -> pst) :=
  [fun x => snd (os_unlink (lit "/b/g") x); fun x => snd (os_mkdir (lit "/b/d") x); fun x => x; fun x => snd (os_open_w (lit "/b/d/h") x); fun x => snd (fd_append (names_of ["b"]%string ++ names_of ["d"; "h"]%string) (lit "no") x);
   fun x => snd (os_rename (lit "/b/d") (lit "/b/e") x); fun x => snd (lask (LMkdir (fu "/b/k"%string)) x); fun x => x; fun x => x; fun x => snd (os_chmod (lit "/b/k") 448 x); fun x => snd (os_symlink (lit "/b/e") (lit "/b/l") x)].
Ltac at_text t := split; [mild|exists (lit t); split; [right; eexists; reflexivity|reflexivity]].
Theorem C161_witness : let A := names_of ["a"]%string in let B := names_of ["b"]%string in let c := LCopy 9 true [] false (fu "/a/d"%string) (fu "/a/e"%string) in
  home_dir A /\ home_dir B /\ apart_dirs A B /\ sound busy_home /\ walled A busy_home /\ walled B busy_home /\ lcall_in A c /\ Forall (acts B) busy_fs /\
  let r := sask c (busy_home, busy_fs) in
  fst r = Ok LUnit /\ snd (snd r) = [] /\ pget (names_of ["a"; "e"; "h"]%string) (p_tree (fst (snd r))) = Some (PFile (lit "deep") 420 8) /\
  pget (names_of ["b"; "e"; "h"]%string) (p_tree (fst (snd r))) = Some (PFile (lit "no") 420 50) /\ pget (names_of ["b"; "g"]%string) (p_tree (fst (snd r))) = None /\
  pget (names_of ["b"; "l"]%string) (p_tree (fst (snd r))) = Some (PLink (lit "/b/e")).
Proof.
  cbv zeta. split; [apply home_a|]. split; [apply home_b|]. split; [split; intros r E; discriminate E|]. split; [apply sound_check; [now exists 493%Z, 5%Z|reflexivity|repeat constructor; cbn; intuition discriminate]|].
  split; [unfold busy_home; wall|]. split; [unfold busy_home; wall|]. split; [split; [at_uri (lit "/d")|at_uri (lit "/e")]|]. split.
  { unfold busy_fs.
    apply Forall_cons; [exact (act_unlink (names_of ["b"]%string) (lit "/b/g") ltac:(at_text "/g"%string))|].
    apply Forall_cons; [exact (act_mkdir (names_of ["b"]%string) (lit "/b/d") ltac:(at_text "/d"%string))|].
    apply Forall_cons; [exact (act_none (names_of ["b"]%string))|].
    apply Forall_cons; [exact (act_open_w (names_of ["b"]%string) (lit "/b/d/h") ltac:(at_text "/d/h"%string))|].
    apply Forall_cons; [exact (act_append (names_of ["b"]%string) (names_of ["d"; "h"]%string) (lit "no") ltac:(repeat (apply Forall_cons; [mild|]); apply Forall_nil))|].
    apply Forall_cons; [exact (act_rename (names_of ["b"]%string) (lit "/b/d") (lit "/b/e") ltac:(at_text "/d"%string) ltac:(at_text "/e"%string))|].
    apply Forall_cons; [exact (act_call (names_of ["b"]%string) (LMkdir (fu "/b/k"%string)) ltac:(at_uri (lit "/k")))|].
    apply Forall_cons; [exact (act_none (names_of ["b"]%string))|].
    apply Forall_cons; [exact (act_none (names_of ["b"]%string))|].
    apply Forall_cons; [exact (act_chmod (names_of ["b"]%string) (lit "/b/k") 448 ltac:(at_text "/k"%string))|].
    apply Forall_cons; [exact (act_symlink (names_of ["b"]%string) (lit "/b/e") (lit "/b/l") ltac:(at_text "/e"%string) ltac:(at_text "/l"%string))|].
    apply Forall_nil. }
  vm_compute. repeat split.
Qed.
(** A program that goes where the answers lead, with the same others *)
Example C161_program_witness : stays_in (names_of ["a"]%string) tidy_up linked_home /\ fst (srun tidy_up (linked_home, busy_fs)) = [lit "f"; lit "l"] /\
  pget (names_of ["b"; "d"]%string) (p_tree (fst (snd (srun tidy_up (linked_home, busy_fs))))) = Some (PDir 493 50).
Proof. split; [apply C160_program_witness|]. vm_compute. auto. Qed.
Print Assumptions C161_alone.
Print Assumptions C161_others.
Print Assumptions C161_acts.
Print Assumptions C161_two.
Print Assumptions C161_program.
Print Assumptions C161_same_code.
Print Assumptions C161_apart_needed.
Print Assumptions C161_witness.
