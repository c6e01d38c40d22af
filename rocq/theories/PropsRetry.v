(** C163: remove() and makedirs() of local files stopped before any of their system calls, and called again. *)
From Coq Require Import Lia String.
From Verif Require Import Str Exc UriParse BaseUri StrFacts SpecUri Mem Misc Generic Posix SpecLocal Local LocProg LocSteps SpecPosix SpecStay PosixFacts PosixFacts2 StayFacts StayFacts2 LocalFacts1 LocalFacts6 LocalFacts15 LocalFacts18 Resp LocTwin StepFacts PropsStay PropsHome PropsSteps.
Open Scope nat_scope.
Open Scope list_scope.

(** ** Invariants of stopped methods *)
Section Stop.
Variable P : pst -> Prop.
Variable e : exc.
Definition kept {A} (m : M mortal A) : Prop := forall z, P (fst z) -> P (fst (snd (m z))).
Lemma kept_step {A} (m : M pst A) : holds P m -> kept (unless_stopped e m).
Proof. intros H [x [|k]] X; cbn in *; [exact X|]. specialize (H x X). now destruct (m x). Qed.
Lemma kept_ret {A} (a : A) : kept (ret a). Proof. intros z H. exact H. Qed.
Lemma kept_raise {A} (r : exc) : kept (@raise mortal A r). Proof. intros z H. exact H. Qed.
Lemma kept_lift {A} (r : res A) : kept (lift r). Proof. intros z H. exact H. Qed.
Lemma kept_bind {A B} (m : M mortal A) (k : A -> M mortal B) : kept m -> (forall a, kept (k a)) -> kept (bind m k).
Proof. intros H K z X. unfold bind. pose proof (H z X) as Y. destruct (m z) as [[a|r] y]; cbn [snd] in *; auto. now apply K. Qed.
Lemma kept_mapM {A} (f : A -> M mortal unit) l : (forall a, kept (f a)) -> kept (mapM_ f l).
Proof. intros H. induction l as [|a l IH]; cbn [mapM_]; [apply kept_ret|]. apply kept_bind; auto. Qed.
Lemma kept_foldM {A B} (f : B -> A -> M mortal B) l : (forall a b, kept (f b a)) -> forall b, kept (foldM f b l).
Proof. intros H. induction l as [|a l IH]; intros b; cbn [foldM]; [apply kept_ret|]. apply kept_bind; auto. Qed.
Lemma kept_test f g p : kept (unless_stopped e (os_test f g p)).
Proof. apply kept_step, holds_quiet, quiet_test. Qed.
Lemma kept_list u : kept (unless_stopped e (loc_listdir u)).
Proof. apply kept_step, holds_quiet, quiet_list. Qed.

Notation KB := (st_backend (@unless_stopped e)).
Ltac keep1 := first [apply kept_ret|apply kept_raise|apply kept_lift|apply kept_test|apply kept_list].
Hypothesis unlinks : forall s, holds P (os_unlink s).
Hypothesis rmdirs : forall s, holds P (os_rmdir s).
Lemma kept_away (u : uri) : kept (let! l <- b_islink KB u; if l then b_removefile KB u else b_removedir KB u).
Proof.
  apply kept_bind; [apply kept_test|]. intros [|]; [apply kept_step, unlinks|]. cbn [st_backend b_removedir]. unfold st_removedir. apply kept_bind; [apply kept_test|]. intros [|]; [apply kept_raise|apply kept_step, rmdirs].
Qed.
Lemma kept_kinds top l : kept (kinds KB top l).
Proof. induction l as [|n l IH]; cbn [kinds]; [apply kept_ret|]. apply kept_bind; [apply kept_lift|]. intros u. apply kept_bind; [apply kept_test|]. intros d. apply kept_bind; [exact IH|]. intros r. apply kept_ret. Qed.
Lemma kept_walk {Acc} fuel body : (forall a r ds fs, kept (body a r ds fs)) -> forall (acc : Acc) top, kept (walk_gen KB fuel false false body acc top).
Proof.
  intros Hb. induction fuel as [|f IH]; intros acc top; cbn [walk_gen]; [apply kept_raise|].
  apply kept_bind; [apply kept_list|]. intros names. apply kept_bind; [apply kept_kinds|]. intros dn. apply kept_bind; [apply kept_ret|]. intros ad. apply kept_bind.
  - apply kept_foldM. intros n a. apply kept_bind; [apply kept_lift|]. intros u. apply kept_bind; [|intros l; destruct (negb l || false); [apply IH|apply kept_ret]].
    unfold u_islink, hooked. apply kept_bind; [apply kept_ret|]. intros _. apply kept_test.
  - intros a. apply kept_bind; [apply Hb|]. intros b. apply kept_ret.
Qed.
Lemma kept_remove fuel rc u : kept (u_remove KB fuel rc u).
Proof.
  unfold u_remove, hooked. apply kept_bind; [apply kept_ret|]. intros _. apply kept_bind; [apply kept_test|]. intros [|]; [apply kept_step, unlinks|].
  apply kept_bind; [apply kept_test|]. intros [|]; cbn [negb]; [|apply kept_bind; [apply kept_lift|intros; apply kept_raise]].
  apply kept_bind; [apply kept_test|]. intros [|].
  - destruct rc.
    + unfold remove_dir_recursively. apply kept_bind; [|intros _; apply kept_away]. apply kept_walk. intros _ r ds fs. apply kept_bind.
      * apply kept_mapM. intros n. apply kept_bind; [apply kept_lift|]. intros p. apply kept_step, unlinks.
      * intros _. apply kept_bind; [|intros _; apply kept_ret]. apply kept_mapM. intros n. apply kept_bind; [apply kept_lift|]. intros p. apply kept_away.
    + cbn [st_backend b_removedir]. unfold st_removedir. apply kept_bind; [apply kept_test|]. intros [|]; [apply kept_raise|apply kept_step, rmdirs].
  - apply kept_bind; [apply kept_test|]. intros [|]; [apply kept_step, unlinks|apply kept_ret].
Qed.
Hypothesis mkdirs : forall s, holds P (os_mkdir s).
Lemma kept_isdir u : kept (u_isdir KB u).
Proof. unfold u_isdir, hooked. apply kept_bind; [apply kept_ret|]. intros _. apply kept_test. Qed.
Lemma kept_mkdir u : kept (u_mkdir KB u).
Proof. unfold u_mkdir, hooked. apply kept_bind; [apply kept_ret|]. intros _. cbn [st_backend b_mkdir]. unfold st_mkdir. destruct (u_path u); [apply kept_ret|apply kept_step, mkdirs]. Qed.
Lemma kept_makedirs fuel : forall u, kept (fs_makedirs KB fuel u).
Proof.
  induction fuel as [|f IH]; intros u; cbn [fs_makedirs]; [apply kept_raise|]. apply kept_bind; [apply kept_isdir|]. intros [|]; [apply kept_ret|].
  apply kept_bind; [apply kept_lift|]. intros [d n]. cbn [fst snd]. apply kept_bind; [apply kept_isdir|]. intros pd. apply kept_bind; [destruct pd; [apply kept_ret|apply IH]|].
  intros _. destruct n; [apply kept_ret|apply kept_mkdir].
Qed.
End Stop.

(** ** Removing: entries are gone and nothing else has happened, wherever the method was stopped *)
Definition left_of (x y : pst) : Prop := thinned x y /\ sound y.
Lemma resp_sound {A} (m : M pst A) x : resp peq m -> sound x -> sound (snd (m x)).
Proof. intros R S. destruct (R x x (peq_self x S)) as [_ H]. apply H. Qed.
Lemma thins_trans x y z : thinned x y -> thinned y z -> thinned x z.
Proof.
  intros (A1 & A2 & A3 & A4) (B1 & B2 & B3 & B4). split; [congruence|]. split; [congruence|]. split; [congruence|]. exact (thin_trans _ _ _ B4 A4).
Qed.
Lemma stop_thin e x z fuel rc u : left_of x (fst z) -> left_of x (fst (snd (kask e (LRemove fuel rc u) z))).
Proof.
  intros H. unfold kask. cbn [stask]. unfold told. apply (kept_bind (left_of x)); [|intros a; apply kept_ret|exact H].
  apply kept_remove; intros s y [T S]; (split; [|apply resp_sound; [|exact S]]); [now apply thin_unlink|apply unlink_resp|now apply thin_rmdir|apply rmdir_resp].
Qed.
Theorem C163_stopped x e k fuel rc u : sound x -> let y := fst (snd (kask e (LRemove fuel rc u) (x, k))) in thinned x y /\ sound y.
Proof. intros S. apply stop_thin. split; [apply thinned_refl|exact S]. Qed.
(** Called again and again, each time stopped before one system call or another *)
Fixpoint tried (u : uri) (l : list (exc * nat * nat * bool)) (x : pst) : pst :=
  match l with [] => x | (e, k, fuel, rc) :: l' => tried u l' (fst (snd (kask e (LRemove fuel rc u) (x, k)))) end.
Lemma tried_thin u l : forall x, sound x -> left_of x (tried u l x).
Proof.
  induction l as [|[[[e k] fuel] rc] l IH]; intros x S; cbn [tried]; [split; [apply thinned_refl|exact S]|].
  destruct (C163_stopped x e k fuel rc u S) as [T1 S1]. destruct (IH _ S1) as [T2 S2]. split; [exact (thins_trans _ _ _ T1 T2)|exact S2].
Qed.
(** ** When it returns at last, all of what the path named at first is gone, and only entries have been removed *)
Theorem C163_again x u l fuel rc x' : sound x -> lask (LRemove fuel rc u) (tried u l x) = (Ok LUnit, x') ->
  thinned x x' /\ exists p en, aims x u (Is p en) /\ forall q, below p q -> entry_at x' q None.
Proof.
  intros S E. destruct (tried_thin u l x S) as [T1 S1]. cbn [lask] in E. unfold said, bind in E. destruct (u_remove loc_backend fuel rc u (tried u l x)) as [[[]|r] y] eqn:E1; [|discriminate]. injection E as <-.
  destruct (remove_gone _ _ _ _ _ _ S1 E1) as [T2 G]. split; [exact (thins_trans _ _ _ T1 T2)|]. destruct (G eq_refl) as (p & en & A & Gq). exists p, en. split; [|exact Gq].
  apply aims_iff. apply aims_iff in A. exact (look_thin _ x false _ p en (proj1 T1) (thinned_thin _ _ T1) A).
Qed.
(** ** Making directories: everything is as before, and what is new is an empty directory or a directory of such *)
Definition grown (x y : pst) : Prop :=
  p_cwd y = p_cwd x /\ p_now y = p_now x /\ p_umask y = p_umask x /\
  forall p, pget p (p_tree y) = pget p (p_tree x) \/ entry_at x p None /\ pget p (p_tree y) = Some (PDir (Z.land 511 (Z.lnot (p_umask x))) (p_now x)).
Lemma grown_mkdir x s : holds (fun y => grown x y /\ sound y) (os_mkdir s).
Proof.
  intros y [(A & B & C & D) S]. split; [|apply resp_sound; [apply LocTwin.mkdir_resp|exact S]]. unfold os_mkdir, sys_mkdir. destruct (plook y false (chop s)) as [[q en|d n]|r] eqn:L; cbn [snd]; try (now repeat split).
  pose proof (gap_free y d n (look_spot y false _ _ L)) as F. split; [exact A|]. split; [exact B|]. split; [exact C|]. intros p. cbn [p_tree set_tree]. rewrite pget_pset. destruct (path_eqb p (d ++ [n])) eqn:E; [|apply D].
  apply path_eqb_spec in E as ->. right. rewrite B, C. split; [|reflexivity]. destruct (D (d ++ [n])) as [X|[X _]]; [|exact X]. unfold entry_at. rewrite <- X. apply F.
Qed.
Theorem C163_makedirs x e k fuel u : sound x -> let y := fst (snd (kask e (LMakedirs fuel u) (x, k))) in grown x y /\ sound y.
Proof.
  intros S. unfold kask. cbn [stask]. unfold told. apply (kept_bind (fun y => grown x y /\ sound y)); [|intros a; apply kept_ret|].
  - unfold u_makedirs, hooked. apply kept_bind; [apply kept_ret|]. intros _. apply kept_makedirs. apply grown_mkdir.
  - split; [|exact S]. repeat split. intros p. now left.
Qed.
(** ** Cases: a directory is removed, stopped at each place in turn, and removed again *)
Definition gone_k (k : nat) : pst := fst (snd (kask (UserError 0) (LRemove 9 true (fu "/a/d"%string)) (busy_home, k))).
Theorem C163_witness : sound busy_home /\
  map (fun k => fst (kask (UserError 0) (LRemove 9 true (fu "/a/d"%string)) (busy_home, k))) (seq 0 12) = repeat (Raise (UserError 0)) 9 ++ repeat (Ok LUnit) 3 /\
  map (fun k => pget (names_of ["a"; "d"; "h"]%string) (p_tree (gone_k k))) (seq 0 12) = repeat (Some (PFile (lit "deep") 420 8)) 6 ++ repeat None 6 /\
  map (fun k => fst (lask (LRemove 9 true (fu "/a/d"%string)) (gone_k k))) (seq 0 12) = repeat (Ok LUnit) 9 ++ repeat (Raise FileDoesNotExistError) 3 /\
  let often := tried (fu "/a/d"%string) [(UserError 1, 3, 9, true); (UserError 2, 6, 9, true); (OSError ENOENT, 2, 0, false)] busy_home in
  pget (names_of ["a"; "d"]%string) (p_tree often) = Some (PDir 493 5) /\ pget (names_of ["a"; "d"; "h"]%string) (p_tree often) = None /\ fst (lask (LRemove 9 true (fu "/a/d"%string)) often) = Ok LUnit.
Proof. split; [apply C161_witness|]. vm_compute. auto 10. Qed.
Definition made_k (k : nat) : pst := fst (snd (kask (UserError 0) (LMakedirs 9 (fu "/a/n/o/p"%string)) (busy_home, k))).
Theorem C163_makedirs_witness :
  map (fun k => fst (kask (UserError 0) (LMakedirs 9 (fu "/a/n/o/p"%string)) (busy_home, k))) (seq 0 12) = repeat (Raise (UserError 0)) 9 ++ repeat (Ok LUnit) 3 /\
  map (fun k => map (fun n => pget (names_of n) (p_tree (made_k k))) [["a"; "n"]; ["a"; "n"; "o"]; ["a"; "n"; "o"; "p"]]%string) (seq 5 6) =
    [[None; None; None]; [None; None; None]; [Some (PDir 493 50); None; None]; [Some (PDir 493 50); Some (PDir 493 50); None];
     [Some (PDir 493 50); Some (PDir 493 50); Some (PDir 493 50)]; [Some (PDir 493 50); Some (PDir 493 50); Some (PDir 493 50)]].
Proof. vm_compute. auto. Qed.
Print Assumptions C163_stopped.
Print Assumptions C163_again.
Print Assumptions C163_makedirs.
Print Assumptions C163_witness.
Print Assumptions C163_makedirs_witness.
