(** Lemmas for C149: programs and the lists of calls they make. *)
From Coq Require Import Sorting.Permutation Sorting.Sorted String Lia.
From Verif Require Import Str StrFacts Exc UriParse BaseUri Mem Generic Plug SpecPlug SpecCalls.
Local Open Scope string_scope.
Local Open Scope list_scope.

(** *** Order *)
Lemma sorted_once (l l' : list str) : StronglySorted sle l -> StronglySorted sle l' -> Permutation l l' -> l = l'.
Proof.
  intros H; revert l'. induction H as [|x l Hl IH Hx]; intros l' H' P.
  - apply Permutation_nil in P. now subst.
  - destruct H' as [|y l' Hl' Hy]; [now apply Permutation_sym, Permutation_nil in P|].
    assert (E : x = y).
    { pose proof (Permutation_in x P (or_introl eq_refl)) as [?|A]; [easy|].
      pose proof (Permutation_in y (Permutation_sym P) (or_introl eq_refl)) as [?|B]; [easy|].
      rewrite Forall_forall in Hx, Hy. specialize (Hx _ B). specialize (Hy _ A). unfold sle in *. now apply str_ltb_total. }
    subst y. f_equal. apply IH; auto. now apply Permutation_cons_inv in P.
Qed.
Lemma ordered_iff names ns : ordered names ns <-> ns = sort_strs names.
Proof.
  split.
  - intros [P H]. apply sorted_once; [exact H|apply sort_sorted|].
    transitivity names; [now apply Permutation_sym|apply sort_perm].
  - intros ->. split; [apply sort_perm|apply sort_sorted].
Qed.

Section Facts.
Context {S F V : Type}.
Variable c : own S F V.
Notation ev := (ev F V).
Notation steps := (steps c).

Lemma steps_app s t1 t2 s' : steps s (t1 ++ t2) s' <-> exists s1, steps s t1 s1 /\ steps s1 t2 s'.
Proof.
  revert s. induction t1 as [|e t1 IH]; intros s; cbn.
  - split; [intros H; exists s; split; [constructor|easy]|intros (s1 & H & K); inversion H; now subst].
  - split.
    + inversion 1; subst. apply IH in H5 as (s1 & A & B). exists s1. split; [econstructor; eauto|easy].
    + intros (s1 & A & B). inversion A; subst. econstructor; [eassumption|]. apply IH. eauto.
Qed.
Lemma steps_one s e s' : steps s [e] s' <-> step c s e s'.
Proof. split; [inversion 1; subst; inversion H5; now subst|intros H; econstructor; [exact H|constructor]]. Qed.

(** [fits n L m]: the calls of a run of [m] that returns [a] are a list [t] with [L a t]; and every such list that the class
    makes possible is the run, where it is shorter than [n]. *)
Definition fits {A} (n : nat) (L : A -> list ev -> Prop) (m : M S A) : Prop :=
  (forall s a s', m s = (Ok a, s') -> exists t, L a t /\ steps s t s') /\
  (forall s a s' t, L a t -> steps s t s' -> (length t < n)%nat -> m s = (Ok a, s')).

Lemma f_iff {A} n (L L' : A -> list ev -> Prop) m : (forall a t, L a t <-> L' a t) -> fits n L m -> fits n L' m.
Proof.
  intros E [H K]. split.
  - intros s a s' R. apply H in R as (t & R & T). exists t. split; [now apply E|easy].
  - intros s a s' t R. apply K. now apply E.
Qed.
Lemma f_le {A} n n' (L : A -> list ev -> Prop) m : (n <= n')%nat -> fits n' L m -> fits n L m.
Proof. intros E [H K]. split; [easy|]. intros s a s' t R T W. apply (K s a s' t); auto. lia. Qed.
Lemma f_ret {A} n (a : A) : fits n (fun b t => b = a /\ t = []) (ret a).
Proof.
  split.
  - intros s b s' R. inversion R; subst. exists []. split; [easy|constructor].
  - intros s b s' t [-> ->] T _. inversion T; now subst.
Qed.
Lemma f_raise {A} n e : fits n (fun (_ : A) _ => False) (raise e).
Proof. split; [discriminate|easy]. Qed.
Lemma f_lift {A B} n (r : res A) (K : A -> B -> list ev -> Prop) k : (forall a, fits n (K a) (k a)) ->
  fits n (fun b t => exists a, r = Ok a /\ K a b t) (bind (lift r) k).
Proof.
  intros H. split.
  - intros s b s' R. unfold bind, lift in R. destruct r as [a|]; [|discriminate]. apply H in R as (t & R & T). exists t. split; eauto.
  - intros s b s' t (a & -> & R) T W. unfold bind, lift. now apply (proj2 (H a) s b s' t).
Qed.
Lemma f_bind {A B} n (L : A -> list ev -> Prop) (K : A -> B -> list ev -> Prop) m k : fits n L m -> (forall a, fits n (K a) (k a)) ->
  fits n (fun b t => exists a t1 t2, L a t1 /\ K a b t2 /\ t = t1 ++ t2) (bind m k).
Proof.
  intros [P Q] H. split.
  - intros s b s' R. unfold bind in R. destruct (m s) as [[a|] s1] eqn:E; [|discriminate]. apply P in E as (t1 & E & T1).
    apply H in R as (t2 & R & T2). exists (t1 ++ t2). split; [exists a, t1, t2; auto|]. apply steps_app. eauto.
  - intros s b s' t (a & t1 & t2 & R1 & R2 & ->) T W. rewrite app_length in W. apply steps_app in T as (s1 & T1 & T2).
    unfold bind. rewrite (Q s a s1 t1 R1 T1) by lia. apply (proj2 (H a) s1 b s' t2); auto. lia.
Qed.
(** one call, and what follows *)
Definition one {A} (m : M S A) (e : A -> ev) : Prop := forall s a s', m s = (Ok a, s') <-> step c s (e a) s'.
Lemma f_one {A} n m (e : A -> ev) : one m e -> fits n (fun a t => t = [e a]) m.
Proof.
  intros H. split.
  - intros s a s' R. exists [e a]. split; [easy|]. now apply steps_one, H.
  - intros s a s' t -> T _. now apply H, steps_one.
Qed.
Lemma f_then {A B} n m (e : A -> ev) (K : A -> B -> list ev -> Prop) k : one m e -> (forall a, fits n (K a) (k a)) ->
  fits (Datatypes.S n) (fun b t => exists a t', K a b t' /\ t = e a :: t') (bind m k).
Proof.
  intros H Q. split.
  - intros s b s' R. unfold bind in R. destruct (m s) as [[a|] s1] eqn:E; [|discriminate].
    apply Q in R as (t & R & T). exists (e a :: t). split; [eauto|]. apply (st_cons c s (e a) s1 t s'); [now apply H|easy].
  - intros s b s' t (a & t' & R & ->) T W. inversion T; subst. unfold bind. rewrite (proj2 (H s a s'0)) by easy.
    apply (proj2 (Q a) s'0 b s' t'); auto. cbn in W. lia.
Qed.
Lemma f_then' {A B} n m (e : A -> ev) (K : A -> B -> list ev -> Prop) k : one m e -> (forall a, fits n (K a) (k a)) ->
  fits n (fun b t => exists a t', K a b t' /\ t = e a :: t') (bind m k).
Proof. intros H Q. apply (f_le _ (Datatypes.S n)); [lia|]. now apply f_then. Qed.
Lemma f_if {A} n (b : bool) (L L' : A -> list ev -> Prop) m m' : fits n L m -> fits n L' m' ->
  fits n (fun a t => if b then L a t else L' a t) (if b then m else m').
Proof. now destruct b. Qed.
Lemma f_ext {A} n (L : A -> list ev -> Prop) m m' : (forall s, m s = m' s) -> fits n L m -> fits n L m'.
Proof. intros E [H K]. split; intros *; rewrite <- E; eauto. Qed.
Lemma f_0 {A} (L : A -> list ev -> Prop) e : fits 0 L (raise e).
Proof. split; [discriminate|]. intros. lia. Qed.

(** *** The calls *)
Ltac single := let s := fresh "s" in let a := fresh "x" in let s1 := fresh "s" in intros s a s1; cbn; unfold does, ap1;
  match goal with |- context [match ?o with Some _ => _ | None => _ end] => destruct o end; try destruct a; try reflexivity;
  (split; [discriminate|contradiction]).
Lemma one_hook u n : one (c_hook c u n) (fun _ => EHook u n).
Proof. intros s [] s'. cbn. unfold c_hook. destruct (o_hook c); [easy|]. split; [now inversion 1|now intros ->]. Qed.
Lemma one_open u o : one (c_open c u o) (EOpen u o). Proof. unfold c_open. single. Qed.
Lemma one_read f n : one (o_read c f n) (ERead f n). Proof. intros s a s'. cbn. tauto. Qed.
Lemma one_write f v : one (o_write c f v) (fun _ => EWrite f v). Proof. intros s [] s'. cbn. tauto. Qed.
Lemma one_listdir u : one (c_listdir c u) (EListdir u). Proof. unfold c_listdir. single. Qed.
Lemma one_removefile u : one (c_removefile c u) (fun _ => ERemovefile u). Proof. unfold c_removefile. single. Qed.
Lemma one_removedir u : one (c_removedir c u) (fun _ => ERemovedir u). Proof. unfold c_removedir. single. Qed.
Lemma one_mkdir u : one (c_mkdir c u) (fun _ => EMkdir u). Proof. unfold c_mkdir. single. Qed.
Lemma one_exists u : one (c_exists c u) (EExists u). Proof. unfold c_exists. single. Qed.
Lemma one_isfile u : one (c_isfile c u) (EIsfile u). Proof. unfold c_isfile. single. Qed.
Lemma one_isdir u : one (c_isdir c u) (EIsdir u). Proof. unfold c_isdir. single. Qed.
Lemma one_isexec u m : one (c_isexec c u m) (EIsexec u m). Proof. unfold c_isexec. single. Qed.
Lemma one_set_exec u m : one (c_set_exec c u m) (fun _ => ESetExec u m). Proof. unfold c_set_exec. single. Qed.
Lemma one_islink u : one (c_islink c u) (EIslink u).
Proof.
  intros s a s'. cbn. unfold c_islink, does, c_supports. destruct (o_islink c); [easy|]. destruct (o_supports c) as [f|]; cbn.
  - unfold bind. destruct (f s) as [[[]|e] s1]; cbn.
    + split; [discriminate|]. intros [H _]. inversion H.
    + split; [intros H; inversion H; now subst|]. intros [H ->]. inversion H; now subst.
    + split; [discriminate|]. intros [H _]. inversion H.
  - split; [discriminate|easy].
Qed.
Ltac nolink := intros s a s'; cbn; unfold does, ap1; match goal with |- context [match ?o with Some _ => _ | None => _ end] => destruct o end;
  [try destruct a; easy|split; [|easy]]; unfold bind; destruct (c_supports c s) as [[[]|e] s1]; cbn; discriminate.
Lemma one_readlink u : one (c_readlink c u) (EReadlink u). Proof. unfold c_readlink. nolink. Qed.
Lemma one_symlink t l : one (c_symlink c t l) (fun _ => ESymlink t l). Proof. unfold c_symlink. nolink. Qed.
Lemma one_info u i fl : one (c_info c u i fl) (EInfo u i fl). Proof. unfold c_info. single. Qed.
Lemma one_sync u v o : one (c_sync c u v o) (fun _ => ESync u v o). Proof. unfold c_sync. single. Qed.
Lemma one_mtime u : one (c_mtime c u) (EMtime u). Proof. unfold c_mtime. single. Qed.
Lemma one_copystat u v : one (c_copystat c u v) (fun _ => ECopystat u v). Proof. unfold c_copystat. single. Qed.
Lemma one_lock u f cl : one (c_lock c u f cl) (ELock u f cl). Proof. unfold c_lock. single. Qed.
Lemma one_manipulate u k : one (c_manipulate c u k) (fun _ => EManipulate u k). Proof. unfold c_manipulate. single. Qed.
Lemma one_switch u b : one (c_switch c u b) (ESwitch u b). Proof. unfold c_switch. single. Qed.
Lemma one_update u r cl : one (c_update c u r cl) (EUpdate u r cl). Proof. unfold c_update. single. Qed.
Lemma one_log u n k : one (c_log c u n k) (ELog u n k). Proof. unfold c_log. single. Qed.
Lemma one_log_by_time u a b : one (c_log_by_time c u a b) (ELogByTime u a b). Proof. unfold c_log_by_time. single. Qed.

(** [with]: the file is left last *)
Lemma f_with {A} n m (L : F -> list ev -> Prop) (K : F -> A -> list ev -> Prop) k : fits n L m -> (forall f, fits n (K f) (k f)) ->
  fits n (fun a t => exists f t1 t2, L f t1 /\ K f a t2 /\ t = t1 ++ t2 ++ [EExit f]) (with_file c m k).
Proof.
  intros H Q. unfold with_file.
  apply (f_iff _ (fun a t => exists f t1 t2, L f t1 /\ (exists t3, K f a t3 /\ t2 = t3 ++ [EExit f]) /\ t = t1 ++ t2)).
  { intros a t. split.
    - intros (f & t1 & t2 & R & (t3 & R' & ->) & ->). now exists f, t1, t3.
    - intros (f & t1 & t2 & R & R' & ->). exists f, t1, (t2 ++ [EExit f]). repeat split; eauto. }
  apply f_bind; [exact H|]. intros f. split.
  - intros s a s' R. destruct (k f s) as [r s1] eqn:E. destruct (o_exit c f s1) as [[[]|] s2] eqn:X; inversion R; subst.
    apply Q in E as (t & E & T). exists (t ++ [EExit f]). split; [eauto|]. apply steps_app. exists s1. split; [easy|]. now apply steps_one.
  - intros s a s' t (t3 & R & ->) T W. rewrite app_length in W. cbn in W. apply steps_app in T as (s1 & T & X). apply steps_one in X. cbn in X.
    rewrite (proj2 (Q f) s a s1 t3 R T) by lia. now rewrite X.
Qed.
End Facts.
