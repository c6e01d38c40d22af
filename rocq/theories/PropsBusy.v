(** Theorems on methods called by several threads while the cleaner thread works (C128, C129). *)
From Verif Require Import Str Exc StrFacts UriParse BaseUri Registry RegistryConc SpecReg RegFacts RegFacts2 RegFacts3 Busy SpecBusy BusyFacts PropsRegistry.
From Coq Require Import Lia.
Open Scope string_scope. Open Scope list_scope.

(** ** C128 *)
(** However the threads are interleaved, the cleaner thread does not die of an exception as long as nobody else cleans up. *)
Theorem C128_lives interval sec y : up interval sec y -> y_clean y <> KGone.
Proof. intros H. destruct (ginv_up _ _ _ H) as [_ _ _ _ C]. intros E. now rewrite E in C. Qed.
(** A connection that at every moment was used less than clean_timeout ago stays the connection of its key, open, and
    every look-up of the key returns it. *)
Theorem C128_kept interval sec y0 y1 k c : up interval sec y0 -> quiet k y0 -> open_as (y_reg y0) k c -> ~ In c (r_closed (y_reg y0)) ->
  bsteps interval sec true (fun y => ~ stale (y_reg y) c) y0 y1 ->
  (forall c', open_as (y_reg y1) k c' <-> c' = c) /\ ~ In c (r_closed (y_reg y1))
  /\ forall i k' r, nth_error (y_users y1) i = Some (AIn (LDone k' r)) -> same_key k' k -> r = Ok c.
Proof.
  intros H Q O N R. pose proof (sinv_quiet k c y0 (ginv_up _ _ _ H) Q O N) as S0.
  destruct (bsteps_inv (sinv k c) interval sec true (fun y => ~ stale (y_reg y) c)) with (a := y0) (b := y1) as [[I G O1 W C] _]; [|exact R|exact S0|].
  { intros a b S F _. exact (sinv_step k c interval sec a b S F). }
  split; [|split; [exact O1|]].
  - intros c'. split.
    + intros X. assert (Y : kget k (r_conns (y_reg y1)) = Some c') by (apply in_kget; [apply I|exact X]). congruence.
    + intros ->. apply kget_in. exact G.
  - intros i k' r E. rewrite Forall_forall in W. exact (W _ (nth_error_In _ _ E)).
Qed.

(** ** C129 *)
(** No connection is closed while a method works with it, if the method has not been running for clean_timeout yet: holds
    for connections that were used often enough since the last time nobody was busy with them. *)
Theorem C129_open_partial interval sec y0 y1 k c : up interval sec y0 -> quiet k y0 -> open_as (y_reg y0) k c -> ~ In c (r_closed (y_reg y0)) ->
  bsteps interval sec true (fun y => ~ stale (y_reg y) c) y0 y1 ->
  forall i k' c', nth_error (y_users y1) i = Some (ABusy k' c') -> same_key k' k -> c' = c /\ ~ In c' (r_closed (y_reg y1)).
Proof.
  intros H Q O N R i k' c' E S. pose proof (sinv_quiet k c y0 (ginv_up _ _ _ H) Q O N) as S0.
  destruct (bsteps_inv (sinv k c) interval sec true (fun y => ~ stale (y_reg y) c)) with (a := y0) (b := y1) as [[I G O1 W C] _]; [|exact R|exact S0|].
  { intros a b X F _. exact (sinv_step k c interval sec a b X F). }
  rewrite Forall_forall in W. pose proof (W _ (nth_error_In _ _ E)) as X. cbn [steady] in X. rewrite (X S). auto.
Qed.

(** *** Schedules *)
Inductive cmd := Clean | Go (i : nat) | Ask (i : nat) (k : conn_key) | Reg (i : nat) (sc : option str) (f : factory) | Tidy (i : nat) | Wait (d : N).
Definition go (a : actor) (sh : shared) : actor * shared :=
  match a with
  | AFree => (AFree, sh)
  | AIn (LDone k (Ok c)) => (AHas k c, sh)
  | AIn (LDone k (Raise _)) => (AFree, sh)
  | AIn (CDone _) => (AFree, sh)
  | AIn t => match tstep t sh with Some (t', sh') => (AIn t', sh') | None => (a, sh) end
  | AHas k c => (ABusy k c, mkSh (set_used (sh_reg sh) c (r_now (sh_reg sh))) (sh_locks sh))
  | ABusy _ _ => (AFree, sh)
  end.
Definition exec1 (alone : bool) (interval sec : Z) (y : bproc) (x : cmd) : bproc :=
  match x with
  | Clean => match kstep interval sec (fun _ => false) (y_run y) (y_clean y) (y_sh y) with
             | Some (p, sh) => mkB sh (y_users y) p (y_run y) | None => y end
  | Go i => match nth_error (y_users y) i with
            | Some a => let (a', sh') := go a (y_sh y) in mkB sh' (set_actor i a' (y_users y)) (y_clean y) (y_run y)
            | None => y end
  | Ask i k => match nth_error (y_users y) i with
               | Some AFree => mkB (y_sh y) (set_actor i (AIn (LStart k)) (y_users y)) (y_clean y) (y_run y) | _ => y end
  | Reg i sc f => match nth_error (y_users y) i with
                  | Some AFree => mkB (mkSh (snd (register sc f (sh_reg (y_sh y)))) (sh_locks (y_sh y))) (set_actor i AFree (y_users y)) (y_clean y) (y_run y) | _ => y end
  | Tidy i => match nth_error (y_users y) i with
              | Some AFree => if alone then y else mkB (y_sh y) (set_actor i (AIn (CStart false (fun _ => false))) (y_users y)) (y_clean y) (y_run y) | _ => y end
  | Wait d => mkB (mkSh (snd (tick d (sh_reg (y_sh y)))) (sh_locks (y_sh y))) (y_users y) (y_clean y) (y_run y)
  end.
Definition exec (alone : bool) (interval sec : Z) (l : list cmd) (y : bproc) : bproc := fold_left (exec1 alone interval sec) l y.
Lemma set_same : forall l i a, nth_error l i = Some a -> set_actor i a l = l.
Proof. induction l as [|x l IH]; intros [|i] a E; try discriminate; cbn in *; [now injection E as ->|]. now rewrite IH. Qed.
Lemma go_astep : forall alone a sh, (go a sh = (a, sh)) \/ astep alone a sh (fst (go a sh)) (snd (go a sh)).
Proof.
  intros alone [|t|k c|k c] sh; [now left| |right; constructor|right; constructor].
  destruct t as [k'|k'|k'|k'|k' c'|k' r|k'|k' r|force fl|force fl now l|force fl now e l|force fl now e l|r];
    try (unfold go; destruct (tstep _ sh) as [[t' sh']|] eqn:E; [right; apply as_in; exact E|left; reflexivity]).
  - right. destruct r; constructor.
  - right. constructor.
Qed.
Lemma exec1_ok : forall alone interval sec y x, exec1 alone interval sec y x = y \/ bstep interval sec alone y (exec1 alone interval sec y x).
Proof.
  intros alone interval sec [sh us p run] x. destruct x as [|i|i k|i sc f|i|d]; cbn [exec1 y_sh y_users y_clean y_run].
  - destruct (kstep _ _ _ _ _ _) as [[p' sh']|] eqn:E; [|now left]. right. eapply by_clean. exact E.
  - destruct (nth_error us i) as [a|] eqn:E; [|now left]. destruct (go_astep alone a sh) as [G|G].
    + rewrite G. left. now rewrite set_same.
    + destruct (go a sh) as [a' sh']. right. eapply by_user; eauto.
  - destruct (nth_error us i) as [[]|] eqn:E; auto. right. eapply by_user; [exact E|constructor].
  - destruct (nth_error us i) as [[]|] eqn:E; auto. right. eapply by_user; [exact E|]. apply as_register.
  - destruct (nth_error us i) as [[]|] eqn:E; auto. destruct alone; [now left|]. right. eapply by_user; [exact E|]. now constructor.
  - right. constructor.
Qed.
(** A decidable condition on the states *)
Lemma exec_ok : forall alone interval sec (P : bproc -> Prop) l y, (forall l1 l2, l = l1 ++ l2 -> P (exec alone interval sec l1 y)) ->
  bsteps interval sec alone P y (exec alone interval sec l y).
Proof.
  intros alone interval sec P l. induction l as [|x l IH] using rev_ind; intros y H; [constructor; exact (H [] [] eq_refl)|].
  unfold exec. rewrite fold_left_app. cbn [fold_left].
  assert (R : bsteps interval sec alone P y (exec alone interval sec l y)). { apply IH. intros l1 l2 ->. apply (H l1 (l2 ++ [x])). now rewrite app_assoc. }
  change (fold_left (exec1 alone interval sec) l y) with (exec alone interval sec l y).
  destruct (exec1_ok alone interval sec (exec alone interval sec l y) x) as [E|S]; [rewrite E; exact R|].
  eapply bs_step; [exact R|exact S|]. specialize (H (l ++ [x]) []). rewrite app_nil_r in H. specialize (H eq_refl). unfold exec in H. rewrite fold_left_app in H. exact H.
Qed.
Lemma exec_up : forall interval sec timeout now n l, up interval sec (exec true interval sec l (new_bproc timeout now (fun _ => false) n)).
Proof. intros. exists timeout, now, (fun _ => false), n. now apply exec_ok. Qed.

Definition gos (n i : nat) : list cmd := repeat (Go i) n.
(** Thread [i] looks up [ka] when there is no connection, or when there is one, and uses it. *)
Definition first_call (i : nat) : list cmd := Ask i ka :: gos 9 i.
Definition next_call (i : nat) : list cmd := Ask i ka :: gos 5 i.
(** The clean-up of the cleaner thread when it starts, and until it sleeps *)
Definition start_up : list cmd := [Clean; Clean; Clean; Clean; Clean; Clean].
Definition set_up : list cmd := start_up ++ [Reg 0 (Some (lit "memory")) good] ++ first_call 0 ++ [Go 0].
Definition quiet0 : bproc := exec true 300 1 set_up (new_bproc 1800 5 (fun _ => false) 2).
Example C128_set_up : y_clean quiet0 = KSleep 5 6 /\ y_users quiet0 = [AFree; AFree] /\ map snd (r_conns (y_reg quiet0)) = [0] /\ r_closed (y_reg quiet0) = [].
Proof. vm_compute. auto. Qed.

(** Half an hour later the cleaner thread has decided to close the connection; now a method starts on it; then the
    connection is closed. *)
Theorem C129_refuted : exists y, up 300 1 y /\ nth_error (y_users y) 0 = Some (ABusy ka 0) /\ r_used (y_reg y) 0 = r_now (y_reg y) /\ In 0 (r_closed (y_reg y)).
Proof.
  exists (exec true 300 1 ([Wait 2000; Clean; Clean; Clean; Clean] ++ next_call 0 ++ [Clean]) quiet0).
  split; [|vm_compute; auto]. unfold quiet0, exec. rewrite <- fold_left_app. apply exec_up.
Qed.
(** [C128_lives] needs that nobody else cleans up. *)
Theorem C128_others : exists y, bsteps 300 1 false (fun _ => True) quiet0 y /\ y_run y = true /\ y_clean y = KGone.
Proof.
  exists (exec false 300 1 ([Wait 2000; Tidy 1; Go 1; Clean; Clean; Clean; Clean; Go 1; Go 1; Go 1; Clean; Clean; Clean]) quiet0).
  split; [now apply exec_ok|]. vm_compute. auto.
Qed.
(** Two threads share the connection for more than half an hour, and the cleaner thread cleans up meanwhile. *)
Definition shared_use : list cmd :=
  next_call 0 ++ [Wait 1000; Clean; Clean; Clean; Clean; Clean; Clean; Go 0] ++ next_call 1 ++ [Wait 1000; Clean; Clean; Clean; Clean] ++ next_call 0.
Lemma not_stale : forall s c, (r_now s - r_used s c <=? r_timeout s)%Z = true -> ~ stale s c.
Proof. intros s c H. apply Z.leb_le in H. unfold stale. lia. Qed.
Lemma never_stale : forall alone interval sec c l y,
  forallb (fun n => let s := y_reg (exec alone interval sec (firstn n l) y) in (r_now s - r_used s c <=? r_timeout s)%Z) (seq 0 (S (length l))) = true ->
  bsteps interval sec alone (fun y => ~ stale (y_reg y) c) y (exec alone interval sec l y).
Proof.
  intros alone interval sec c l y H. apply exec_ok. intros l1 l2 E. apply not_stale. rewrite forallb_forall in H. specialize (H (length l1)).
  rewrite E, firstn_app, Nat.sub_diag, firstn_all, app_nil_r in H. apply H. apply in_seq. rewrite app_length. lia.
Qed.
Example C128_witness : up 300 1 quiet0 /\ quiet ka quiet0 /\ open_as (y_reg quiet0) ka 0 /\ ~ In 0 (r_closed (y_reg quiet0))
  /\ exists y1, bsteps 300 1 true (fun y => ~ stale (y_reg y) 0) quiet0 y1 /\ nth_error (y_users y1) 0 = Some (ABusy ka 0) /\ nth_error (y_users y1) 1 = Some (ABusy ka 0)
     /\ (r_now (y_reg y1) - r_now (y_reg quiet0) = 2000)%Z.
Proof.
  split; [apply exec_up|]. split.
  { split; [|intros t; vm_compute; discriminate]. change (y_users quiet0) with [AFree; AFree]. intros a k' [<-|[<-|[]]]; discriminate. }
  split; [exists ka; split; [apply same_refl|vm_compute; auto]|]. split; [vm_compute; auto|].
  exists (exec true 300 1 shared_use quiet0). split; [apply never_stale; vm_compute; reflexivity|]. vm_compute. auto.
Qed.
Print Assumptions C128_lives.
Print Assumptions C128_kept.
Print Assumptions C128_others.
Print Assumptions C129_open_partial.
Print Assumptions C129_refuted.
