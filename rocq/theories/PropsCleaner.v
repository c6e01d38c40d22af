(** Theorems on the cleaner thread (C116, C117). *)
From Verif Require Import Str Exc StrFacts UriParse BaseUri Registry SpecReg RegFacts RegFacts2 Cleaner SpecCleaner PropsRegistry.
From Coq Require Import Lia.
Open Scope Z_scope.

(** ** The registry meanwhile *)
(** No connection was used before [l]. *)
Definition since (l : Z) (s : rst) : Prop := forall k c, In (k, c) (r_conns s) -> l <= r_used s c.
Record keeps_time (s s' : rst) : Prop := { kt_timeout : r_timeout s' = r_timeout s; kt_since : forall l, l <= r_now s -> since l s -> since l s' }.

Lemma kt_lookup k s : rinv s -> keeps_time s (snd (get_connection k s)).
Proof.
  intros I. split; [apply lookup_timeout|]. intros l Hl H. destruct (lookup_cases k s) as [E|f c E1 E2|f e E1 E2 E3|f E1 E2 E3]; cbn [snd]; try exact H.
  intros k' c' X. cbn [r_conns r_used] in *. destruct (Nat.eqb_spec c' (r_next s)) as [->|Hn]; [exact Hl|].
  apply in_app_iff in X. destruct X as [X|[X|[]]]; [now apply H in X|]. injection X as _ <-. now destruct Hn.
Qed.
Lemma kt_event e s : rinv s -> keeps_time s (snd (run_event e s)) /\ (forall d, e <> RTick d) /\ r_now (snd (run_event e s)) = r_now s \/ exists d, e = RTick d /\ run_event e s = (Ok tt, mkR (r_conns s) (r_schemes s) (r_next s) (r_used s) (r_closed s) (r_timeout s) (r_now s + Z.of_N d)).
Proof.
  intros I. destruct e as [sc f|k|k|force fails|d]; cbn [run_event]; [left|left|left|left|right; eauto].
  - split; [split; [reflexivity|now intros]|]. split; [discriminate|reflexivity].
  - unfold bind. pose proof (kt_lookup k s I) as X. pose proof (proj2 (lookup_timeout k s)) as Y. destruct (get_connection k s) as [[c|e] s']; cbn [snd ret] in *; (split; [exact X|split; [discriminate|exact Y]]).
  - unfold bind. rewrite use_is. pose proof (kt_lookup k s I) as X. pose proof (proj2 (lookup_timeout k s)) as Y. destruct (get_connection k s) as [[c|e] s']; cbn [snd ret] in *; (split; [|split; [discriminate|exact Y]]); [|exact X].
    destruct X as [X1 X2]. split; [exact X1|]. intros l Hl H k' c' Q. cbn [set_used r_used r_conns] in *. destruct (Nat.eqb c' c); [rewrite Y; exact Hl|]. eapply X2; eauto.
  - rewrite cleanup_is by apply I. cbn [snd]. split; [|split; [discriminate|reflexivity]]. split; [reflexivity|]. intros l Hl H k c Q. cbn [r_conns r_used] in *. apply filter_In in Q. eapply H, Q.
Qed.

Section Timed.
Variables interval sec delay timeout : Z.
Hypothesis Hi : 0 <= interval. Hypothesis Hs : 0 <= sec. Hypothesis Hd : 0 <= delay. Hypothesis Ht : 0 <= timeout.

(** [l]: when the last clean-up of the thread was. *)
Record timed (l : Z) (x : proc) (t : Z) : Prop := {
  td_inv : rinv (x_reg x); td_timeout : r_timeout (x_reg x) = timeout; td_last : l <= r_now (x_reg x); td_since : since (l - timeout) (x_reg x);
  td_now : x_at x <> PGone -> r_now (x_reg x) <= t + delay;
  td_at : match x_at x with
          | PClean => t <= l + interval + sec + 4 * delay
          | PTime => t <= l
          | PTest n => l <= n <= l + delay /\ t <= n + interval + sec + 2 * delay
          | PFlag n => l <= n <= l + delay /\ t <= n + interval
          | PSleep n w => l <= n <= l + delay /\ t = w /\ w <= n + interval + delay + sec
          | PGone => x_run x = false
          end }.
Lemma timed_move x t y u l : timed l x t -> move interval sec delay (x, t) (y, u) -> exists l', timed l' y u.
Proof.
  intros [I T L S N A] M. inversion M as [fails x0 t0 y0 E|e x0 t0 E|d x0 t0 E|x0 t0]; subst; clear M.
  - unfold cleaner_step in E. destruct (x_at x) as [| |n|n|n w|] eqn:P; cbn [x_at] in *.
    + rewrite cleanup_is in E by apply I. injection E as <-. exists (r_now (x_reg x)).
      split; cbn [x_reg x_at x_run r_now r_timeout ready_from]; try discriminate; try lia.
      * pose proof (rinv_cleanup false fails (x_reg x) I) as Q. rewrite cleanup_is in Q by apply I. exact Q.
      * intros k c Q. cbn [r_conns r_used] in *. apply filter_In in Q. destruct Q as [_ Q]. unfold keep in Q. cbn [snd] in Q. apply Bool.negb_true_iff in Q. unfold dueb in Q. rewrite Bool.orb_false_r in Q. apply Z.ltb_ge in Q. rewrite T in Q. lia.
    + injection E as <-. exists l. cbn [x_reg]. assert (N' : r_now (x_reg x) <= t + delay) by (apply N; discriminate).
      split; cbn [move_to x_reg x_at x_run ready_from]; auto; unfold ready_from; cbn [x_at x_reg move_to]; try lia.
    + injection E as <-. exists l. assert (N' : r_now (x_reg x) <= t + delay) by (apply N; discriminate). unfold move_to. destruct (Z.ltb_spec (r_now (x_reg x) - n) interval); split; cbn [x_reg x_at x_run]; auto; unfold ready_from; cbn [x_at x_reg move_to]; lia.
    + injection E as <-. exists l. assert (N' : r_now (x_reg x) <= t + delay) by (apply N; discriminate). unfold move_to. destruct (x_run x) eqn:R; split; cbn [x_reg x_at x_run]; auto; unfold ready_from; cbn [x_at x_reg move_to]; try lia.
    + destruct (Z.leb_spec w (r_now (x_reg x))) as [W|W]; [|discriminate]. injection E as <-. exists l. assert (N' : r_now (x_reg x) <= t + delay) by (apply N; discriminate).
      unfold move_to. split; cbn [x_reg x_at x_run]; auto; unfold ready_from; cbn [x_at x_reg move_to]; lia.
    + discriminate.
  - exists l. destruct (kt_event e (x_reg x) I) as [([K1 K2] & _ & K3)|(d & -> & _)]; [|now destruct (E d)].
    split; cbn [meanwhile x_reg x_at x_run]; auto; try congruence; try lia. now apply rinv_event. apply K2; [lia|exact S]. rewrite K3. exact N.
  - exists l. destruct (kt_event (RTick d) (x_reg x) I) as [(_ & X & _)|(d' & Ed & K)]; [now destruct (X d)|]. injection Ed as <-.
    split; cbn [meanwhile x_reg x_at x_run]; try (rewrite K; cbn [snd r_now r_timeout]); auto; try lia.
    + pose proof (rinv_event (RTick d) (x_reg x) I) as Q. rewrite K in Q. exact Q.
    + intros G. destruct E as [E|E]; [exact E|contradiction].
  - exists l. split; cbn [stop x_reg x_at x_run]; auto. destruct (x_at x); auto.
Qed.
Lemma timed_moves a b l : moves interval sec delay a b -> timed l (fst a) (snd a) -> exists l', timed l' (fst b) (snd b).
Proof.
  intros M. revert l. induction M as [|a b c M IH X]; intros l H; [eauto|]. destruct (IH l H) as [l' H']. destruct b, c. cbn [fst snd] in *. eapply timed_move; eauto.
Qed.
Lemma timed_start now : timed now (new_proc timeout now) now.
Proof.
  split; cbn [new_proc x_reg x_at x_run init_reg r_timeout r_now]; auto; try lia; [apply rinv_init|]. intros k c [].
Qed.
Lemma timed_idle l x t k c : timed l x t -> x_at x <> PGone -> In (k, c) (r_conns (x_reg x)) -> idle x c <= timeout + interval + sec + 5 * delay.
Proof.
  intros [I T L S N A] G H. unfold idle. pose proof (S k c H) as X. specialize (N G). destruct (x_at x); try lia. contradiction.
Qed.
End Timed.

(** ** C116 *)
(** Unless it has been stopped, the thread goes on, and no connection stays open that has not been used for longer than
    clean_timeout + clean_interval + one second (and the delays of the thread). *)
Theorem C116_idle interval sec delay timeout now x t k c : 0 <= interval -> 0 <= sec -> 0 <= delay -> 0 <= timeout -> moves interval sec delay (new_proc timeout now, now) (x, t) ->
  x_run x = true -> x_at x <> PGone /\ (In (k, c) (r_conns (x_reg x)) -> idle x c <= timeout + interval + sec + 5 * delay).
Proof.
  intros Hi Hs Hd Ht M R. assert (H : exists l, timed interval sec delay timeout l (fst (x, t)) (snd (x, t))) by (eapply timed_moves; [..|exact M|apply timed_start]; assumption). destruct H as [l H]. cbn [fst snd] in H.
  assert (G : x_at x <> PGone). { intros E. pose proof (td_at _ _ _ _ _ _ _ H) as A. rewrite E in A. congruence. }
  split; [exact G|]. intros K. eapply timed_idle; eauto.
Qed.
(** So it is as long as nobody calls shutdown. *)
Theorem C116_lives interval sec delay timeout now x t k c : 0 <= interval -> 0 <= sec -> 0 <= delay -> 0 <= timeout -> up interval sec delay (new_proc timeout now, now) (x, t) ->
  x_at x <> PGone /\ (In (k, c) (r_conns (x_reg x)) -> idle x c <= timeout + interval + sec + 5 * delay).
Proof.
  intros Hi Hs Hd Ht U. apply (C116_idle interval sec delay timeout now x t k c); auto.
  - remember (x, t) as b eqn:E. clear E. induction U as [|fails y u z U IH Es|e y u U IH Ne|d y u U IH Le]; [constructor|..].
    + eapply ms_move; [exact IH|]. now apply (mv_step interval sec delay fails).
    + eapply ms_move; [exact IH|]. now apply mv_other.
    + eapply ms_move; [exact IH|]. apply mv_wait. now left.
  - change (x_run (fst (x, t)) = true). remember (x, t) as b eqn:E. clear E. induction U as [|fails y u z U IH Es|e y u U IH Ne|d y u U IH Le]; [reflexivity|..]; cbn [fst meanwhile x_run] in *; try exact IH.
    unfold cleaner_step in Es. destruct (x_at y) as [| |n|n|n w|].
    + destruct (cleanup false fails (x_reg y)) as [r s]. injection Es as <-. exact IH.
    + injection Es as <-. exact IH.
    + injection Es as <-. exact IH.
    + injection Es as <-. exact IH.
    + destruct (_ <=? _); [injection Es as <-; exact IH|discriminate].
    + discriminate.
Qed.
(** Between two clean-ups of the thread are at least clean_interval seconds. *)
Definition later (l interval : Z) (x : proc) : Prop :=
  rinv (x_reg x) /\ l <= r_now (x_reg x)
  /\ match x_at x with PClean => l + interval <= r_now (x_reg x) | PTest n | PFlag n | PSleep n _ => l <= n | _ => True end.
Lemma later_move l interval sec delay x t y u : move interval sec delay (x, t) (y, u) -> later l interval x -> later l interval y.
Proof.
  intros M (I & L & A). inversion M as [fails x0 t0 y0 E|e x0 t0 E|d x0 t0 E|x0 t0]; subst; clear M.
  - unfold cleaner_step in E. unfold later. destruct (x_at x) as [| |n|n|n w|] eqn:P; cbn [x_at] in *.
    + pose proof (rinv_cleanup false fails (x_reg x) I) as Q. rewrite cleanup_is in E, Q by apply I. injection E as <-. cbn [x_reg x_at r_now]. auto.
    + injection E as <-. cbn [move_to x_reg x_at]. auto.
    + injection E as <-. cbn [move_to x_reg x_at]. split; [exact I|]. split; [exact L|]. destruct (Z.ltb_spec (r_now (x_reg x) - n) interval); lia.
    + injection E as <-. cbn [move_to x_reg x_at]. destruct (x_run x); auto.
    + destruct (_ <=? _); [injection E as <-|discriminate]. cbn [move_to x_reg x_at]. auto.
    + discriminate.
  - destruct (kt_event e (x_reg x) I) as [(_ & _ & K3)|(d & -> & _)]; [|now destruct (E d)]. unfold later. cbn [meanwhile x_reg x_at]. rewrite K3. split; [now apply rinv_event|]. auto.
  - destruct (kt_event (RTick d) (x_reg x) I) as [(_ & X & _)|(d' & Ed & K)]; [now destruct (X d)|]. injection Ed as <-.
    pose proof (rinv_event (RTick d) (x_reg x) I) as Q. unfold later. cbn [meanwhile x_reg x_at]. rewrite K in *. cbn [snd r_now] in *. split; [exact Q|]. split; [lia|]. destruct (x_at x); auto. lia.
  - exact (conj I (conj L A)).
Qed.
Lemma later_moves l interval sec delay a b : moves interval sec delay a b -> later l interval (fst a) -> later l interval (fst b).
Proof. intros M. induction M as [|a b c M IH X]; auto. intros H. destruct b, c. eapply later_move; [exact X|]. now apply IH. Qed.
Theorem C116_rate interval sec delay timeout now fails x t y z u : moves interval sec delay (new_proc timeout now, now) (x, t) -> x_at x = PClean -> cleaner_step interval sec fails x = Some y ->
  moves interval sec delay (y, ready_from y) (z, u) -> x_at z = PClean -> r_now (x_reg z) >= r_now (x_reg x) + interval.
Proof.
  intros M P E M' Pz. assert (I : rinv (x_reg x)).
  { apply (later_moves (now - Z.abs interval) interval sec delay _ _ M). split; [apply rinv_init|]. cbn. lia. }
  assert (L : later (r_now (x_reg x)) interval y).
  { unfold cleaner_step in E. rewrite P in E. pose proof (rinv_cleanup false fails (x_reg x) I) as Q. rewrite cleanup_is in E, Q by apply I. injection E as <-. split; [exact Q|]. cbn. split; [lia|exact Logic.I]. }
  pose proof (later_moves _ _ _ _ _ _ M' L) as (_ & _ & A). cbn [fst] in A. rewrite Pz in A. lia.
Qed.

Lemma moves_timeout interval sec delay timeout now b : moves interval sec delay (new_proc timeout now, now) b -> r_timeout (x_reg (fst b)) = timeout.
Proof.
  intros M. assert (Q : rinv (x_reg (fst b)) /\ r_timeout (x_reg (fst b)) = timeout); [|apply Q].
  remember (new_proc timeout now, now) as a eqn:Ea. induction M as [a|a b c M IH X]; [subst; split; [apply rinv_init|reflexivity]|].
  destruct (IH Ea) as [I T]. destruct b as [x t], c as [y u]. cbn [fst] in *. inversion X as [fails x0 t0 y0 E|e x0 t0 E|d x0 t0 E|x0 t0]; subst; clear X.
  - unfold cleaner_step in E. pose proof (rinv_cleanup false fails (x_reg x) I) as Q. rewrite cleanup_is in E, Q by apply I. destruct (x_at x) as [| |n|n|n w|]; try discriminate; try destruct (_ <=? _); try discriminate; injection E as <-; auto.
  - split; [now apply rinv_event|]. destruct (kt_event e (x_reg x) I) as [([K _] & _)|(d & -> & _)]; [exact K|now destruct (E d)].
  - split; [now apply rinv_event|]. destruct (kt_event (RTick d) (x_reg x) I) as [(_ & Y & _)|(d' & Ed & K)]; [now destruct (Y d)|]. cbn [meanwhile x_reg]. now rewrite K.
  - auto.
Qed.
(** What the thread closes has not been used for longer than clean_timeout. *)
Theorem C116_closes interval sec delay timeout now fails x t y c : moves interval sec delay (new_proc timeout now, now) (x, t) -> cleaner_step interval sec fails x = Some y -> In c (r_closed (x_reg y)) -> ~ In c (r_closed (x_reg x)) -> idle x c > timeout.
Proof.
  intros M E H N. assert (I : rinv (x_reg x)) by (apply (later_moves (now - Z.abs interval) interval sec delay _ _ M); split; [apply rinv_init|]; cbn; lia).
  assert (T : r_timeout (x_reg x) = timeout) by (exact (moves_timeout _ _ _ timeout now _ M)). unfold cleaner_step in E. destruct (x_at x) as [| |n|n|n w|]; try discriminate; [|injection E as <-; contradiction..|destruct (_ <=? _)%Z; [injection E as <-; contradiction|discriminate]].
  rewrite cleanup_is in E by apply I. injection E as <-. cbn [x_reg r_closed] in H. apply in_app_iff in H. destruct H as [H|H]; [|contradiction].
  apply in_rev in H. apply in_map_iff in H. destruct H as ([k c'] & <- & H). apply filter_In in H. destruct H as [_ H]. unfold drop, dueb in H. cbn [snd] in *. rewrite Bool.orb_false_r in H. apply Z.ltb_lt in H. unfold idle. rewrite T in H. lia.
Qed.


(** ** C117 *)
(** Once stopped, the thread is gone after a second (and its delays), if it is quick enough for clean_interval. *)
Definition prompt (sec delay : Z) (x : proc) (t : Z) : Prop :=
  rinv (x_reg x) /\ (x_at x <> PGone -> r_now (x_reg x) <= t + delay) /\ match x_at x with PSleep _ w => t = w /\ w <= r_now (x_reg x) + sec | _ => t <= r_now (x_reg x) end.
Lemma prompt_move interval sec delay x t y u : 0 <= sec -> 0 <= delay -> move interval sec delay (x, t) (y, u) -> prompt sec delay x t -> prompt sec delay y u.
Proof.
  intros Hs Hd M (I & N & A). inversion M as [fails x0 t0 y0 E|e x0 t0 E|d x0 t0 E|x0 t0]; subst; clear M.
  - unfold cleaner_step in E. unfold prompt. destruct (x_at x) as [| |n|n|n w|] eqn:P; cbn [x_at] in *.
    + pose proof (rinv_cleanup false fails (x_reg x) I) as Q. rewrite cleanup_is in E, Q by apply I. injection E as <-. unfold ready_from. cbn [x_reg x_at r_now]. split; [exact Q|]. lia.
    + injection E as <-. unfold ready_from. cbn [move_to x_reg x_at]. split; [exact I|]. lia.
    + injection E as <-. unfold ready_from. cbn [move_to x_reg x_at]. split; [exact I|]. destruct (_ <? _); cbn [move_to x_reg x_at]; lia.
    + injection E as <-. unfold ready_from. cbn [move_to x_reg x_at]. split; [exact I|]. destruct (x_run x); cbn [move_to x_reg x_at]; lia.
    + destruct (_ <=? _); [injection E as <-|discriminate]. unfold ready_from. cbn [move_to x_reg x_at]. split; [exact I|]. lia.
    + discriminate.
  - destruct (kt_event e (x_reg x) I) as [(_ & _ & K3)|(d & -> & _)]; [|now destruct (E d)]. unfold prompt. cbn [meanwhile x_reg x_at]. rewrite K3. split; [now apply rinv_event|]. auto.
  - destruct (kt_event (RTick d) (x_reg x) I) as [(_ & X & _)|(d' & Ed & K)]; [now destruct (X d)|]. injection Ed as <-.
    pose proof (rinv_event (RTick d) (x_reg x) I) as Q. unfold prompt. cbn [meanwhile x_reg x_at]. rewrite K in *. cbn [snd r_now] in *. split; [exact Q|]. split; [intros G; destruct E as [E|E]; [exact E|contradiction]|]. destruct (x_at x); auto; lia.
  - exact (conj I (conj N A)).
Qed.
Lemma prompt_moves interval sec delay a b : 0 <= sec -> 0 <= delay -> moves interval sec delay a b -> prompt sec delay (fst a) (snd a) -> prompt sec delay (fst b) (snd b).
Proof. intros Hs Hd M. induction M as [|a b c M IH X]; auto. intros H. destruct b, c. eapply prompt_move; eauto. Qed.
Lemma prompt_start sec delay timeout now : 0 <= delay -> prompt sec delay (new_proc timeout now) now.
Proof. intros Hd. split; [apply rinv_init|]. cbn. lia. Qed.

Definition ending (l sec delay : Z) (x : proc) (t : Z) : Prop :=
  x_run x = false /\ match x_at x with
                     | PSleep _ _ => t <= l + sec
                     | PTest n => t <= l + sec + delay \/ (t = n /\ t <= l + sec + 4 * delay)
                     | PClean => t <= l + sec + 2 * delay
                     | PTime => t <= l + sec + 3 * delay
                     | PFlag _ => t <= l + sec + 5 * delay
                     | PGone => True
                     end.
Lemma ending_move l interval sec delay x t y u : 0 <= sec -> 0 <= delay -> delay < interval -> prompt sec delay x t -> move interval sec delay (x, t) (y, u) -> ending l sec delay x t -> ending l sec delay y u.
Proof.
  intros Hs Hd Hi (I & N & B) M (R & A). inversion M as [fails x0 t0 y0 E|e x0 t0 E|d x0 t0 E|x0 t0]; subst; clear M.
  - unfold cleaner_step in E. unfold ending, ready_from. destruct (x_at x) as [| |n|n|n w|] eqn:P; cbn [x_at] in *.
    + rewrite cleanup_is in E by apply I. injection E as <-. cbn [x_reg x_at x_run r_now]. split; [exact R|]. specialize (N ltac:(discriminate)). lia.
    + injection E as <-. cbn [move_to x_reg x_at x_run]. split; [exact R|]. specialize (N ltac:(discriminate)). lia.
    + injection E as <-. cbn [move_to x_reg x_at x_run]. split; [exact R|]. specialize (N ltac:(discriminate)). destruct (Z.ltb_spec (r_now (x_reg x) - n) interval); cbn [move_to x_reg x_at]; lia.
    + injection E as <-. cbn [move_to x_reg x_at x_run]. rewrite R. split; [reflexivity|exact Logic.I].
    + destruct (_ <=? _); [injection E as <-|discriminate]. cbn [move_to x_reg x_at x_run]. split; [exact R|]. specialize (N ltac:(discriminate)). lia.
    + discriminate.
  - exact (conj R A).
  - exact (conj R A).
  - exact (conj eq_refl A).
Qed.
Theorem C117_stop_partial interval sec delay timeout now x t y u : 0 <= sec -> 0 <= delay -> delay < interval -> moves interval sec delay (new_proc timeout now, now) (x, t) -> x_run x = false ->
  moves interval sec delay (x, t) (y, u) -> r_now (x_reg y) > r_now (x_reg x) + sec + 6 * delay -> x_at y = PGone.
Proof.
  intros Hs Hd Hi M R M' T. pose proof (prompt_moves _ _ _ _ _ Hs Hd M (prompt_start _ _ _ _ Hd)) as P. cbn [fst snd] in P.
  assert (E : ending (r_now (x_reg x)) sec delay x t) by (split; [exact R|]; destruct P as (_ & _ & P); destruct (x_at x); auto; lia).
  assert (Q : forall b, moves interval sec delay (x, t) b -> prompt sec delay (fst b) (snd b) /\ ending (r_now (x_reg x)) sec delay (fst b) (snd b)).
  { clear M M' T. intros b X. remember (x, t) as a eqn:Ea. induction X as [a|a b c X IH Y]; [subst; auto|]. destruct (IH Ea) as [P1 E1]. destruct b, c. cbn [fst snd] in *. split; [eapply prompt_move; eauto|eapply ending_move; eauto]. }
  destruct (Q _ M') as [(_ & N & _) [_ A]]. cbn [fst snd] in *. destruct (x_at y); auto; specialize (N ltac:(discriminate)); lia.
Qed.
(** With clean_interval 0 the thread never ends, whatever is done: shutdown() does not return. *)
Theorem C117_refuted sec delay timeout now x t : moves 0 sec delay (new_proc timeout now, now) (x, t) -> x_at x <> PGone.
Proof.
  intros M. assert (Q : rinv (x_reg x) /\ match x_at x with PClean | PTime => True | PTest n => n <= r_now (x_reg x) | _ => False end).
  { change x with (fst (x, t)). remember (new_proc timeout now, now) as a eqn:Ea. induction M as [a|a b c M IH X]; [subst; split; [apply rinv_init|exact Logic.I]|].
    specialize (IH Ea). destruct b as [x1 t1], c as [x2 t2]. cbn [fst] in *. destruct IH as [I A]. inversion X as [fails x0 t0 y0 E|e x0 t0 E|d x0 t0 E|x0 t0]; subst; clear X.
    - unfold cleaner_step in E. destruct (x_at x1) as [| |n|n|n w|] eqn:P; try contradiction.
      + pose proof (rinv_cleanup false fails (x_reg x1) I) as Q. rewrite cleanup_is in E, Q by apply I. injection E as <-. split; [exact Q|exact Logic.I].
      + injection E as <-. split; [exact I|]. cbn. lia.
      + injection E as <-. destruct (Z.ltb_spec (r_now (x_reg x1) - n) 0); [lia|]. split; [exact I|exact Logic.I].
    - destruct (kt_event e (x_reg x1) I) as [(_ & _ & K3)|(d & -> & _)]; [|now destruct (E d)]. cbn [meanwhile x_reg x_at]. rewrite K3. split; [now apply rinv_event|]. exact A.
    - destruct (kt_event (RTick d) (x_reg x1) I) as [(_ & Y & _)|(d' & Ed & K)]; [now destruct (Y d)|]. injection Ed as <-. pose proof (rinv_event (RTick d) (x_reg x1) I) as Q. cbn [meanwhile x_reg x_at]. rewrite K in *. cbn [snd r_now] in *. split; [exact Q|]. destruct (x_at x1); auto. lia.
    - exact (conj I A). }
  intros E. rewrite E in Q. apply Q.
Qed.

(** ** Witnesses *)
(** A run that can be computed: steps of the thread, other events, waiting. *)
Inductive doing := Step | Other (e : revent) | Wait (d : N) | Stop.
Definition do (interval sec delay : Z) (w : doing) (a : proc * Z) : option (proc * Z) :=
  match w with
  | Step => match cleaner_step interval sec nofail (fst a) with Some y => Some (y, ready_from y) | None => None end
  | Other e => match e with RTick _ => None | _ => Some (meanwhile e (fst a), snd a) end
  | Wait d => if (r_now (x_reg (fst a)) + Z.of_N d <=? snd a + delay) || match x_at (fst a) with PGone => true | _ => false end then Some (meanwhile (RTick d) (fst a), snd a) else None
  | Stop => Some (stop (fst a), snd a)
  end.
Fixpoint does (interval sec delay : Z) (l : list doing) (a : proc * Z) : option (proc * Z) :=
  match l with [] => Some a | w :: l' => match do interval sec delay w a with Some b => does interval sec delay l' b | None => None end end.
Lemma do_move interval sec delay w a b : do interval sec delay w a = Some b -> move interval sec delay a b.
Proof.
  destruct a as [x t]. destruct w as [|e|d|]; cbn [do fst snd].
  - destruct (cleaner_step interval sec nofail x) eqn:E; [|discriminate]. intros X. injection X as <-. econstructor. exact E.
  - destruct e; intros X; try discriminate; injection X as <-; apply mv_other; discriminate.
  - destruct (_ || _)%bool eqn:E; [|discriminate]. intros X. injection X as <-. apply mv_wait. apply Bool.orb_true_iff in E. destruct E as [E|E]; [left; now apply Z.leb_le|right]. destruct (x_at x); congruence.
  - intros X. injection X as <-. apply mv_stop.
Qed.
Lemma does_moves interval sec delay l : forall a b, does interval sec delay l a = Some b -> moves interval sec delay a b.
Proof.
  assert (T : forall a b c, moves interval sec delay a b -> moves interval sec delay b c -> moves interval sec delay a c) by (intros a b c M N; revert M; induction N as [|b c d N IH X]; intros M; [exact M|exact (ms_move _ _ _ _ _ _ (IH M) X)]).
  induction l as [|w l IH]; cbn [does]; intros a b H; [injection H as <-; constructor|]. destruct (do interval sec delay w a) as [c|] eqn:E; [|discriminate].
  apply (T a c b); [exact (ms_move _ _ _ _ _ _ (ms_none _ _ _ a) (do_move _ _ _ _ _ _ E))|now apply IH].
Qed.
(** clean_timeout 3, clean_interval 2: a connection is made and then not used; it stays for two clean-ups, until the thread looks at 4 seconds. *)
Definition around : list doing := [Step; Step; Step; Wait 1; Step; Step; Step; Wait 1; Step; Step].
Definition day : list doing := [Other (RRegister (Some (lit "memory")) good); Other (RGet ka); Step] ++ around ++ [Step] ++ around.
Definition at_end (l : list doing) : proc * Z := match does 2 1 1 l (new_proc 3 0, 0) with Some a => a | None => (new_proc 3 0, 0) end.
Example C116_witness : moves 2 1 1 (new_proc 3 0, 0) (at_end day) /\ x_run (fst (at_end day)) = true /\ In (ka, 0%nat) (r_conns (x_reg (fst (at_end day)))) /\ idle (fst (at_end day)) 0 = 4
  /\ x_at (fst (at_end day)) = PClean
  /\ (let y := fst (at_end (day ++ [Step])) in cleaner_step 2 1 nofail (fst (at_end day)) = Some y /\ r_closed (x_reg y) = [0%nat] /\ r_conns (x_reg y) = []).
Proof.
  split; [apply (does_moves 2 1 1 day); vm_compute; reflexivity|]. split; [reflexivity|]. split; [vm_compute; auto|]. split; [reflexivity|]. split; [reflexivity|]. repeat split; vm_compute; reflexivity.
Qed.
Example C116_lives_witness : exists x t, up 2 1 1 (new_proc 3 0, 0) (x, t) /\ In (ka, 0%nat) (r_conns (x_reg x)) /\ x_at x = PTime /\ idle x 0 = 1.
Proof.
  eexists _, _. split.
  - apply (up_wait 2 1 1 _ 1);
      [eapply (up_step 2 1 1 _ nofail);
         [apply (up_other 2 1 1 _ (RGet ka)); [apply (up_other 2 1 1 _ (RRegister (Some (lit "memory")) good)); [apply up_none|discriminate]|discriminate]
         |vm_compute; reflexivity]
      |vm_compute; discriminate].
  - split; [vm_compute; auto|]. split; vm_compute; reflexivity.
Qed.
(** Stopped, with the thread asleep: it wakes up, and is gone. *)
Example C117_witness : let x := at_end (day ++ [Step; Step; Step; Step; Stop]) in let y := at_end (day ++ [Step; Step; Step; Step; Stop; Wait 2; Step; Step; Step; Step; Step; Step; Wait 6]) in
  moves 2 1 1 (new_proc 3 0, 0) x /\ x_run (fst x) = false /\ x_at (fst x) = PSleep 4 5 /\ moves 2 1 1 x y /\ r_now (x_reg (fst y)) > r_now (x_reg (fst x)) + 1 + 6 * 1.
Proof.
  intros x y. split; [apply (does_moves 2 1 1 (day ++ [Step; Step; Step; Step; Stop])); vm_compute; reflexivity|]. split; [reflexivity|]. split; [reflexivity|].
  split; [apply (does_moves 2 1 1 [Wait 2; Step; Step; Step; Step; Step; Step; Wait 6]); vm_compute; reflexivity|]. vm_compute. reflexivity.
Qed.
(** clean_interval 0, stopped: around and around *)
Example C117_refuted_witness : exists x t, moves 0 1 1 (new_proc 3 0, 0) (x, t) /\ x_run x = false /\ r_now (x_reg x) = 3.
Proof.
  destruct (does 0 1 1 [Stop; Step; Wait 1; Step; Step; Step; Wait 1; Step; Step; Step; Wait 1] (new_proc 3 0, 0)) as [[x t]|] eqn:E; [|vm_compute in E; discriminate E].
  exists x, t. split; [eapply does_moves; exact E|]. vm_compute in E. injection E as <- _. split; reflexivity.
Qed.
Print Assumptions C116_idle.
Print Assumptions C116_lives.
Print Assumptions C116_closes.
Print Assumptions C116_rate.
Print Assumptions C117_stop_partial.
Print Assumptions C117_refuted.
