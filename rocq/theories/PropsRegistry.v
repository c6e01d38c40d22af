(** Properties C17-C21: the connection registry.  See SpecReg.v for the vocabulary. *)
From Coq Require Import Lia.
From Verif Require Import Str Exc StrFacts UriParse BaseUri Registry RegistryConc SpecReg RegFacts RegFacts2 RegFacts3 RegFacts4.

(** *** Example data *)
Definition good : factory := fun _ => None.
Definition bad : factory := fun _ => Some AttributeError.
Definition key (scheme user : string) : conn_key := mkKey (Some (lit scheme)) None 0 (Some (lit user)) None [] [].
Definition ka := key "memory" "a".
Definition kb := key "memory" "b".
Definition kx := mkKey (Some (lit "memory")) None 0 (Some (lit "a")) None [] [(lit "x", lit "1"); (lit "y", lit "2")].
Definition kx' := mkKey (Some (lit "memory")) None 0 (Some (lit "a")) None [] [(lit "y", lit "2"); (lit "x", lit "1")].
Definition nofail : nat -> bool := fun _ => false.
(** Two backends, two connections; the second was used after the first. *)
Definition hist : list revent :=
  [RRegister (Some (lit "memory")) good; RRegister (Some (lit "file")) bad; RGet ka; RTick 1000; RUse kb; RTick 1000].
Definition busy : rst := run_events hist (init_reg 1800 5).
Lemma busy_reachable : r_reachable busy.
Proof. exists 1800%Z, 5%Z, hist. reflexivity. Qed.
Lemma differ : forall a b, key_eqb a b = false -> ~ same_key a b.
Proof. intros a b. apply key_eqb_false. Qed.
Lemma agree : forall a b, key_eqb a b = true -> same_key a b.
Proof. intros a b. apply key_eqb_eq. Qed.

(** ** C17 *)
(** A later lookup of an equal key returns the same object unless that object has been closed in between. *)
Theorem C17_same_key s k k' c l : r_reachable s -> same_key k k' -> fst (get_connection k s) = Ok c ->
  let s1 := run_events l (snd (get_connection k s)) in
  ~ In c (r_closed s1) -> get_connection k' s1 = (Ok c, s1).
Proof. intros R. apply same_lookup, r_reachable_inv, R. Qed.
Print Assumptions C17_same_key.
(** In particular when no clean-up runs in between. *)
Theorem C17_no_cleanup s k k' c l : r_reachable s -> same_key k k' -> fst (get_connection k s) = Ok c ->
  (forall force fails, ~ In (RCleanup force fails) l) ->
  let s1 := run_events l (snd (get_connection k s)) in
  fst (get_connection k' s1) = Ok c.
Proof.
  intros R Hk H Hn s1. unfold s1. rewrite (C17_same_key s k k' c l R Hk H); [reflexivity|].
  pose proof (lookup_open k s c (r_reachable_inv s R) H) as Ho. revert Ho. generalize (snd (get_connection k s)). clear - Hn.
  induction l as [|e l IH]; intros s Ho; [exact Ho|]. cbn [run_events fold_left]. apply IH.
  - intros force fails Hi. apply (Hn force fails). right. exact Hi.
  - destruct e as [sc f|k'|k'|force fails|d]; cbn [run_event]; auto.
    + unfold bind. pose proof (lookup_closed k' s) as E. destruct (get_connection k' s) as [[x|x] s']; cbn [snd ret] in *; congruence.
    + unfold bind. rewrite use_is. pose proof (lookup_closed k' s) as E. destruct (get_connection k' s) as [[x|x] s']; cbn [snd ret set_used r_closed] in *; congruence.
    + exfalso. apply (Hn force fails). left. reflexivity.
Qed.
Print Assumptions C17_no_cleanup.
Theorem C17_other_key s k k' c c' l : r_reachable s -> ~ same_key k k' -> fst (get_connection k s) = Ok c ->
  let s1 := run_events l (snd (get_connection k s)) in
  fst (get_connection k' s1) = Ok c' -> c <> c'.
Proof. intros R. apply different_lookup, r_reachable_inv, R. Qed.
Print Assumptions C17_other_key.
(** Keys differing in the order of the extras only; a clean-up that keeps the connection; a different key. *)
Example C17_witness : r_reachable busy /\ same_key kx kx' /\ ~ same_key kx kb /\ fst (get_connection kx busy) = Ok 2 /\
  (let s1 := run_events [RCleanup false nofail; RGet ka; RTick 9] (snd (get_connection kx busy)) in
   ~ In 2 (r_closed s1) /\ r_closed s1 = [0] /\ fst (get_connection kx' s1) = Ok 2 /\ fst (get_connection kb s1) = Ok 1).
Proof.
  split; [apply busy_reachable|]. split; [apply agree; vm_compute; reflexivity|]. split; [apply differ; vm_compute; reflexivity|].
  split; [vm_compute; reflexivity|]. cbn zeta. split; [vm_compute; intuition discriminate|]. repeat split; vm_compute; reflexivity.
Qed.

(** ** C18 *)
(** The table afterwards and the closed connections, in order; [fails] may be anything. *)
Theorem C18_cleanup s force fails : r_reachable s ->
  exists kept closed s',
    cleanup force fails s = (Ok tt, s') /\ swept (due force s) (r_conns s) kept closed /\
    r_conns s' = kept /\ r_closed s' = rev closed ++ r_closed s /\ NoDup closed /\ (forall c, In c closed -> ~ In c (r_closed s)) /\
    r_schemes s' = r_schemes s /\ r_next s' = r_next s /\ (forall c, r_used s' c = r_used s c).
Proof.
  intros R. pose proof (r_reachable_inv s R) as [Hu Hn Hl Hc Hcl Ha Hs].
  exists (filter (keep force s) (r_conns s)), (map snd (filter (drop force s) (r_conns s))).
  eexists. split; [apply cleanup_is, Hu|]. cbn [r_conns r_closed r_schemes r_next r_used].
  split; [apply filter_swept|]. repeat (split; [reflexivity|]). split; [apply nodup_filter_map, Hn|].
  split; [intros c Hi; apply Ha, (in_filter_map _ _ _ Hi)|]. auto.
Qed.
Print Assumptions C18_cleanup.
(** The same, entry by entry. *)
Theorem C18_entries s force fails k c : r_reachable s -> In (k, c) (r_conns s) ->
  let s' := snd (cleanup force fails s) in
  (due force s c -> ~ In (k, c) (r_conns s') /\ In c (r_closed s')) /\
  (~ due force s c -> In (k, c) (r_conns s') /\ ~ In c (r_closed s')).
Proof.
  intros R Hi. pose proof (r_reachable_inv s R) as RI. pose proof RI as [Hu Hn Hl Hc Hcl Ha Hs]. rewrite cleanup_is by exact Hu.
  cbn [snd r_conns r_closed]. unfold keep, drop. split; intros D.
  - apply dueb_due in D. split.
    + intros H. apply filter_In in H. cbn [snd] in H. rewrite D in H. destruct H; discriminate.
    + apply in_or_app. left. rewrite <- in_rev. apply in_map_iff. exists (k, c). split; [reflexivity|]. apply filter_In. auto.
  - assert (E : dueb force s (r_now s) c = false).
    { destruct (dueb force s (r_now s) c) eqn:E; [|reflexivity]. apply dueb_due in E. contradiction. }
    split.
    + apply filter_In. cbn [snd]. rewrite E. auto.
    + intros H. apply in_app_or in H. destruct H as [H|H].
      * apply in_rev in H. apply in_map_iff in H. destruct H as ([k2 c2] & E2 & H2). apply filter_In in H2. cbn [snd] in *. subst c2.
        destruct H2. congruence.
      * revert H. apply Ha. apply in_map_iff. exists (k, c). auto.
Qed.
Print Assumptions C18_entries.
Theorem C18_shutdown s fails : r_reachable s ->
  fst (shutdown fails s) = Ok tt /\ r_conns (snd (shutdown fails s)) = [] /\
  forall k c, In (k, c) (r_conns s) -> In c (r_closed (snd (shutdown fails s))).
Proof.
  intros R. pose proof (r_reachable_inv s R) as RI. unfold shutdown. rewrite cleanup_is by apply RI. cbn [fst snd r_conns r_closed].
  split; [reflexivity|]. unfold keep, drop, dueb. split.
  - induction (r_conns s) as [|e l IH]; [reflexivity|]. cbn [filter]. rewrite Bool.orb_true_r. exact IH.
  - intros k c Hi. apply in_or_app. left. rewrite <- in_rev. apply in_map_iff. exists (k, c). split; [reflexivity|].
    apply filter_In. split; [exact Hi|]. apply Bool.orb_true_r.
Qed.
Print Assumptions C18_shutdown.
(** One stale and one fresh connection; both raise when closed. *)
Example C18_witness : r_reachable busy /\ stale busy 0 /\ ~ stale busy 1 /\ map snd (r_conns busy) = [0; 1] /\
  map snd (r_conns (snd (cleanup false (fun _ => true) busy))) = [1] /\
  r_closed (snd (cleanup true (fun _ => true) busy)) = [1; 0].
Proof.
  split; [apply busy_reachable|]. split; [vm_compute; reflexivity|]. split; [vm_compute; discriminate|]. repeat split; vm_compute; reflexivity.
Qed.

(** ** C19 *)
Theorem C19_closed_once s : r_reachable s -> NoDup (r_closed s).
Proof. intros R. apply r_reachable_inv, R. Qed.
Print Assumptions C19_closed_once.
Theorem C19_never_handed_out s k c : r_reachable s ->
  fst (get_connection k s) = Ok c \/ fst (use_connection k s) = Ok c -> ~ In c (r_closed s).
Proof.
  intros R H. assert (E : fst (get_connection k s) = Ok c).
  { destruct H as [H|H]; [exact H|]. rewrite use_is in H. destruct (get_connection k s) as [[x|x] s']; exact H. }
  pose proof (lookup_open k s c (r_reachable_inv s R) E) as Ho. rewrite lookup_closed in Ho. exact Ho.
Qed.
Print Assumptions C19_never_handed_out.
(** A connection closed at some time is not handed out at any later time. *)
Theorem C19_closed_for_good s k c l : r_reachable s -> In c (r_closed s) -> fst (get_connection k (run_events l s)) <> Ok c.
Proof.
  intros R Hi H. pose proof (r_reachable_inv s R) as RI.
  apply (lookup_open k _ c (rinv_events l s RI) H). rewrite lookup_closed. apply events_closed; assumption.
Qed.
Print Assumptions C19_closed_for_good.
Example C19_witness : let s := snd (cleanup false nofail busy) in
  r_reachable s /\ r_closed s = [0] /\ fst (get_connection ka s) = Ok 2 /\ fst (use_connection kb s) = Ok 1.
Proof.
  cbn zeta. split; [|repeat split; vm_compute; reflexivity]. exists 1800%Z, 5%Z, (hist ++ [RCleanup false nofail]).
  rewrite run_events_snoc. reflexivity.
Qed.
(** A memory filesystem that nobody used for the timeout loses its data: the same URI gets a new, empty one. *)
Theorem C19_forgotten s k c d : r_reachable s -> fst (use_connection k s) = Ok c -> (Z.of_N d > r_timeout s)%Z ->
  let s1 := run_events [RTick d; RCleanup false nofail] (snd (use_connection k s)) in
  In c (r_closed s1) /\ fst (get_connection k s1) <> Ok c.
Proof.
  intros R H Hd s1. pose proof (r_reachable_inv s R) as RI.
  pose proof (rinv_lookup k s RI) as RL. pose proof (lookup_found k s c) as Hf. pose proof (lookup_timeout k s) as [Et En].
  unfold s1. clear s1. rewrite use_is in *. destruct (get_connection k s) as [[x|x] s'] eqn:G; cbn [fst snd] in *; [|discriminate].
  injection H as ->. pose proof (rinv_used s' c (r_now s') RL) as RU. destruct (Hf eq_refl) as [Hg _]. apply kget_in in Hg. destruct Hg as (k2 & _ & Hin).
  match goal with |- In c (r_closed ?st) /\ _ => set (s1 := st) end.
  assert (Hc : In c (r_closed s1)).
  { unfold s1. cbn [run_events fold_left run_event tick snd]. rewrite cleanup_is by apply RU. cbn [snd r_closed]. apply in_or_app. left. rewrite <- in_rev.
    apply in_map_iff. exists (k2, c). split; [reflexivity|]. apply filter_In. split; [exact Hin|].
    unfold drop. apply dueb_due. right. unfold stale. cbn [snd set_used r_now r_used r_timeout]. rewrite Nat.eqb_refl. lia. }
  split; [exact Hc|]. intros E. assert (RI1 : rinv s1) by (apply rinv_events, RU).
  apply (lookup_open k s1 c RI1 E). rewrite lookup_closed. exact Hc.
Qed.
Print Assumptions C19_forgotten.
Example C19_forgotten_witness : r_reachable busy /\ fst (use_connection kb busy) = Ok 1 /\ (Z.of_N 1801 > r_timeout busy)%Z.
Proof. split; [apply busy_reachable|]. split; vm_compute; reflexivity. Qed.

(** ** C20 *)
Theorem C20_unknown l t n k : unregistered (k_scheme k) l ->
  let s := run_events l (init_reg t n) in
  get_connection k s = (Raise NoSchemeError, s) /\ use_connection k s = (Raise NoSchemeError, s).
Proof.
  intros U s. pose proof (unregistered_sget _ _ U t n) as E. fold s in E.
  assert (G : get_connection k s = (Raise NoSchemeError, s)) by (destruct (lookup_cases k s); congruence).
  split; [exact G|]. rewrite use_is, G. reflexivity.
Qed.
Print Assumptions C20_unknown.
(** With a registered backend an exception is the backend's own, raised for these arguments, and leaves no trace. *)
Theorem C20_registered l t n k f e s' : registered (k_scheme k) f l ->
  let s := run_events l (init_reg t n) in
  get_connection k s = (Raise e, s') -> f k = Some e /\ s' = s.
Proof.
  intros Rg s H. pose proof (registered_sget _ _ _ Rg t n) as E. fold s in E.
  destruct (lookup_cases k s) as [E2|f2 c E2 Ek|f2 e2 E2 Ek Ef|f2 E2 Ek Ef]; [congruence|discriminate| |discriminate].
  injection H as -> <-. split; [congruence|reflexivity].
Qed.
Print Assumptions C20_registered.
(** Every scheme is either registered or not. *)
Theorem C20_total sc l : unregistered sc l \/ exists f, registered sc f l.
Proof.
  induction l as [|e l IH] using rev_ind; [left; intros f []|].
  assert (D : (exists g, e = RRegister sc g) \/ forall g, e <> RRegister sc g).
  { destruct e as [sc' g| | | |]; try (right; intros g'; discriminate). destruct (opt_str_dec sc' sc) as [->|Hne]; [left; eauto|right; congruence]. }
  destruct D as [(g & ->)|D]; [right; exists g; apply reg_here|]. destruct IH as [U|(f & Rg)].
  - left. intros f Hi. apply in_app_or in Hi. destruct Hi as [Hi|[Hi|[]]]; [apply (U f Hi)|apply (D f Hi)].
  - right. exists f. apply reg_later; assumption.
Qed.
Print Assumptions C20_total.
Example C20_witness : unregistered (k_scheme (key "zip" "a")) hist /\ registered (k_scheme (key "file" "a")) bad hist /\
  registered (k_scheme ka) good hist /\ fst (get_connection (key "file" "a") busy) = Raise AttributeError /\ fst (get_connection ka busy) = Ok 0.
Proof.
  split; [intros f H; repeat (destruct H as [H|H]; [discriminate H|]); exact H|].
  split.
  - change hist with (((([RRegister (Some (lit "memory")) good] ++ [RRegister (Some (lit "file")) bad]) ++ [RGet ka]) ++ [RTick 1000]) ++ [RUse kb] ++ [RTick 1000]).
    rewrite app_assoc. repeat (apply reg_later; [|discriminate]). apply reg_here.
  - split; [|split; vm_compute; reflexivity].
    change hist with ((((([] ++ [RRegister (Some (lit "memory")) good]) ++ [RRegister (Some (lit "file")) bad]) ++ [RGet ka]) ++ [RTick 1000]) ++ [RUse kb] ++ [RTick 1000]).
    rewrite app_assoc. repeat (apply reg_later; [|solve [intros g E; apply (f_equal (fun e => match e with RRegister sc _ => sc | _ => None end)) in E; vm_compute in E; discriminate E]]). apply reg_here.
Qed.
(** From a URI: a query that repeats the name of a parameter makes every operation fail. *)
Theorem C20_query_typeerror : exists u, URI (lit "memory:///f?hostname=x") cSlash [] = Ok u /\
  fst (uri_connection u busy) = Raise TypeError /\
  exists v, URI (lit "memory:///f?username=x") cSlash [] = Ok v /\ fst (uri_connection v busy) = Raise TypeError.
Proof.
  destruct (URI (lit "memory:///f?hostname=x") cSlash []) as [u|e] eqn:E; [|vm_compute in E; discriminate E].
  exists u. split; [reflexivity|]. vm_compute in E. injection E as <-. split; [vm_compute; reflexivity|].
  destruct (URI (lit "memory:///f?username=x") cSlash []) as [v|e] eqn:E; [|vm_compute in E; discriminate E].
  exists v. split; [reflexivity|]. vm_compute in E. injection E as <-. vm_compute. reflexivity.
Qed.
Print Assumptions C20_query_typeerror.

(** ** C21 *)
(** Threads that look up keys of registered backends which make their connections without raising. *)
Definition lookups (s : rst) (ts : list thread) : Prop := Forall (fun t => exists k, t = LStart k /\ ready s k) ts.
Definition succeeded (t : thread) : Prop := exists k c, t = LDone k (Ok c).

(** Without a clean-up no lookup fails... *)
Theorem C21_no_failure_partial s ts c : lookups s ts -> csteps (begin s ts) c ->
  forall i k r, nth_error (c_threads c) i = Some (LDone k r) -> exists x, r = Ok x.
Proof.
  intros H R i k r E. pose proof (csteps_inv _ well_inv_step _ _ R (well_begin s ts H)) as W.
  unfold well_inv in W. rewrite Forall_forall in W. apply (W _ (nth_error_In _ _ E)).
Qed.
Print Assumptions C21_no_failure_partial.
(** ...none waits for ever, whatever the schedule: there is always a thread that can go on, and no run has
    more than seven steps per thread. *)
Theorem C21_all_return_partial s ts c n : lookups s ts -> crun n (begin s ts) c ->
  n <= 7 * length ts /\ ((forall t, In t (c_threads c) -> ~ can_run (c_sh c) t) -> Forall succeeded (c_threads c)).
Proof.
  intros H R. pose proof (crun_csteps _ _ _ R) as Rs. split.
  - pose proof (crun_bound _ _ _ R (well_begin s ts H)) as B. cbn [begin c_threads] in B.
    rewrite (total_starts ts) in B; [lia|]. eapply Forall_impl; [|exact H]. intros t (k & -> & _). exact I.
  - intros Stop. pose proof (csteps_inv _ well_inv_step _ _ Rs (well_begin s ts H)) as W.
    pose proof (csteps_inv _ lock_inv_step _ _ Rs (lock_inv_begin s ts (lookups_start s ts H))) as L.
    apply Forall_forall. intros t Ht. unfold well_inv in W. rewrite Forall_forall in W. specialize (W t Ht).
    destruct (can_or_wait t (c_sh c)) as [F|[F|(k & -> & F)]].
    + destruct t; try destruct F; cbn [well] in W; [|contradiction]. destruct W as (x & ->). exists k, x. reflexivity.
    + exfalso. apply (Stop t Ht F).
    + exfalso. destruct (no_deadlock c L) as (u & Hu & Fu); [exists (LWait k); auto|]. apply (Stop u Hu Fu).
Qed.
Print Assumptions C21_all_return_partial.
(** No thread waits for ever with clean-ups running either. *)
Theorem C21_no_deadlock_partial s ts c : Forall starting ts -> csteps (begin s ts) c ->
  (exists t, In t (c_threads c) /\ ~ finished t) -> exists t, In t (c_threads c) /\ can_run (c_sh c) t.
Proof. intros H R. apply no_deadlock. apply (csteps_inv _ lock_inv_step _ _ R), lock_inv_begin, H. Qed.
Print Assumptions C21_no_deadlock_partial.
(** All lookups of a key that has a connection return it, as long as there is no clean-up. *)
Theorem C21_agree_partial s ts c k0 c0 : lookups s ts -> kget k0 (r_conns s) = Some c0 -> csteps (begin s ts) c ->
  forall i k r, nth_error (c_threads c) i = Some (LDone k r) -> same_key k k0 -> r = Ok c0.
Proof.
  intros H K R i k r E Hs.
  assert (C0 : calm_inv k0 c0 (begin s ts)).
  { split; [exact K|]. eapply Forall_impl; [|exact H]. intros t (k1 & -> & _). exact I. }
  pose proof (csteps_inv _ (calm_inv_step k0 c0) _ _ R C0) as [_ W]. rewrite Forall_forall in W.
  specialize (W _ (nth_error_In _ _ E)). cbn [calm] in W. destruct (W Hs) as [->|(e & -> & ->)]; [reflexivity|].
  exfalso. destruct (C21_no_failure_partial s ts c H R i k _ E) as (x & Ex). discriminate Ex.
Qed.
Print Assumptions C21_agree_partial.
(** Whatever runs at the same time, lookups of different keys never get the same connection. *)
Theorem C21_no_mixup_partial s ts c : r_reachable s -> Forall starting ts -> csteps (begin s ts) c ->
  forall i j k k' x y, nth_error (c_threads c) i = Some (LDone k (Ok x)) -> nth_error (c_threads c) j = Some (LDone k' (Ok y)) ->
    ~ same_key k k' -> x <> y.
Proof.
  intros Rs H R i j k k' x y Hi Hj Hn ->. apply Hn.
  pose proof (csteps_inv _ pure_inv_step _ _ R (pure_begin s ts (r_reachable_inv s Rs) H)) as [_ P].
  eapply P; eapply done_pair; eassumption.
Qed.
Print Assumptions C21_no_mixup_partial.
(** With clean-ups a lookup returns or raises KeyError. *)
Theorem C21_keyerror_partial s ts c : Forall (fun t => (exists k, t = LStart k /\ ready s k) \/ exists force fails, t = CStart force fails) ts ->
  csteps (begin s ts) c ->
  forall i k r, nth_error (c_threads c) i = Some (LDone k r) -> (exists x, r = Ok x) \/ r = Raise KeyError.
Proof.
  intros H R i k r E.
  assert (F0 : fair_inv (begin s ts)).
  { eapply Forall_impl; [|exact H]. intros t [(k1 & -> & Hr)|(fo & fa & ->)]; [exact Hr|exact I]. }
  pose proof (csteps_inv _ fair_inv_step _ _ R F0) as W. unfold fair_inv in W. rewrite Forall_forall in W.
  apply (W _ (nth_error_In _ _ E)).
Qed.
Print Assumptions C21_keyerror_partial.
(** Connections of one scheme are made one at a time. *)
Theorem C21_one_at_a_time_partial s ts c : Forall starting ts -> csteps (begin s ts) c ->
  forall i j t u sc, nth_error (c_threads c) i = Some t -> nth_error (c_threads c) j = Some u -> making t sc -> making u sc -> i = j.
Proof.
  intros H R i j t u sc. apply exclusive. apply (csteps_inv _ lock_inv_step _ _ R), lock_inv_begin, H.
Qed.
Print Assumptions C21_one_at_a_time_partial.
(** The steps of one thread are those of Registry.v. *)
Theorem C21_alone_partial k force fails s :
  csteps (begin s [LStart k]) (mkCfg (mkSh (snd (get_connection k s)) []) [LDone k (fst (get_connection k s))]) /\
  csteps (begin s [CStart force fails]) (mkCfg (mkSh (snd (cleanup force fails s)) []) [CDone (fst (cleanup force fails s))]).
Proof. split; [apply lookup_alone|apply cleanup_alone]. Qed.
Print Assumptions C21_alone_partial.

(** A schedule is a run. *)
Lemma sched_csteps : forall l c, csteps c (run_sched l c).
Proof.
  induction l as [|i l IH]; intros c; [constructor|]. cbn [run_sched fold_left]. eapply css_trans; [|apply IH].
  unfold sched_step. destruct (nth_error (c_threads c) i) as [t|] eqn:E; [|constructor].
  destruct (tstep t (c_sh c)) as [[t' sh']|] eqn:F; [|constructor]. apply css_one. destruct c as [sh ts]. econstructor; eassumption.
Qed.
Definition empty : rst := run_events [RRegister (Some (lit "memory")) good] (init_reg 1800 5).
Lemma empty_reachable : r_reachable empty.
Proof. exists 1800%Z, 5%Z, [RRegister (Some (lit "memory")) good]. reflexivity. Qed.
Definition outcome (t : thread) : option (res nat) := match t with LDone _ r => Some r | CDone (Raise e) => Some (Raise e) | _ => None end.
Definition outcomes (c : config) : list (option (res nat)) := map outcome (c_threads c).
Fixpoint times (n i : nat) : list nat := match n with O => [] | S n' => i :: times n' i end.

(** Three threads, two keys: all schedules of the theorems; the key of two of them is there already. *)
Example C21_witness : lookups busy [LStart ka; LStart kb; LStart ka] /\ kget ka (r_conns busy) = Some 0 /\
  Forall starting [LStart ka; LStart kb; CStart true nofail] /\
  outcomes (run_sched ([0; 1; 2; 1; 0; 2; 2; 1; 0]) (begin busy [LStart ka; LStart kb; LStart ka])) = [Some (Ok 0); Some (Ok 1); Some (Ok 0)].
Proof.
  split; [|split; [vm_compute; reflexivity|split; [repeat constructor|vm_compute; reflexivity]]].
  assert (R : forall k, k_scheme k = Some (lit "memory") -> ready busy k).
  { intros k E. exists good. split; [|reflexivity]. rewrite E. vm_compute. reflexivity. }
  repeat constructor; eexists; (split; [reflexivity|]); apply R; reflexivity.
Qed.
(** Both threads miss the key before either takes the lock: the second connection replaces the first. *)
Theorem C21_refuted : r_reachable empty /\ lookups empty [LStart ka; LStart ka] /\
  exists c, csteps (begin empty [LStart ka; LStart ka]) c /\
    nth_error (c_threads c) 0 = Some (LDone ka (Ok 0)) /\ nth_error (c_threads c) 1 = Some (LDone ka (Ok 1)).
Proof.
  split; [apply empty_reachable|]. split.
  { repeat constructor; exists ka; (split; [reflexivity|]); exists good; (split; [vm_compute; reflexivity|reflexivity]). }
  exists (run_sched ([0; 0; 1; 1] ++ times 5 0 ++ times 5 1) (begin empty [LStart ka; LStart ka])).
  split; [apply sched_csteps|]. split; vm_compute; reflexivity.
Qed.
Print Assumptions C21_refuted.
(** A clean-up between the test and the read: KeyError. *)
Theorem C21_cleanup_refuted : r_reachable busy /\ ready busy ka /\
  exists c, csteps (begin busy [LStart ka; CStart false nofail]) c /\ nth_error (c_threads c) 0 = Some (LDone ka (Raise KeyError)).
Proof.
  split; [apply busy_reachable|]. split; [exists good; split; [vm_compute; reflexivity|reflexivity]|].
  exists (run_sched ([0; 0; 1; 1; 1; 1; 0]) (begin busy [LStart ka; CStart false nofail])).
  split; [apply sched_csteps|]. vm_compute. reflexivity.
Qed.
Print Assumptions C21_cleanup_refuted.
(** A lookup between close() and del: a closed connection. *)
Theorem C21_closed_refuted : r_reachable busy /\ ready busy ka /\
  exists c, csteps (begin busy [LStart ka; CStart false nofail]) c /\ nth_error (c_threads c) 0 = Some (LDone ka (Ok 0)) /\
    In 0 (r_closed (sh_reg (c_sh c))).
Proof.
  split; [apply busy_reachable|]. split; [exists good; split; [vm_compute; reflexivity|reflexivity]|].
  exists (run_sched ([1; 1; 1; 0; 0; 0]) (begin busy [LStart ka; CStart false nofail])).
  split; [apply sched_csteps|]. split; vm_compute; [reflexivity|left; reflexivity].
Qed.
Print Assumptions C21_closed_refuted.
(** The cleaner thread and shutdown together close a connection twice, and one of them dies of KeyError with
    the remaining connections unclosed; or the second takes away a connection made in the meantime without
    closing it. *)
Theorem C21_two_cleanups_refuted : r_reachable busy /\
  (exists c, csteps (begin busy [CStart true nofail; CStart false nofail]) c /\
     r_closed (sh_reg (c_sh c)) = [0; 0] /\ map snd (r_conns (sh_reg (c_sh c))) = [1] /\
     nth_error (c_threads c) 0 = Some (CDone (Raise KeyError))) /\
  (exists c, csteps (begin busy [CStart false nofail; CStart false nofail; LStart ka]) c /\
     nth_error (c_threads c) 2 = Some (LDone ka (Ok 2)) /\
     r_closed (sh_reg (c_sh c)) = [0; 0] /\ map snd (r_conns (sh_reg (c_sh c))) = [1]).
Proof.
  split; [apply busy_reachable|]. split.
  - exists (run_sched ([0; 0; 0; 1; 1; 1; 1; 0]) (begin busy [CStart true nofail; CStart false nofail])).
    split; [apply sched_csteps|]. repeat split; vm_compute; reflexivity.
  - exists (run_sched ([0; 0; 0; 1; 1; 1; 1] ++ times 7 2 ++ [0]) (begin busy [CStart false nofail; CStart false nofail; LStart ka])).
    split; [apply sched_csteps|]. repeat split; vm_compute; reflexivity.
Qed.
Print Assumptions C21_two_cleanups_refuted.
