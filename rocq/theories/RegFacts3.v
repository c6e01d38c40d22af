(** Facts about the registry run by several threads. *)
From Coq Require Import Lia Permutation.
From Verif Require Import Str Exc StrFacts UriParse BaseUri Registry RegistryConc SpecReg RegFacts RegFacts2.

Lemma replace_split : forall i t t' ts, nth_error ts i = Some t ->
  exists a b, ts = a ++ t :: b /\ replace i t' ts = a ++ t' :: b /\ length a = i.
Proof.
  induction i as [|i IH]; intros t t' [|x ts] E; cbn in E; try discriminate.
  - injection E as ->. exists [], ts. auto.
  - destruct (IH t t' ts E) as (a & b & -> & H & Hl). exists (x :: a), b. cbn [replace app length]. rewrite H. auto.
Qed.
Lemma nth_replace : forall i t ts, i < length ts -> nth_error (replace i t ts) i = Some t.
Proof. induction i as [|i IH]; intros t [|x ts] H; cbn in *; try lia; [reflexivity|apply IH; lia]. Qed.

(** *** The creation locks *)
Definition holds (t : thread) : list (option str) :=
  match t with LMake k | LStore k _ | LLeave k _ => [k_scheme k] | _ => [] end.
Definition lock_inv (c : config) : Prop :=
  Permutation (sh_locks (c_sh c)) (flat_map holds (c_threads c)) /\ NoDup (sh_locks (c_sh c)).
Lemma held_in : forall sc l, held sc l = true <-> In sc l.
Proof.
  intros sc l. unfold held. rewrite existsb_exists. split.
  - intros (x & Hx & E). apply opt_str_eqb_eq in E. subst. exact Hx.
  - intros H. exists sc. split; [exact H|apply opt_str_eqb_eq; reflexivity].
Qed.
Lemma unhold_perm : forall sc l, In sc l -> Permutation l (sc :: unhold sc l).
Proof.
  induction l as [|x l IH]; intros Hi; [destruct Hi|]. cbn [unhold]. destruct (opt_str_eqb sc x) eqn:E.
  - apply opt_str_eqb_eq in E. subst. reflexivity.
  - destruct Hi as [->|Hi]; [rewrite (proj2 (opt_str_eqb_eq sc sc) eq_refl) in E; discriminate|].
    rewrite (IH Hi) at 1. apply perm_swap.
Qed.
Lemma nodup_unhold : forall sc l, In sc l -> NoDup l -> NoDup (unhold sc l).
Proof.
  intros sc l Hi Hn. pose proof (Permutation_NoDup (unhold_perm sc l Hi) Hn) as H. inversion H. assumption.
Qed.
Lemma flat_mid : forall (a b : list thread) t, Permutation (flat_map holds (a ++ t :: b)) (holds t ++ flat_map holds (a ++ b)).
Proof.
  intros a b t. rewrite !flat_map_app. cbn [flat_map]. rewrite app_assoc.
  rewrite (Permutation_app_comm (flat_map holds a) (holds t)), <- app_assoc. reflexivity.
Qed.
(** What a step does to the locks. *)
Lemma tstep_locks : forall t sh t' sh', tstep t sh = Some (t', sh') ->
  (sh_locks sh' = sh_locks sh /\ holds t' = holds t)
  \/ (exists sc, holds t = [] /\ holds t' = [sc] /\ ~ In sc (sh_locks sh) /\ sh_locks sh' = sc :: sh_locks sh)
  \/ (exists sc, holds t = [sc] /\ holds t' = [] /\ sh_locks sh' = unhold sc (sh_locks sh)).
Proof.
  intros t sh t' sh' H. destruct t; cbn [tstep] in H; try discriminate.
  - injection H as <- <-. left. destruct (sget _ _); auto.
  - injection H as <- <-. left. destruct (kget _ _); auto.
  - destruct (held (k_scheme k) (sh_locks sh)) eqn:E; [discriminate|]. injection H as <- <-. right. left. exists (k_scheme k).
    repeat split. intros Hi. apply held_in in Hi. congruence.
  - left. destruct (sget (k_scheme k) (r_schemes (sh_reg sh))) as [f|]; [|injection H as <- <-; auto].
    unfold new_conn in H. destruct (f k); injection H as <- <-; auto.
  - injection H as <- <-. left. auto.
  - injection H as <- <-. right. right. exists (k_scheme k). destruct r; auto.
  - injection H as <- <-. left. auto.
  - injection H as <- <-. left. auto.
  - destruct l as [|e l]; injection H as <- <-; left; [auto|]. destruct (_ || _)%bool; auto.
  - injection H as <- <-. left. auto.
  - left. destruct (del_conn (fst e) (sh_reg sh)) as [[x|x] s']; injection H as <- <-; auto.
Qed.
Lemma lock_inv_begin : forall s ts, Forall starting ts -> lock_inv (begin s ts).
Proof.
  intros s ts H. split; cbn [begin c_sh c_threads sh_locks]; [|constructor].
  induction H as [|t ts Ht H IH]; [constructor|]. cbn [flat_map]. destruct t; try destruct Ht; exact IH.
Qed.
Lemma lock_inv_step : forall a b, cstep a b -> lock_inv a -> lock_inv b.
Proof.
  intros a b H [Hp Hn]. destruct H as [i t t' sh sh' ts Hi Ht|d sh ts]; [|split; assumption].
  destruct (replace_split i t t' ts Hi) as (x & y & -> & -> & _). cbn [c_sh c_threads] in *.
  rewrite flat_mid in Hp. split; cbn [c_sh c_threads].
  - rewrite flat_mid. destruct (tstep_locks _ _ _ _ Ht) as [[E1 E2]|[(sc & E1 & E2 & E3 & E4)|(sc & E1 & E2 & E3)]].
    + rewrite E1, E2. exact Hp.
    + rewrite E2, E4. rewrite E1 in Hp. cbn [app] in *. constructor. exact Hp.
    + rewrite E2, E3. rewrite E1 in Hp. cbn [app] in *.
      assert (Hin : In sc (sh_locks sh)) by (eapply Permutation_in; [symmetry; exact Hp|left; reflexivity]).
      apply (Permutation_cons_inv (a := sc)). rewrite <- unhold_perm by exact Hin. exact Hp.
  - destruct (tstep_locks _ _ _ _ Ht) as [[E1 E2]|[(sc & E1 & E2 & E3 & E4)|(sc & E1 & E2 & E3)]].
    + rewrite E1. exact Hn.
    + rewrite E4. constructor; assumption.
    + rewrite E3. apply nodup_unhold; [|exact Hn]. rewrite E1 in Hp. eapply Permutation_in; [symmetry; exact Hp|left; reflexivity].
Qed.
Lemma csteps_inv : forall (P : config -> Prop), (forall a b, cstep a b -> P a -> P b) -> forall a b, csteps a b -> P a -> P b.
Proof. intros P HP a b H. induction H; eauto. Qed.

Definition finished (t : thread) : Prop := match t with LDone _ _ | CDone _ => True | _ => False end.
Definition can_run (sh : shared) (t : thread) : Prop := tstep t sh <> None.
Lemma can_or_wait : forall t sh, finished t \/ can_run sh t \/ (exists k, t = LWait k /\ In (k_scheme k) (sh_locks sh)).
Proof.
  intros t sh. unfold can_run. destruct t; cbn [tstep finished]; auto; try (right; left; discriminate).
  - destruct (held (k_scheme k) (sh_locks sh)) eqn:E; [|right; left; discriminate]. right. right. exists k. split; [reflexivity|apply held_in, E].
  - right. left. destruct l; discriminate.
Qed.
Lemma holder_runs : forall t sh sc, In sc (holds t) -> can_run sh t.
Proof.
  intros t sh sc H. unfold can_run. destruct t; cbn [holds] in H; try destruct H as []; cbn [tstep]; discriminate.
Qed.
Lemma no_deadlock : forall c, lock_inv c -> (exists t, In t (c_threads c) /\ ~ finished t) ->
  exists t, In t (c_threads c) /\ can_run (c_sh c) t.
Proof.
  intros c [Hp Hn] (t & Ht & Hf). destruct (can_or_wait t (c_sh c)) as [H|[H|(k & -> & H)]]; [contradiction|eauto|].
  eapply Permutation_in in H; [|exact Hp]. apply in_flat_map in H. destruct H as (t' & Ht' & H'). exists t'. split; [exact Ht'|].
  eapply holder_runs; eauto.
Qed.

(** Two threads that make a connection for one scheme at the same time do not exist. *)
Definition making (t : thread) (sc : option str) : Prop := exists k, k_scheme k = sc /\ (t = LMake k \/ exists c, t = LStore k c).
Lemma flat_two : forall (a b c : list thread) t u sc, In sc (holds t) -> In sc (holds u) ->
  ~ NoDup (flat_map holds (a ++ t :: b ++ u :: c)).
Proof.
  intros a b c t u sc H1 H2 Hn. rewrite flat_map_app in Hn. cbn [flat_map] in Hn. rewrite flat_map_app in Hn. cbn [flat_map] in Hn.
  assert (H : NoDup (holds t ++ flat_map holds b ++ holds u ++ flat_map holds c)).
  { clear - Hn. induction (flat_map holds a) as [|z l IH]; [exact Hn|]. inversion Hn. auto. }
  assert (E : holds t = [sc]) by (destruct t; cbn [holds] in *; try contradiction; destruct H1 as [->|[]]; reflexivity).
  rewrite E in H. cbn [app] in H. inversion H as [|p q Hni Hr]; subst. apply Hni. apply in_or_app. right. apply in_or_app. left. exact H2.
Qed.
Lemma making_holds : forall t sc, making t sc -> In sc (holds t).
Proof. intros t sc (k & <- & [->|(c & ->)]); left; reflexivity. Qed.
Lemma split_two : forall (ts : list thread) i j t u, i < j -> nth_error ts i = Some t -> nth_error ts j = Some u ->
  exists a b c, ts = a ++ t :: b ++ u :: c.
Proof.
  intros ts i j t u Hij Hi Hj. apply nth_error_split in Hi. destruct Hi as (a & r & -> & <-).
  rewrite nth_error_app2 in Hj by lia. destruct (j - length a) as [|m] eqn:E; [lia|]. cbn [nth_error] in Hj.
  apply nth_error_split in Hj. destruct Hj as (b & c & -> & _). eauto.
Qed.
Lemma exclusive : forall c i j t u sc, lock_inv c ->
  nth_error (c_threads c) i = Some t -> nth_error (c_threads c) j = Some u -> making t sc -> making u sc -> i = j.
Proof.
  intros c i j t u sc [Hp Hn] Hi Hj Mt Mu. pose proof (Permutation_NoDup Hp Hn) as Hnd.
  destruct (Nat.lt_total i j) as [H|[H|H]]; [|exact H|]; exfalso.
  - destruct (split_two _ _ _ _ _ H Hi Hj) as (x & y & z & E). rewrite E in Hnd. eapply flat_two; [| |exact Hnd]; apply making_holds; eassumption.
  - destruct (split_two _ _ _ _ _ H Hj Hi) as (x & y & z & E). rewrite E in Hnd. eapply flat_two; [| |exact Hnd]; apply making_holds; eassumption.
Qed.

(** *** Without a clean-up *)
Definition ready (s : rst) (k : conn_key) : Prop := exists f, sget (k_scheme k) (r_schemes s) = Some f /\ f k = None.
Definition well (s : rst) (t : thread) : Prop :=
  match t with
  | LStart k | LCheck k | LWait k | LMake k | LStore k _ => ready s k
  | LLeave k r => r = Ok tt /\ kget k (r_conns s) <> None
  | LRead k => kget k (r_conns s) <> None
  | LDone k r => exists c, r = Ok c
  | _ => False
  end.
Lemma kset_some : forall k k' c l, kget k l <> None -> kget k (kset k' c l) <> None.
Proof.
  intros k k' c l H. destruct (key_eqb k k') eqn:E.
  - apply key_eqb_eq in E. rewrite (kget_same _ _ _ E), kget_kset. discriminate.
  - apply key_eqb_false in E. rewrite kget_kset_other; assumption.
Qed.
Lemma well_mono : forall s s' t, r_schemes s' = r_schemes s ->
  (forall k, kget k (r_conns s) <> None -> kget k (r_conns s') <> None) -> well s t -> well s' t.
Proof.
  intros s s' t Es Hk. unfold well, ready. destruct t; rewrite ?Es; auto. intros [-> H]. auto.
Qed.
Lemma well_step : forall t sh t' sh', tstep t sh = Some (t', sh') -> well (sh_reg sh) t ->
  well (sh_reg sh') t' /\ r_schemes (sh_reg sh') = r_schemes (sh_reg sh)
  /\ (forall k, kget k (r_conns (sh_reg sh)) <> None -> kget k (r_conns (sh_reg sh')) <> None).
Proof.
  intros t sh t' sh' H Hw. destruct t; cbn [tstep well] in *; try discriminate; try contradiction.
  - injection H as <- <-. destruct Hw as (f & E & Ef). rewrite E. repeat split; auto. exists f. auto.
  - injection H as <- <-. destruct (kget k (r_conns (sh_reg sh))) eqn:E; repeat split; auto. cbn [well]. congruence.
  - destruct (held _ _); [discriminate|]. injection H as <- <-. repeat split; auto.
  - pose proof Hw as Hw'. destruct Hw as (f & E & Ef). rewrite E in H. unfold new_conn in H. rewrite Ef in H. injection H as <- <-.
    cbn [sh_reg r_schemes r_conns well]. repeat split; auto.
  - injection H as <- <-. cbn [sh_reg set_conns r_schemes r_conns well]. repeat split; auto.
    + rewrite kget_kset. discriminate.
    + intros k'. apply kset_some.
  - destruct Hw as [-> Hw]. injection H as <- <-. repeat split; auto.
  - injection H as <- <-. repeat split; auto. cbn [well]. destruct (kget k (r_conns (sh_reg sh))) as [c|]; [eauto|contradiction].
Qed.
Definition well_inv (c : config) : Prop := Forall (well (sh_reg (c_sh c))) (c_threads c).
Lemma well_inv_step : forall a b, cstep a b -> well_inv a -> well_inv b.
Proof.
  intros a b H Hw. unfold well_inv in *. destruct H as [i t t' sh sh' ts Hi Ht|d sh ts]; cbn [c_sh c_threads] in *.
  - destruct (replace_split i t t' ts Hi) as (x & y & -> & -> & _). apply Forall_app in Hw. destruct Hw as [Hx Hy].
    inversion Hy as [|p q Hwt Hy']; subst. destruct (well_step _ _ _ _ Ht Hwt) as (W & Es & Hk).
    apply Forall_app. split; [|constructor; [exact W|]]; (eapply Forall_impl; [|eassumption]); intros u Hu; eapply well_mono; eauto.
  - eapply Forall_impl; [|exact Hw]. intros u Hu. eapply well_mono; [| |exact Hu]; auto.
Qed.
Lemma well_begin : forall s ts, Forall (fun t => exists k, t = LStart k /\ ready s k) ts -> well_inv (begin s ts).
Proof. intros s ts H. unfold well_inv, begin. cbn [c_sh c_threads sh_reg]. eapply Forall_impl; [|exact H]. intros t (k & -> & Hr). exact Hr. Qed.
Lemma lookups_start : forall s ts, Forall (fun t => exists k, t = LStart k /\ ready s k) ts -> Forall starting ts.
Proof. intros s ts H. eapply Forall_impl; [|exact H]. intros t (k & -> & _). exact I. Qed.

(** Every step of a lookup brings it closer to its end. *)
Definition rank (t : thread) : nat :=
  match t with
  | LStart _ => 7 | LCheck _ => 6 | LWait _ => 5 | LMake _ => 4 | LStore _ _ => 3 | LLeave _ _ => 2 | LRead _ => 1 | _ => 0
  end.
Definition total (ts : list thread) : nat := list_sum (map rank ts).
Lemma rank_step : forall t sh t' sh', well (sh_reg sh) t -> tstep t sh = Some (t', sh') -> rank t' < rank t.
Proof.
  intros t sh t' sh' Hw H. destruct t; cbn [tstep well rank] in *; try discriminate; try contradiction.
  - injection H as <- <-. destruct (sget _ _); cbn [rank]; lia.
  - injection H as <- <-. destruct (kget _ _); cbn [rank]; lia.
  - destruct (held _ _); [discriminate|]. injection H as <- <-. cbn [rank]. lia.
  - destruct (sget _ _) as [f|]; [|injection H as <- <-; cbn [rank]; lia]. unfold new_conn in H. destruct (f k); injection H as <- <-; cbn [rank]; lia.
  - injection H as <- <-. cbn [rank]. lia.
  - injection H as <- <-. destruct r; cbn [rank]; lia.
  - injection H as <- <-. cbn [rank]. lia.
Qed.
Lemma total_app : forall a b, total (a ++ b) = total a + total b.
Proof. intros. unfold total. rewrite map_app, list_sum_app. reflexivity. Qed.
(** Runs with their number of thread steps. *)
Inductive crun : nat -> config -> config -> Prop :=
| cr_nil : forall c, crun 0 c c
| cr_run : forall n a i t t' sh sh' ts, crun n a (mkCfg sh ts) -> nth_error ts i = Some t -> tstep t sh = Some (t', sh') ->
    crun (S n) a (mkCfg sh' (replace i t' ts))
| cr_tick : forall n a d sh ts, crun n a (mkCfg sh ts) -> crun n a (mkCfg (mkSh (snd (tick d (sh_reg sh))) (sh_locks sh)) ts).
Lemma crun_csteps : forall n a b, crun n a b -> csteps a b.
Proof.
  induction 1.
  - constructor.
  - econstructor; [eassumption|]. econstructor; eauto.
  - econstructor; [eassumption|]. constructor.
Qed.
Lemma crun_bound : forall n a b, crun n a b -> well_inv a -> n + total (c_threads b) <= total (c_threads a).
Proof.
  induction 1 as [c|n a i t t' sh sh' ts Hr IH Hi Ht|n a d sh ts Hr IH]; intros Hw; cbn [c_threads] in *; [lia| |auto].
  specialize (IH Hw). pose proof (csteps_inv _ well_inv_step _ _ (crun_csteps _ _ _ Hr) Hw) as Hw'. unfold well_inv in Hw'. cbn [c_sh c_threads] in Hw'.
  destruct (replace_split i t t' ts Hi) as (x & y & -> & -> & _). rewrite total_app in *. unfold total in *. cbn [map list_sum fold_right] in *.
  apply Forall_app in Hw'. destruct Hw' as [_ Hy]. inversion Hy as [|p q Hwt _]; subst. pose proof (rank_step _ _ _ _ Hwt Ht). lia.
Qed.
Lemma total_starts : forall ts, Forall is_lookup ts -> total ts = 7 * length ts.
Proof.
  induction 1 as [|t ts Ht H IH]; [reflexivity|]. unfold total in *. destruct t; try destruct Ht. cbn [map length rank]. change (list_sum (7 :: map rank ts)) with (7 + list_sum (map rank ts)). rewrite IH. lia.
Qed.

(** *** The key is already there *)
Definition calm (k0 : conn_key) (c0 : nat) (t : thread) : Prop :=
  match t with
  | LStart k | LCheck k | LRead k => True
  | LWait k | LMake k | LStore k _ | LLeave k _ => ~ same_key k k0
  | LDone k r => same_key k k0 -> r = Ok c0 \/ (exists e, r = Raise e /\ e = NoSchemeError)
  | _ => False
  end.
Definition calm_inv (k0 : conn_key) (c0 : nat) (c : config) : Prop :=
  kget k0 (r_conns (sh_reg (c_sh c))) = Some c0 /\ Forall (calm k0 c0) (c_threads c).
Lemma calm_step : forall k0 c0 t sh t' sh', tstep t sh = Some (t', sh') -> calm k0 c0 t ->
  kget k0 (r_conns (sh_reg sh)) = Some c0 -> calm k0 c0 t' /\ kget k0 (r_conns (sh_reg sh')) = Some c0.
Proof.
  intros k0 c0 t sh t' sh' H Hc Hk. destruct t; cbn [tstep calm] in *; try discriminate; try contradiction.
  - injection H as <- <-. destruct (sget _ _); cbn [calm]; split; auto. intros _. right. eauto.
  - injection H as <- <-. destruct (kget k (r_conns (sh_reg sh))) eqn:E; cbn [calm]; split; auto. intros Hs. rewrite (kget_same _ _ _ Hs) in E. congruence.
  - destruct (held _ _); [discriminate|]. injection H as <- <-. auto.
  - destruct (sget _ _) as [f|]; [|injection H as <- <-; auto]. unfold new_conn in H. destruct (f k); injection H as <- <-; auto.
  - injection H as <- <-. cbn [calm sh_reg set_conns r_conns]. split; [exact Hc|]. rewrite kget_kset_other; [exact Hk|]. intros Hs. apply Hc, same_sym, Hs.
  - injection H as <- <-. split; [|exact Hk]. destruct r; cbn [calm]; auto. intros Hs. contradiction.
  - injection H as <- <-. split; [|exact Hk]. cbn [calm]. intros Hs. rewrite (kget_same _ _ _ Hs), Hk. auto.
Qed.
Lemma calm_inv_step : forall k0 c0 a b, cstep a b -> calm_inv k0 c0 a -> calm_inv k0 c0 b.
Proof.
  intros k0 c0 a b H [Hk Hw]. unfold calm_inv in *. destruct H as [i t t' sh sh' ts Hi Ht|d sh ts]; cbn [c_sh c_threads] in *; [|auto].
  destruct (replace_split i t t' ts Hi) as (x & y & -> & -> & _). apply Forall_app in Hw. destruct Hw as [Hx Hy].
  inversion Hy as [|p q Hwt Hy']; subst. destruct (calm_step _ _ _ _ _ _ Ht Hwt Hk) as (W & Hk').
  split; [exact Hk'|]. apply Forall_app. auto.
Qed.
