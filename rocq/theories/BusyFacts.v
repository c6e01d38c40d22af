(** Facts about several threads and the cleaner thread. *)
From Verif Require Import Str Exc StrFacts UriParse BaseUri Registry RegistryConc SpecReg RegFacts RegFacts2 RegFacts3 RegFacts4 Busy SpecBusy.
From Coq Require Import Lia.

Lemma kset_uniq_any : forall l k c, uniq l -> uniq (kset k c l).
Proof.
  induction l as [|[k' c'] l IH]; intros k c U; cbn [kset]; [repeat constructor|].
  inversion U as [|x y F U' [Ex Ey]]; subst. destruct (key_eqb k k') eqn:E.
  - constructor; [exact F|exact U'].
  - constructor; [|now apply IH]. rewrite Forall_forall in *. intros [k2 c2] H. apply in_kset in H. cbn [fst].
    destruct H as [H|[_ H]]; [exact (F _ H)|]. intros S. apply key_eqb_false in E. apply E. eapply same_trans; [exact H|]. now apply same_sym.
Qed.
Lemma kget_kdel_other : forall k k' l, ~ same_key k k' -> kget k (kdel k' l) = kget k l.
Proof.
  induction l as [|[k2 c2] l IH]; intros H; cbn [kdel kget]; [reflexivity|].
  destruct (key_eqb k' k2) eqn:E; cbn [kget].
  - apply key_eqb_eq in E. destruct (key_eqb k k2) eqn:E2; [|reflexivity]. apply key_eqb_eq in E2. exfalso. apply H. eapply same_trans; [exact E2|]. now apply same_sym.
  - destruct (key_eqb k k2); [reflexivity|]. now apply IH.
Qed.
Lemma in_kget_some : forall k c l, In (k, c) l -> kget k l <> None.
Proof. intros k c l H E. exact (kget_none _ _ E _ _ H (same_refl k)). Qed.
Lemma nth_set : forall i a l x, In x (set_actor i a l) -> x = a \/ In x l.
Proof. induction i as [|i IH]; intros a [|y l] x H; cbn in *; auto; destruct H as [<-|H]; auto. apply IH in H. tauto. Qed.

Definition known (s : rst) (k : conn_key) : Prop := sget (k_scheme k) (r_schemes s) <> None.
Lemma known_same : forall s k k', same_key k k' -> known s k -> known s k'.
Proof. intros s k k' H K. unfold known in *. destruct H as (E & _). now rewrite <- E. Qed.
Lemma known_register : forall sc f s k, known s k -> known (snd (register sc f s)) k.
Proof.
  intros sc f s k K. unfold known in *. cbn [register snd r_schemes]. destruct (opt_str_dec (k_scheme k) sc) as [E|N].
  - rewrite E, sget_sset. discriminate.
  - now rewrite sget_sset_other.
Qed.

(** Between the steps of the look-ups *)
Definition tame (s : rst) (a : actor) : Prop :=
  match a with
  | AIn (LCheck k | LWait k | LMake k | LStore k _ | LLeave k _ | LRead k) => known s k
  | AIn (CStart _ _ | CScan _ _ _ _ | CClose _ _ _ _ _ | CDel _ _ _ _ _ | CDone _) => False
  | _ => True
  end.
(** What the cleaner thread still has on its list *)
Definition has (s : rst) (e : conn_key * nat) : Prop := kget (fst e) (r_conns s) <> None.
Definition pending (s : rst) (p : kpoint) : Prop :=
  match p with
  | KClean (CStart force _) => force = false
  | KClean (CScan force _ now l) => force = false /\ (now <= r_now s)%Z /\ uniq l /\ Forall (has s) l
  | KClean (CClose force _ now e l | CDel force _ now e l) => force = false /\ (now <= r_now s)%Z /\ uniq (e :: l) /\ Forall (has s) (e :: l)
  | KClean (CDone r) => r = Ok tt
  | KClean _ => False
  | KGone => False
  | _ => True
  end.
Record ginv (y : bproc) : Prop := {
  g_run : y_run y = true;
  g_uniq : uniq (r_conns (y_reg y));
  g_known : forall k c, In (k, c) (r_conns (y_reg y)) -> known (y_reg y) k;
  g_users : Forall (tame (y_reg y)) (y_users y);
  g_clean : pending (y_reg y) (y_clean y) }.

Lemma tame_mono : forall s s' a, (forall k, known s k -> known s' k) -> tame s a -> tame s' a.
Proof. intros s s' [|[]|k c|k c] H T; cbn in *; auto. Qed.
Lemma pending_mono : forall s s' p, (forall e, has s e -> has s' e) -> (r_now s <= r_now s')%Z -> pending s p -> pending s' p.
Proof.
  intros s s' [[]| | | | |] H L T; cbn in *; auto; destruct T as (A & B & C & D); repeat split; auto; try lia; eapply Forall_impl; eauto.
Qed.

(** A look-up leaves the clean-up alone. *)
Lemma look_step : forall t sh t' sh', tstep t sh = Some (t', sh') -> tame (sh_reg sh) (AIn t) -> uniq (r_conns (sh_reg sh)) ->
  (forall k c, In (k, c) (r_conns (sh_reg sh)) -> known (sh_reg sh) k) ->
  tame (sh_reg sh') (AIn t') /\ uniq (r_conns (sh_reg sh')) /\ (forall k c, In (k, c) (r_conns (sh_reg sh')) -> known (sh_reg sh') k)
  /\ (forall e, has (sh_reg sh) e -> has (sh_reg sh') e) /\ r_now (sh_reg sh') = r_now (sh_reg sh) /\ r_schemes (sh_reg sh') = r_schemes (sh_reg sh)
  /\ r_timeout (sh_reg sh') = r_timeout (sh_reg sh) /\ r_closed (sh_reg sh') = r_closed (sh_reg sh).
Proof.
  intros t sh t' sh' E T U K. destruct t; cbn [tstep] in E; cbn [tame] in T; try contradiction.
  - injection E as <- <-. repeat split; auto. destruct (sget _ _) eqn:G; cbn [tame]; auto. unfold known. now rewrite G.
  - injection E as <- <-. repeat split; auto. destruct (kget _ _); exact T.
  - destruct (held _ _); [discriminate|]. injection E as <- <-. repeat split; auto.
  - destruct (sget (k_scheme k) (r_schemes (sh_reg sh))) as [f|] eqn:G; [|destruct (T G)].
    unfold new_conn in E. destruct (f k) as [e|]; injection E as <- <-; repeat split; auto.
  - injection E as <- <-. cbn [sh_reg set_conns r_conns r_now r_schemes r_timeout r_closed]. split; [exact T|]. split; [now apply kset_uniq_any|].
    split; [|split; [|repeat split]].
    + intros k1 c1 H. apply in_kset in H. destruct H as [H|[_ H]]; [exact (K _ _ H)|]. exact (known_same (sh_reg sh) _ _ H T).
    + intros e H. apply kset_some. exact H.
  - injection E as <- <-. repeat split; auto. destruct r; cbn [tame]; auto.
  - injection E as <- <-. repeat split; auto.
  - discriminate.
Qed.

Lemma ginv_step : forall interval sec a b, bstep interval sec true a b -> ginv a -> ginv b.
Proof.
  intros interval sec a b S [R U K T C]. inversion S as [fails sh us p p' sh' run E|i x x' sh sh' us p run N X|d sh us p run|sh us p run D]; subst; try discriminate;
    unfold y_reg in *; cbn [y_sh y_users y_clean y_run] in *.
  - destruct p as [t| |now|now|now w|]; cbn [kstep] in E.
    + destruct t; cbn [tstep pending] in *; try contradiction.
      * injection E as <- <-. subst force. split; cbn; auto. repeat split; auto; [apply Z.le_refl|]. apply Forall_forall. intros [k c] H. eapply in_kget_some, H.
      * destruct C as (-> & L & Ul & F). destruct l as [|e l]; injection E as <- <-.
        { split; cbn; auto. }
        { destruct (_ || _)%bool; split; cbn; auto. repeat split; auto. now inversion Ul. now inversion F. }
      * destruct C as (-> & L & Ul & F). injection E as <- <-. unfold close_conn. cbn [snd]. split; cbn; auto. 
      * destruct C as (-> & L & Ul & F). unfold del_conn, bind, get in E. inversion F as [|? ? He Fl]; subst. inversion Ul as [|? ? Ue Ul']; subst.
        unfold has in He. destruct (kget (fst e) (r_conns (sh_reg sh))) as [c0|] eqn:G; [|now destruct He]. unfold put in E. cbn [sh_reg] in E. injection E as <- <-.
        split; cbn; auto.
        { now apply kdel_uniq. }
        { intros k c H. apply in_kdel in H. apply (K _ _ H). }
        { repeat split; auto. rewrite Forall_forall in *. intros e' H. unfold has. cbn [set_conns r_conns]. rewrite kget_kdel_other; [exact (Fl _ H)|].
          intros Q. apply (Ue _ H). now apply same_sym. }
      * subst r. injection E as <- <-. split; cbn; auto.
    + injection E as <- <-. split; cbn; auto.
    + injection E as <- <-. split; cbn; auto. destruct (_ <? _)%Z; cbn; auto.
    + injection E as <- <-. rewrite R in *. split; cbn; auto.
    + destruct (_ <=? _)%Z; [|discriminate]. injection E as <- <-. split; cbn; auto.
    + discriminate.
  - assert (Tx : tame (sh_reg sh) x) by (rewrite Forall_forall in T; apply T; eapply nth_error_In; eauto).
    assert (G : tame (sh_reg sh') x' /\ uniq (r_conns (sh_reg sh')) /\ (forall k c, In (k, c) (r_conns (sh_reg sh')) -> known (sh_reg sh') k)
      /\ (forall e, has (sh_reg sh) e -> has (sh_reg sh') e) /\ r_now (sh_reg sh') = r_now (sh_reg sh) /\ (forall k, known (sh_reg sh) k -> known (sh_reg sh') k)).
    { inversion X; subst; try discriminate; try (repeat split; auto; fail).
      - destruct (look_step _ _ _ _ H Tx U K) as (A1 & A2 & A3 & A4 & A5 & A6 & _). repeat split; auto. intros k. unfold known. now rewrite A6.
      - repeat split; auto. intros k c H. apply known_register. exact (K _ _ H). intros k. apply known_register. }
    destruct G as (G1 & G2 & G3 & G4 & G5 & G6). split; cbn; auto.
    + apply Forall_forall. intros z Hz. apply nth_set in Hz. destruct Hz as [->|Hz]; [exact G1|]. rewrite Forall_forall in T. eapply tame_mono; [exact G6|]. now apply T.
    + eapply pending_mono; [exact G4| |exact C]. unfold y_reg. cbn [y_sh]. rewrite G5. lia.
  - cbn [tick snd]. split; cbn; auto. eapply pending_mono; [| |exact C]; [intros e H; exact H|]. unfold y_reg. cbn. lia.
Qed.
Lemma ginv_new : forall timeout now fails n, ginv (new_bproc timeout now fails n).
Proof.
  intros. split; cbn; auto; try contradiction. constructor. apply Forall_forall. intros x H. apply repeat_spec in H. now subst.
Qed.
Lemma bsteps_inv : forall (I : bproc -> Prop) interval sec alone (P : bproc -> Prop), (forall a b, bstep interval sec alone a b -> P a -> P b -> I a -> I b) ->
  forall a b, bsteps interval sec alone P a b -> I a -> I b /\ P b.
Proof.
  intros I interval sec alone P H a b R. induction R as [Pa|b c R IH S Pc]; intros Ia; [split; auto|].
  destruct (IH Ia) as [Ib Pb]. split; [eapply H; eauto|exact Pc].
Qed.
Lemma ginv_up : forall interval sec y, up interval sec y -> ginv y.
Proof.
  intros interval sec y (t & n & f & k & R). refine (proj1 (bsteps_inv ginv interval sec true _ _ _ _ R (ginv_new t n f k))).
  intros a b S _ _. exact (ginv_step interval sec a b S).
Qed.

(** *** A connection that is used often enough *)
Section Kept.
Variables (k : conn_key) (c : nat).
Definition steady (a : actor) : Prop :=
  match a with
  | AIn (LWait k' | LMake k' | LStore k' _ | LLeave k' _) => ~ same_key k' k
  | AIn (LDone k' r) => same_key k' k -> r = Ok c
  | AHas k' c' | ABusy k' c' => same_key k' k -> c' = c
  | _ => True
  end.
Definition ours_only (e : conn_key * nat) : Prop := same_key (fst e) k -> snd e = c.
Definition spared (e : conn_key * nat) : Prop := ~ same_key (fst e) k /\ snd e <> c.
Definition spares (p : kpoint) : Prop :=
  match p with
  | KClean (CScan _ _ _ l) => Forall ours_only l
  | KClean (CClose _ _ _ e l | CDel _ _ _ e l) => spared e /\ Forall ours_only l
  | _ => True
  end.
Record sinv (y : bproc) : Prop := {
  s_ginv : ginv y;
  s_get : kget k (r_conns (y_reg y)) = Some c;
  s_open : ~ In c (r_closed (y_reg y));
  s_users : Forall steady (y_users y);
  s_clean : spares (y_clean y) }.

Lemma table_ours : forall s, uniq (r_conns s) -> kget k (r_conns s) = Some c -> Forall ours_only (r_conns s).
Proof.
  intros s U G. apply Forall_forall. intros [k' c'] H S. cbn [fst snd] in *.
  assert (Q : kget k (r_conns s) = Some c') by (apply in_kget; [exact U|]; exists k'; split; [now apply same_sym|exact H]). congruence.
Qed.
Lemma steady_step : forall t sh t' sh', tstep t sh = Some (t', sh') -> tame (sh_reg sh) (AIn t) -> steady (AIn t) ->
  known (sh_reg sh) k -> kget k (r_conns (sh_reg sh)) = Some c ->
  steady (AIn t') /\ kget k (r_conns (sh_reg sh')) = Some c.
Proof.
  intros t sh t' sh' E T W K G. destruct t as [k'|k'|k'|k'|k' c'|k' r|k'|k' r|force fails|force fails now l|force fails now e l|force fails now e l|r]; cbn [tstep] in E; cbn [tame] in T; try contradiction; cbn [steady] in W.
  - injection E as <- <-. split; [|exact G]. destruct (sget _ _) eqn:Q; cbn [steady]; auto. intros S. exfalso. apply same_sym in S. exact (known_same _ _ _ S K Q).
  - injection E as <- <-. split; [|exact G]. destruct (kget k' _) eqn:Q; cbn [steady]; auto. intros S. rewrite (kget_same _ _ _ S) in Q. congruence.
  - destruct (held _ _); [discriminate|]. injection E as <- <-. split; [exact W|exact G].
  - destruct (sget (k_scheme k') (r_schemes (sh_reg sh))) as [f|] eqn:Q; [|destruct (T Q)].
    unfold new_conn in E. destruct (f k') as [e|]; injection E as <- <-; (split; [exact W|exact G]).
  - injection E as <- <-. split; [exact W|]. cbn [sh_reg set_conns r_conns]. rewrite kget_kset_other; [exact G|]. intros S. apply W. now apply same_sym.
  - injection E as <- <-. split; [|exact G]. destruct r; cbn [steady]; auto. intros S. now destruct (W S).
  - injection E as <- <-. split; [|exact G]. cbn [steady]. intros S. rewrite (kget_same _ _ _ S), G. reflexivity.
  - discriminate.
Qed.

Lemma sinv_step : forall interval sec a b, bstep interval sec true a b -> ~ stale (y_reg a) c -> sinv a -> sinv b.
Proof.
  intros interval sec a b S F [I G O W C]. pose proof (ginv_step _ _ _ _ S I) as I'. destruct I as [R U K T P].
  assert (Kk : known (y_reg a) k). { destruct (kget_in _ _ _ G) as (k2 & S2 & H2). eapply known_same; [apply same_sym; exact S2|]. exact (K _ _ H2). }
  inversion S as [fails sh us p p' sh' run E|i x x' sh sh' us p run N X|d sh us p run|sh us p run D]; subst; try discriminate;
    unfold y_reg in *; cbn [y_sh y_users y_clean y_run] in *.
  - destruct p as [t| |now|now|now w|]; cbn [kstep] in E.
    + destruct t as [k'|k'|k'|k'|k' c'|k' r|k'|k' r|force fl|force fl now l|force fl now e l|force fl now e l|r]; cbn [tstep pending] in *; try contradiction.
      * injection E as <- <-. split; cbn; auto. now apply table_ours.
      * destruct P as (-> & L & Ul & Fl). destruct l as [|e l]; injection E as <- <-; [split; cbn; auto|].
        cbn [spares] in C. inversion C as [|? ? Ce Cl]; subst. rewrite Bool.orb_false_r in *. destruct (Z.ltb_spec (r_timeout (sh_reg sh)) (now - r_used (sh_reg sh) (snd e))) as [Q|Q]; split; cbn; auto.
        split; [|exact Cl]. assert (Hn : snd e <> c). { intros Ec. apply F. unfold stale. rewrite Ec in Q. lia. }
        split; [|exact Hn]. intros Sk. exact (Hn (Ce Sk)).
      * destruct C as [[C1 C2] C3]. injection E as <- <-. unfold close_conn in *. cbn [snd sh_reg] in *. split; cbn; auto.
        { intros [Q|Q]; [exact (C2 Q)|exact (O Q)]. } { repeat split; auto. }
      * destruct C as [[C1 C2] C3]. unfold del_conn, bind, get in E. destruct (kget (fst e) (r_conns (sh_reg sh))) as [c0|] eqn:Q; unfold put, raise in E; injection E as <- <-; split; cbn; auto.
        rewrite kget_kdel_other; [exact G|]. intros Sk. apply C1. now apply same_sym.
      * destruct r; injection E as <- <-; split; cbn; auto.
    + injection E as <- <-. split; cbn; auto.
    + injection E as <- <-. destruct (_ <? _)%Z; split; cbn; auto.
    + injection E as <- <-. destruct run; split; cbn; auto.
    + destruct (_ <=? _)%Z; [|discriminate]. injection E as <- <-. split; cbn; auto.
    + discriminate.
  - assert (Tx : tame (sh_reg sh) x) by (rewrite Forall_forall in T; apply T; eapply nth_error_In; eauto).
    assert (Wx : steady x) by (rewrite Forall_forall in W; apply W; eapply nth_error_In; eauto).
    assert (Q : steady x' /\ kget k (r_conns (sh_reg sh')) = Some c /\ r_closed (sh_reg sh') = r_closed (sh_reg sh)).
    { inversion X; subst; try discriminate; try (repeat split; cbn [steady]; auto; fail).
      - destruct (look_step _ _ _ _ H Tx U K) as (_ & _ & _ & _ & _ & _ & _ & A). destruct (steady_step _ _ _ _ H Tx Wx Kk G) as [B1 B2]. auto.
      - repeat split; auto. cbn [steady] in *. intros Sk. specialize (Wx Sk). now injection Wx. }
    destruct Q as (Q1 & Q2 & Q3). split; cbn; auto.
    + unfold y_reg. cbn [y_sh]. now rewrite Q3.
    + apply Forall_forall. intros z Hz. apply nth_set in Hz. destruct Hz as [->|Hz]; [exact Q1|]. rewrite Forall_forall in W. now apply W.
  - split; cbn; auto.
Qed.
Lemma sinv_quiet : forall y, ginv y -> quiet k y -> open_as (y_reg y) k c -> ~ In c (r_closed (y_reg y)) -> sinv y.
Proof.
  intros y I [Q1 Q2] O N. split; auto.
  - apply in_kget; [apply I|exact O].
  - apply Forall_forall. intros a H. destruct a as [|[]|k' c'|k' c']; cbn [steady]; auto; try (intros S; exfalso; revert S); eapply Q1; try exact H; reflexivity.
  - destruct (y_clean y) as [t| | | | |] eqn:E; cbn; auto. now destruct (Q2 t).
Qed.
End Kept.
