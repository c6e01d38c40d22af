(** Facts about the registry run by several threads: connections are not mixed up; one thread alone. *)
From Coq Require Import Lia Permutation.
From Verif Require Import Str Exc StrFacts UriParse BaseUri Registry RegistryConc SpecReg RegFacts RegFacts2 RegFacts3.

(** *** Which key a connection was made for *)
Definition made (t : thread) : list (conn_key * nat) :=
  match t with LStore k c | LDone k (Ok c) => [(k, c)] | _ => [] end.
Definition pairs (c : config) : list (conn_key * nat) := r_conns (sh_reg (c_sh c)) ++ flat_map made (c_threads c).
Definition pure_inv (c : config) : Prop :=
  (forall k x, In (k, x) (pairs c) -> x < r_next (sh_reg (c_sh c)))
  /\ (forall k k' x, In (k, x) (pairs c) -> In (k', x) (pairs c) -> same_key k k').
Lemma in_kset : forall k c l k' c', In (k', c') (kset k c l) -> In (k', c') l \/ (c' = c /\ same_key k k').
Proof.
  induction l as [|[k0 c0] l IH]; cbn [kset]; intros k' c' H.
  - destruct H as [[= <- <-]|[]]. right. split; [reflexivity|apply same_refl].
  - destruct (key_eqb k k0) eqn:E.
    + destruct H as [[= <- <-]|H]; [right; split; [reflexivity|apply key_eqb_eq, E]|left; right; exact H].
    + destruct H as [H|H]; [left; left; exact H|]. destruct (IH _ _ H) as [H'|H']; [left; right; exact H'|right; exact H'].
Qed.
Lemma in_kdel : forall k l x, In x (kdel k l) -> In x l.
Proof.
  induction l as [|[k0 c0] l IH]; cbn [kdel]; intros x H; [exact H|]. destruct (key_eqb k k0); [right; exact H|].
  destruct H as [H|H]; [left; exact H|right; apply IH, H].
Qed.
(** Every pair after a step was there before, up to the way the key is written, or is new. *)
Lemma pure_tstep : forall t sh t' sh', tstep t sh = Some (t', sh') ->
  let s := sh_reg sh in let s' := sh_reg sh' in
  (r_next s' = r_next s /\ forall k x, In (k, x) (r_conns s' ++ made t') -> exists k', same_key k k' /\ In (k', x) (r_conns s ++ made t))
  \/ (exists k, r_next s' = S (r_next s) /\ r_conns s' = r_conns s /\ made t' = [(k, r_next s)]).
Proof.
  intros t sh t' sh' H. cbn zeta.
  assert (keepit : forall l, (forall k x, In (k, x) (r_conns (sh_reg sh)) -> exists k', same_key k k' /\ In (k', x) (r_conns (sh_reg sh) ++ l))).
  { intros l k x Hi. exists k. split; [apply same_refl|apply in_or_app; left; exact Hi]. }
  Ltac keeping := let Hi := fresh in intros ? ? Hi; apply in_app_or in Hi; destruct Hi as [Hi|[]]; match goal with K : forall l, forall k x, _ -> _ |- _ => apply K, Hi end.
  destruct t; cbn [tstep] in H; try discriminate.
  - injection H as <- <-. left. split; [reflexivity|]. destruct (sget _ _); cbn [made]; keeping.
  - injection H as <- <-. left. split; [reflexivity|]. destruct (kget _ _); cbn [made]; keeping.
  - destruct (held _ _); [discriminate|]. injection H as <- <-. left. split; [reflexivity|]. cbn [made sh_reg]. keeping.
  - destruct (sget _ _) as [f|].
    + unfold new_conn in H. destruct (f k) as [e|]; injection H as <- <-.
      * left. split; [reflexivity|]. cbn [made sh_reg]. keeping.
      * right. exists k. auto.
    + injection H as <- <-. left. split; [reflexivity|]. cbn [made sh_reg]. keeping.
  - injection H as <- <-. left. split; [reflexivity|]. cbn [made sh_reg set_conns r_conns]. intros k' x Hi. rewrite app_nil_r in Hi.
    apply in_kset in Hi. destruct Hi as [Hi|[-> Hs]]; [apply keepit, Hi|]. exists k. split; [apply same_sym, Hs|].
    apply in_or_app. right. left. reflexivity.
  - injection H as <- <-. left. split; [reflexivity|]. destruct r; cbn [made sh_reg]; keeping.
  - injection H as <- <-. left. split; [reflexivity|]. intros k' x Hi. apply in_app_or in Hi. destruct Hi as [Hi|Hi]; [apply keepit, Hi|].
    cbn [made] in Hi. destruct (kget k (r_conns (sh_reg sh))) as [c|] eqn:E; [|destruct Hi]. destruct Hi as [[= <- <-]|[]].
    apply kget_in in E. destruct E as (k2 & Hs & Hin). exists k2. split; [exact Hs|apply in_or_app; left; exact Hin].
  - injection H as <- <-. left. split; [reflexivity|]. cbn [made]. keeping.
  - destruct l as [|e l]; injection H as <- <-; left; (split; [reflexivity|]); [|destruct (_ || _)%bool]; cbn [made]; keeping.
  - injection H as <- <-. left. split; [reflexivity|]. cbn [made sh_reg close_conn snd r_conns]. keeping.
  - left. unfold del_conn, bind, get, put, raise in H. destruct (kget (fst e) (r_conns (sh_reg sh))); injection H as <- <-; (split; [reflexivity|]); cbn [made sh_reg set_conns r_conns].
    + intros k' x Hi. rewrite app_nil_r in Hi. apply in_kdel in Hi. apply keepit, Hi.
    + keeping.
Qed.
Lemma pure_inv_step : forall a b, cstep a b -> pure_inv a -> pure_inv b.
Proof.
  intros a b H [Hl Hs]. destruct H as [i t t' sh sh' ts Hi Ht|d sh ts]; [|split; [exact Hl|exact Hs]].
  destruct (replace_split i t t' ts Hi) as (x & y & -> & -> & _). unfold pure_inv, pairs in *. cbn [c_sh c_threads] in *.
  assert (old : forall p, In p (r_conns (sh_reg sh) ++ made t) \/ In p (flat_map made (x ++ y)) ->
                In p (r_conns (sh_reg sh) ++ flat_map made (x ++ t :: y))).
  { intros p. rewrite !flat_map_app. cbn [flat_map]. rewrite !in_app_iff. tauto. }
  assert (new : forall p, In p (r_conns (sh_reg sh') ++ flat_map made (x ++ t' :: y)) ->
                In p (r_conns (sh_reg sh') ++ made t') \/ In p (flat_map made (x ++ y))).
  { intros p. rewrite !flat_map_app. cbn [flat_map]. rewrite !in_app_iff. tauto. }
  destruct (pure_tstep _ _ _ _ Ht) as [[En Hp]|(k & En & Ec & Em)].
  - assert (back : forall k c, In (k, c) (r_conns (sh_reg sh') ++ flat_map made (x ++ t' :: y)) ->
              exists k', same_key k k' /\ In (k', c) (r_conns (sh_reg sh) ++ flat_map made (x ++ t :: y))).
    { intros k c Hin. apply new in Hin. destruct Hin as [Hin|Hin].
      - destruct (Hp _ _ Hin) as (k' & Hk & Hin'). exists k'. split; [exact Hk|]. apply old. left. exact Hin'.
      - exists k. split; [apply same_refl|]. apply old. right. exact Hin. }
    split.
    + intros k c Hin. destruct (back _ _ Hin) as (k' & _ & Hin'). rewrite En. eapply Hl; eauto.
    + intros k k' c H1 H2. destruct (back _ _ H1) as (k1 & S1 & I1), (back _ _ H2) as (k2 & S2 & I2).
      eapply same_trans; [exact S1|]. eapply same_trans; [eapply Hs; eauto|]. apply same_sym, S2.
  - rewrite Ec, En, Em in *.
    assert (back : forall k' c, In (k', c) (r_conns (sh_reg sh) ++ flat_map made (x ++ t' :: y)) ->
              (k' = k /\ c = r_next (sh_reg sh)) \/ In (k', c) (r_conns (sh_reg sh) ++ flat_map made (x ++ t :: y))).
    { intros k' c Hin. apply new in Hin. destruct Hin as [Hin|Hin].
      - apply in_app_or in Hin. destruct Hin as [Hin|[[= <- <-]|[]]]; [right; apply in_or_app; left; exact Hin|left; auto].
      - right. apply old. right. exact Hin. }
    split.
    + intros k' c Hin. destruct (back _ _ Hin) as [[-> ->]|Hin']; [lia|]. apply Hl in Hin'. lia.
    + intros k1 k2 c H1 H2. destruct (back _ _ H1) as [[-> ->]|H1'], (back _ _ H2) as [[-> E2]|H2'].
      * apply same_refl.
      * exfalso. apply Hl in H2'. lia.
      * exfalso. subst c. apply Hl in H1'. lia.
      * eapply Hs; eauto.
Qed.
Lemma pure_begin : forall s ts, rinv s -> Forall starting ts -> pure_inv (begin s ts).
Proof.
  intros s ts Hi H. unfold pure_inv, pairs, begin. cbn [c_sh c_threads sh_reg].
  assert (E : flat_map made ts = []). { induction H as [|t ts Ht H IH]; [reflexivity|]. cbn [flat_map]. rewrite IH. destruct t; try destruct Ht; reflexivity. }
  rewrite E, app_nil_r. split.
  - intros k x Hin. apply (ri_lt _ Hi). apply in_map_iff. exists (k, x). auto.
  - intros k k' x H1 H2. assert (E2 : (k, x) = (k', x)) by (eapply pair_snd_unique; eauto; apply Hi). injection E2 as ->. apply same_refl.
Qed.
Lemma done_pair : forall c i k x, nth_error (c_threads c) i = Some (LDone k (Ok x)) -> In (k, x) (pairs c).
Proof.
  intros c i k x H. apply nth_error_In in H. unfold pairs. apply in_or_app. right. apply in_flat_map. exists (LDone k (Ok x)). split; [exact H|left; reflexivity].
Qed.

(** *** A lookup next to a clean-up returns or raises KeyError *)
Definition fair (s : rst) (t : thread) : Prop :=
  match t with
  | LStart k | LCheck k | LWait k | LMake k | LStore k _ => ready s k
  | LLeave k r => r = Ok tt
  | LDone k r => (exists c, r = Ok c) \/ r = Raise KeyError
  | _ => True
  end.
Lemma fair_step : forall t sh t' sh', tstep t sh = Some (t', sh') -> fair (sh_reg sh) t ->
  fair (sh_reg sh') t' /\ r_schemes (sh_reg sh') = r_schemes (sh_reg sh).
Proof.
  intros t sh t' sh' H Hw. destruct t; cbn [tstep fair] in *; try discriminate.
  - injection H as <- <-. pose proof Hw as Hw'. destruct Hw as (f & E & Ef). rewrite E. cbn [fair]; auto.
  - injection H as <- <-. destruct (kget k (r_conns (sh_reg sh))); cbn [fair]; auto.
  - destruct (held _ _); [discriminate|]. injection H as <- <-. cbn [fair]; auto.
  - pose proof Hw as Hw'. destruct Hw as (f & E & Ef). rewrite E in H. unfold new_conn in H. rewrite Ef in H. injection H as <- <-. split; [exact Hw'|reflexivity].
  - injection H as <- <-. cbn [sh_reg set_conns r_schemes fair]. cbn [fair]; auto.
  - subst r. injection H as <- <-. split; [exact I|reflexivity].
  - injection H as <- <-. split; [|reflexivity]. cbn [fair]. destruct (kget k (r_conns (sh_reg sh))) as [c|]; eauto.
  - injection H as <- <-. cbn [fair]; auto.
  - destruct l as [|e l]; injection H as <- <-; [split; [exact I|reflexivity]|]. destruct (_ || _)%bool; cbn [fair]; auto.
  - injection H as <- <-. cbn [fair]; auto.
  - unfold del_conn, bind, get, put, raise in H. destruct (kget (fst e) (r_conns (sh_reg sh))); injection H as <- <-; cbn [fair]; auto.
Qed.
Definition fair_inv (c : config) : Prop := Forall (fair (sh_reg (c_sh c))) (c_threads c).
Lemma fair_mono : forall s s' t, r_schemes s' = r_schemes s -> fair s t -> fair s' t.
Proof. intros s s' t Es. unfold fair, ready. destruct t; rewrite ?Es; auto. Qed.
Lemma fair_inv_step : forall a b, cstep a b -> fair_inv a -> fair_inv b.
Proof.
  intros a b H Hw. unfold fair_inv in *. destruct H as [i t t' sh sh' ts Hi Ht|d sh ts]; cbn [c_sh c_threads] in *.
  - destruct (replace_split i t t' ts Hi) as (x & y & -> & -> & _). apply Forall_app in Hw. destruct Hw as [Hx Hy].
    inversion Hy as [|p q Hwt Hy']; subst. destruct (fair_step _ _ _ _ Ht Hwt) as (W & Es).
    apply Forall_app. split; [|constructor; [exact W|]]; (eapply Forall_impl; [|eassumption]); intros u Hu; eapply fair_mono; eauto.
  - eapply Forall_impl; [|exact Hw]. intros u Hu. eapply fair_mono; [|exact Hu]; auto.
Qed.

(** *** One thread alone does what Registry.v says *)
Lemma css_one : forall a b, cstep a b -> csteps a b.
Proof. intros a b H. econstructor; [constructor|exact H]. Qed.
Lemma css_trans : forall a b c, csteps a b -> csteps b c -> csteps a c.
Proof. intros a b c H1 H2. induction H2; [exact H1|]. eapply css_step; [apply IHcsteps, H1|eassumption]. Qed.
Lemma solo : forall t t' sh sh' c, tstep t sh = Some (t', sh') -> csteps (mkCfg sh' [t']) c -> csteps (mkCfg sh [t]) c.
Proof.
  intros t t' sh sh' c H Hc. eapply css_trans; [|exact Hc]. apply css_one. change [t'] with (replace 0 t' [t]).
  econstructor; [reflexivity|exact H].
Qed.
Lemma lookup_alone : forall k s,
  csteps (begin s [LStart k]) (mkCfg (mkSh (snd (get_connection k s)) []) [LDone k (fst (get_connection k s))]).
Proof.
  intros k s. unfold begin. destruct (lookup_cases k s) as [E|f c E Ek|f e E Ek Ef|f E Ek Ef]; cbn [fst snd].
  - eapply solo; [cbn [tstep sh_reg]; rewrite E; reflexivity|constructor].
  - eapply solo; [cbn [tstep sh_reg]; rewrite E; reflexivity|].
    eapply solo; [cbn [tstep sh_reg]; rewrite Ek; reflexivity|].
    eapply solo; [cbn [tstep sh_reg]; rewrite Ek; reflexivity|constructor].
  - eapply solo; [cbn [tstep sh_reg]; rewrite E; reflexivity|].
    eapply solo; [cbn [tstep sh_reg]; rewrite Ek; reflexivity|].
    eapply solo; [cbn [tstep sh_reg sh_locks held existsb]; reflexivity|].
    eapply solo; [cbn [tstep sh_reg sh_locks]; rewrite E; unfold new_conn; rewrite Ef; reflexivity|].
    eapply solo; [cbn [tstep sh_reg sh_locks unhold]; rewrite (proj2 (opt_str_eqb_eq _ _) eq_refl); reflexivity|constructor].
  - eapply solo; [cbn [tstep sh_reg]; rewrite E; reflexivity|].
    eapply solo; [cbn [tstep sh_reg]; rewrite Ek; reflexivity|].
    eapply solo; [cbn [tstep sh_reg sh_locks held existsb]; reflexivity|].
    eapply solo; [cbn [tstep sh_reg sh_locks]; rewrite E; unfold new_conn; rewrite Ef; reflexivity|].
    eapply solo; [cbn [tstep sh_reg sh_locks]; reflexivity|].
    eapply solo; [cbn [tstep sh_reg sh_locks unhold]; rewrite (proj2 (opt_str_eqb_eq _ _) eq_refl); reflexivity|].
    eapply solo; [cbn [tstep sh_reg set_conns r_conns r_schemes r_next r_used r_closed r_timeout r_now]; rewrite kget_kset, kset_none by exact Ek; reflexivity|constructor].
Qed.
Lemma scan_alone : forall force fails now l s r s', mapM_ (cleanup_one force fails now) l s = (r, s') ->
  csteps (mkCfg (mkSh s []) [CScan force fails now l]) (mkCfg (mkSh s' []) [CDone r]).
Proof.
  intros force fails now. induction l as [|e l IH]; intros s r s' E.
  - cbn [mapM_] in E. unfold ret in E. injection E as <- <-. eapply solo; [reflexivity|constructor].
  - cbn [mapM_] in E. unfold bind at 1 in E. unfold cleanup_one in E. unfold bind at 1, get in E. cbn [fst snd] in E.
    destruct ((r_timeout s <? now - r_used s (snd e))%Z || force)%bool eqn:Ed.
    + eapply solo; [cbn [tstep sh_reg]; rewrite Ed; reflexivity|].
      eapply solo; [reflexivity|]. unfold bind at 1, swallow in E. cbn [sh_reg sh_locks].
      destruct (del_conn (fst e) (snd (close_conn fails (snd e) s))) as [[x|x] s1] eqn:D;
        (eapply solo; [cbn [tstep sh_reg sh_locks]; rewrite D; reflexivity|]); [apply IH, E|injection E as <- <-; constructor].
    + unfold ret in E. eapply solo; [cbn [tstep sh_reg]; rewrite Ed; reflexivity|]. apply IH, E.
Qed.
Lemma cleanup_alone : forall force fails s,
  csteps (begin s [CStart force fails]) (mkCfg (mkSh (snd (cleanup force fails s)) []) [CDone (fst (cleanup force fails s))]).
Proof.
  intros force fails s. unfold begin. eapply solo; [reflexivity|]. cbn [sh_reg]. unfold cleanup, bind, get.
  destruct (mapM_ (cleanup_one force fails (r_now s)) (r_conns s) s) as [r s'] eqn:E. cbn [fst snd]. apply scan_alone, E.
Qed.
