(** Calls for local files with other processes between the system calls. *)
From Coq Require Import Lia.
From Verif Require Import Str Exc StrFacts UriParse BaseUri SpecUri Mem SpecMem Misc Posix Local SpecLocal Generic LocProg SpecHome LocSteps SpecSteps ApartFacts2 LocalFacts1 LocalFacts6 LocalFacts15 Resp LocTwin HomeFacts1 HomeFacts2 HomeFacts3 HomeFacts4 Pair PropsHome.
Open Scope nat_scope.

(** One step, as a call in C160 *)
Section Step.
Variable D : list str.
Hypothesis HD : home_dir D.
Definition homely {A} (Q : A -> Prop) (m : M pst A) : Prop :=
  (forall x0 y0, (forall A n B, D = A ++ n :: B -> is_dir_at x0 A) -> (forall A n B, D = A ++ n :: B -> is_dir_at y0 A) -> both (twins D x0 y0) Q m m) /\ resp peq m.
Lemma step_rest {A} (Q : A -> Prop) m x : homely Q m -> walled D x ->
  (forall p, (forall r, p <> D ++ r) -> pget p (p_tree (snd (m x))) = pget p (p_tree x)) /\ p_cwd (snd (m x)) = p_cwd x /\ p_now (snd (m x)) = p_now x /\ p_umask (snd (m x)) = p_umask x /\ walled D (snd (m x)) /\ (forall a, fst (m x) = Ok a -> Q a).
Proof.
  intros [H _] W. pose proof (start_twins D x x W eq_refl eq_refl eq_refl) as T. destruct (H x x (wa_above _ _ W) (wa_above _ _ W) x x T) as (_ & T1 & q). set (x1 := snd (m x)) in *.
  destruct (tw_same1 _ _ _ _ _ T1) as (E1 & E2 & E3). split; [|split; [exact E1|split; [exact E2|split; [exact E3|split; [constructor|exact q]]]]].
  - intros p Hp. assert (B : is_below D p = false) by (apply is_below_false; intros [r ->]; now apply (Hp r)). rewrite <- (get_out D p (p_tree x1) B), (tw_out1 _ _ _ _ _ T1). now apply get_out.
  - apply (tw_names _ _ _ _ _ T1).
  - apply (tw_links _ _ _ _ _ T1).
  - intros B n C E. exact (tw_roof1 D x x (wa_above _ _ W) (wa_above _ _ W) x1 x1 B n C T1 E).
Qed.
Lemma step_own {A} (Q : A -> Prop) m x y : homely Q m -> sound x -> sound y -> walled D x -> walled D y -> same_home D x y ->
  fst (m y) = fst (m x) /\ same_home D (snd (m x)) (snd (m y)).
Proof.
  intros [K R] Sx Sy Wx Wy H. set (z := blend D x y). pose proof (blend_eq D x y Sx Sy H) as P. fold z in P. destruct (R y z P) as [R1 R2].
  assert (Iz : innards D (p_tree x) = innards D (p_tree z)) by (cbn [z blend p_tree]; unfold innards, outer; symmetry; apply (filter_twice (fun re => is_below D (fst re)))).
  assert (T : twins D x z x z). { apply start_twins; auto; cbn; [symmetry; apply (sa_now _ _ _ H)|symmetry; apply (sa_umask _ _ _ H)]. }
  assert (Rz : forall A n B, D = A ++ n :: B -> is_dir_at z A).
  { intros B n C E. destruct (wa_above _ _ Wy B n C E) as (mo & mt & G). exists mo, mt. unfold z. rewrite blend_get. replace (is_below D B) with false; [exact G|]. symmetry. apply is_below_false. intros [r E']. apply (f_equal (@List.length str)) in E, E'. rewrite !app_length in *. cbn in *. lia. }
  destruct (K x z (wa_above _ _ Wx) Rz x z T) as (E & T1 & _). split; [congruence|]. set (x1 := snd (m x)) in *. set (z1 := snd (m z)) in *. set (y1 := snd (m y)) in *. constructor.
  - intros p. rewrite (peq_get y1 z1 _ R2). symmetry. exact (tw_get _ _ _ x1 z1 (D ++ p) T1 (below_self D p)).
  - rewrite (sh_now _ _ (pe_same _ _ R2)). symmetry. exact (tw_now _ _ _ _ _ T1).
  - rewrite (sh_umask _ _ (pe_same _ _ R2)). symmetry. exact (tw_umask _ _ _ _ _ T1).
Qed.
Lemma peq_self x : sound x -> peq x x.
Proof. intros H. constructor; auto. constructor; auto. Qed.
Lemma step_sound {A} (Q : A -> Prop) m x : homely Q m -> sound x -> sound (snd (m x)).
Proof. intros [_ R] Sx. destruct (R x x (peq_self x Sx)) as [_ P]. apply P. Qed.

Variable J : pst -> Prop.
Hypothesis JD : about_rest D J.
Definition steps_so (z : among) (y : pst) : Prop :=
  sound (fst z) /\ walled D (fst z) /\ sound y /\ walled D y /\ same_home D y (fst z) /\ Forall (away D J) (snd z) /\ J (fst z).
Lemma away_walled f x : away D J f -> sound x -> walled D x -> J x -> walled D (f x).
Proof.
  intros A Sx W Jx. destruct (A x Sx W Jx) as (S1 & H & R & _). constructor; [| |exact R].
  - intros p. rewrite (sa_tree _ _ _ H). apply (wa_names _ _ W).
  - intros p tg. rewrite (sa_tree _ _ _ H). apply (wa_links _ _ W).
Qed.
Lemma one_step {A} (Q : A -> Prop) m : homely Q m -> both steps_so Q (between m) m.
Proof.
  intros K [x fs] y (Sx & Wx & Sy & Wy & H & F & Jx). cbn [fst snd] in *. unfold between. cbn [fst snd].
  assert (Z : exists x1, hd (fun x => x) fs x = x1 /\ sound x1 /\ walled D x1 /\ same_home D y x1 /\ J x1).
  { eexists. split; [reflexivity|]. destruct F as [|f fs Af F]; cbn [hd]; [auto|]. destruct (Af x Sx Wx Jx) as (S1 & H1 & _ & J1). split; [exact S1|]. split; [now apply away_walled|]. split; [now apply (same_trans D y x)|exact J1]. }
  destruct Z as (x1 & -> & S1 & W1 & H1 & J1). assert (Ft : Forall (away D J) (tl fs)) by (destruct F; cbn; auto).
  destruct (step_own Q m y x1 K Sy S1 Wy W1 H1) as [E1 H2]. destruct (step_rest Q m x1 K W1) as (G1 & G2 & G3 & G4 & W2 & q). destruct (step_rest Q m y K Wy) as (_ & _ & _ & _ & W3 & _).
  pose proof (step_sound Q m x1 K S1) as S2. pose proof (step_sound Q m y K Sy) as S3. pose proof (JD x1 (snd (m x1)) G1 G2 G3 G4 J1) as J2. destruct (m x1) as [r x2]. cbn [fst snd] in *. split; [exact E1|]. split; [|exact q].
  split; [exact S2|]. split; [exact W2|]. split; [exact S3|]. split; [exact W3|]. split; [exact H2|]. split; [exact Ft|exact J2].
Qed.
End Step.
