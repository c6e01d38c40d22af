(** Two parties on one memory file system *)
From Coq Require Import Lia.
From Verif Require Import Str Exc StrFacts UriParse BaseUri Mem SpecUri SpecMem MemFacts MemFacts2 MemFacts5 MemFacts9 Generic Resp UriOps Prog MemTwin SpecApart ApartFacts ApartFacts2 ApartFacts3 Pair ApartFacts4 ApartFacts5 ApartFacts6.
Open Scope nat_scope.

Lemma onf_map O h k ds : hpair O h k -> onf O (mapM_ (h_write h) ds) (mapM_ (h_write k) ds).
Proof. intros H. induction ds as [|v ds IH]; cbn [mapM_]; [apply onf_same|]. apply onf_bind; [now apply onf_hwrite|]. intros _. exact IH. Qed.
Lemma onf_with O u o (m : handle -> M mst answer) : (forall h k O', hpair O' h k -> onf O' (m h) (m k)) -> onf O (with_open u o m) (with_open u o m).
Proof.
  intros H. unfold with_open. apply opn_use; [apply u_open_opn|]. intros h k Rh Rb s1 s2 L. assert (Hp : hpair ((h_node h, h_node k) :: O) h k) by (split; [now left|now split]).
  specialize (H h k _ Hp s1 s2 L). destruct (m h s1) as [r1 x1], (m k s2) as [r2 x2].
  assert (G : alike ((h_node h, h_node k) :: O) x1 x2 /\ r1 = r2) by (destruct r1, r2; cbn in H; try easy; destruct H as [A B]; split; auto; unfold eqr in B; congruence). destruct G as [L' <-].
  assert (C := onf_close ((h_node h, h_node k) :: O) (h_node h) (h_node k) (or_introl eq_refl) x1 x2 L'). unfold h_close.
  destruct (file_close (h_node h) x1) as [[[]|e1] y1], (file_close (h_node k) x2) as [[[]|e2] y2]; cbn in C; try contradiction; destruct C as [L2 E2]; try subst e2; now apply rr_same.
Qed.
Lemma do_resp c : resp (alike []) (do_it c).
Proof.
  destruct c as [fuel o|u m ds|u m]; cbn [do_it].
  - apply ask_resp.
  - apply onf_resp, onf_with. intros h k O' Hp. unfold answered. apply onf_bind; [now apply onf_map|]. intros a. apply onf_same.
  - apply onf_resp, onf_with. intros h k O' Hp. unfold answered. apply onf_bind; [now apply onf_hread|]. intros a. apply onf_same.
Qed.
(** What both parties rely on *)
Record housed (K : str -> bool) (s : mst) : Prop := { ho_wf : wf s; ho_enc : enclosed K (view s); ho_blank : view s [[]] = None }.
Section Parts.
Variable K : str -> bool.
Hypothesis tops : top_names K.
Lemma own_step c s s' : doing_in K c -> housed K s -> housed K s' -> same_part K s s' ->
  fst (do_it c s') = fst (do_it c s) /\ same_part K (snd (do_it c s)) (snd (do_it c s')) /\ housed K (snd (do_it c s)) /\ housed K (snd (do_it c s')).
Proof.
  intros M [W E B] [W' E' B'] S. pose proof (on_do K tops s c M s (alone K s) (alone_pruned K s W E B)) as (A1 & P1 & _). pose proof (on_do K tops s' c M s' (alone K s') (alone_pruned K s' W' E' B')) as (A2 & P2 & _).
  destruct (do_resp c _ _ (alone_alike K s s' W W' S E B E' B')) as [A3 L]. split; [congruence|]. split; [|split].
  - constructor.
    + intros d p Kd. pose proof (al_tree _ _ _ L (d :: p)) as T. rewrite (pruned_view K _ _ _ _ P1), (pruned_view K _ _ _ _ P2), Kd in T. exact T.
    + rewrite <- (pr_now _ _ _ _ _ P1), <- (pr_now _ _ _ _ _ P2). symmetry. exact (al_now _ _ _ L).
    + intros p Hp. pose proof (al_cbs _ _ _ L p) as C. unfold callback_at in *. rewrite (pr_cbs _ _ _ _ _ P1 p Hp), (pr_cbs _ _ _ _ _ P2 p Hp) in C. now symmetry.
  - constructor; [exact (pr_wf _ _ _ _ _ P1)|exact (pr_enc _ _ _ _ _ P1)|exact (pr_blank _ _ _ _ _ P1)].
  - constructor; [exact (pr_wf _ _ _ _ _ P2)|exact (pr_enc _ _ _ _ _ P2)|exact (pr_blank _ _ _ _ _ P2)].
Qed.
Lemma leaves_rest c s : doing_in K c -> housed K s -> (forall d p, K d = false -> view (snd (do_it c s)) (d :: p) = view s (d :: p)) /\ m_now (snd (do_it c s)) = m_now s /\
  (forall p, K (hd [] (split_on cSlash p)) = false -> callback_at (snd (do_it c s)) p = callback_at s p).
Proof.
  intros M [W E B]. pose proof (on_do K tops s c M s (alone K s) (alone_pruned K s W E B)) as (_ & P & _). split; [exact (pr_frame _ _ _ _ _ P)|]. split; [exact (pr_fnow _ _ _ _ _ P)|].
  intros p Hp. unfold callback_at. now rewrite (pr_fcbs _ _ _ _ _ P p Hp).
Qed.
End Parts.
Definition disjoint (K L : str -> bool) : Prop := forall c, K c = true -> L c = false.
Lemma disjoint_sym K L : disjoint K L -> disjoint L K.
Proof. intros D c H. destruct (K c) eqn:E; [|reflexivity]. rewrite (D c E) in H. discriminate H. Qed.
Lemma other_step K L c s : top_names L -> disjoint K L -> doing_in L c -> housed L s -> same_part K s (snd (do_it c s)).
Proof.
  intros T D M H. destruct (leaves_rest L T c s M H) as (A1 & A2 & A3). constructor; [intros d p Kd; apply A1; now apply D|exact A2|].
  intros p [->|Hp]; apply A3; [|now apply D]. cbn. destruct (L []) eqn:E; [|reflexivity]. destruct (T [] E) as (N & _). easy.
Qed.
Lemma enclosed_same K t t' : (forall c p, K c = true -> t' (c :: p) = t (c :: p)) -> enclosed K t -> enclosed K t'.
Proof. intros S [A B]. constructor; [intros c p tg mt mo Kc; rewrite (S c p Kc); now apply A|intros c p n Kc; rewrite (S c (p ++ [n]) Kc); now apply B]. Qed.
Lemma same_part_refl K s : same_part K s s. Proof. now constructor. Qed.
Lemma same_part_sym K s s' : same_part K s s' -> same_part K s' s. Proof. intros [A B C]. constructor; [intros c p H; now rewrite A|now rewrite B|intros p H; now rewrite C]. Qed.
Lemma same_part_trans K s s' s2 : same_part K s s' -> same_part K s' s2 -> same_part K s s2.
Proof. intros [A B C] [A' B' C']. constructor; [intros c p H; now rewrite A', A|now rewrite B', B|intros p H; now rewrite C', C]. Qed.
Lemma housed_time K t s : housed K s -> housed K (at_time t s). Proof. intros [A B C]. now constructor. Qed.
Lemma together K L es : top_names K -> top_names L -> disjoint K L -> Forall (event_in K L) es -> forall s s', housed K s -> housed L s -> housed K s' -> same_part K s s' ->
  fst (happen (own_only es) s') = fst (happen es s) /\ same_part K (snd (happen es s)) (snd (happen (own_only es) s')) /\ housed K (snd (happen es s)) /\ housed L (snd (happen es s)) /\ housed K (snd (happen (own_only es) s')).
Proof.
  intros TK TL D F. induction F as [|e es He F IH]; intros s s' HK HL HK' S; [cbn; auto|]. destruct e as [c|c|t]; cbn [happen own_only filter event_in] in *.
  - destruct (own_step K TK c s s' He HK HK' S) as (A1 & A2 & A3 & A4). pose proof (other_step L K c s TK (disjoint_sym K L D) He HK) as SL.
    assert (HL' : housed L (snd (do_it c s))) by (constructor; [exact (ho_wf _ _ A3)|exact (enclosed_same L _ _ (sm_tree _ _ _ SL) (ho_enc _ _ HL))|exact (ho_blank _ _ A3)]).
    destruct (do_it c s) as [r1 s1], (do_it c s') as [r2 s2]. cbn [fst snd] in *. specialize (IH s1 s2 A3 HL' A4 A2). change (filter _ es) with (own_only es).
    destruct (happen es s1) as [rs1 s3], (happen (own_only es) s2) as [rs2 s4]. cbn [fst snd] in *. destruct IH as (B1 & B2). split; [congruence|exact B2].
  - pose proof (other_step K L c s TL D He HL) as SK. destruct (own_step L TL c s s He HL HL (same_part_refl L s)) as (_ & _ & A3 & _). change (filter _ es) with (own_only es). apply IH; auto.
    + constructor; [exact (ho_wf _ _ A3)|exact (enclosed_same K _ _ (sm_tree _ _ _ SK) (ho_enc _ _ HK))|exact (ho_blank _ _ A3)].
    + apply (same_part_trans K _ s); [now apply same_part_sym|exact S].
  - change (filter _ es) with (own_only es). apply IH; auto using housed_time. destruct S as [A B C]. now constructor.
Qed.
