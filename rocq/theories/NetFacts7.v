(** A program woven with the work of others gets the answers it gets alone. *)
From Coq Require Import Lia.
From Verif Require Import Str Exc Utf8 UriParse BaseUri StrFacts Mem SpecMem MemFacts MemOps Generic Fnmatch UriOps Prog Registry SpecReg RegFacts RegFacts2
  MemFacts9 GenFacts9 GenFacts10 Resp MemTwin Net Pair SpecNet NetFacts NetFacts2 NetFacts3 NetFacts4 NetFacts5 NetFacts6.

Lemma srel_state s s' hs τ : m_heap s' = m_heap s -> m_next s' = m_next s -> m_now s' = m_now s -> m_cbs s' = m_cbs s -> wf s' -> srel (s, hs) τ -> srel (s', hs) τ.
Proof.
  intros E1 E2 E3 E4 W [H1 H2]. split; [exact H1|]. cbn [fst snd] in *. destruct H2 as [L1 L2 L3 L4 L5 L6 L7]. constructor; auto.
  - unfold view in *. destruct s, s'. cbn in *. subst. exact L3.
  - now rewrite E3.
  - intros p. rewrite <- L5. unfold callback_at. now rewrite E4.
  - intros w Hw. specialize (L6 w Hw). unfold opair in *. now rewrite E1, E2.
Qed.
Lemma framed_next c N N' : framed c N N' -> net_ok 0 N' -> net_ok (r_next (n_reg N)) N'.
Proof. intros F K. apply ok_at; [exact K|]. now rewrite (fr_next _ _ _ F). Qed.

(** Between two steps: the others' files are not on our connection. *)
Record calm (a : str) (N : net) (ho : list (nat * handle)) : Prop := {
  ca_ok : net_ok 0 N; ca_tidy : forall i, tidyq noq (fs_of N i); ca_far : Forall (fun x => far a N (fst x)) ho; ca_lt : Forall (fun x => fst x < r_next (n_reg N)) ho }.
Definition live (a : str) (N : net) (hs : list (nat * handle)) (σ : session) : Prop :=
  exists c hs0, served a c N /\ hs = map (pair c) hs0 /\ srel (fs_of N c, hs0) σ /\ exists u, ours a u.
Lemma sess_handles N hs hs' : sess_ok (N, hs) -> Forall (fun x => fst x < r_next (n_reg N)) hs' -> sess_ok (N, hs').
Proof. intros [K _] F. now split. Qed.

Lemma calm_other a N hs ho k r N' ho' σ : calm a N ho -> call_elsewhere a k -> net_call k (N, ho) = (r, (N', ho')) ->
  calm a N' ho' /\ (live a N hs σ -> live a N' hs σ) /\ off a N N'.
Proof.
  intros [K Td F Lt] C E. destruct (other_call a N ho k K Td F C) as [O F']. pose proof (call_ok k (N, ho) (conj K Lt)) as [S1 S2]. rewrite E in *. cbn [fst snd] in *.
  assert (Ek := off_key _ _ _ O). split; [|split; [|exact O]].
  - constructor; auto; [apply O|]. eapply Forall_impl; [|exact F']. intros x Hx. exact (far_same a N N' _ Ek Hx).
  - intros (c & hs0 & Sv & Eh & Sr & u & Ou). pose proof (proj2 Sv u Ou) as Ku. exists c, hs0. split; [|split; [exact Eh|split; [|now exists u]]].
    + split; [eexists; apply (ok_mem _ _ S1)|]. intros v Ov. rewrite (Ek v Ov). now apply Sv.
    + refine (srel_state _ _ hs0 σ _ _ _ _ _ Sr); unfold fs_of; cbn; try now rewrite (off_fs _ _ _ O u c Ou Ku). apply O. apply reachable_wf. exact (ok_fs _ _ S1 c).
Qed.
Lemma calm_clean a N hs ho force r N' σ : calm a N ho -> (forall u c, ours a u -> open_as (n_reg N) (u_key u) c -> ~ due force (n_reg N) c) -> net_cleanup force N = (r, N') ->
  calm a N' ho /\ (live a N hs σ -> live a N' hs σ) /\ (forall u, ours a u -> kget (u_key u) (r_conns (n_reg N')) = kget (u_key u) (r_conns (n_reg N))) /\ r_now (n_reg N') = r_now (n_reg N).
Proof.
  intros [K Td F Lt] D E. pose proof (fun u Ou => clean_get a N force u K (fun c => D u c Ou) Ou) as Ek. pose proof (clean_ok force N ho (conj K Lt)) as [S1 S2].
  assert (Fs : forall i, fs_of (snd (net_cleanup force N)) i = fs_of N i /\ r_now (n_reg (snd (net_cleanup force N))) = r_now (n_reg N)).
  { intros i. unfold net_cleanup. rewrite (cleanup_is force (fun _ => false) (n_reg N) (ri_uniq _ (ok_reg _ _ K))). split; reflexivity. }
  rewrite E in *. cbn [fst snd] in *. split; [|split; [|split; [exact Ek|apply (Fs 0)]]].
  - constructor; auto; [intros i; destruct (Fs i) as [-> _]; apply Td|]. eapply Forall_impl; [|exact F]. intros x Hx. exact (far_same a N N' _ Ek Hx).
  - intros (c & hs0 & Sv & Eh & Sr & u & Ou). exists c, hs0. split; [|split; [exact Eh|split; [|now exists u]]].
    + split; [eexists; apply (ok_mem _ _ S1)|]. intros v Ov. rewrite (Ek v Ov). now apply Sv.
    + destruct (Fs c) as [-> _]. exact Sr.
Qed.
Lemma calm_mine a N hs ho k r N' hs' σ : authority a -> calm a N ho -> live a N hs σ -> call_in a k -> net_call k (N, hs) = (r, (N', hs')) ->
  calm a N' ho /\ live a N' hs' (snd (do_call k σ)) /\ r = fst (do_call k σ) /\ forall x, r = Ok x -> answer_in a x.
Proof.
  intros A [K Td F Lt] (c & hs0 & Sv & Eh & Sr & u & Ou) I E. subst hs.
  assert (Lh : Forall (fun x : nat * handle => fst x < r_next (n_reg N)) (map (pair c) hs0)).
  { apply Forall_forall. intros x Hx. apply in_map_iff in Hx. destruct Hx as (h & <- & _). cbn. exact (key_lt N K u c (proj2 Sv u Ou)). }
  pose proof (call_ok k (N, map (pair c) hs0) (conj K Lh)) as [S1 S2].
  destruct (call_rel k _ _ Sr) as [Ef Er].
  assert (Dec : (exists t, k = CTick t) \/ forall t, k <> CTick t) by (destruct k; try (right; intros t X; discriminate X); left; now eexists).
  destruct Dec as [[t ->]|NT].
  - cbn [net_call] in E. unfold on_net, net_clock in E. cbn [fst snd] in E. injection E as <- <- <-. cbn [net_call on_net net_clock fst snd] in S1, S2. split; [|split; [|split; [exact Ef|intros x X; now injection X as <-]]].
    + constructor; auto.
    + exists c, hs0. split; [exact Sv|]. split; [reflexivity|]. split; [exact Er|now exists u].
  - destruct (call_served a c k N hs0 A Sv (Td c) I NT) as (N1 & E1 & [F1 F2 F3 F4]). rewrite E1 in E. injection E as <- <- <-. rewrite E1 in S1, S2. cbn [fst snd] in S1, S2.
    split; [|split; [|split; [exact Ef|exact F4]]].
    + constructor; auto.
      * intros i. destruct (Nat.eq_dec i c) as [->|Hi]; [now rewrite F2|]. unfold tidyq, fs_of. cbn. rewrite (fr_fs _ _ _ F1 i Hi). exact (Td i).
      * eapply Forall_impl; [|exact F]. intros x Hx. apply (far_same a N N1); [|exact Hx]. intros v Ov. now rewrite (fr_conns _ _ _ F1).
      * eapply Forall_impl; [|exact Lt]. intros x Hx. now rewrite (fr_next _ _ _ F1).
    + exists c, (snd (snd (do_call k (fs_of N c, hs0)))). split; [exact (served_framed a c c N N1 F1 Sv)|]. split; [reflexivity|]. split; [|now exists u].
      rewrite F2. destruct (do_call k (fs_of N c, hs0)) as [r' [s' h']]. exact Er.
Qed.
Theorem woven_live a X (p : prog X) N hs ho x σ : authority a -> woven a p N hs ho x -> prog_in a p -> calm a N ho -> live a N hs σ -> x = fst (run p σ).
Proof.
  intros A W. revert σ. induction W as [x N hs ho|k f N hs ho r N' hs' x E W IH|k p N hs ho r N' ho' x C E W IH|force p N hs ho r N' x D E W IH]; intros σ P Ca L.
  - reflexivity.
  - inversion P as [|? ? I Pf]; subst. destruct (calm_mine a N hs ho k r N' hs' σ A Ca L I E) as (Ca' & L' & Er & Ai). cbn [run].
    specialize (IH _ (Pf r Ai) Ca' L'). destruct (do_call k σ) as [r0 σ']. cbn [fst snd] in *. now subst r0.
  - destruct (calm_other a N hs ho k r N' ho' σ Ca C E) as (Ca' & L' & _). auto.
  - destruct (calm_clean a N hs ho force r N' σ Ca D E) as (Ca' & L' & _). auto.
Qed.
(** The connection is not there yet. *)
Theorem woven_new a X k (f : res answer -> prog X) N ho x u : authority a -> woven a (Call k f) N [] ho x -> prog_in a (Call k f) -> calm a N ho ->
  first_uri k = Some u -> hostless (u_key u) -> (forall i, ~ open_as (n_reg N) (u_key u) i) -> x = fst (run (Call k f) (init_mem (r_now (n_reg N)) 0, [])).
Proof.
  intros A W. remember (Call k f) as p eqn:Ep. remember [] as hs eqn:Eh. induction W as [x N hs ho|k' f' N hs ho r N' hs' x E W IH|k' p N hs ho r N' ho' x C E W IH|force p N hs ho r N' x D E W IH]; intros P Ca Fu Ho Nn.
  - discriminate.
  - injection Ep as -> ->. subst hs. inversion P as [|? ? I Pf]; subst. pose proof (call_first a k u I Fu) as Ou. pose proof Ca as [K Td F Lt].
    pose proof (starts_call k u [] N Fu) as Sc. pose proof (connect_lawful 0 u) as Lw. rewrite lawful_iff in Lw. specialize (Lw N K).
    pose proof (connect_lt 0 u) as Cl.
    destruct (connect_ours a 0 u N A K Ou) as [c H|H1 H2|c N1 H1 H2 H3 H4 H5]; [destruct (Nn c H)|contradiction|]. cbn [snd] in Lw.
    rewrite (Sc (connect_served a u c N1 A Ou H3)) in E.
    assert (Ca1 : calm a N1 ho).
    { constructor; auto.
      - intros i. destruct (Nat.eq_dec i c) as [->|Hi]; [rewrite H5; intros j; cbn; now intros|]. unfold tidyq, fs_of. cbn. rewrite (op_fs _ _ _ _ H2 i Hi). exact (Td i).
      - apply Forall_forall. intros y Hy v Ov. rewrite (proj2 H3 v Ov). intros X0. injection X0 as X0. rewrite Forall_forall in Lt. specialize (Lt y Hy). cbn in Lt. rewrite <- X0, (op_new _ _ _ _ H2) in Lt. lia.
      - eapply Forall_impl; [|exact Lt]. intros y Hy. cbn in *. rewrite (op_next _ _ _ _ H2), (op_new _ _ _ _ H2). lia. }
    assert (L1 : live a N1 [] (init_mem (r_now (n_reg N)) 0, [])).
    { exists c, []. split; [exact H3|]. split; [reflexivity|]. split; [|now exists u]. split; [constructor|]. cbn [fst snd both combine map]. constructor.
      - apply reachable_wf. exact (ok_fs _ _ Lw c).
      - apply reachable_wf, reachable_init.
      - rewrite H5. cbn. unfold same_tree. now intros.
      - now rewrite H5.
      - intros q. now rewrite H5.
      - intros w [].
      - intros w w' []. }
    destruct (calm_mine a N1 [] ho k r N' hs' _ A Ca1 L1 I E) as (Ca' & L' & Er & Ai).
    rewrite (woven_live a X (f r) N' hs' ho x _ A W (Pf r Ai) Ca' L'). cbn [run]. subst r. now destruct (do_call k (init_mem (r_now (n_reg N)) 0, [])).
  - subst p. inversion P as [|? ? I Pf]; subst. pose proof (call_first a k u I Fu) as Ou.
    destruct (calm_other a N [] ho k' r N' ho' (init_mem 0 0, []) Ca C E) as (Ca' & _ & O). rewrite <- (off_now _ _ _ O). apply IH; auto.
    apply (proj2 (open_none _ _ (ok_reg _ _ (ca_ok _ _ _ Ca')))). rewrite (off_key _ _ _ O u Ou). apply (proj1 (open_none _ _ (ok_reg _ _ (ca_ok _ _ _ Ca)))). exact Nn.
  - subst p. inversion P as [|? ? I Pf]; subst. pose proof (call_first a k u I Fu) as Ou.
    destruct (calm_clean a N [] ho force r N' (init_mem 0 0, []) Ca D E) as (Ca' & _ & Ek & En). rewrite <- En. apply IH; auto.
    apply (proj2 (open_none _ _ (ok_reg _ _ (ca_ok _ _ _ Ca')))). rewrite (Ek u Ou). apply (proj1 (open_none _ _ (ok_reg _ _ (ca_ok _ _ _ Ca)))). exact Nn.
Qed.
