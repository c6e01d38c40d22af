(** A method of a URI sets the time its connection was last used. *)
From Coq Require Import Lia.
From Verif Require Import Str Exc Utf8 UriParse BaseUri StrFacts Mem SpecMem MemFacts MemOps Generic Fnmatch UriOps Prog Registry SpecReg RegFacts RegFacts2
  MemFacts9 GenFacts9 GenFacts10 Resp MemTwin Net Pair SpecNet NetFacts NetFacts2 NetFacts3 NetFacts4 NetFacts5 NetFacts6 NetFacts7.

Section Used.
Variable c : nat.
Record current_use (N : net) : Prop := { cu_lt : c < r_next (n_reg N); cu_now : r_used (n_reg N) c = r_now (n_reg N) }.
Definition recent {A} (m : M net A) : Prop := resp (fun N1 N2 => N1 = N2 /\ current_use N1) m.
Lemma recent_iff {A} (m : M net A) : recent m <-> forall N, current_use N -> current_use (snd (m N)).
Proof.
  split.
  - intros H N K. now destruct (H N N (conj eq_refl K)) as [_ [_ H2]].
  - intros H N1 N2 [-> K]. split; [reflexivity|]. split; [reflexivity|]. now apply H.
Qed.
Lemma recent_at {A} d (m : M mst A) : recent (at_conn d m).
Proof. apply recent_iff. intros N [K1 K2]. split; now rewrite (at_next d m N). Qed.
Lemma recent_connect u : recent (connect u).
Proof.
  apply recent_iff. intros N [K1 K2].
  assert (G : current_use (mkNet (snd (uri_connection u (n_reg N))) (n_fs N) (n_epoch N) (n_held N))).
  { unfold uri_connection. destruct existsb; [now split|]. destruct (lookup_cases (u_key u) (n_reg N)) as [H|f d H1 H2|f e H1 H2 H3|f H1 H2 H3]; cbn [snd]; split; cbn; auto.
    destruct (Nat.eqb_spec c (r_next (n_reg N))); [reflexivity|exact K2]. }
  destruct G as [G1 G2]. unfold connect. destruct (uri_connection u (n_reg N)) as [r g]. cbn [snd n_reg] in *. destruct (Nat.eqb _ _); split; exact G1 || exact G2.
Qed.
Lemma recent_enter u : recent (enter u).
Proof.
  apply resp_bind; [apply recent_connect|]. intros d. apply recent_iff. intros N [K1 K2]. split; cbn; [exact K1|]. now destruct (Nat.eqb c d).
Qed.
Lemma recent_current u : recent (current u).
Proof. apply recent_iff. intros N K. unfold current. now destruct (kget _ _). Qed.
Lemma recent_within {A} u (m : M mst A) : recent (within u m).
Proof. apply resp_bind; [apply recent_current|]. intros d. apply recent_at. Qed.
Lemma recent_method {A} u (m : M mst A) : recent (method u m).
Proof. apply resp_bind; [apply recent_enter|]. intros d. apply recent_at. Qed.
Lemma recent_content u v : recent (net_content u v).
Proof.
  unfold net_content. apply resp_if.
  - apply resp_bind; [apply recent_enter|]. intros d. apply resp_bind; [apply recent_enter|]. intros _. apply recent_at.
  - apply resp_bind; [apply recent_method|]. intros d. apply recent_method.
Qed.
Lemma recent_keeps : keeps (fun N1 N2 => N1 = N2 /\ current_use N1) net_backend.
Proof.
  constructor; cbn [b_hook b_exists b_isfile b_isdir b_islink b_listdir b_removefile b_removedir b_mkdir b_symlink b_readlink b_copystat b_copy_content b_removefile_by b_symlink_by net_backend]; intros;
    try (match goal with |- resp _ (bind _ _) => apply resp_bind; [|intros ?; apply resp_ret] end);
    first [apply recent_content|apply recent_within|apply recent_method].
Qed.
(** Entering with a URI of [c] *)
Definition marks {A} (u : uri) (m : M net A) : Prop := forall N, connect u N = (Ok c, N) -> c < r_next (n_reg N) -> current_use (snd (m N)).
Lemma marks_enter u : marks u (enter u).
Proof. intros N E L. unfold enter, bind. rewrite E. cbn. split; cbn; [exact L|]. now rewrite Nat.eqb_refl. Qed.
Lemma marks_bind {A C} u (m : M net A) (k : A -> M net C) : marks u m -> (forall x, recent (k x)) -> marks u (bind m k).
Proof.
  intros H K N E L. specialize (H N E L). unfold bind. destruct (m N) as [[x|e] N']; [|exact H]. cbn [snd] in H. specialize (K x). rewrite recent_iff in K. now apply K.
Qed.
Lemma marks_method {A} u (m : M mst A) : marks u (method u m).
Proof. apply marks_bind; [apply marks_enter|]. intros d. apply recent_at. Qed.
Lemma marks_hooked {A} n u (m : M net A) : recent m -> marks u (hooked net_backend n u m).
Proof. intros H. apply marks_bind; [apply marks_method|]. now intros _. Qed.
Ltac go K := repeat match goal with
  | |- resp _ (ret _) => apply resp_ret | |- resp _ (raise _) => apply resp_raise | |- resp _ (lift _) => apply resp_lift
  | |- resp _ (b_exists _ _) => apply (ke_exists _ _ K) | |- resp _ (b_isfile _ _) => apply (ke_isfile _ _ K) | |- resp _ (b_isdir _ _) => apply (ke_isdir _ _ K)
  | |- resp _ (b_islink _ _) => apply (ke_islink _ _ K) | |- resp _ (b_removefile _ _) => apply (ke_removefile _ _ K) | |- resp _ (b_removedir _ _) => apply (ke_removedir _ _ K)
  | |- resp _ (b_mkdir _ _) => apply (ke_mkdir _ _ K) | |- resp _ (b_copystat _ _ _) => apply (ke_copystat _ _ K) | |- resp _ (b_copy_content _ _ _) => apply (ke_content _ _ K)
  | |- resp _ (u_exists _ _) => apply (resp_exists _ _ K) | |- resp _ (u_isfile _ _) => apply (resp_isfile _ _ K) | |- resp _ (u_isdir _ _) => apply (resp_isdir _ _ K)
  | |- resp _ (u_islink _ _) => apply (resp_islink _ _ K) | |- resp _ (u_mkdir _ _) => apply (resp_mkdir _ _ K) | |- resp _ (u_makedirs _ _ _) => apply (resp_makedirs _ _ K)
  | |- resp _ (u_copy _ _ _ _ _ _ _) => apply (resp_copy _ _ K) | |- resp _ (u_remove _ _ _ _) => apply (resp_remove _ _ K)
  | |- resp _ (remove_dir_recursively _ _ _) => apply (resp_remove_dir _ _ K) | |- resp _ (copy_entry _ _ _ _ _) => apply (resp_copy_entry _ _ K)
  | |- resp _ (copy_link _ _ _) => apply (resp_copy_link _ _ K) | |- resp _ (copy_step _ _ _ _ _ _ _ _ _ _) => apply (resp_copy_step _ _ K)
  | |- resp _ (walk_gen _ _ _ _ _ _ _) => apply (resp_walk_gen _ _ K); intros | |- resp _ (fs_makedirs _ _ _) => apply (resp_fs_makedirs _ _ K)
  | |- resp _ (hooked _ _ _ _) => apply (resp_hooked _ _ K) | |- resp _ (b_listdir _ _) => apply recent_within
  | |- resp _ (bind _ _) => apply resp_bind; [|intros ?] | |- resp _ (if _ then _ else _) => apply resp_if | |- resp _ (foldM _ _ _) => apply resp_fold; intros ? ?
  end.
Lemma marks_ask fuel o : marks (uop_uri o) (net_ask fuel o).
Proof.
  pose proof recent_keeps as K.
  destruct o; cbn [net_ask uop_uri]; try apply marks_method; (apply marks_bind; [|intros x; apply resp_ret]);
    unfold u_copy, u_move, u_remove, u_makedirs, u_mkdir, u_exists, u_isfile, u_isdir, u_islink, u_walk, u_listdir, u_glob; apply marks_hooked;
    unfold recent, fs_copy, fs_move, fs_glob, u_listdir; go K. apply (ke_hook _ _ K).
Qed.
Lemma marks_call k u hs N : first_uri k = Some u -> connect u N = (Ok c, N) -> c < r_next (n_reg N) -> current_use (fst (snd (net_call k (N, hs)))).
Proof.
  intros F E L. destruct k; try discriminate; cbn [first_uri] in F; injection F as <-; cbn [net_call].
  - unfold on_net. cbn [fst]. pose proof (marks_ask fuel o N E L) as H. now destruct (net_ask fuel o N).
  - cbn [fst]. pose proof (marks_enter u0 N E L) as H. destruct (enter u0 N) as [[d|e] N1]; [|exact H]. cbn [snd] in H. pose proof (at_next d (u_open u0 options) N1) as G.
    destruct (at_conn d (u_open u0 options) N1) as [[h|e] N2]; cbn [fst snd] in *; destruct H as [H1 H2]; split; rewrite G; assumption.
Qed.
End Used.

Lemma quiet_call k N hs r N' hs' : first_uri k = None -> net_call k (N, hs) = (r, (N', hs')) ->
  r_conns (n_reg N') = r_conns (n_reg N) /\ r_used (n_reg N') = r_used (n_reg N).
Proof.
  intros F E. assert (X : forall j f, on_nhandle j f (N, hs) = (r, (N', hs')) -> n_reg N' = n_reg N).
  { intros j f. unfold on_nhandle. cbn [fst snd]. destruct (nth_error hs j) as [[c h]|]; [|intros E1; now injection E1 as <- <- <-].
    unfold on_net. cbn [fst snd]. pose proof (at_next c (f h) N) as G. destruct (at_conn c (f h) N). intros E1. now injection E1 as <- <- <-. }
  destruct k; try discriminate; cbn [net_call] in E; try (rewrite (X _ _ E); now split). unfold on_net, net_clock in E. cbn in E. injection E as <- <- <-. now split.
Qed.

(** The connection, if it is there, was used at [t] at the earliest. *)
Definition since_use (a : str) (t : option Z) (N : net) : Prop :=
  forall u c, ours a u -> kget (u_key u) (r_conns (n_reg N)) = Some c -> exists t0, t = Some t0 /\ (t0 <= r_used (n_reg N) c)%Z.
Definition absent (a : str) (N : net) : Prop := forall u, ours a u -> kget (u_key u) (r_conns (n_reg N)) = None.

Lemma timely_live a X t (p : prog X) N hs ho x : authority a -> timely a t p N hs ho x -> forall σ, prog_in a p -> calm a N ho -> live a N hs σ -> since_use a t N ->
  woven a p N hs ho x.
Proof.
  intros A W. induction W as [t x N hs ho|t k f N hs ho r N' hs' x E W IH|t k p N hs ho r N' ho' x C E W IH|t p N hs ho r N' x D E W IH]; intros σ P Ca L Su.
  - constructor.
  - inversion P as [|? ? I Pf]; subst. destruct (calm_mine a N hs ho k r N' hs' σ A Ca L I E) as (Ca' & L' & _ & Ai).
    apply (wv_mine a k f N hs ho r N' hs' x E). apply (IH _ (Pf r Ai) Ca' L').
    destruct (first_uri k) as [u|] eqn:Fu.
    + pose proof (call_first a k u I Fu) as Ou. destruct L as (c & hs0 & Sv & -> & Sr & _).
      assert (NT : forall z, k <> CTick z) by (intros z ->; discriminate Fu).
      destruct (call_served a c k N hs0 A Sv (ca_tidy _ _ _ Ca c) I NT) as (N1 & E1 & [F1 F2 F3 F4]). rewrite E1 in E. injection E as <- <- <-.
      assert (Lt : c < r_next (n_reg N)) by exact (key_lt N (ca_ok _ _ _ Ca) u c (proj2 Sv u Ou)).
      pose proof (marks_call c k u (map (pair c) hs0) N Fu (connect_served a u c N A Ou Sv) Lt) as M. rewrite E1 in M. cbn [fst snd] in M.
      intros v d Ov Kd. exists (r_now (n_reg N)). split; [reflexivity|]. rewrite (proj2 (served_framed a c c N N1 F1 Sv) v Ov) in Kd. injection Kd as <-.
      rewrite (cu_now _ _ M), (fr_now _ _ _ F1). apply Z.le_refl.
    + destruct (quiet_call k N hs r N' hs' Fu E) as [Q1 Q2]. intros v d Ov Kd. rewrite Q1 in Kd. rewrite Q2. now apply (Su v d).
  - destruct (calm_other a N hs ho k r N' ho' σ Ca C E) as (Ca' & L' & O). apply (wv_other a k p N hs ho r N' ho' x C E). apply (IH σ P Ca' (L' L)).
    intros v d Ov Kd. rewrite (off_key _ _ _ O v Ov) in Kd. rewrite (off_used _ _ _ O v d Ov Kd). now apply (Su v d).
  - assert (D' : forall u c, ours a u -> open_as (n_reg N) (u_key u) c -> ~ due false (n_reg N) c).
    { intros u c Ou Oc [X0|X0]; [discriminate|]. apply open_kget in Oc; [|exact (ok_reg _ _ (ca_ok _ _ _ Ca))]. destruct (Su u c Ou Oc) as (t0 & -> & Le).
      specialize (D t0 eq_refl). unfold stale in X0. lia. }
    destruct (calm_clean a N hs ho false r N' σ Ca D' E) as (Ca' & L' & Ek & En). apply (wv_clean a false p N hs ho r N' x D' E). apply (IH σ P Ca' (L' L)).
    intros v d Ov Kd. rewrite (Ek v Ov) in Kd. destruct (Su v d Ov Kd) as (t0 & Et & Le). exists t0. split; [exact Et|].
    unfold net_cleanup in E. rewrite (cleanup_is false (fun _ => false) (n_reg N) (ri_uniq _ (ok_reg _ _ (ca_ok _ _ _ Ca)))) in E. injection E as <- <-. exact Le.
Qed.
Theorem timely_new a X t k (f : res answer -> prog X) N ho x u : authority a -> timely a t (Call k f) N [] ho x -> prog_in a (Call k f) -> calm a N ho ->
  first_uri k = Some u -> hostless (u_key u) -> (forall i, ~ open_as (n_reg N) (u_key u) i) -> x = fst (run (Call k f) (init_mem (r_now (n_reg N)) 0, [])).
Proof.
  intros A W. remember (Call k f) as p eqn:Ep. remember [] as hs eqn:Eh.
  induction W as [t x N hs ho|t k' f' N hs ho r N' hs' x E W _|t k' p N hs ho r N' ho' x C E W IH|t p N hs ho r N' x D E W IH]; intros P Ca Fu Ho Nn.
  - discriminate.
  - injection Ep as -> ->. subst hs. inversion P as [|? ? I Pf]; subst. pose proof (call_first a k u I Fu) as Ou. pose proof Ca as [K Td F Lt].
    pose proof (starts_call k u [] N Fu) as Sc. pose proof (connect_lawful 0 u) as Lw. rewrite lawful_iff in Lw. specialize (Lw N K).
    pose proof (connect_lt 0 u) as Cl.
    destruct (connect_ours a 0 u N A K Ou) as [c H|H1 H2|c N1 H1 H2 H3 H4 H5]; [destruct (Nn c H)|contradiction|]. cbn [snd] in Lw.
    rewrite (Sc (connect_served a u c N1 A Ou H3)) in E.
    assert (Ca1 : calm a N1 ho).
    { constructor; auto.
      - intros i. destruct (Nat.eq_dec i c) as [->|Hi]; [rewrite H5; intros j; cbn; now intros|]. unfold tidyq, fs_of. cbn. rewrite (op_fs _ _ _ _ H2 i Hi). exact (Td i).
      - apply Forall_forall. intros y Hy v Ov. rewrite (proj2 H3 v Ov). intros X0. injection X0 as X0. rewrite Forall_forall in Lt. specialize (Lt y Hy). cbn in Lt. rewrite <- X0, (op_new _ _ _ _ H2) in Lt. lia.
      - eapply Forall_impl; [|exact Lt]. intros y Hy. cbn in *. rewrite (op_next _ _ _ _ H2), (op_new _ _ _ _ H2). lia. }
    assert (L1 : live a N1 [] (init_mem (r_now (n_reg N)) 0, [])).
    { exists c, []. split; [exact H3|]. split; [reflexivity|]. split; [|now exists u]. split; [constructor|]. cbn [fst snd both combine map]. constructor.
      - apply reachable_wf. exact (ok_fs _ _ Lw c).
      - apply reachable_wf, reachable_init.
      - rewrite H5. cbn. unfold same_tree. now intros.
      - now rewrite H5.
      - intros q. now rewrite H5.
      - intros w [].
      - intros w w' []. }
    rewrite Fu in W. rewrite <- (op_now _ _ _ _ H2) in W.
    assert (W1 : timely a (Some (r_now (n_reg N1))) (Call k f) N1 [] ho x) by (apply (tm_mine a _ k f N1 [] ho r N' hs' x E); rewrite Fu; exact W).
    apply (woven_live a X (Call k f) N1 [] ho x _ A); auto. apply (timely_live a X _ (Call k f) N1 [] ho x A W1 _ P Ca1 L1).
    intros v d Ov Kd. exists (r_now (n_reg N1)). split; [reflexivity|]. rewrite (proj2 H3 v Ov) in Kd. injection Kd as <-. rewrite H4, (op_now _ _ _ _ H2). apply Z.le_refl.
  - subst p. inversion P as [|? ? I Pf]; subst. pose proof (call_first a k u I Fu) as Ou.
    destruct (calm_other a N [] ho k' r N' ho' (init_mem 0 0, []) Ca C E) as (Ca' & _ & O). rewrite <- (off_now _ _ _ O). apply IH; auto.
    apply (proj2 (open_none _ _ (ok_reg _ _ (ca_ok _ _ _ Ca')))). rewrite (off_key _ _ _ O u Ou). apply (proj1 (open_none _ _ (ok_reg _ _ (ca_ok _ _ _ Ca)))). exact Nn.
  - subst p. inversion P as [|? ? I Pf]; subst. pose proof (call_first a k u I Fu) as Ou.
    assert (D' : forall v c, ours a v -> open_as (n_reg N) (u_key v) c -> ~ due false (n_reg N) c) by (intros v c Ov Oc; rewrite (ours_key a A v u Ov Ou) in Oc; destruct (Nn c Oc)).
    destruct (calm_clean a N [] ho false r N' (init_mem 0 0, []) Ca D' E) as (Ca' & _ & Ek & En). rewrite <- En. apply IH; auto.
    apply (proj2 (open_none _ _ (ok_reg _ _ (ca_ok _ _ _ Ca')))). rewrite (Ek u Ou). apply (proj1 (open_none _ _ (ok_reg _ _ (ca_ok _ _ _ Ca)))). exact Nn.
Qed.
