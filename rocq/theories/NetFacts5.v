(** Calls: on the connection of their URIs when it is there, and on a new one when it is not. *)
From Coq Require Import Lia.
From Verif Require Import Str Exc Utf8 UriParse BaseUri StrFacts Mem MemOps Generic Fnmatch UriOps Prog Registry SpecReg RegFacts RegFacts2
  MemFacts9 GenFacts9 GenFacts10 Resp Net Pair SpecNet NetFacts NetFacts2 NetFacts3 NetFacts4.

(** *** Looking for the connection *)
Lemma open_kget g k c : rinv g -> open_as g k c <-> kget k (r_conns g) = Some c.
Proof. intros K. split; [intros H; apply in_kget; [apply (ri_uniq _ K)|exact H]|apply kget_in]. Qed.
Lemma open_none g k : rinv g -> (forall i, ~ open_as g k i) <-> kget k (r_conns g) = None.
Proof.
  intros K. split.
  - intros H. destruct (kget k (r_conns g)) as [c|] eqn:E; [|reflexivity]. exfalso. apply (H c). now apply open_kget.
  - intros E i H. apply open_kget in H; [congruence|exact K].
Qed.
Lemma factory_hostless k : mem_factory k = None <-> hostless k.
Proof. unfold mem_factory, hostless. destruct (k_host k) as [[|x l]|]; split; auto; intros H; [discriminate|]. now destruct H. Qed.
Lemma served_open a n N u c : authority a -> net_ok n N -> ours a u -> open_as (n_reg N) (u_key u) c -> served a c N.
Proof.
  intros A K O H. split; [eexists; apply (ok_mem _ _ K)|]. intros v Ov. rewrite (ours_key a A v u Ov O). now apply open_kget; [apply (ok_reg _ _ K)|].
Qed.
Inductive connect_spec (a : str) (u : uri) (N : net) : res nat * net -> Prop :=
| cs_there c : open_as (n_reg N) (u_key u) c -> connect_spec a u N (Ok c, N)
| cs_host : (forall i, ~ open_as (n_reg N) (u_key u) i) -> ~ hostless (u_key u) -> connect_spec a u N (Raise AssertionError, N)
| cs_new c N' : hostless (u_key u) -> opened (u_key u) c N N' -> served a c N' -> r_used (n_reg N') c = r_now (n_reg N) ->
    fs_of N' c = mkM (fun _ => NDir [] (r_now (n_reg N)) 0) 1 (r_now (n_reg N)) (S (n_epoch N)) (n_held N) [] -> connect_spec a u N (Ok c, N').
Lemma connect_ours a n u N : authority a -> net_ok n N -> ours a u -> connect_spec a u N (connect u N).
Proof.
  intros A K O. destruct (key_plain a A u O) as (K1 & _ & K3). pose proof (ok_reg _ _ K) as G.
  destruct (kget (u_key u) (r_conns (n_reg N))) as [c|] eqn:Ek.
  { assert (H : open_as (n_reg N) (u_key u) c) by now apply open_kget.
    rewrite (connect_served a u c N A O (served_open a n N u c A K O H)). now constructor. }
  assert (Hn : forall i, ~ open_as (n_reg N) (u_key u) i) by now apply open_none.
  pose proof (connect_lawful n u) as L. rewrite lawful_iff in L. specialize (L N K).
  revert L. unfold connect, uri_connection. rewrite K3. cbn [existsb].
  destruct (lookup_cases (u_key u) (n_reg N)) as [H|g d H1 H2|g e H1 H2 H3|g H1 H2 H3].
  - rewrite K1, (ok_mem _ _ K) in H. discriminate.
  - congruence.
  - rewrite Nat.eqb_refl. intros _. rewrite K1, (ok_mem _ _ K) in H1. injection H1 as <-. assert (e = AssertionError) as -> by (unfold mem_factory in H3; destruct (k_host (u_key u)) as [[|]|]; congruence).
    destruct N. apply cs_host; [exact Hn|]. intros X. apply factory_hostless in X. congruence.
  - cbn [r_next r_conns r_schemes r_used r_closed r_timeout r_now]. destruct (Nat.eqb_spec (S (r_next (n_reg N))) (r_next (n_reg N))) as [E|_]; [lia|]. cbn [snd]. intros L.
    rewrite K1, (ok_mem _ _ K) in H1. injection H1 as <-. apply cs_new.
    + now apply factory_hostless.
    + constructor; cbn; auto; intros i Hi; apply Nat.eqb_neq in Hi; now rewrite Hi.
    + apply (served_open a n _ u _ A L O). exists (u_key u). split; [now split|]. cbn. apply in_or_app. right. now left.
    + cbn. now rewrite Nat.eqb_refl.
    + unfold fs_of. cbn. now rewrite Nat.eqb_refl.
Qed.

(** *** A computation that looks for the connection of [u] first *)
Definition starts {B} (u : uri) (m : M net B) : Prop :=
  forall N, match connect u N with (Raise e, N') => m N = (Raise e, N') | (Ok c, N') => connect u N' = (Ok c, N') -> m N = m N' end.
Lemma starts_enter u : starts u (enter u).
Proof. intros N. unfold enter, bind. destruct (connect u N) as [[c|e] N'] eqn:E; [|reflexivity]. intros E'. now rewrite E'. Qed.
Lemma starts_bind {B C} u (m : M net B) (k : B -> M net C) : starts u m -> starts u (bind m k).
Proof. intros H N. specialize (H N). unfold bind. destruct (connect u N) as [[c|e] N']; [intros E; now rewrite (H E)|now rewrite H]. Qed.
Lemma starts_hook {B} n u (m : M net B) : starts u (hooked net_backend n u m).
Proof. apply starts_bind. cbn [b_hook net_backend]. unfold method. apply starts_bind, starts_enter. Qed.
Lemma starts_ask fuel o : starts (uop_uri o) (net_ask fuel o).
Proof.
  destruct o; cbn [net_ask uop_uri]; unfold nanswered, method; apply starts_bind; first [apply starts_enter|apply starts_hook].
Qed.
Lemma call_first a k u : call_in a k -> first_uri k = Some u -> ours a u.
Proof.
  destruct k; cbn [call_in first_uri]; intros H E; try discriminate; injection E as <-; [|exact H].
  destruct o; cbn [uris_of uop_uri] in *; now inversion H.
Qed.
Lemma starts_call k u hs N : first_uri k = Some u ->
  match connect u N with (Raise e, N') => net_call k (N, hs) = (Raise e, (N', hs)) | (Ok c, N') => connect u N' = (Ok c, N') -> net_call k (N, hs) = net_call k (N', hs) end.
Proof.
  destruct k; cbn [first_uri]; intros E; try discriminate; injection E as <-; cbn [net_call]; unfold on_net; cbn [fst snd].
  - pose proof (starts_ask fuel o N) as H. destruct (connect (uop_uri o) N) as [[c|e] N']; [intros E; now rewrite (H E)|now rewrite H].
  - match goal with |- context [enter ?w] => rename w into v end. pose proof (starts_enter v N) as H. destruct (connect v N) as [[c|e] N']; [intros E; now rewrite (H E)|now rewrite H].
Qed.

(** *** The connection is there *)
Record served_call (a : str) (c : nat) (N N' : net) (s' : mst) (r : res answer) : Prop := {
  sc_framed : framed c N N'; sc_fs : fs_of N' c = s'; sc_tidy : tidyq noq s'; sc_answer : forall x, r = Ok x -> answer_in a x }.
Lemma neat_answered {B} a (f : B -> answer) (m : M mst B) : neat noq any m -> (forall x, answer_in a (f x)) -> neat noq (answer_in a) (answered f m).
Proof. intros H W. apply (neat_bind noq any); [exact H|]. intros x _. now apply neat_ret. Qed.
Lemma handle_both a c k (f : handle -> M mst answer) N hs : (forall h, neat noq (answer_in a) (f h)) -> tidyq noq (fs_of N c) ->
  exists N', on_nhandle k f (N, map (pair c) hs) = (fst (on_handle k f (fs_of N c, hs)), (N', map (pair c) hs)) /\ snd (snd (on_handle k f (fs_of N c, hs))) = hs
    /\ served_call a c N N' (fst (snd (on_handle k f (fs_of N c, hs)))) (fst (on_handle k f (fs_of N c, hs))).
Proof.
  intros H Td. unfold on_nhandle, on_handle. cbn [fst snd]. rewrite nth_error_map. destruct (nth_error hs k) as [h|]; cbn [option_map].
  - unfold on_net, on_state. cbn [fst snd]. destruct (at_both c N _ (f h) (H h) (fs_of N c) N (conj eq_refl (conj (framed_refl c N) Td))) as (E1 & (E2 & E3 & E4) & E5).
    destruct (f h (fs_of N c)) as [r s'], (at_conn c (f h) N) as [r' N']. cbn [fst snd] in *. subst r'. exists N'. split; [reflexivity|]. first [split; [reflexivity|]|idtac]. now constructor.
  - exists N. split; [reflexivity|]. split; [reflexivity|]. constructor; auto using framed_refl. discriminate.
Qed.
Lemma call_served a c k N hs : authority a -> served a c N -> tidyq noq (fs_of N c) -> call_in a k -> (forall t, k <> CTick t) ->
  exists N', net_call k (N, map (pair c) hs) = (fst (do_call k (fs_of N c, hs)), (N', map (pair c) (snd (snd (do_call k (fs_of N c, hs))))))
    /\ served_call a c N N' (fst (snd (do_call k (fs_of N c, hs)))) (fst (do_call k (fs_of N c, hs))).
Proof.
  intros A S Td I NT. assert (HR : R c N (fs_of N c) N) by (split; [reflexivity|split; [apply framed_refl|exact Td]]).
  destruct k; cbn [net_call do_call call_in] in *;
    try (match goal with |- exists N', on_nhandle ?k ?f _ = _ /\ _ => destruct (handle_both a c k f N hs) as (N' & E1 & E2 & E3);
           [intros h; apply neat_answered; [|now intros]|exact Td|exists N'; rewrite E2; now split] end).
  - destruct (ask_both a c N A S fuel o I (fs_of N c) N HR) as (E1 & (E2 & E3 & E4) & E5). unfold on_net, on_state. cbn [fst snd].
    destruct (ask fuel o (fs_of N c)) as [r s'], (net_ask fuel o N) as [r' N']. cbn [fst snd] in *. subst r'. exists N'. split; [reflexivity|]. first [split; [reflexivity|]|idtac]. now constructor.
  - cbn [fst snd]. rewrite (enter_is a c N A S u (fs_of N c) N I HR). pose proof (enter_R c N (fs_of N c) N HR) as HR'.
    destruct (at_both c N any (u_open u options) (neat_open noq noq_incl u options (path_noq a A u I)) _ _ HR') as (E1 & (E2 & E3 & E4) & _).
    cbn [fst snd]. destruct (u_open u options (fs_of N c)) as [r s'], (at_conn c _ _) as [r' N']. cbn [fst snd] in *. subst r'.
    destruct r as [h|e]; exists N'; cbn [fst snd]; rewrite ?map_app; cbn [map]; (split; [reflexivity|]); constructor; auto; [intros x E; injection E as <-; exact Logic.I|discriminate].
  - apply neat_h_read.
  - apply neat_h_write.
  - apply neat_file_seek.
  - apply neat_h_tell.
  - apply neat_h_truncate.
  - apply neat_h_readline.
  - apply neat_h_next.
  - apply neat_h_close.
  - now destruct (NT now).
Qed.

(** *** Every state of a process *)
Definition sess_ok (σ : nsession) : Prop := net_ok 0 (fst σ) /\ Forall (fun x => fst x < r_next (n_reg (fst σ))) (snd σ).
Lemma ok_at n N : net_ok 0 N -> n <= r_next (n_reg N) -> net_ok n N.
Proof. intros [K1 K2 Kh K3 _] H. now constructor. Qed.
Lemma ok_zero n N : net_ok n N -> net_ok 0 N.
Proof. intros [K1 K2 Kh K3 _]. constructor; auto. lia. Qed.
Lemma on_net_ok m σ : (forall n, lawful n m) -> sess_ok σ -> sess_ok (snd (on_net m σ)).
Proof.
  intros H [K F]. pose proof (H (r_next (n_reg (fst σ)))) as L. rewrite lawful_iff in L. specialize (L (fst σ) (ok_at _ _ K (le_n _))).
  unfold on_net. destruct (m (fst σ)) as [r N]. cbn [fst snd] in *. split; [exact (ok_zero _ _ L)|]. pose proof (ok_next _ _ L) as Le.
  eapply Forall_impl; [|exact F]. cbn. intros x Hx. lia.
Qed.
Lemma on_nhandle_ok k f σ : (forall h, seqs (f h)) -> sess_ok σ -> sess_ok (snd (on_nhandle k f σ)).
Proof.
  intros H K. unfold on_nhandle. destruct (nth_error (snd σ) k) as [[c h]|]; [|exact K]. apply on_net_ok; [|exact K]. intros n. apply at_lawful, H.
Qed.
Lemma seqs_answered {B} (f : B -> answer) (m : M mst B) : seqs m -> seqs (answered f m).
Proof. intros H. apply seqs_bind; [exact H|]. intros x. apply seqs_pure, pure_ret. Qed.
Lemma enter_reg u N : fst (enter u N) = fst (connect u N) /\ r_next (n_reg (snd (enter u N))) = r_next (n_reg (snd (connect u N))).
Proof. unfold enter, bind. now destruct (connect u N) as [[c|e] N']. Qed.
Lemma at_next {B} c (m : M mst B) N : n_reg (snd (at_conn c m N)) = n_reg N.
Proof. unfold at_conn. now destruct (m (fs_of N c)). Qed.
Lemma call_ok k σ : sess_ok σ -> sess_ok (snd (net_call k σ)).
Proof.
  intros K. destruct k; cbn [net_call]; try (apply on_nhandle_ok; [intros h; apply seqs_answered|exact K]).
  - apply on_net_ok; [|exact K]. intros n. apply ask_lawful.
  - destruct K as [K F]. pose proof (enter_lawful (r_next (n_reg (fst σ))) u) as L. rewrite lawful_iff in L. specialize (L (fst σ) (ok_at _ _ K (le_n _))).
    destruct (enter_reg u (fst σ)) as [E1 E2]. pose proof (connect_lt 0 u) as Lt.
    destruct (enter u (fst σ)) as [[c|e] N]; cbn [fst snd] in *.
    + specialize (Lt c (fst σ) K (eq_sym E1)). rewrite <- E2 in Lt. pose proof (at_lawful (r_next (n_reg (fst σ))) c (u_open u options) (seqs_open u options)) as L'. rewrite lawful_iff in L'. specialize (L' N L).
      pose proof (at_next c (u_open u options) N) as G.
      destruct (at_conn c (u_open u options) N) as [[h|e] N']; cbn [fst snd] in *; (split; [exact (ok_zero _ _ L')|]); cbn [fst snd]; pose proof (ok_next _ _ L') as Le;
        [apply Forall_app; split; [|constructor; [|constructor]; cbn [fst]; rewrite G; exact Lt]|]; (eapply Forall_impl; [|exact F]); cbn; intros x Hx; lia.
    + split; [exact (ok_zero _ _ L)|]. cbn [fst snd]. pose proof (ok_next _ _ L) as Le. eapply Forall_impl; [|exact F]. cbn. intros x Hx. lia.
  - apply seqs_h_read.
  - apply seqs_h_write.
  - exact (seqs_op (OpSeek h to whence) Logic.I).
  - now apply (seqs_drop _ (OpTell h)).
  - now apply (seqs_drop _ (OpTruncate h pos)).
  - now apply (seqs_drop _ (OpReadline h)).
  - now apply (seqs_drop _ (OpNext h)).
  - exact (seqs_op (OpClose h) Logic.I).
  - apply on_net_ok; [|exact K]. intros n. apply clock_lawful.
Qed.
Lemma clean_ok force N hs : sess_ok (N, hs) -> sess_ok (snd (net_cleanup force N), hs).
Proof.
  intros [K F]. pose proof (cleanup_lawful (r_next (n_reg N)) force) as L. rewrite lawful_iff in L. specialize (L N (ok_at _ _ K (le_n _))).
  split; [exact (ok_zero _ _ L)|]. cbn [fst snd] in *. pose proof (ok_next _ _ L) as Le. eapply Forall_impl; [|exact F]. cbn. intros x Hx. lia.
Qed.
Lemma init_ok timeout now : net_ok 0 (init_net timeout now).
Proof.
  constructor; [apply rinv_register, rinv_init|reflexivity|intros k c []| |cbn; lia]. intros i. exact (reachable_init now 0).
Qed.
Lemma net_reach_ok σ : net_reach σ -> sess_ok σ.
Proof.
  intros (t & now & l & ->). assert (G : forall l σ, sess_ok σ -> sess_ok (fold_left (fun σ e => net_event e σ) l σ)).
  { clear. induction l as [|e l IH]; intros σ K; [exact K|]. cbn [fold_left]. apply IH. destruct e; cbn [net_event]; [now apply call_ok|]. destruct σ. now apply clean_ok. }
  apply G. split; [apply init_ok|constructor].
Qed.
