(** Every connection of a process has a reachable file system; the first use of a connection. *)
From Coq Require Import Lia.
From Verif Require Import Str Exc Utf8 UriParse BaseUri StrFacts Mem MemOps Generic Fnmatch UriOps Prog Registry SpecReg RegFacts RegFacts2
  MemFacts9 GenFacts9 GenFacts10 Resp Net Pair SpecNet NetFacts NetFacts2 NetFacts3.

(** *** What leaves the clock and the generation of locks alone *)
Definition steady {A} (m : M mst A) : Prop := forall s, (reachable s -> reachable (snd (m s))) /\ m_now (snd (m s)) = m_now s /\ m_epoch (snd (m s)) = m_epoch s.
Definition T (_ : str) : Prop := True.
Lemma T_sub s t : T t -> (forall c, In c s -> In c t) -> T s. Proof. now intros. Qed.
Lemma T_tidy s : tidyq T s. Proof. intros i. unfold tidy_node. destruct (m_heap s i); auto. intros. exact Logic.I. Qed.
Lemma neat_clock {A} (m : M mst A) s : neat T any m -> m_now (snd (m s)) = m_now s /\ m_epoch (snd (m s)) = m_epoch s.
Proof. intros H. destruct (H s (T_tidy s)) as (_ & H2 & H3 & _). now split. Qed.
Lemma T_path u : clear_path T u. Proof. exact Logic.I. Qed.
Lemma neat_drop {A} (m : M mst A) : neat T any m -> neat T any (MemOps.drop m).
Proof. intros H. apply (neat_bind T any); [exact H|]. intros x _. now apply neat_ret. Qed.
Lemma plain_neat o : plain o -> neat T any (run_op o).
Proof.
  pose proof T_path as TP.
  destruct o; cbn [plain]; intros P; try contradiction; cbn [run_op];
    try match goal with |- neat _ _ (MemOps.drop _) => apply neat_drop end;
    first [apply neat_exists|apply neat_isfile|apply neat_islink|apply neat_removefile|apply neat_removedir|apply neat_readlink|apply neat_info|apply neat_set_info|apply neat_mtime
          |apply neat_copystat|apply neat_isexec|apply neat_set_exec|apply neat_manip_mtime|apply neat_manip_callback|apply neat_h_read|apply neat_h_write|apply neat_h_tell|apply neat_h_truncate
          |apply neat_h_close|apply neat_h_readline|apply neat_h_next|apply (neat_mkdir T T_sub), TP|apply (neat_symlink T T_sub), TP|apply (neat_mem_open T T_sub), TP
          |eapply neat_any; apply neat_isdir|eapply neat_any; apply neat_listdir|apply neat_file_seek].
Qed.
Lemma plain_clock l s : Forall plain l -> m_now (run_ops l s) = m_now s /\ m_epoch (run_ops l s) = m_epoch s.
Proof.
  intros F. revert s. induction F as [|o l P F IH]; intros s; [now split|]. unfold run_ops in *. cbn [fold_left].
  destruct (IH (snd (run_op o s))) as [-> ->]. apply neat_clock, plain_neat, P.
Qed.
Lemma seqs_steady {A} (m : M mst A) : seqs m -> steady m.
Proof.
  intros H s. destruct (H s) as (l & F & ->). split; [apply reachable_ops|now apply plain_clock].
Qed.
Lemma seqs_ask fuel o : seqs (ask fuel o).
Proof.
  intros s. destruct (uop_ops fuel o s) as (l & F & E). exists l. split; [exact F|]. rewrite <- E. clear.
  destruct o; cbn [ask run_uop]; unfold answered, MemOps.drop, bind; match goal with |- snd (match ?m s with _ => _ end) = _ => destruct (m s) as [[x|e] s']; reflexivity end.
Qed.

(** *** The registry and the file systems of a process *)
Section Ok.
Variable n0 : nat.
Record net_ok (N : net) : Prop := {
  ok_reg : rinv (n_reg N);
  ok_sch : r_schemes (n_reg N) = [(Some (lit "memory"), mem_factory)];
  ok_host : forall k c, In (k, c) (r_conns (n_reg N)) -> mem_factory k = None;
  ok_fs : forall i, reachable (fs_of N i);
  ok_next : n0 <= r_next (n_reg N) }.
Definition lawful {A} (m : M net A) : Prop := resp (fun N1 N2 => N1 = N2 /\ net_ok N1) m.
Lemma lawful_iff {A} (m : M net A) : lawful m <-> forall N, net_ok N -> net_ok (snd (m N)).
Proof.
  split.
  - intros H N K. now destruct (H N N (conj eq_refl K)) as [_ [_ H2]].
  - intros H N1 N2 [-> K]. split; [reflexivity|]. split; [reflexivity|]. now apply H.
Qed.
Lemma ok_mem N : net_ok N -> sget (Some (lit "memory")) (r_schemes (n_reg N)) = Some mem_factory.
Proof. intros K. now rewrite (ok_sch N K). Qed.
Lemma held_reachable s l : reachable s -> reachable (mkM (m_heap s) (m_next s) (m_now s) (m_epoch s) l (m_cbs s)).
Proof. intros H. exact (reachable_step s (OpHeld l) H). Qed.
Lemma epoch_reachable s : reachable s -> reachable (mkM (m_heap s) (m_next s) (m_now s) (S (m_epoch s)) (m_held s) (m_cbs s)).
Proof. intros H. exact (reachable_step s OpEpoch H). Qed.
Lemma tick_reachable s t : reachable s -> reachable (mkM (m_heap s) (m_next s) t (m_epoch s) (m_held s) (m_cbs s)).
Proof. intros H. exact (reachable_step s (OpTick t) H). Qed.
Lemma at_fs {A} c (m : M mst A) N : steady m -> fs_of (snd (at_conn c m N)) c = snd (m (fs_of N c)).
Proof.
  intros H. destruct (H (fs_of N c)) as (_ & H2 & H3). unfold at_conn. destruct (m (fs_of N c)) as [r s']. cbn in *. unfold fs_of. cbn. rewrite Nat.eqb_refl.
  rewrite <- H2, <- H3. now destruct s'.
Qed.
Lemma at_other {A} c i (m : M mst A) N : i <> c -> exists l, fs_of (snd (at_conn c m N)) i = mkM (m_heap (n_fs N i)) (m_next (n_fs N i)) (r_now (n_reg N)) (n_epoch N) l (m_cbs (n_fs N i)).
Proof.
  intros Hi. apply Nat.eqb_neq in Hi. unfold at_conn. destruct (m (fs_of N c)) as [r s']. exists (m_held s'). unfold fs_of. cbn. now rewrite Hi.
Qed.
Lemma at_lawful {A} c (m : M mst A) : seqs m -> lawful (at_conn c m).
Proof.
  intros H. apply lawful_iff. intros N [K1 K2 Kh K3 K4]. apply seqs_steady in H. constructor; try (unfold at_conn; now destruct (m (fs_of N c))).
  - intros i. destruct (Nat.eq_dec i c) as [->|Hi].
    + rewrite (at_fs c m N H). apply (H (fs_of N c)), K3.
    + destruct (at_other c i m N Hi) as [l ->]. exact (held_reachable (fs_of N i) l (K3 i)).
Qed.
Lemma connect_next u N : r_next (snd (uri_connection u (n_reg N))) = r_next (n_reg N) \/ r_next (snd (uri_connection u (n_reg N))) = S (r_next (n_reg N)).
Proof.
  unfold uri_connection. destruct existsb; [now left|]. destruct (lookup_cases (u_key u) (n_reg N)); auto.
Qed.
Lemma connect_lawful u : lawful (connect u).
Proof.
  apply lawful_iff. intros N [K1 K2 Kh K3 K4]. pose proof (connect_next u N) as Nx.
  assert (Gh : forall k c, In (k, c) (r_conns (snd (uri_connection u (n_reg N)))) -> mem_factory k = None).
  { intros k c. unfold uri_connection. destruct existsb; [apply Kh|]. destruct (lookup_cases (u_key u) (n_reg N)) as [H|f d H1 H2|f e H1 H2 H3|f H1 H2 H3]; cbn [snd r_conns]; try apply Kh.
    intros I. apply in_app_or in I. destruct I as [I|[I|[]]]; [exact (Kh k c I)|]. injection I as <- <-. rewrite K2 in H1. cbn [sget] in H1. destruct (opt_str_eqb _ _); [|discriminate]. now injection H1 as <-. }
  assert (G : rinv (snd (uri_connection u (n_reg N))) /\ r_schemes (snd (uri_connection u (n_reg N))) = r_schemes (n_reg N) /\ r_now (snd (uri_connection u (n_reg N))) = r_now (n_reg N)).
  { unfold uri_connection. destruct existsb; [now cbn|]. split; [now apply rinv_lookup|]. split; [apply lookup_schemes|apply lookup_timeout]. }
  unfold connect. destruct (uri_connection u (n_reg N)) as [r g]. cbn [snd] in *. destruct G as (G1 & G2 & G3).
  destruct (Nat.eqb_spec (r_next g) (r_next (n_reg N))) as [E|E]; cbn [snd]; constructor; cbn [n_reg n_fs n_epoch n_held]; auto.
  - now rewrite G2.
  - intros i. unfold fs_of. cbn. rewrite G3. exact (K3 i).
  - now rewrite E.
  - now rewrite G2.
  - intros i. unfold fs_of. cbn. rewrite G3. destruct (Nat.eqb_spec i (r_next (n_reg N))) as [->|Hi].
    + exact (held_reachable _ (n_held N) (reachable_init (r_now (n_reg N)) (S (n_epoch N)))).
    + exact (epoch_reachable _ (K3 i)).
  - lia.
Qed.
Lemma enter_lawful u : lawful (enter u).
Proof.
  apply resp_bind; [apply connect_lawful|]. intros c. apply lawful_iff. intros N [K1 K2 Kh K3 K4]. cbn [snd]. constructor; cbn [n_reg]; auto.
  now apply rinv_used.
Qed.
Lemma current_lawful u : lawful (current u).
Proof. apply lawful_iff. intros N K. unfold current. now destruct (kget _ _). Qed.
Lemma within_lawful {A} u (m : M mst A) : seqs m -> lawful (within u m).
Proof. intros H. apply resp_bind; [apply current_lawful|]. intros c. now apply at_lawful. Qed.
Lemma method_lawful {A} u (m : M mst A) : seqs m -> lawful (method u m).
Proof. intros H. apply resp_bind; [apply enter_lawful|]. intros c. now apply at_lawful. Qed.
Lemma seqs_h_read h z : seqs (h_read h z). Proof. now apply (seqs_drop _ (OpRead h z)). Qed.
Lemma seqs_h_write h v : seqs (h_write h v). Proof. exact (seqs_op (OpWrite h v) Logic.I). Qed.
Lemma content_lawful u v : lawful (net_content u v).
Proof.
  unfold net_content. apply resp_if.
  - apply resp_bind; [apply enter_lawful|]. intros c. apply resp_bind; [apply enter_lawful|]. intros _. apply at_lawful, seqs_content.
  - apply resp_bind; [apply method_lawful|intros d; apply method_lawful].
    + apply seqs_bind; [apply seqs_open|]. intros h. apply seqs_bind; [apply seqs_h_read|]. intros [x|x]; apply seqs_pure; first [apply pure_ret|apply pure_raise].
    + apply seqs_bind; [apply seqs_open|]. intros h. destruct d; [apply seqs_pure, pure_ret|apply seqs_h_write].
Qed.
Lemma net_keeps : keeps (fun N1 N2 => N1 = N2 /\ net_ok N1) net_backend.
Proof.
  constructor; cbn [b_hook b_exists b_isfile b_isdir b_islink b_listdir b_removefile b_removedir b_mkdir b_symlink b_readlink b_copystat b_copy_content b_removefile_by b_symlink_by net_backend]; intros;
    try (match goal with |- resp _ (bind _ _) => apply resp_bind; [|intros ?; apply resp_ret] end);
    first [apply content_lawful|apply within_lawful|apply method_lawful];
    first [apply seqs_removefile|apply seqs_removedir|apply seqs_symlink|apply seqs_copystat|match goal with |- seqs (mem_mkdir ?u) => exact (seqs_op (OpMkdir u) Logic.I) end
          |apply seqs_pure; first [apply pure_hook|apply pure_isdir|apply pure_isfile|apply pure_exists|apply pure_islink|apply pure_listdir|apply pure_readlink]].
Qed.
Lemma nanswered_lawful {A} (f : A -> answer) m : lawful m -> lawful (nanswered f m).
Proof. intros H. apply resp_bind; [exact H|]. intros x. apply resp_ret. Qed.
Lemma ask_lawful fuel o : lawful (net_ask fuel o).
Proof.
  pose proof net_keeps as K. destruct o; cbn [net_ask]; try (apply method_lawful, seqs_ask); apply nanswered_lawful; unfold lawful.
  - now apply resp_copy.
  - now apply resp_move.
  - now apply resp_remove.
  - now apply resp_makedirs.
  - now apply resp_mkdir.
  - now apply resp_exists.
  - now apply resp_isfile.
  - now apply resp_isdir.
  - now apply resp_islink.
  - now apply resp_walk.
  - apply resp_hooked; [exact K|]. apply within_lawful, seqs_pure, pure_listdir.
  - apply resp_glob; [exact K|]. intros v. apply within_lawful, seqs_pure, pure_listdir.
Qed.
Lemma cleanup_lawful force : lawful (net_cleanup force).
Proof.
  apply lawful_iff. intros N [K1 K2 Kh K3 K4]. pose proof (rinv_cleanup force (fun _ => false) (n_reg N) K1) as G.
  pose proof (cleanup_is force (fun _ => false) (n_reg N) (ri_uniq _ K1)) as E. unfold net_cleanup. rewrite E in *. cbn [snd] in *. constructor; cbn [n_reg]; auto.
  intros k c I. cbn in I. apply filter_In in I. exact (Kh k c (proj1 I)).
Qed.
Lemma clock_lawful t : lawful (net_clock t).
Proof.
  apply lawful_iff. intros N [[J1 J2 J3 J4 J5 J6 J7] K2 Kh K3 K4]. constructor; cbn; auto; [now constructor|]. intros i. exact (tick_reachable _ t (K3 i)).
Qed.
Lemma handle_lawful c (f : handle -> M mst answer) : (forall h, seqs (f h)) -> forall h, lawful (at_conn c (f h)).
Proof. intros H h. apply at_lawful, H. Qed.
End Ok.

Lemma connect_lt n u c N : net_ok n N -> fst (connect u N) = Ok c -> c < r_next (n_reg (snd (connect u N))).
Proof.
  intros [K1 _ _ _ _] E. assert (G : fst (uri_connection u (n_reg N)) = Ok c /\ n_reg (snd (connect u N)) = snd (uri_connection u (n_reg N))).
  { unfold connect in *. destruct (uri_connection u (n_reg N)) as [r g]. destruct (Nat.eqb _ _); now split. }
  destruct G as [G ->]. unfold uri_connection in *. destruct existsb; [discriminate|].
  pose proof (rinv_lookup (u_key u) (n_reg N) K1) as K. apply (ri_lt _ K).
  destruct (lookup_found _ _ _ G) as [L _]. apply kget_in in L. destruct L as (k' & _ & L). now apply (in_map snd) in L.
Qed.
