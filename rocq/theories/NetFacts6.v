(** What is done with URIs of other connections leaves a connection alone; programs woven together. *)
From Coq Require Import Lia.
From Verif Require Import Str Exc Utf8 UriParse BaseUri StrFacts Mem MemOps Generic Fnmatch UriOps Prog Registry SpecReg RegFacts RegFacts2
  MemFacts9 GenFacts9 GenFacts10 Resp Net Pair SpecNet NetFacts NetFacts2 NetFacts3 NetFacts4 NetFacts5.

Section Off.
Variables (a : str) (N0 : net).
Hypothesis K0 : net_ok 0 N0.
(** The connection of [a], if it is there, is as it was. *)
Record off (N : net) : Prop := {
  off_ok : net_ok (r_next (n_reg N0)) N;
  off_tidy : forall i, tidyq noq (fs_of N i);
  off_now : r_now (n_reg N) = r_now (n_reg N0);
  off_key : forall u, ours a u -> kget (u_key u) (r_conns (n_reg N)) = kget (u_key u) (r_conns (n_reg N0));
  off_fs : forall u c, ours a u -> kget (u_key u) (r_conns (n_reg N0)) = Some c -> n_fs N c = n_fs N0 c;
  off_used : forall u c, ours a u -> kget (u_key u) (r_conns (n_reg N0)) = Some c -> r_used (n_reg N) c = r_used (n_reg N0) c }.
(** [d] is not the connection of [a]. *)
Definition far (d : nat) : Prop := forall u, ours a u -> kget (u_key u) (r_conns (n_reg N0)) <> Some d.
Definition offk {B} (Q : B -> Prop) (m : M net B) : Prop := forall N, off N -> off (snd (m N)) /\ forall x, fst (m N) = Ok x -> Q x.
Lemma offk_bind {B C} (Q : B -> Prop) (Q' : C -> Prop) m k : offk Q m -> (forall x, Q x -> offk Q' (k x)) -> offk Q' (bind m k).
Proof.
  intros H K N O. destruct (H N O) as [O' q]. unfold bind. destruct (m N) as [[x|e] N']; cbn [fst snd] in *; [apply K; auto|]. now split.
Qed.
Definition Re (N1 N2 : net) : Prop := N1 = N2 /\ off N1.
Lemma offk_both {B} (Q : B -> Prop) m : offk Q m -> both Re Q m m.
Proof. intros H N1 N2 [<- O]. destruct (H N1 O) as [O1 q]. split; [reflexivity|]. split; [now split|exact q]. Qed.
Lemma key_lt u c : kget (u_key u) (r_conns (n_reg N0)) = Some c -> c < r_next (n_reg N0).
Proof. intros H. apply kget_in in H. destruct H as (k & _ & H). apply (ri_lt _ (ok_reg _ _ K0)). now apply (in_map snd) in H. Qed.
Lemma other_id g k k' c d : rinv g -> ~ same_key k k' -> kget k (r_conns g) = Some c -> kget k' (r_conns g) = Some d -> c <> d.
Proof.
  intros G NS H H' ->. apply kget_in in H, H'. destruct H as (k1 & S1 & I1), H' as (k2 & S2 & I2).
  pose proof (pair_snd_unique (r_conns g) _ _ (ri_ids _ G) I1 I2 eq_refl) as E. injection E as ->. apply NS. clear - S1 S2.
  destruct S1 as (P1 & P2 & P3 & P4 & P5 & P6 & P7), S2 as (Q1 & Q2 & Q3 & Q4 & Q5 & Q6 & Q7). unfold same_key. rewrite P1, P2, P3, P4, P5, P6, Q1, Q2, Q3, Q4, Q5, Q6.
  repeat split; auto; intros H; [apply Q7, P7, H|apply P7, Q7, H].
Qed.
Lemma there_far v N d : elsewhere a v -> off N -> kget (u_key v) (r_conns (n_reg N)) = Some d -> far d.
Proof.
  intros (b & Ab & Aw & Ob) O Hd u Ou Hc. rewrite <- (off_key N O u Ou) in Hc. pose proof (other_id _ _ _ d d (ok_reg _ _ (off_ok N O)) (Aw u v Ou Ob) Hc Hd). congruence.
Qed.
Lemma offk_connect v : elsewhere a v -> offk far (connect v).
Proof.
  intros El N O. pose proof El as (b & Ab & Aw & Ob). pose proof (off_ok N O) as K. pose proof (ok_next _ _ K) as Le.
  pose proof (connect_lawful (r_next (n_reg N0)) v) as L. rewrite lawful_iff in L. specialize (L N K).
  destruct (connect_ours b _ v N Ab K Ob) as [d H|H1 H2|d N' H1 H2 H3 H4 H5]; cbn [fst snd] in *.
  - split; [exact O|]. intros x E. injection E as <-. apply (there_far v N d El O). apply open_kget in H; [exact H|apply (ok_reg _ _ K)].
  - split; [exact O|discriminate].
  - assert (F : far d). { intros u Ou Hc. apply key_lt in Hc. rewrite (op_new _ _ _ _ H2) in Hc. lia. }
    split; [|intros x E; now injection E as <-].
    constructor.
    + exact L.
    + intros i. destruct (Nat.eq_dec i d) as [->|Hi]; [rewrite H5; intros j; cbn; now intros|]. unfold tidyq, fs_of. cbn. rewrite (op_fs _ _ _ _ H2 i Hi). exact (off_tidy N O i).
    + rewrite (op_now _ _ _ _ H2). apply O.
    + intros u Ou. rewrite <- (off_key N O u Ou). pose proof (ok_reg _ _ L) as G'. pose proof (ok_reg _ _ K) as G.
      assert (X : forall c, open_as (n_reg N') (u_key u) c <-> open_as (n_reg N) (u_key u) c).
      { intros c. unfold open_as. rewrite (op_conns _ _ _ _ H2). split.
        - intros (k' & S & I). exists k'. split; [exact S|]. apply in_app_or in I. destruct I as [I|[I|[]]]; [exact I|]. injection I as <- <-. destruct (Aw u v Ou Ob S).
        - intros (k' & S & I). exists k'. split; [exact S|]. apply in_or_app. now left. }
      destruct (kget (u_key u) (r_conns (n_reg N))) as [c|] eqn:E.
      * apply open_kget; [exact G'|]. apply X. now apply open_kget.
      * apply open_none; [exact G'|]. intros i Hi. apply X in Hi. apply open_kget in Hi; [congruence|exact G].
    + intros u c Ou Hc. assert (c <> d) by (intros ->; exact (F u Ou Hc)). rewrite (op_fs _ _ _ _ H2 c) by auto. exact (off_fs N O u c Ou Hc).
    + intros u c Ou Hc. assert (c <> d) by (intros ->; exact (F u Ou Hc)). rewrite (op_used _ _ _ _ H2 c) by auto. exact (off_used N O u c Ou Hc).
Qed.
Lemma offk_enter v : elsewhere a v -> offk far (enter v).
Proof.
  intros El. apply (offk_bind far); [now apply offk_connect|]. intros d F N O. cbn [fst snd]. split; [|intros x E; now injection E as <-].
  destruct O as [[O1 O1b O1h O1c O1d] O2 O3 O4 O5 O6]. constructor; auto.
  - constructor; auto. now apply rinv_used.
  - intros u c Ou Hc. cbn. destruct (Nat.eqb_spec c d) as [->|_]; [destruct (F u Ou Hc)|exact (O6 u c Ou Hc)].
Qed.
Lemma offk_current v : elsewhere a v -> offk far (current v).
Proof.
  intros El N O. unfold current. destruct (kget (u_key v) (r_conns (n_reg N))) as [d|] eqn:E; cbn [fst snd]; (split; [exact O|]); [|discriminate].
  intros x Ex. injection Ex as <-. exact (there_far v N d El O E).
Qed.
Lemma offk_at {B} (Q : B -> Prop) d (m : M mst B) : far d -> seqs m -> neat noq Q m -> offk Q (at_conn d m).
Proof.
  intros F Sq Nt N O. pose proof (at_lawful (r_next (n_reg N0)) d m Sq) as L. rewrite lawful_iff in L. specialize (L N (off_ok N O)).
  destruct (Nt (fs_of N d) (off_tidy N O d)) as (T1 & T2 & T3 & T4). pose proof (at_next d m N) as G. unfold at_conn in *. destruct (m (fs_of N d)) as [r s']. cbn [fst snd] in *.
  split; [|exact T4]. destruct O as [O1 O2 O3 O4 O5 O6]. constructor; auto.
  - intros i. unfold tidyq, fs_of. cbn. destruct (Nat.eqb_spec i d) as [->|Hi]; [exact T1|exact (O2 i)].
  - intros u c Ou Hc. cbn. destruct (Nat.eqb_spec c d) as [->|_]; [destruct (F u Ou Hc)|exact (O5 u c Ou Hc)].
Qed.
Lemma offk_method {B} (Q : B -> Prop) v (m : M mst B) : elsewhere a v -> seqs m -> neat noq Q m -> offk Q (method v m).
Proof. intros El S H. apply (offk_bind far); [now apply offk_enter|]. intros d F. now apply offk_at. Qed.
Lemma offk_within {B} (Q : B -> Prop) v (m : M mst B) : elsewhere a v -> seqs m -> neat noq Q m -> offk Q (within v m).
Proof. intros El S H. apply (offk_bind far); [now apply offk_current|]. intros d F. now apply offk_at. Qed.
Lemma els_path u : elsewhere a u -> clear_path noq u.
Proof. intros (b & Ab & _ & Ob). exact (path_noq b Ab u Ob). Qed.
Lemma offk_content u v : elsewhere a u -> elsewhere a v -> offk any (net_content u v).
Proof.
  intros Eu Ev. unfold net_content. destruct (key_eqb _ _).
  - apply (offk_bind far); [now apply offk_enter|]. intros c F. apply (offk_bind far); [now apply offk_enter|]. intros _ _.
    apply offk_at; [exact F|apply seqs_content|apply (neat_content noq noq_incl); now apply els_path].
  - apply (offk_bind any); [apply offk_method; [exact Eu| |]|intros d _; apply offk_method; [exact Ev| |]].
    + apply seqs_bind; [apply seqs_open|]. intros h. apply seqs_bind; [apply seqs_h_read|]. intros [x|x]; apply seqs_pure; first [apply pure_ret|apply pure_raise].
    + apply (neat_bind noq any); [apply (neat_open noq noq_incl); now apply els_path|]. intros h _. apply (neat_bind noq any); [apply neat_h_read|]. intros [x|x] _; first [now apply neat_ret|apply neat_raise].
    + apply seqs_bind; [apply seqs_open|]. intros h. destruct d; [apply seqs_pure, pure_ret|apply seqs_h_write].
    + apply (neat_bind noq any); [apply (neat_open noq noq_incl); now apply els_path|]. intros h _. destruct d; [now apply neat_ret|apply neat_h_write].
Qed.
Lemma off_paired : paired Re net_backend net_backend (elsewhere a) noq any (fun u => u_path u <> []).
Proof.
  constructor; cbn [b_hook b_exists b_isfile b_isdir b_islink b_listdir b_removefile b_removedir b_mkdir b_readlink b_copystat b_copy_content b_removefile_by b_symlink_by net_backend]; intros; apply offk_both.
  - apply offk_method; [assumption|apply seqs_pure, pure_hook|apply neat_hook].
  - apply offk_within; [assumption|apply seqs_pure, pure_exists|apply neat_exists].
  - apply offk_within; [assumption|apply seqs_pure, pure_isfile|apply neat_isfile].
  - apply offk_within; [assumption|apply seqs_pure, pure_isdir|apply neat_isdir].
  - apply offk_within; [assumption|apply seqs_pure, pure_islink|apply neat_islink].
  - apply offk_within; [assumption|apply seqs_pure, pure_listdir|apply neat_listdir].
  - apply offk_within; [assumption|apply seqs_removefile|apply neat_removefile].
  - apply offk_within; [assumption|apply seqs_removedir|apply neat_removedir].
  - apply offk_within; [assumption|exact (seqs_op (OpMkdir u) Logic.I)|apply (neat_mkdir noq noq_incl); now apply els_path].
  - apply offk_within; [assumption|apply seqs_pure, pure_readlink|apply neat_readlink].
  - apply offk_within; [assumption|apply seqs_copystat|apply neat_copystat].
  - now apply offk_content.
  - apply offk_within; [assumption|apply seqs_removefile|apply neat_removefile].
  - apply offk_within; [assumption|apply seqs_symlink|apply (neat_symlink noq noq_incl); now apply els_path].
Qed.
Lemma both_off {B} (Q : B -> Prop) m : both Re Q m m -> offk Q m.
Proof. intros H N O. destruct (H N N (conj eq_refl O)) as (_ & [_ O'] & q). now split. Qed.
Lemma offk_answered {B} (f : B -> answer) m (Q : B -> Prop) : offk Q m -> offk any (nanswered f m).
Proof. intros H. apply (offk_bind Q); [exact H|]. intros x _ N O. now split. Qed.
Lemma els_div u n r : elsewhere a u -> noq n -> u_div u n = Ok r -> elsewhere a r.
Proof. intros (b & Ab & Aw & Ob) Hn E. exists b. split; [exact Ab|]. split; [exact Aw|]. exact (ours_div b Ab u n r Ob Hn E). Qed.
Lemma els_split u d n : elsewhere a u -> u_path u <> [] -> u_split u = Ok (d, n) -> elsewhere a d.
Proof. intros (b & Ab & Aw & Ob) Hn E. exists b. split; [exact Ab|]. split; [exact Aw|]. exact (ours_split b Ab u d n Ob Hn E). Qed.
Lemma els_last u : elsewhere a u -> noq (u_last u).
Proof. intros (b & Ab & Aw & Ob). exact (last_noq b Ab u Ob). Qed.
Lemma els_rest u k : elsewhere a u -> noq (strip_p is_space (skipn k (u_path u))).
Proof. intros (b & Ab & Aw & Ob). exact (rest_noq b Ab u k Ob). Qed.
Lemma offk_ask fuel o : Forall (elsewhere a) (uris_of o) -> offk any (net_ask fuel o).
Proof.
  intros H. pose proof off_paired as K. pose proof els_div as Dv. pose proof els_split as Sp. pose proof els_last as La. pose proof els_rest as Rs.
  pose proof (fun w => seqs_ask fuel w) as Sa.
  destruct o; cbn [uris_of uop_uri] in H; repeat match goal with H : Forall _ (_ :: _) |- _ => inversion H; subst; clear H end; cbn [net_ask].
  all: try (apply offk_method; [assumption|apply Sa|]; cbn [ask]; apply (neat_bind noq any); [|intros ? _; now apply neat_ret]; match goal with |- neat noq _ (hooked _ _ _ _) => apply hooked_neat | _ => idtac end).
  all: try (match goal with |- offk _ (nanswered _ _) => eapply offk_answered, both_off end).
  - eapply both_copy; eauto.
  - apply neat_copystat.
  - eapply both_move; eauto.
  - eapply both_remove; eauto.
  - apply (neat_open noq noq_incl). now apply els_path.
  - eapply both_makedirs; eauto.
  - eapply both_mkdir; eauto.
  - eapply both_exists; eauto.
  - eapply both_isfile; eauto.
  - eapply both_isdir; eauto.
  - apply neat_isexec.
  - apply neat_set_exec.
  - eapply both_islink; eauto.
  - apply neat_readlink.
  - apply (neat_symlink noq noq_incl). now apply els_path.
  - apply neat_mtime.
  - eapply both_walk; eauto.
  - eapply both_listdir; eauto.
  - apply neat_info.
  - apply neat_set_info.
  - apply neat_raise.
  - eapply both_glob; eauto.
  - apply (neat_md5 noq noq_incl). now apply els_path.
  - now apply neat_ret.
  - apply neat_manip_mtime.
  - apply neat_manip_callback.
Qed.
End Off.

(** *** Calls of others, and clean-ups *)
Lemma far_same a N N' d : (forall u, ours a u -> kget (u_key u) (r_conns (n_reg N')) = kget (u_key u) (r_conns (n_reg N))) -> far a N d -> far a N' d.
Proof. intros H F u Ou. rewrite (H u Ou). now apply F. Qed.
Lemma off_refl a N : net_ok 0 N -> (forall i, tidyq noq (fs_of N i)) -> off a N N.
Proof. intros K Td. constructor; auto. apply ok_at; [exact K|lia]. Qed.
Lemma other_handle a N ho k (f : handle -> M mst answer) : net_ok 0 N -> (forall i, tidyq noq (fs_of N i)) -> Forall (fun x => far a N (fst x)) ho ->
  (forall h, seqs (f h)) -> (forall h, neat noq any (f h)) ->
  off a N (fst (snd (on_nhandle k f (N, ho)))) /\ snd (snd (on_nhandle k f (N, ho))) = ho.
Proof.
  intros K Td F Sq Nt. unfold on_nhandle. cbn [fst snd]. destruct (nth_error ho k) as [[c h]|] eqn:E; [|split; [now apply off_refl|reflexivity]].
  apply nth_error_In in E. rewrite Forall_forall in F. specialize (F _ E). cbn in F. unfold on_net. cbn [fst snd].
  destruct (offk_at a N any c (f h) F (Sq h) (Nt h) N (off_refl a N K Td)) as [O _]. destruct (at_conn c (f h) N) as [r N']. cbn [fst snd] in *. now split.
Qed.
Lemma other_call a N ho k : net_ok 0 N -> (forall i, tidyq noq (fs_of N i)) -> Forall (fun x => far a N (fst x)) ho -> call_elsewhere a k ->
  off a N (fst (snd (net_call k (N, ho)))) /\ Forall (fun x => far a N (fst x)) (snd (snd (net_call k (N, ho)))).
Proof.
  intros K Td F C. pose proof (off_refl a N K Td) as O.
  assert (Na : forall B (f : B -> answer) (m : M mst B), neat noq any m -> neat noq any (answered f m)).
  { intros B f m H. apply (neat_bind noq any); [exact H|]. intros x _. now apply neat_ret. }
  destruct k; cbn [call_elsewhere net_call] in *;
    try (match goal with |- off _ _ (fst (snd (on_nhandle ?k ?f _))) /\ _ => destruct (other_handle a N ho k f K Td F) as [E1 E2]; [intros h; apply seqs_answered|intros h; apply Na|rewrite E2; now split] end).
  - unfold on_net. cbn [fst snd]. destruct (offk_ask a N K fuel o C N O) as [O' _]. destruct (net_ask fuel o N). now split.
  - cbn [fst snd]. destruct (offk_enter a N K u C N O) as [O' F']. destruct (enter u N) as [[c|e] N1]; cbn [fst snd] in *; [|now split].
    specialize (F' c eq_refl). destruct (offk_at a N any c (u_open u options) F' (seqs_open u options) (neat_open noq noq_incl u options (els_path a u C)) N1 O') as [O2 _].
    destruct (at_conn c (u_open u options) N1) as [[h|e] N2]; cbn [fst snd] in *; (split; [exact O2|]); [|exact F]. apply Forall_app. split; [exact F|]. now constructor; [|constructor].
  - apply seqs_h_read.
  - apply neat_h_read.
  - apply seqs_h_write.
  - apply neat_h_write.
  - exact (seqs_op (OpSeek h to whence) Logic.I).
  - apply neat_file_seek.
  - now apply (seqs_drop _ (OpTell h)).
  - apply neat_h_tell.
  - now apply (seqs_drop _ (OpTruncate h pos)).
  - apply neat_h_truncate.
  - now apply (seqs_drop _ (OpReadline h)).
  - apply neat_h_readline.
  - now apply (seqs_drop _ (OpNext h)).
  - apply neat_h_next.
  - exact (seqs_op (OpClose h) Logic.I).
  - apply neat_h_close.
  - destruct C.
Qed.
Lemma clean_get a N force u : net_ok 0 N -> (forall c, open_as (n_reg N) (u_key u) c -> ~ due force (n_reg N) c) -> ours a u ->
  kget (u_key u) (r_conns (n_reg (snd (net_cleanup force N)))) = kget (u_key u) (r_conns (n_reg N)).
Proof.
  intros K D Ou. pose proof (ok_reg _ _ K) as G. pose proof (rinv_cleanup force (fun _ => false) (n_reg N) G) as G'. unfold net_cleanup in *.
  rewrite (cleanup_is force (fun _ => false) (n_reg N) (ri_uniq _ G)) in *. cbn [snd n_reg r_conns] in *.
  destruct (kget (u_key u) (r_conns (n_reg N))) as [c|] eqn:E.
  - assert (H : open_as (n_reg N) (u_key u) c) by now apply open_kget. pose proof (D c H) as Nd. destruct H as (k' & S & I).
    apply in_kget; [apply (ri_uniq _ G')|]. exists k'. split; [exact S|]. cbn. apply filter_In. split; [exact I|]. unfold keep. cbn [snd].
    destruct (dueb force (n_reg N) (r_now (n_reg N)) c) eqn:Ed; [|reflexivity]. destruct Nd. now apply dueb_due.
  - pose proof (proj1 (open_none _ (u_key u) G')) as X. cbn [r_conns] in X. apply X. intros i (k' & S & I). cbn in I. apply filter_In in I. destruct I as [I _].
    apply (proj2 (open_none _ (u_key u) G) E i). now exists k'.
Qed.
