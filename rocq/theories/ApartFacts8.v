(** Two parties on one memory file system, one in the middle of a call of the other *)
From Coq Require Import Lia.
From Verif Require Import Str Exc StrFacts UriParse BaseUri Mem SpecUri SpecMem MemFacts Generic Resp UriOps Prog MemTwin SpecApart ApartFacts ApartFacts2 ApartFacts3 Pair ApartFacts4 ApartFacts5 ApartFacts6 ApartFacts7.
Open Scope nat_scope.

Section Two.
Variables K L : str -> bool.
Hypothesis topK : top_names K.
Hypothesis topL : top_names L.
Hypothesis apart : disjoint K L.
Definition shares (x : mst * list (list doing)) (s' : mst) : Prop :=
  housed K (fst x) /\ housed L (fst x) /\ Forall (Forall (doing_in L)) (snd x) /\ housed K s' /\ same_part K (fst x) s'.
Lemma noise cs : Forall (doing_in L) cs -> forall s, housed K s -> housed L s -> housed K (all_of cs s) /\ housed L (all_of cs s) /\ same_part K s (all_of cs s).
Proof.
  unfold all_of. induction 1 as [|c cs Hc F IH]; intros s HK HL; cbn [fold_left]; [auto using same_part_refl|].
  pose proof (other_step K L c s topL apart Hc HL) as SK. destruct (own_step L topL c s s Hc HL HL (same_part_refl L s)) as (_ & _ & A3 & _).
  destruct (IH (snd (do_it c s))) as (B1 & B2 & B3); [|exact A3|].
  - constructor; [exact (ho_wf _ _ A3)|exact (enclosed_same K _ _ (sm_tree _ _ _ SK) (ho_enc _ _ HK))|exact (ho_blank _ _ A3)].
  - split; [exact B1|]. split; [exact B2|]. exact (same_part_trans K _ _ _ SK B3).
Qed.
Lemma shared_op {A} (Q : A -> Prop) m : (forall s0, both (pruned K s0 []) Q m m) -> resp (alike []) m -> both shares Q (meanwhile m) m.
Proof.
  intros H G [s ns] s' (HK & HL & F & HK' & S). cbn [fst snd] in *. unfold meanwhile. cbn [fst snd].
  assert (Fh : Forall (doing_in L) (hd [] ns)) by (destruct F; cbn; auto). assert (Ft : Forall (Forall (doing_in L)) (tl ns)) by (destruct F; cbn; auto).
  destruct (noise _ Fh s HK HL) as (HK1 & HL1 & S1). set (s1 := all_of (hd [] ns) s) in *. clearbody s1. pose proof (same_part_trans K _ _ _ (same_part_sym K _ _ S1) S) as S2.
  destruct HK1 as [W E B], HK' as [W' E' B']. destruct (H s1 s1 (alone K s1) (alone_pruned K s1 W E B)) as (A1 & P1 & Q1). destruct (H s' s' (alone K s') (alone_pruned K s' W' E' B')) as (A2 & P2 & _).
  destruct (G _ _ (alone_alike K s1 s' W W' S2 E B E' B')) as [A3 Al]. destruct (m s1) as [r1 x1] eqn:M1. cbn [fst snd] in *. split; [congruence|]. split; [|exact Q1].
  assert (HK2 : housed K x1) by (constructor; [exact (pr_wf _ _ _ _ _ P1)|exact (pr_enc _ _ _ _ _ P1)|exact (pr_blank _ _ _ _ _ P1)]).
  assert (HK3 : housed K (snd (m s'))) by (constructor; [exact (pr_wf _ _ _ _ _ P2)|exact (pr_enc _ _ _ _ _ P2)|exact (pr_blank _ _ _ _ _ P2)]).
  assert (HL2 : housed L x1).
  { constructor; [exact (ho_wf _ _ HK2)| |exact (ho_blank _ _ HK2)]. apply (enclosed_same L (view s1)); [|exact (ho_enc _ _ HL1)]. intros c p Lc. apply (pr_frame _ _ _ _ _ P1). exact (disjoint_sym K L apart c Lc). }
  split; [exact HK2|]. split; [exact HL2|]. split; [exact Ft|]. split; [exact HK3|]. constructor.
  - intros d p Kd. pose proof (al_tree _ _ _ Al (d :: p)) as T. rewrite (pruned_view K _ _ _ _ P1), (pruned_view K _ _ _ _ P2), Kd in T. exact T.
  - cbn [fst]. rewrite <- (pr_now _ _ _ _ _ P1), <- (pr_now _ _ _ _ _ P2). symmetry. exact (al_now _ _ _ Al).
  - intros p Hp. pose proof (al_cbs _ _ _ Al p) as C. unfold callback_at in *. cbn [fst]. rewrite (pr_cbs _ _ _ _ _ P1 p Hp), (pr_cbs _ _ _ _ _ P2 p Hp) in C. now symmetry.
Qed.
Lemma shared_pair : paired shares shared mem_backend (mine K) simple_name (leads_in K) (fun _ => True).
Proof.
  constructor; cbn [shared mem_backend b_hook b_exists b_isfile b_isdir b_islink b_listdir b_removefile b_removedir b_mkdir b_readlink b_copystat b_copy_content b_removefile_by b_symlink_by]; intros; apply shared_op.
  - intros s0. now apply on_hook.
  - apply hook_resp.
  - intros s0. now apply on_exists.
  - apply exists_resp.
  - intros s0. now apply on_isfile.
  - apply isfile_resp.
  - intros s0. apply (both_weak _ any); [now apply on_isdir|]. now intros.
  - apply isdir_resp.
  - intros s0. now apply on_islink.
  - apply islink_resp.
  - intros s0. now apply on_listdir.
  - apply listdir_resp.
  - intros s0. now apply on_removefile.
  - apply removefile_resp.
  - intros s0. now apply on_removedir.
  - apply removedir_resp.
  - intros s0. now apply on_mkdir.
  - apply mkdir_resp.
  - intros s0. now apply on_readlink.
  - apply readlink_resp.
  - intros s0. now apply on_copystat.
  - apply copystat_resp.
  - intros s0. now apply on_content.
  - apply content_resp.
  - intros s0. now apply on_removefile.
  - apply removefile_resp.
  - intros s0. now apply on_symlink.
  - apply symlink_resp.
Qed.
Lemma shared_root u : u = root_uri -> both shares (fun d => d = true) (u_isdir shared u) (u_isdir mem_backend u).
Proof.
  intros ->. unfold u_isdir, hooked. cbn [b_hook b_isdir shared mem_backend]. apply (both_bind _ any).
  - apply shared_op; [|apply hook_resp]. intros s0 s x P. unfold mem_hook, bind, lift. rewrite root_path. rewrite (pr_cbs _ _ _ _ _ P []) by now left.
    destruct (dget [] (m_cbs s)) as [[cb|]|]; [destruct (cb root_uri (lit "isdir"))| |]; now apply s2_same.
  - intros _ _. apply shared_op; [|apply isdir_resp]. intros s0 s x P. unfold mem_isdir, bind, lift. rewrite root_path. apply s2_same; [exact P|]. intros a E. now injection E as <-.
Qed.
Lemma split_part u d n : mine K u -> True -> u_split u = Ok (d, n) -> mine K d \/ d = root_uri. Proof. intros M _ E. exact (mine_split K topK u d n M E). Qed.
Lemma rest_part u k : mine K u -> simple_name (strip_p is_space (skipn k (u_path u))). Proof. intros M. exact (mine_rest K topK u k M). Qed.
Lemma last_part u : mine K u -> simple_name (u_last u). Proof. intros M. exact (mine_last K topK u M). Qed.
Local Notation sh Q m1 m2 := (both shares Q m1 m2).
Lemma shared_copy fuel r ig fl u v : mine K u -> mine K v -> sh any (u_copy shared fuel r ig fl u v) (u_copy mem_backend fuel r ig fl u v).
Proof. apply (both_copy_up shares shared mem_backend (mine K) simple_name (leads_in K) (fun _ => True) shared_pair (mine_div K topK) (fun v => v = root_uri) shared_root split_part last_part rest_part). Qed.
Lemma shared_move fuel u v : mine K u -> mine K v -> sh any (u_move shared fuel u v) (u_move mem_backend fuel u v).
Proof. apply (both_move_up shares shared mem_backend (mine K) simple_name (leads_in K) (fun _ => True) shared_pair (mine_div K topK) (fun v => v = root_uri) shared_root split_part last_part rest_part). Qed.
Lemma shared_remove fuel r u : mine K u -> sh any (u_remove shared fuel r u) (u_remove mem_backend fuel r u).
Proof. apply (both_remove _ _ _ _ _ _ _ shared_pair (mine_div K topK)). Qed.
Lemma shared_makedirs fuel u : mine K u -> sh any (u_makedirs shared fuel u) (u_makedirs mem_backend fuel u).
Proof. apply (both_makedirs_up _ _ _ _ _ _ _ shared_pair (fun v => v = root_uri) shared_root split_part). Qed.
Lemma shared_walk fuel td fl u : mine K u -> sh any (u_walk shared fuel td fl u) (u_walk mem_backend fuel td fl u).
Proof. intros M. exact (both_any _ _ _ _ (both_walk _ _ _ _ _ _ _ shared_pair (mine_div K topK) fuel td fl u M)). Qed.
Lemma shared_glob fn u pat : mine K u -> sh any (u_glob shared fn u pat) (u_glob mem_backend fn u pat).
Proof. intros M. exact (both_any _ _ _ _ (both_glob _ _ _ _ _ _ _ shared_pair (mine_div K topK) fn u pat M)). Qed.
End Two.
