(** Two computations that give the same answer from related states and leave related states.  If the fifteen operations
    of two backends are such, so is everything built from them. *)
From Verif Require Import Str Exc UriParse BaseUri Generic.

Section Resp2.
Context {S T : Type}.
Variable E : S -> T -> Prop.
Definition resp2 {A} (m : M S A) (m' : M T A) : Prop := forall s t, E s t -> fst (m s) = fst (m' t) /\ E (snd (m s)) (snd (m' t)).
Lemma r2_ret {A} (a : A) : resp2 (ret a) (ret a). Proof. intros s t H. now split. Qed.
Lemma r2_raise {A} e : resp2 (raise e : M S A) (raise e). Proof. intros s t H. now split. Qed.
Lemma r2_lift {A} (r : res A) : resp2 (lift r) (lift r). Proof. intros s t H. now split. Qed.
Lemma r2_bind {A B} (m : M S A) m' (k : A -> M S B) k' : resp2 m m' -> (forall a, resp2 (k a) (k' a)) -> resp2 (bind m k) (bind m' k').
Proof.
  intros H K s t R. destruct (H s t R) as [E1 E2]. unfold bind. destruct (m s) as [r1 s1], (m' t) as [r2 t1]. cbn in E1, E2. subst r2.
  destruct r1 as [a|e]; [apply K, E2|now split].
Qed.
Lemma r2_if {A} (c : bool) (m n : M S A) m' n' : resp2 m m' -> resp2 n n' -> resp2 (if c then m else n) (if c then m' else n'). Proof. now destruct c. Qed.
Lemma r2_map {A} (f : A -> M S unit) f' l : (forall a, resp2 (f a) (f' a)) -> resp2 (mapM_ f l) (mapM_ f' l).
Proof. intros F. induction l as [|a l IH]; cbn [mapM_]; auto using r2_ret. apply r2_bind; auto. Qed.
Lemma r2_fold {A X} (f : A -> X -> M S A) f' l : (forall a x, resp2 (f a x) (f' a x)) -> forall a, resp2 (foldM f a l) (foldM f' a l).
Proof. intros F. induction l as [|x l IH]; intros a; cbn [foldM]; auto using r2_ret. apply r2_bind; auto. Qed.

Variables (b : backend S) (c : backend T).
Record matched : Prop := {
  ma_hook : forall u n, resp2 (b_hook b u n) (b_hook c u n);
  ma_exists : forall u, resp2 (b_exists b u) (b_exists c u);
  ma_isfile : forall u, resp2 (b_isfile b u) (b_isfile c u);
  ma_isdir : forall u, resp2 (b_isdir b u) (b_isdir c u);
  ma_islink : forall u, resp2 (b_islink b u) (b_islink c u);
  ma_listdir : forall u, resp2 (let! l <- b_listdir b u; ret (sort_strs l)) (let! l <- b_listdir c u; ret (sort_strs l));
  ma_removefile : forall u, resp2 (b_removefile b u) (b_removefile c u);
  ma_removedir : forall u, resp2 (b_removedir b u) (b_removedir c u);
  ma_mkdir : forall u, resp2 (b_mkdir b u) (b_mkdir c u);
  ma_symlink : forall u v, resp2 (b_symlink b u v) (b_symlink c u v);
  ma_readlink : forall u, resp2 (b_readlink b u) (b_readlink c u);
  ma_copystat : forall u v, resp2 (b_copystat b u v) (b_copystat c u v);
  ma_content : forall u v, resp2 (b_copy_content b u v) (b_copy_content c u v);
  ma_removefile_by : forall w u, resp2 (b_removefile_by b w u) (b_removefile_by c w u);
  ma_symlink_by : forall w u v, resp2 (b_symlink_by b w u v) (b_symlink_by c w u v) }.
Hypothesis K : matched.
Ltac rsp := repeat match goal with
  | |- resp2 (ret _) _ => apply r2_ret | |- resp2 (raise _) _ => apply r2_raise | |- resp2 (lift _) _ => apply r2_lift
  | |- resp2 (b_hook _ _ _) _ => apply (ma_hook K) | |- resp2 (b_exists _ _) _ => apply (ma_exists K) | |- resp2 (b_isfile _ _) _ => apply (ma_isfile K)
  | |- resp2 (b_isdir _ _) _ => apply (ma_isdir K) | |- resp2 (b_islink _ _) _ => apply (ma_islink K) | |- resp2 (b_removefile _ _) _ => apply (ma_removefile K)
  | |- resp2 (b_removedir _ _) _ => apply (ma_removedir K) | |- resp2 (b_mkdir _ _) _ => apply (ma_mkdir K) | |- resp2 (b_symlink _ _ _) _ => apply (ma_symlink K)
  | |- resp2 (b_readlink _ _) _ => apply (ma_readlink K) | |- resp2 (b_copystat _ _ _) _ => apply (ma_copystat K) | |- resp2 (b_copy_content _ _ _) _ => apply (ma_content K)
  | |- resp2 (b_removefile_by _ _ _) _ => apply (ma_removefile_by K) | |- resp2 (b_symlink_by _ _ _ _) _ => apply (ma_symlink_by K)
  | |- resp2 (bind _ _) _ => apply r2_bind; [|intros ?] | |- resp2 (if _ then _ else _) _ => apply r2_if | |- resp2 (mapM_ _ _) _ => apply r2_map; intros ?
  | |- resp2 (foldM _ _ _) _ => apply r2_fold; intros ? ?
  end.

Lemma r2_hooked {A} n u (m : M S A) m' : resp2 m m' -> resp2 (hooked b n u m) (hooked c n u m').
Proof. intros H. unfold hooked. apply r2_bind; [apply (ma_hook K)|]. intros _. exact H. Qed.
Lemma r2_exists u : resp2 (u_exists b u) (u_exists c u). Proof. apply r2_hooked. rsp. Qed.
Lemma r2_isfile u : resp2 (u_isfile b u) (u_isfile c u). Proof. apply r2_hooked. rsp. Qed.
Lemma r2_isdir u : resp2 (u_isdir b u) (u_isdir c u). Proof. apply r2_hooked. rsp. Qed.
Lemma r2_islink u : resp2 (u_islink b u) (u_islink c u). Proof. apply r2_hooked. rsp. Qed.
Lemma r2_mkdir u : resp2 (u_mkdir b u) (u_mkdir c u). Proof. apply r2_hooked. rsp. Qed.
Ltac go := repeat first [progress rsp | match goal with
  | |- resp2 (u_exists _ _) _ => apply r2_exists | |- resp2 (u_isfile _ _) _ => apply r2_isfile | |- resp2 (u_isdir _ _) _ => apply r2_isdir
  | |- resp2 (u_islink _ _) _ => apply r2_islink | |- resp2 (u_mkdir _ _) _ => apply r2_mkdir | |- resp2 (hooked _ _ _ _) _ => apply r2_hooked
  end].
Lemma r2_fs_makedirs fuel : forall u, resp2 (fs_makedirs b fuel u) (fs_makedirs c fuel u).
Proof. induction fuel as [|f IH]; intros u; cbn [fs_makedirs]; go; auto. destruct (snd a0); go. Qed.
Lemma r2_makedirs fuel u : resp2 (u_makedirs b fuel u) (u_makedirs c fuel u). Proof. apply r2_hooked, r2_fs_makedirs. Qed.
Lemma r2_kinds top l : resp2 (kinds b top l) (kinds c top l). Proof. induction l as [|n l IH]; cbn [kinds]; go; auto. Qed.
(** The walk sorts the names before it does anything with them. *)
Lemma r2_sorted {A} u (k : list str -> M S A) k' : (forall l, resp2 (k l) (k' l)) ->
  resp2 (let! l <- b_listdir b u; k (sort_strs l)) (let! l <- b_listdir c u; k' (sort_strs l)).
Proof.
  intros H s t R. destruct (ma_listdir K u s t R) as [E1 E2]. unfold bind, ret in *. destruct (b_listdir b u s) as [[l1|e1] s1], (b_listdir c u t) as [[l2|e2] t1];
    cbn in *; try discriminate; [injection E1 as ->; now apply H|]. split; [congruence|exact E2].
Qed.
Lemma r2_walk_gen {Acc} fuel td fl (body : Acc -> uri -> list str -> list str -> M S (Acc * list str)) body' :
  (forall a u ds fs, resp2 (body a u ds fs) (body' a u ds fs)) -> forall acc top, resp2 (walk_gen b fuel td fl body acc top) (walk_gen c fuel td fl body' acc top).
Proof.
  intros B. induction fuel as [|f IH]; intros acc top; cbn [walk_gen]; [apply r2_raise|].
  apply (r2_sorted top (fun l => let! dn <- kinds b top l; _) (fun l => let! dn <- kinds c top l; _)). intros l. apply r2_bind; [apply r2_kinds|]. intros dn. go; auto.
Qed.
Lemma r2_walk fuel td fl u : resp2 (u_walk b fuel td fl u) (u_walk c fuel td fl u).
Proof. apply r2_hooked, r2_walk_gen. intros. go. Qed.
Lemma r2_remove_dir fuel u : resp2 (remove_dir_recursively b fuel u) (remove_dir_recursively c fuel u).
Proof. unfold remove_dir_recursively. apply r2_bind; [|intros _; go]. apply r2_walk_gen. intros. go. Qed.
Lemma r2_remove fuel rc u : resp2 (u_remove b fuel rc u) (u_remove c fuel rc u).
Proof. unfold u_remove. go. apply r2_remove_dir. Qed.
Lemma r2_copy_link u v : resp2 (copy_link b u v) (copy_link c u v).
Proof. unfold copy_link. go. Qed.
Lemma r2_copy_entry fl sm u v : resp2 (copy_entry b fl sm u v) (copy_entry c fl sm u v).
Proof. unfold copy_entry. go. apply r2_copy_link. Qed.
Lemma r2_copy_step fuel ig fl sm n d root ds fs : resp2 (copy_step b fuel ig fl sm n d root ds fs) (copy_step c fuel ig fl sm n d root ds fs).
Proof.
  unfold copy_step. apply r2_bind; [destruct (strip_p is_space (skipn n (u_path root))); go|intros dbase]. go; auto using r2_copy_link, r2_makedirs, r2_copy_entry.
Qed.
Lemma r2_copy fuel rc ig fl u v : resp2 (u_copy b fuel rc ig fl u v) (u_copy c fuel rc ig fl u v).
Proof.
  unfold u_copy, fs_copy. go; auto using r2_copy_entry, r2_copy_link, r2_makedirs. apply r2_walk_gen. intros. go. apply r2_copy_step.
Qed.
Lemma r2_move fuel u v : resp2 (u_move b fuel u v) (u_move c fuel u v).
Proof. unfold u_move, fs_move. go; auto using r2_copy, r2_remove. Qed.
Lemma r2_fs_move fuel u v : resp2 (fs_move b fuel u v) (fs_move c fuel u v).
Proof. unfold fs_move. go; auto using r2_copy, r2_remove. Qed.
End Resp2.
