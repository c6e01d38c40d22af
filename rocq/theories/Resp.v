(** Computations that cannot tell two states apart: from related states they give the same answer and leave related
    states.  If the fifteen operations a backend supplies are such, so is everything built from them. *)
From Verif Require Import Str Exc UriParse BaseUri Generic.

Section Resp.
Context {S : Type}.
Variable E : S -> S -> Prop.
Definition resp {A} (m : M S A) : Prop := forall s1 s2, E s1 s2 -> fst (m s1) = fst (m s2) /\ E (snd (m s1)) (snd (m s2)).
Lemma resp_ret {A} (a : A) : resp (ret a). Proof. intros s1 s2 H. now split. Qed.
Lemma resp_raise {A} e : resp (raise e : M S A). Proof. intros s1 s2 H. now split. Qed.
Lemma resp_lift {A} (r : res A) : resp (lift r). Proof. intros s1 s2 H. now split. Qed.
Lemma resp_bind {A B} (m : M S A) (k : A -> M S B) : resp m -> (forall a, resp (k a)) -> resp (bind m k).
Proof.
  intros H K s1 s2 T. destruct (H s1 s2 T) as [E1 E2]. unfold bind. destruct (m s1) as [r1 s1'], (m s2) as [r2 s2']. cbn in E1, E2. subst r2.
  destruct r1 as [a|e]; [apply K, E2|now split].
Qed.
Lemma resp_if {A} (c : bool) (m m' : M S A) : resp m -> resp m' -> resp (if c then m else m'). Proof. now destruct c. Qed.
Lemma resp_map {A} (f : A -> M S unit) l : (forall a, resp (f a)) -> resp (mapM_ f l).
Proof. intros F. induction l as [|a l IH]; cbn [mapM_]; auto using resp_ret. apply resp_bind; auto. Qed.
Lemma resp_fold {A X} (f : A -> X -> M S A) l : (forall a x, resp (f a x)) -> forall a, resp (foldM f a l).
Proof. intros F. induction l as [|x l IH]; intros a; cbn [foldM]; auto using resp_ret. apply resp_bind; auto. Qed.

Variable b : backend S.
Record keeps : Prop := {
  ke_hook : forall u n, resp (b_hook b u n);
  ke_exists : forall u, resp (b_exists b u);
  ke_isfile : forall u, resp (b_isfile b u);
  ke_isdir : forall u, resp (b_isdir b u);
  ke_islink : forall u, resp (b_islink b u);
  ke_listdir : forall u, resp (let! l <- b_listdir b u; ret (sort_strs l));
  ke_removefile : forall u, resp (b_removefile b u);
  ke_removedir : forall u, resp (b_removedir b u);
  ke_mkdir : forall u, resp (b_mkdir b u);
  ke_symlink : forall u v, resp (b_symlink b u v);
  ke_readlink : forall u, resp (b_readlink b u);
  ke_copystat : forall u v, resp (b_copystat b u v);
  ke_content : forall u v, resp (b_copy_content b u v);
  ke_removefile_by : forall w u, resp (b_removefile_by b w u);
  ke_symlink_by : forall w u v, resp (b_symlink_by b w u v) }.
Hypothesis K : keeps.
Ltac rsp := repeat match goal with
  | |- resp (ret _) => apply resp_ret | |- resp (raise _) => apply resp_raise | |- resp (lift _) => apply resp_lift
  | |- resp (b_hook _ _ _) => apply (ke_hook K) | |- resp (b_exists _ _) => apply (ke_exists K) | |- resp (b_isfile _ _) => apply (ke_isfile K)
  | |- resp (b_isdir _ _) => apply (ke_isdir K) | |- resp (b_islink _ _) => apply (ke_islink K) | |- resp (b_removefile _ _) => apply (ke_removefile K)
  | |- resp (b_removedir _ _) => apply (ke_removedir K) | |- resp (b_mkdir _ _) => apply (ke_mkdir K) | |- resp (b_symlink _ _ _) => apply (ke_symlink K)
  | |- resp (b_readlink _ _) => apply (ke_readlink K) | |- resp (b_copystat _ _ _) => apply (ke_copystat K) | |- resp (b_copy_content _ _ _) => apply (ke_content K)
  | |- resp (b_removefile_by _ _ _) => apply (ke_removefile_by K) | |- resp (b_symlink_by _ _ _ _) => apply (ke_symlink_by K)
  | |- resp (bind _ _) => apply resp_bind; [|intros ?] | |- resp (if _ then _ else _) => apply resp_if | |- resp (mapM_ _ _) => apply resp_map; intros ?
  | |- resp (foldM _ _ _) => apply resp_fold; intros ? ?
  end.

Lemma resp_hooked {A} n u (m : M S A) : resp m -> resp (hooked b n u m).
Proof. intros H. unfold hooked. apply resp_bind; [apply (ke_hook K)|]. intros _. exact H. Qed.
Lemma resp_exists u : resp (u_exists b u). Proof. apply resp_hooked. rsp. Qed.
Lemma resp_isfile u : resp (u_isfile b u). Proof. apply resp_hooked. rsp. Qed.
Lemma resp_isdir u : resp (u_isdir b u). Proof. apply resp_hooked. rsp. Qed.
Lemma resp_islink u : resp (u_islink b u). Proof. apply resp_hooked. rsp. Qed.
Lemma resp_mkdir u : resp (u_mkdir b u). Proof. apply resp_hooked. rsp. Qed.
Ltac go := repeat first [progress rsp | match goal with
  | |- resp (u_exists _ _) => apply resp_exists | |- resp (u_isfile _ _) => apply resp_isfile | |- resp (u_isdir _ _) => apply resp_isdir
  | |- resp (u_islink _ _) => apply resp_islink | |- resp (u_mkdir _ _) => apply resp_mkdir | |- resp (hooked _ _ _ _) => apply resp_hooked
  end].
Lemma resp_fs_makedirs fuel : forall u, resp (fs_makedirs b fuel u).
Proof. induction fuel as [|f IH]; intros u; cbn [fs_makedirs]; go; auto. destruct (snd a0); go. Qed.
Lemma resp_makedirs fuel u : resp (u_makedirs b fuel u). Proof. apply resp_hooked, resp_fs_makedirs. Qed.
Lemma resp_kinds top l : resp (kinds b top l). Proof. induction l as [|n l IH]; cbn [kinds]; go; auto. Qed.
(** The walk sorts the names before it does anything with them. *)
Lemma resp_sorted {A} u (k : list str -> M S A) : (forall l, resp (k l)) -> resp (let! l <- b_listdir b u; k (sort_strs l)).
Proof.
  intros H s1 s2 T. destruct (ke_listdir K u s1 s2 T) as [E1 E2]. unfold bind, ret in *. destruct (b_listdir b u s1) as [[l1|e1] s1'], (b_listdir b u s2) as [[l2|e2] s2'];
    cbn in *; try discriminate; [injection E1 as ->; now apply H|]. split; [congruence|exact E2].
Qed.
Lemma resp_walk_gen {Acc} fuel td fl (body : Acc -> uri -> list str -> list str -> M S (Acc * list str)) :
  (forall a u ds fs, resp (body a u ds fs)) -> forall acc top, resp (walk_gen b fuel td fl body acc top).
Proof.
  intros B. induction fuel as [|f IH]; intros acc top; cbn [walk_gen]; [apply resp_raise|].
  apply (resp_sorted top (fun l => let! dn <- kinds b top l; _)). intros l. apply resp_bind; [apply resp_kinds|]. intros dn. go; auto.
Qed.
Lemma resp_walk fuel td fl u : resp (u_walk b fuel td fl u).
Proof. apply resp_hooked, resp_walk_gen. intros. go. Qed.
Lemma resp_remove_dir fuel u : resp (remove_dir_recursively b fuel u).
Proof. unfold remove_dir_recursively. apply resp_bind; [|intros _; go]. apply resp_walk_gen. intros. go. Qed.
Lemma resp_remove fuel rc u : resp (u_remove b fuel rc u).
Proof. unfold u_remove. go. apply resp_remove_dir. Qed.
Lemma resp_copy_link u v : resp (copy_link b u v).
Proof. unfold copy_link. go. Qed.
Lemma resp_copy_entry fl sm u v : resp (copy_entry b fl sm u v).
Proof. unfold copy_entry. go. apply resp_copy_link. Qed.
Lemma resp_copy_step fuel ig fl sm n d root ds fs : resp (copy_step b fuel ig fl sm n d root ds fs).
Proof.
  unfold copy_step. apply resp_bind; [destruct (strip_p is_space (skipn n (u_path root))); go|intros dbase]. go; auto using resp_copy_link, resp_makedirs, resp_copy_entry.
Qed.
Lemma resp_copy fuel rc ig fl u v : resp (u_copy b fuel rc ig fl u v).
Proof.
  unfold u_copy, fs_copy. go; auto using resp_copy_entry, resp_copy_link, resp_makedirs. apply resp_walk_gen. intros. go. apply resp_copy_step.
Qed.
Lemma resp_move fuel u v : resp (u_move b fuel u v).
Proof. unfold u_move, fs_move. go; auto using resp_copy, resp_remove. Qed.
Lemma resp_glob fn u pat : (forall u, resp (b_listdir b u)) -> resp (u_glob b fn u pat).
Proof. intros L. unfold u_glob, fs_glob, u_listdir. go; auto. Qed.
End Resp.
