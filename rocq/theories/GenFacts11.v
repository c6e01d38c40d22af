(** Callbacks: a method asks the callback of its own path first, and none else. *)
From Verif Require Import Str Exc Utf8 UriParse BaseUri StrFacts Utf8Facts SpecUri Mem SpecMem MemOps Generic SpecGen Fnmatch UriOps.
From Verif Require Import UriFacts2 UriFacts3 UriFacts4 MemFacts MemFacts2 MemFacts3 MemFacts4 MemFacts5 MemFacts6 MemFacts7 MemFacts8 MemFacts9 MemUri MemFacts10 MemFacts11 GenFacts1 GenFacts2 GenFacts3 GenFacts4 GenFacts5 GenFacts6 GenFacts7 GenFacts8 GenFacts9 GenFacts10.

Local Notation B := mem_backend.

(** ** The callback comes first *)
Lemma hook_first f o s e : mem_hook (uop_uri o) (uop_name o) s = (Raise e, s) -> run_uop f o s = (Raise e, s).
Proof.
  intros H. destruct o; cbn [run_uop uop_uri uop_name] in *;
    unfold drop, u_copy, u_move, u_remove, u_open, u_makedirs, u_mkdir, u_exists, u_isfile, u_isdir, u_islink, u_walk, u_listdir, u_glob, u_md5;
    unfold hooked; cbn [b_hook mem_backend];
    first [apply bind_raise; exact H|apply bind_raise; apply bind_raise; exact H|idtac].
Qed.
Lemma addr_key u v cs : addr u cs -> addr v cs -> mem_path u = mem_path v.
Proof. intros [A _] [A' _]. unfold mem_path. now rewrite A, A'. Qed.
Lemma registered u cs cb s s' : addr u cs -> mem_manip_callback u (Some cb) s = (Ok tt, s') ->
  forall v name e, addr v cs -> cb v name = Some e -> mem_hook v name s' = (Raise e, s').
Proof.
  intros A E v name e Av Ec. unfold mem_manip_callback, mem_hook in *. rewrite (addr_key v u cs) by auto.
  destruct (addr_some u cs A) as [p Ep]. rewrite Ep in *. cbn in E |- *. unfold bind, lift in *. injection E as <-. cbn [m_cbs].
  rewrite dget_dset, str_eqb_refl. now rewrite Ec.
Qed.

(** ** Callbacks of other paths play no role *)
Definition setc (s : mst) (c : list (str * option callback)) : mst :=
  mkM (m_heap s) (m_next s) (m_now s) (m_epoch s) (m_held s) c.
Definition blind {A} (m : M mst A) : Prop := forall s c, m (setc s c) = (fst (m s), setc (snd (m s)) c).

Lemma blind_bind {A C} (m : M mst A) (k : A -> M mst C) : blind m -> (forall x, blind (k x)) -> blind (bind m k).
Proof. intros Hm Hk s c. unfold bind. rewrite Hm. destruct (m s) as [[x|e] s1]; cbn [fst snd]; auto. apply Hk. Qed.
Lemma blind_get {A} (k : mst -> M mst A) : (forall s c, k (setc s c) = k s) -> (forall s, blind (k s)) -> blind (bind get k).
Proof. intros E H s c. unfold bind, get. rewrite E. apply H. Qed.
Lemma blind_ret {A} (a : A) : blind (ret a). Proof. easy. Qed.
Lemma blind_raise {A} e : blind (@raise mst A e). Proof. easy. Qed.
Lemma blind_lift {A} (r : res A) : blind (lift r). Proof. easy. Qed.
Lemma blind_obj i : blind (get_node_obj i). Proof. easy. Qed.
Lemma blind_upd i n : blind (upd i n). Proof. easy. Qed.
Lemma blind_alloc n : blind (alloc n). Proof. easy. Qed.
Lemma blind_fun {A} (f : (nat -> node) -> res A) : blind (fun s => (f (m_heap s), s)). Proof. easy. Qed.
Lemma blind_lookup u f t : blind (lookup u f t). Proof. easy. Qed.
Ltac bl :=
  repeat match goal with
      | |- blind (bind get _) => apply blind_get; [reflexivity|intros ?]
      | |- blind (bind _ _) => apply blind_bind; [|intros ?]
      | |- blind (ret _) => apply blind_ret
      | |- blind (raise _) => apply blind_raise
      | |- blind (lift _) => apply blind_lift
      | |- blind (let _ := _ in _) => cbv zeta
      | |- blind (match ?x with _ => _ end) => destruct x
      | |- blind (get_node_obj _) => apply blind_obj
      | |- blind (upd _ _) => apply blind_upd
      | |- blind (alloc _) => apply blind_alloc
      | |- blind (lookup _ _ _) => apply blind_lookup
      | |- blind (fun s => (get_node _ _ _ _, s)) => apply (blind_fun (fun h => get_node h _ _ _))
      | |- blind (fun s => (get_node_prev _ _ _ _, s)) => apply (blind_fun (fun h => get_node_prev h _ _ _))
      | |- blind (fun s => (child _ _ _ _ _ _, s)) => apply (blind_fun (fun h => child h _ _ _ _ _))
      end.

Lemma blind_node u f : blind (lookup_node u f). Proof. unfold lookup_node. bl. Qed.
Lemma blind_parent p : blind (parent_node p). Proof. unfold parent_node. bl. Qed.
Lemma blind_isdir u : blind (mem_isdir u).
Proof.
  unfold mem_isdir. bl. intros s c. cbn [setc m_heap]. destruct (get_node_for_path _ _ _ _) as [[|]|e]; auto. destruct e; auto. now destruct e.
Qed.
Lemma blind_isfile u : blind (mem_isfile u).
Proof.
  unfold mem_isfile. bl. intros s c. cbn [setc m_heap]. destruct (get_node_for_path _ _ _ _) as [[|]|e]; auto. destruct e; auto. now destruct e.
Qed.
Lemma blind_exists u : blind (mem_exists u).
Proof.
  unfold mem_exists. bl. intros s c. cbn [setc m_heap]. destruct (get_node_for_path _ _ _ _) as [[|]|e]; auto. destruct e; auto. now destruct e.
Qed.
Lemma blind_islink u : blind (mem_islink u). Proof. unfold mem_islink. bl. Qed.
Lemma blind_has i n : blind (node_has i n). Proof. unfold node_has. bl. Qed.
Lemma blind_create i n j : blind (create_child i n j). Proof. unfold create_child. bl. Qed.
Lemma blind_del i n : blind (del_child i n). Proof. unfold del_child. bl. Qed.
Ltac bx := bl; auto using blind_node, blind_parent, blind_has, blind_create, blind_del.
Lemma blind_mkdir u : blind (mem_mkdir u). Proof. unfold mem_mkdir. bx. Qed.
Lemma blind_symlink u v : blind (mem_symlink u v). Proof. unfold mem_symlink. bx. Qed.
Lemma blind_readlink u : blind (mem_readlink u). Proof. unfold mem_readlink. bx. Qed.
Lemma blind_listdir u : blind (mem_listdir u). Proof. unfold mem_listdir. bx. Qed.
Lemma blind_removefile u : blind (mem_removefile u). Proof. unfold mem_removefile. bx. Qed.
Lemma blind_removedir u : blind (mem_removedir u). Proof. unfold mem_removedir. bx. Qed.
Lemma blind_info u f : blind (mem_info u f). Proof. unfold mem_info. bx. Qed.
Lemma blind_set_info u a b f : blind (mem_set_info u a b f). Proof. unfold mem_set_info. bx. Qed.
Lemma blind_mtime u : blind (mem_mtime u). Proof. unfold mem_mtime. bx. Qed.
Lemma blind_copystat u v : blind (mem_copystat u v). Proof. unfold mem_copystat. bx. Qed.
Lemma blind_isexec u m : blind (mem_isexec u m). Proof. unfold mem_isexec. bx. apply blind_info. Qed.
Lemma blind_set_exec u m : blind (mem_set_exec u m). Proof. unfold mem_set_exec. bx; auto using blind_info, blind_set_info. Qed.
Lemma blind_manip u t : blind (mem_manip_mtime u t). Proof. unfold mem_manip_mtime. bx. Qed.
Lemma blind_file i : blind (get_file i). Proof. unfold get_file. bx. Qed.
Lemma blind_set_file i d p m f : blind (set_file i d p m f). Proof. apply blind_upd. Qed.
Lemma blind_fread i z : blind (file_read i z).
Proof. unfold file_read. apply blind_bind; [apply blind_file|intros f]. destruct (bio_read _ _ _). bx. apply blind_set_file. Qed.
Lemma blind_hread h z : blind (h_read h z). Proof. unfold h_read. bx. apply blind_fread. Qed.
Lemma blind_fseek i a b : blind (file_seek i a b). Proof. unfold file_seek. bx; auto using blind_file, blind_set_file. Qed.
Lemma blind_reset i : blind (file_reset i). Proof. unfold file_reset. bx. apply blind_file. Qed.
Lemma blind_open_child nd n : blind (fun s => (child (m_heap s) true max_links nd n true, s)). Proof. easy. Qed.
Lemma blind_open u o : blind (mem_open u o).
Proof.
  unfold mem_open, open_for_read, open_for_write, open_for_append.
  bx; auto using blind_fseek, blind_file, blind_reset; try easy.
Qed.
Lemma blind_hash f : forall h fed, blind (hash_blocks f h fed).
Proof. induction f as [|f IH]; intros h fed; cbn [hash_blocks]; bl; auto using blind_hread. Qed.

(** A method that only asks its own path's callbacks. *)
Definition asks {A} (p : str) (m : M mst A) : Prop :=
  forall s c, dget p c = dget p (m_cbs s) -> m (setc s c) = (fst (m s), setc (snd (m s)) c).
Definition keeps_cbs {A} (m : M mst A) : Prop := forall s, m_cbs (snd (m s)) = m_cbs s.
Lemma blind_keeps {A} (m : M mst A) : blind m -> keeps_cbs m.
Proof.
  intros H s. specialize (H s (m_cbs s)). assert (E : setc s (m_cbs s) = s) by now destruct s. rewrite E in H.
  rewrite H at 1. reflexivity.
Qed.
Lemma asks_bind {A C} p (m : M mst A) (k : A -> M mst C) : asks p m -> keeps_cbs m -> (forall x, asks p (k x)) -> asks p (bind m k).
Proof.
  intros Hm Km Hk s c E. unfold bind. rewrite Hm by auto. specialize (Km s). destruct (m s) as [[x|e] s1]; cbn [fst snd] in *; auto.
  apply Hk. congruence.
Qed.
Lemma blind_asks {A} p (m : M mst A) : blind m -> asks p m. Proof. intros H s c _. apply H. Qed.
Lemma keeps_pure {A} (m : M mst A) : pure m -> keeps_cbs m. Proof. intros H s. now rewrite H. Qed.
Lemma asks_hook u p n : mem_path u = Ok p -> asks p (mem_hook u n).
Proof.
  intros E s c Ec. unfold mem_hook. rewrite E. unfold bind, lift. cbn [setc m_cbs] in *. rewrite Ec.
  destruct (dget p (m_cbs s)) as [[cb|]|]; auto. now destruct (cb u n).
Qed.
Lemma asks_hooked {A} u p n (m : M mst A) : mem_path u = Ok p -> asks p m -> asks p (hooked B n u m).
Proof. intros E H. apply asks_bind; auto. - now apply asks_hook. - apply keeps_pure, pure_hook. Qed.

(** Operations that stay with their own path. *)
Definition single (o : uop) : Prop :=
  match o with
  | UCopy _ _ _ _ _ | UMove _ _ | UMakedirs _ | UWalk _ _ _ | URemove true _ | UManipCallback _ _ => False
  | _ => True
  end.
Lemma asks_foldM {A X} p (f : A -> X -> M mst A) : (forall x y, asks p (f x y)) -> (forall x y, keeps_cbs (f x y)) ->
  forall l a, asks p (foldM f a l).
Proof.
  intros H K. induction l as [|y l IH]; intros a; [now apply blind_asks|]. cbn [foldM]. apply asks_bind; auto.
Qed.
Lemma pure_foldM {A X} (f : A -> X -> M mst A) : (forall x y, pure (f x y)) -> forall l a, pure (foldM f a l).
Proof. intros H. induction l as [|y l IH]; intros a; [apply pure_ret|]. cbn [foldM]. apply pure_bind; auto. Qed.
Lemma asks_drop {A} p (m : M mst A) : asks p m -> keeps_cbs m -> asks p (drop m).
Proof. intros H K. unfold drop. apply asks_bind; auto. intros. now apply blind_asks. Qed.
Lemma keeps_bind {A C} (m : M mst A) (k : A -> M mst C) : keeps_cbs m -> (forall x, keeps_cbs (k x)) -> keeps_cbs (bind m k).
Proof.
  intros H K s. unfold bind. specialize (H s). destruct (m s) as [[x|e] s1]; cbn [snd] in *; auto. rewrite K. auto.
Qed.
Lemma keeps_hooked {A} n u (m : M mst A) : blind m -> keeps_cbs (hooked B n u m).
Proof. intros H. unfold hooked. apply keeps_bind; [apply keeps_pure, pure_hook|intros _; now apply blind_keeps]. Qed.
Lemma asks_open u p o : mem_path u = Ok p -> asks p (u_open u o).
Proof. intros E. unfold u_open. apply asks_bind; [now apply asks_hook|apply keeps_pure, pure_hook|]. intros _. apply blind_asks, blind_open. Qed.

Ltac simple_op E := first
  [ apply asks_hooked; [exact E|apply blind_asks; auto using blind_copystat, blind_mkdir, blind_set_exec, blind_symlink, blind_set_info, blind_manip, blind_ret, blind_raise]
  | apply asks_drop; [apply asks_hooked; [exact E|apply blind_asks]|apply keeps_hooked];
    auto using blind_exists, blind_isfile, blind_isdir, blind_isexec, blind_islink, blind_readlink, blind_mtime, blind_listdir, blind_info ].
Theorem asks_only f o p : mem_path (uop_uri o) = Ok p -> single o -> asks p (run_uop f o).
Proof.
  intros E Hs. destruct o; cbn [run_uop uop_uri single] in *; try contradiction;
    unfold u_mkdir, u_exists, u_isfile, u_isdir, u_islink, u_listdir; cbn [b_mkdir b_exists b_isfile b_isdir b_islink b_listdir mem_backend];
    try solve [simple_op E].
  - destruct recursive; [contradiction|]. unfold u_remove. apply asks_hooked; auto. apply blind_asks. bl;
      auto using blind_islink, blind_exists, blind_isdir, blind_isfile, blind_removefile, blind_removedir.
  - apply asks_drop; [now apply asks_open|]. apply keeps_bind; [apply keeps_pure, pure_hook|intros _; apply blind_keeps, blind_open].
  - apply asks_drop.
    + unfold u_glob, fs_glob, u_listdir. apply asks_hooked; auto. apply asks_bind.
      * apply asks_hooked; auto. apply blind_asks, blind_listdir.
      * apply keeps_hooked, blind_listdir.
      * intros l. apply asks_foldM; intros x y; [apply blind_asks|apply blind_keeps]; bl.
    + apply keeps_pure. unfold u_glob, fs_glob, u_listdir. apply pure_hooked, pure_bind; [apply pure_hooked, pure_listdir|].
      intros l. apply pure_foldM. intros x y. destruct (fnmatch y pat); [apply pure_bind; [apply pure_lift|intros; apply pure_ret]|apply pure_ret].
  - apply asks_drop.
    + unfold u_md5. apply asks_bind; [now apply asks_hook|apply keeps_pure, pure_hook|intros _].
      apply asks_bind; [now apply asks_open| |intros h; apply blind_asks; bl; auto using blind_file, blind_hash].
      apply keeps_bind; [apply keeps_pure, pure_hook|intros _; apply blind_keeps, blind_open].
    + unfold u_md5. apply keeps_bind; [apply keeps_pure, pure_hook|intros _].
      apply keeps_bind; [|intros h; apply blind_keeps; bl; auto using blind_file, blind_hash].
      apply keeps_bind; [apply keeps_pure, pure_hook|intros _; apply blind_keeps, blind_open].
Qed.
