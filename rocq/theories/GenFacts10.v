(** glob, md5, the methods of a URI. *)
From Verif Require Import Str Exc Utf8 UriParse BaseUri StrFacts Utf8Facts SpecUri Mem SpecMem MemOps Generic SpecGen Fnmatch UriOps.
From Verif Require Import UriFacts2 UriFacts3 UriFacts4 MemFacts MemFacts2 MemFacts3 MemFacts4 MemFacts5 MemFacts6 MemFacts7 MemFacts8 MemFacts9 MemUri MemFacts10 MemFacts11 GenFacts1 GenFacts2 GenFacts3 GenFacts4 GenFacts5 GenFacts6 GenFacts7 GenFacts8 GenFacts9.
From Coq Require Import Sorted.

Local Notation B := mem_backend.

(** ** glob *)
Lemma glob_loop (m : str -> str -> bool) cs pat : forall names acc (s : mst), (forall n, In n names -> m n pat = true -> good_path (cs ++ [n])) ->
  foldM (fun res f => if m f pat then let! p <- lift (u_div (mem_uri cs) f); ret (res ++ [p]) else ret res) acc names s
  = (Ok (acc ++ map (fun n => mem_uri (cs ++ [n])) (filter (fun n => m n pat) names)), s).
Proof.
  induction names as [|n names IH]; intros acc s H; [cbn; now rewrite app_nil_r|]. cbn [foldM filter].
  destruct (m n pat) eqn:E.
  - erewrite bind_ok; [|erewrite bind_ok by (apply lift_ok, mem_div, (H n (or_introl eq_refl) E)); reflexivity].
    rewrite IH by (intros x Hx; apply H; now right). cbn [map]. now rewrite <- app_assoc.
  - erewrite bind_ok by reflexivity. rewrite IH; auto. intros x Hx. apply H. now right.
Qed.
Theorem glob_spec m s cs q pat : wf s -> silent s -> good_path cs -> leads (view s) cs (Found q) -> is_edir (view s q) ->
  (forall n, view s (q ++ [n]) <> None -> m n pat = true -> good_path (cs ++ [n])) ->
  exists names, u_glob B m (mem_uri cs) pat s = (Ok (map (fun n => mem_uri (cs ++ [n])) names), s) /\
    StronglySorted slt names /\ forall n, In n names <-> view s (q ++ [n]) <> None /\ m n pat = true.
Proof.
  intros W Q G L D H.
  assert (Fc : filter nonempty cs = cs) by (apply proper_filter; destruct G as [g _]; eapply Forall_impl; [|exact g]; intros x; apply name_ne).
  destruct (listdir_spec s W (mem_uri cs) cs q) as (l & E & S & I); auto using mem_addr; [now rewrite Fc|].
  exists (filter (fun n => m n pat) l). split; [|split].
  - unfold u_glob. rewrite run_hooked by auto. unfold fs_glob, u_listdir.
    erewrite bind_ok by (rewrite run_hooked by auto; exact E). rewrite glob_loop; auto. intros n Hn. apply H. now apply I.
  - now apply ss_filter.
  - intros n. rewrite filter_In, I. tauto.
Qed.
Theorem glob_fails m s cs o pat : wf s -> silent s -> good_path cs -> leads (view s) cs o -> (forall q, o = Found q -> ~ is_edir (view s q)) ->
  exists e, u_glob B m (mem_uri cs) pat s = (Raise e, s).
Proof.
  intros W Q G L H.
  assert (Fc : filter nonempty cs = cs) by (apply proper_filter; destruct G as [g _]; eapply Forall_impl; [|exact g]; intros x; apply name_ne).
  assert (E : exists e, mem_listdir (mem_uri cs) s = (Raise e, s)).
  { destruct (outcome_cases o) as [[q ->]|Nf].
    - exists AttributeError. apply (listdir_file s W (mem_uri cs) cs q); auto using mem_addr. now rewrite Fc.
    - exists (err_of o). apply (listdir_fail s W (mem_uri cs) cs o); auto using mem_addr. now rewrite Fc. }
  destruct E as [e E]. exists e. unfold u_glob. rewrite run_hooked by auto. unfold fs_glob, u_listdir.
  erewrite bind_raise by (rewrite run_hooked by auto; exact E). reflexivity.
Qed.

(** ** md5 *)
Lemma hash_loop hi : h_readable hi = true -> h_binary hi = true ->
  forall fuel s fi fed, m_heap s (h_node hi) = NFile fi -> (length (skipn (f_pos fi) (f_data fi)) < fuel)%nat ->
  exists s' pos, hash_blocks fuel hi fed s = (Ok (fed ++ skipn (f_pos fi) (f_data fi)), s') /\
    file_upd s s' (h_node hi) fi (fset fi (f_data fi) pos (f_mtime fi)).
Proof.
  intros Hr Hb. induction fuel as [|fuel IH]; intros s fi fed Ei L; [lia|]. cbn [hash_blocks].
  destruct (run_read s (h_node hi) fi Ei 4096) as (s1 & R1 & U1).
  assert (E1 : h_read hi 4096 s = (Ok (VBytes (fst (bio_read (f_data fi) (f_pos fi) 4096))), s1)).
  { unfold h_read. rewrite Hr. cbn [negb]. erewrite bind_ok by exact R1. unfold proxy_decode. now rewrite Hb. }
  erewrite bind_ok by exact E1. unfold bio_read in *. cbn [fst snd] in *. change (4096 <? 0)%Z with false in *. cbn match in *.
  set (rest := skipn (f_pos fi) (f_data fi)) in *. remember (firstn (Z.to_nat 4096) rest) as blk eqn:Hb'.
  destruct blk as [|b bs].
  - assert (Er : rest = []).
    { destruct rest; auto. assert (Z.to_nat 4096 <> 0)%nat by lia. destruct (Z.to_nat 4096); [lia|discriminate]. }
    rewrite Er in *. rewrite app_nil_r. cbn [length] in U1. eexists s1, _. split; [reflexivity|exact U1].
  - assert (Lb : (length (b :: bs) <> 0)%nat) by (cbn; lia).
    set (blk := b :: bs) in *. clearbody blk.
    set (fi1 := fset fi (f_data fi) (f_pos fi + length blk) (f_mtime fi)) in *.
    assert (Rest : skipn (f_pos fi1) (f_data fi1) = skipn (length blk) rest) by (cbn; apply skipn_plus).
    assert (Ap : blk ++ skipn (length blk) rest = rest) by (rewrite Hb', skipn_firstn_length; apply firstn_skipn).
    destruct (IH s1 fi1 (fed ++ blk)) as (s3 & pos & R3 & T3).
    + apply U1.
    + rewrite Rest. rewrite skipn_length. rewrite <- Ap in L. rewrite app_length in L. rewrite skipn_length in L. lia.
    + exists s3, pos. split; [|eapply file_upd_trans; [exact U1|exact T3]]. rewrite R3, Rest, <- app_assoc, Ap. reflexivity.
Qed.
Theorem md5_spec {D} (H : list N -> D) s u q data mt mo : wf s -> silent s -> denotes (view s) u (Found q) ->
  view s q = Some (EFile data mt mo) ->
  exists s', u_md5 H u s = (Ok (H data), s') /\ wf s' /\ same_rest s s' /\ same_tree (view s) (view s').
Proof.
  intros W Q Dn E. assert (A : exists cs, addr u cs) by (destruct Dn as (cs & A & _); now exists cs). destruct A as [cs A].
  destruct (open_read s W u true q data mt mo Dn E) as (s1 & h1 & f1 & R1 & H1 & O1 & D1 & P1 & T1 & M1 & S1).
  assert (Rd : h_readable h1 = true /\ h_binary h1 = true) by (rewrite H1; auto).
  destruct (hash_loop h1 (proj1 Rd) (proj2 Rd) (S (length (f_data f1))) s1 f1 []) as (s2 & pos & R2 & U2).
  - apply O1.
  - rewrite skipn_length. lia.
  - exists s2. split; [|split; [|split]].
    + unfold u_md5. erewrite bind_ok by (now apply (silent_hook s u cs)).
      erewrite bind_ok by (rewrite (run_u_open s u cs) by auto; exact R1).
      assert (G : get_file (h_node h1) s1 = (Ok f1, s1)).
      { unfold get_file, bind, get_node_obj. rewrite (op_file _ _ _ _ _ _ O1). reflexivity. }
      erewrite bind_ok by exact G. erewrite bind_ok by exact R2. rewrite P1, D1. reflexivity.
    + eapply file_upd_wf; [|exact U2]. apply O1.
    + eapply same_rest_trans; [apply O1|apply U2].
    + intros p. rewrite (file_upd_quiet _ _ _ _ _ U2) by reflexivity. apply S1.
Qed.
Theorem md5_fails {D} (H : list N -> D) s u cs o : wf s -> silent s -> addr u cs -> leads (view s) cs o ->
  (forall q, o = Found q -> ~ is_efile (view s q)) -> exists e, u_md5 H u s = (Raise e, s).
Proof.
  intros W Q A L N. assert (E : exists e, open_for_read u true s = (Raise e, s)).
  { destruct (outcome_cases o) as [[q ->]|Nf].
    - exists AttributeError. apply (open_read_dir s W u true q); [now exists cs|]. destruct (found_real s cs q W L) as [X|X]; auto.
      exfalso. now apply (N q).
    - exists (err_of o). now apply (open_read_fail s W u true cs o). }
  destruct E as [e E]. exists e. unfold u_md5. erewrite bind_ok by (now apply (silent_hook s u cs)).
  erewrite bind_raise by (rewrite (run_u_open s u cs) by auto; exact E). reflexivity.
Qed.

(** ** Every URI method changes the state as a sequence of backend operations does *)
(** Operations that do not open another connection, take locks or let time pass. *)
Definition plain (o : op) : Prop := match o with OpEpoch | OpHeld _ | OpTick _ => False | _ => True end.
Definition seqs {A} (m : M mst A) : Prop := forall s, exists l, Forall plain l /\ snd (m s) = run_ops l s.
Lemma seqs_pure {A} (m : M mst A) : pure m -> seqs m.
Proof. intros H s. exists []. split; [constructor|apply H]. Qed.
Lemma seqs_op (o : op) : plain o -> seqs (run_op o).
Proof. intros H s. exists [o]. split; [now constructor|reflexivity]. Qed.
Lemma seqs_drop {A} (m : M mst A) o : plain o -> run_op o = drop m -> seqs m.
Proof.
  intros P E s. exists [o]. split; [now constructor|]. unfold run_ops. cbn [fold_left]. rewrite E. unfold drop, bind. destruct (m s) as [[a|e] s']; reflexivity.
Qed.
Lemma run_ops_app l l' s : run_ops (l ++ l') s = run_ops l' (run_ops l s).
Proof. apply fold_left_app. Qed.
Lemma seqs_bind {A C} (m : M mst A) (k : A -> M mst C) : seqs m -> (forall x, seqs (k x)) -> seqs (bind m k).
Proof.
  intros Hm Hk s. destruct (Hm s) as (l & F & E). unfold bind. destruct (m s) as [[x|e] s1]; cbn [snd] in *.
  - destruct (Hk x s1) as (l' & F' & E'). exists (l ++ l'). split; [now apply Forall_app|]. now rewrite run_ops_app, <- E.
  - now exists l.
Qed.
Lemma seqs_fold {A X} (f : A -> X -> M mst A) : (forall x y, seqs (f x y)) -> forall l x, seqs (foldM f x l).
Proof.
  intros H. induction l as [|y l IH]; intros x; [apply seqs_pure, pure_ret|]. cbn [foldM]. apply seqs_bind; auto.
Qed.
Lemma seqs_mapM {X} (f : X -> M mst unit) : (forall y, seqs (f y)) -> forall l, seqs (mapM_ f l).
Proof.
  intros H. induction l as [|y l IH]; [apply seqs_pure, pure_ret|]. cbn [mapM_]. apply seqs_bind; auto.
Qed.
Lemma seqs_if {A} (b : bool) (m m' : M mst A) : seqs m -> seqs m' -> seqs (if b then m else m').
Proof. now destruct b. Qed.
Lemma seqs_hooked {A} n u (m : M mst A) : seqs m -> seqs (hooked B n u m).
Proof. intros H. unfold hooked. apply seqs_bind; auto. apply seqs_pure, pure_hook. Qed.

Ltac sq :=
  repeat first
    [ match goal with
      | |- seqs (bind _ _) => apply seqs_bind; [|intros ?]
      | |- seqs (hooked _ _ _ _) => apply seqs_hooked
      | |- seqs (if _ then _ else _) => apply seqs_if
      | |- seqs (foldM _ _ _) => apply seqs_fold; intros ? ?
      | |- seqs (mapM_ _ _) => apply seqs_mapM; intros ?
      | |- seqs (match ?l with [] => _ | _ :: _ => _ end) => destruct l
      | |- seqs (let _ := _ in _) => cbv zeta
      | |- seqs (u_islink _ _) => unfold u_islink
      | |- seqs (u_isdir _ _) => unfold u_isdir
      | |- seqs (u_isfile _ _) => unfold u_isfile
      | |- seqs (u_exists _ _) => unfold u_exists
      | |- seqs (u_listdir _ _) => unfold u_listdir
      | |- seqs (ret _) => apply seqs_pure, pure_ret
      | |- seqs (raise _) => apply seqs_pure, pure_raise
      | |- seqs (lift _) => apply seqs_pure, pure_lift
      end
    | apply seqs_pure; first [apply pure_hook|apply pure_isdir|apply pure_isfile
        |apply pure_exists|apply pure_islink|apply pure_listdir|apply pure_readlink|apply pure_kinds|apply pure_get_file
        |apply pure_info|apply pure_mtime|apply pure_isexec] ].
Lemma seqs_makedirs fuel : forall u, seqs (fs_makedirs B fuel u).
Proof.
  induction fuel as [|fuel IH]; intros u; cbn [fs_makedirs]; unfold u_isdir, u_mkdir; sq; auto. exact (seqs_op (OpMkdir u) Logic.I).
Qed.
Lemma seqs_walk {Acc} (body : Acc -> uri -> list str -> list str -> M mst (Acc * list str)) td fl :
  (forall a u ds fs, seqs (body a u ds fs)) -> forall fuel a u, seqs (walk_gen B fuel td fl body a u).
Proof.
  intros H. induction fuel as [|fuel IH]; intros a u; cbn [walk_gen]; sq; auto.
Qed.
Lemma seqs_copyfile fuel : forall a b z, seqs (copyfileobj fuel a b z).
Proof.
  induction fuel as [|fuel IH]; intros a b z; cbn [copyfileobj]; sq; auto; [now apply (seqs_drop _ (OpRead a z))|].
  assert (X : seqs (h_write b x ;; copyfileobj fuel a b z)) by (sq; auto; exact (seqs_op (OpWrite b x) Logic.I)).
  destruct x as [[|]|[|]]; first [exact X|sq].
Qed.
Lemma seqs_open u o : seqs (u_open u o).
Proof. unfold u_open. sq. now apply (seqs_drop _ (OpOpen u o)). Qed.
Lemma seqs_content u v : seqs (mem_copy_content u v).
Proof. unfold mem_copy_content. sq; auto using seqs_open, seqs_copyfile. Qed.
Lemma seqs_removefile u : seqs (mem_removefile u). Proof. exact (seqs_op (OpRemovefile u) Logic.I). Qed.
Lemma seqs_removedir u : seqs (mem_removedir u). Proof. exact (seqs_op (OpRemovedir u) Logic.I). Qed.
Lemma seqs_symlink u v : seqs (mem_symlink u v). Proof. exact (seqs_op (OpSymlink u v) Logic.I). Qed.
Lemma seqs_copystat u v : seqs (mem_copystat u v). Proof. exact (seqs_op (OpCopystat u v) Logic.I). Qed.
Lemma seqs_copy_link u v : seqs (copy_link B u v).
Proof. unfold copy_link, u_isfile. cbn [B b_islink b_isfile b_removefile_by b_readlink b_symlink_by]. sq; auto using seqs_removefile, seqs_symlink. Qed.
Lemma seqs_entry fl same u v : seqs (copy_entry B fl same u v).
Proof. unfold copy_entry, u_islink. sq; auto using seqs_copy_link, seqs_copystat. apply seqs_content. Qed.
Lemma seqs_umakedirs f u : seqs (u_makedirs B f u).
Proof. unfold u_makedirs. sq. apply seqs_makedirs. Qed.
Lemma seqs_step f ig fl same n d r ds fs : seqs (copy_step B f ig fl same n d r ds fs).
Proof.
  unfold copy_step. apply seqs_bind; [destruct (strip_p _ _); sq|intros db]. unfold u_islink. sq; auto using seqs_copy_link, seqs_umakedirs, seqs_entry.
Qed.
Lemma seqs_copy f r ig fl u v : seqs (u_copy B f r ig fl u v).
Proof.
  unfold u_copy, fs_copy, u_exists, u_isdir, u_isfile, u_islink. sq; auto using seqs_copy_link, seqs_umakedirs, seqs_entry.
  apply seqs_walk. intros. sq. apply seqs_step.
Qed.
Lemma seqs_remove f r u : seqs (u_remove B f r u).
Proof.
  unfold u_remove, remove_dir_recursively. sq; auto using seqs_removefile, seqs_removedir.
  apply seqs_walk. intros. sq; auto using seqs_removefile, seqs_removedir.
Qed.
Lemma seqs_move f u v : seqs (u_move B f u v).
Proof. unfold u_move, fs_move, u_isfile. sq; auto using seqs_copy, seqs_remove. Qed.
Lemma seqs_hash f : forall h fed, seqs (hash_blocks f h fed).
Proof.
  induction f as [|f IH]; intros h fed; cbn [hash_blocks]; sq; [now apply (seqs_drop _ (OpRead h 4096))|].
  destruct x as [|[|]]; sq; auto.
Qed.
Lemma seqs_md5 {D} (H : list N -> D) u : seqs (u_md5 H u).
Proof. unfold u_md5. sq; auto using seqs_open, seqs_hash. Qed.
Lemma seqs_glob m u p : seqs (u_glob B m u p).
Proof. unfold u_glob, fs_glob, u_listdir. sq. Qed.

Theorem uop_ops f o : seqs (run_uop f o).
Proof.
  destruct o; cbn [run_uop]; unfold drop; try (apply seqs_bind; [|intros ?; apply seqs_pure, pure_ret]);
    unfold u_exists, u_isfile, u_isdir, u_islink, u_listdir, u_mkdir, u_walk;
    auto using seqs_copy, seqs_move, seqs_remove, seqs_open, seqs_md5, seqs_glob, seqs_umakedirs; sq.
  - apply seqs_copystat.
  - exact (seqs_op (OpMkdir u) Logic.I).
  - exact (seqs_op (OpSetExec u mode) Logic.I).
  - apply seqs_symlink.
  - apply seqs_walk. intros. sq.
  - exact (seqs_op (OpSetInfo u mode mtime follow) Logic.I).
  - exact (seqs_op (OpManipMtime u t) Logic.I).
  - exact (seqs_op (OpManipCallback u cb) Logic.I).
Qed.
Theorem u_reachable_iff s : u_reachable s <-> reachable s.
Proof.
  split.
  - intros (now & ep & l & ->).
    assert (X : forall l s0, exists l', run_acts l s0 = run_ops l' s0).
    { induction l0 as [|a l0 IH]; intros s0; [now exists []|]. unfold run_acts in *. cbn [fold_left].
      destruct (IH (snd (run_act a s0))) as [l2 E2]. rewrite E2.
      assert (Y : exists l1, snd (run_act a s0) = run_ops l1 s0)
        by (destruct a as [f o|o]; [destruct (uop_ops f o s0) as (l1 & _ & E1); now exists l1|now exists [o]]).
      destruct Y as [l1 ->]. exists (l1 ++ l2). now rewrite run_ops_app. }
    destruct (X l (init_mem now ep)) as [l' E]. exists now, ep, l'. exact E.
  - intros (now & ep & l & ->). exists now, ep, (map AOp l). unfold run_acts, run_ops.
    generalize (init_mem now ep). induction l as [|o l IH]; intros s0; [reflexivity|]. cbn [map fold_left]. apply IH.
Qed.
