(** Local files: the order in which directories list their entries does not show. *)
From Coq Require Import Lia Permutation.
From Verif Require Import Str Exc Utf8 UriParse BaseUri StrFacts SpecUri Mem SpecMem Misc Posix Local SpecLocal Generic GenFacts1 GenFacts3 Resp Fnmatch LocProg.
From Verif Require Import LocalFacts1 LocalFacts2 LocalFacts3 LocalFacts6 LocalFacts7 LocalFacts12 LocalFacts14 LocalFacts15 LocalFacts17.

(** The same entries, maybe in another order *)
Record shuffled (x y : pst) : Prop := {
  sh_perm : Permutation (p_tree x) (p_tree y); sh_cwd : p_cwd x = p_cwd y; sh_now : p_now x = p_now y; sh_umask : p_umask x = p_umask y }.
Record peq (x y : pst) : Prop := { pe_x : sound x; pe_y : sound y; pe_same : shuffled x y }.
Lemma perm_get t t' : NoDup (map fst t) -> NoDup (map fst t') -> Permutation t t' -> forall p, pget p t = pget p t'.
Proof.
  intros N N' P p. destruct (pget p t) as [e|] eqn:E.
  - symmetry. apply pget_in; auto. apply pget_in in E; auto. eapply Permutation_in; eauto.
  - destruct (pget p t') as [e|] eqn:E'; auto. apply pget_in in E'; auto. apply (Permutation_in _ (Permutation_sym P)) in E'. apply pget_in in E'; auto. congruence.
Qed.
Lemma get_perm t t' : NoDup (map fst t) -> NoDup (map fst t') -> (forall p, pget p t = pget p t') -> Permutation t t'.
Proof.
  intros N N' H. apply NoDup_Permutation; [now apply NoDup_map_inv in N|now apply NoDup_map_inv in N'|]. intros [p e]. rewrite <- !pget_in by auto. now rewrite H.
Qed.
Lemma peq_get x y p : peq x y -> pget p (p_tree x) = pget p (p_tree y).
Proof. intros [X Y S]. apply perm_get; [apply X|apply Y|apply S]. Qed.
Lemma walk_same t t' follow : (forall p, pget p t = pget p t') -> forall budget comps cur, pwalk t follow budget cur comps = pwalk t' follow budget cur comps.
Proof.
  intros H. induction budget as [|b IHb]; intros comps; induction comps as [|c rest IHc]; intros cur; cbn; rewrite H; destruct (pget cur t') as [[]|]; auto;
    rewrite !IHc, H; destruct (str_eqb c [] || str_eqb c dot); auto; destruct (str_eqb c dotdot); auto; destruct (pget (cur ++ [c]) t') as [[]|]; auto.
  rewrite IHb. auto.
Qed.
Lemma look_same x y f p : peq x y -> plook x f p = plook y f p.
Proof. intros E. unfold plook. rewrite (sh_cwd _ _ (pe_same _ _ E)). destruct (has_char 0 p); [reflexivity|]. destruct p; [reflexivity|]. apply walk_same. intros q. now apply peq_get. Qed.
Lemma resp_of {A} (m : M pst A) : steady m -> (forall x y, peq x y -> fst (m x) = fst (m y) /\ shuffled (snd (m x)) (snd (m y))) -> resp peq m.
Proof. intros St H x y E. destruct (H x y E) as [H1 H2]. split; auto. split; auto; apply St, E. Qed.
Lemma obs_resp {A} (f : pst -> res A) : (forall x y, peq x y -> f x = f y) -> resp peq (fun x => (f x, x)).
Proof. intros H x y E. cbn. auto. Qed.
Lemma put_same x y p e : peq x y -> shuffled (set_tree x (pset p e (p_tree x))) (set_tree y (pset p e (p_tree y))).
Proof.
  intros E. pose proof (pe_same _ _ E) as [S1 S2 S3 S4]. constructor; cbn; auto. apply get_perm; [apply pset_nodup, (pe_x _ _ E)|apply pset_nodup, (pe_y _ _ E)|].
  intros q. rewrite !pget_pset. destruct (path_eqb q p); auto. now apply peq_get.
Qed.
Lemma del_same x y p : peq x y -> shuffled (set_tree x (pdel p (p_tree x))) (set_tree y (pdel p (p_tree y))).
Proof.
  intros E. pose proof (pe_same _ _ E) as [S1 S2 S3 S4]. constructor; cbn; auto. apply get_perm; [apply pdel_nodup, (pe_x _ _ E)|apply pdel_nodup, (pe_y _ _ E)|].
  intros q. rewrite !pget_pdel. destruct (path_eqb q p); auto. now apply peq_get.
Qed.
Lemma filter_perm {A} (f : A -> bool) l l' : Permutation l l' -> Permutation (filter f l) (filter f l').
Proof.
  induction 1; cbn; auto.
  - destruct (f x); auto.
  - destruct (f x), (f y); auto. constructor.
  - eapply Permutation_trans; eauto.
Qed.
Lemma rename_perm p q t t' : Permutation t t' -> Permutation (prename p q t) (prename p q t').
Proof. intros P. unfold prename. apply Permutation_map. now apply filter_perm. Qed.
Lemma kids_perm p t t' : Permutation t t' -> Permutation (pchildren p t) (pchildren p t').
Proof. intros P. unfold pchildren. now apply Permutation_flat_map. Qed.
Lemma kids_nil {A} p t t' (a : A) (k : A) : Permutation t t' -> match pchildren p t with [] => a | _ => k end = match pchildren p t' with [] => a | _ => k end.
Proof.
  intros P. apply (kids_perm p) in P. destruct (pchildren p t), (pchildren p t'); auto; [apply Permutation_nil in P|apply Permutation_sym, Permutation_nil in P]; discriminate.
Qed.
Lemma sort_perm (l l' : list str) : NoDup l -> Permutation l l' -> sort_strs l = sort_strs l'.
Proof.
  intros N P. assert (N' : NoDup l') by (eapply Permutation_NoDup; eauto). apply sorted_ext; auto using sort_strict. intros n. rewrite !sort_In.
  split; apply Permutation_in; auto using Permutation_sym.
Qed.

Ltac look E := repeat match goal with |- context [plook ?x ?f ?p] => match type of E with peq x ?y => rewrite (look_same x y f p E) end end.
Lemma stat_resp f p : resp peq (os_stat f p).
Proof. apply obs_resp. intros x y E. now look E. Qed.
Lemma test_resp f g p : resp peq (os_test f g p).
Proof.
  intros x y E. unfold os_test, os_stat. look E. destruct (plook y f p) as [[q e|d n]|e]; cbn; auto. destruct e; cbn; auto.
Qed.
Lemma loc_listdir_resp u : resp peq (loc_listdir u).
Proof.
  intros x y E. unfold loc_listdir, os_listdir, bind, ret. look E. destruct (plook y true (u_path u)) as [[q []|d n]|e]; cbn; auto. split; auto. f_equal.
  apply sort_perm; [apply children_nodup, (pe_x _ _ E)|apply kids_perm, (pe_same _ _ E)].
Qed.
Lemma unlink_resp p : resp peq (os_unlink p).
Proof.
  apply resp_of; [apply steady_unlink|]. intros x y E. unfold os_unlink. destruct (slashed p); [look E; split; [reflexivity|apply E]|]. unfold sys_unlink. look E. destruct (plook y false p) as [[q []|d n]|e]; cbn; (split; [reflexivity|]); try apply E; now apply del_same.
Qed.
Lemma sys_rmdir_resp p : resp peq (sys_rmdir p).
Proof.
  apply resp_of; [apply steady_sys_rmdir|]. intros x y E. unfold sys_rmdir. look E. destruct (plook y false p) as [[[|c q] []|d n]|e]; cbn [fst snd]; try (split; [reflexivity|apply E]).
  pose proof (kids_perm (c :: q) _ _ (sh_perm _ _ (pe_same _ _ E))) as P. destruct (pchildren (c :: q) (p_tree x)) as [|a l].
  - apply Permutation_nil in P. rewrite P. split; [reflexivity|]. now apply del_same.
  - destruct (pchildren (c :: q) (p_tree y)); [apply Permutation_sym, Permutation_nil in P; discriminate|]. split; [reflexivity|apply E].
Qed.
Lemma rmdir_resp p : resp peq (os_rmdir p).
Proof.
  intros x y E. unfold os_rmdir. look E. pose proof (sys_rmdir_resp (chop p) x y E) as H. destruct (plook y false (chop p)) as [[|]|]; auto.
  destruct (str_eqb (last_piece p) dot); [split; [reflexivity|apply E]|]. destruct (str_eqb (last_piece p) dotdot); [split; [reflexivity|apply E]|]. auto.
Qed.
Lemma mkdir_resp p : resp peq (os_mkdir p).
Proof.
  apply resp_of; [apply steady_mkdir|]. intros x y E. unfold os_mkdir, sys_mkdir. look E. destruct (plook y false (chop p)) as [[q f|d n]|e]; cbn; (split; [reflexivity|]); try apply E.
  rewrite (sh_umask _ _ (pe_same _ _ E)), (sh_now _ _ (pe_same _ _ E)). now apply put_same.
Qed.
Lemma symlink_resp t p : resp peq (os_symlink t p).
Proof.
  apply resp_of; [apply steady_symlink|]. intros x y E. unfold os_symlink. destruct (slashed p); [look E; split; [reflexivity|apply E]|]. unfold sys_symlink. destruct (has_char 0 t); [split; [reflexivity|apply E]|]. look E.
  destruct t; [destruct (plook y false p) as [|[]]; (split; [reflexivity|apply E])|].
  destruct (plook y false p) as [[q f|d m]|[]]; cbn; (split; [reflexivity|]); try apply E. now apply put_same.
Qed.
Lemma readlink_resp p : resp peq (os_readlink p).
Proof. apply obs_resp. intros x y E. now look E. Qed.
Lemma chmod_resp p m : resp peq (os_chmod p m).
Proof.
  apply resp_of; [apply steady_chmod|]. intros x y E. unfold os_chmod. look E. destruct (plook y true p) as [[q f|d n]|e]; cbn; (split; [reflexivity|]); try apply E. now apply put_same.
Qed.
Lemma copystat_resp a b : resp peq (sh_copystat a b).
Proof.
  apply resp_of; [apply steady_copystat|]. intros x y E. unfold sh_copystat. look E.
  destruct (plook y true a) as [[q f|d n]|e], (plook y true b) as [[q' f'|d' n']|e']; cbn; (split; [reflexivity|]); try apply E. now apply put_same.
Qed.
Lemma open_r_resp p : resp peq (os_open_r p).
Proof. apply obs_resp. intros x y E. now look E. Qed.
Lemma open_w_resp p : resp peq (os_open_w p).
Proof.
  apply resp_of; [apply steady_open_w|]. intros x y E. unfold os_open_w, refuse_slashed. destruct (slashed p); [look E; split; [reflexivity|apply E]|]. unfold sys_open_w. look E. destruct (plook y true p) as [[q []|d n]|e]; cbn; (split; [reflexivity|]); try apply E.
  - rewrite (sh_now _ _ (pe_same _ _ E)). now apply put_same.
  - unfold new_pfile. rewrite (sh_umask _ _ (pe_same _ _ E)), (sh_now _ _ (pe_same _ _ E)). now apply put_same.
Qed.
Lemma open_a_resp p : resp peq (os_open_a p).
Proof.
  apply resp_of; [apply steady_open_a|]. intros x y E. unfold os_open_a, refuse_slashed. destruct (slashed p); [look E; split; [reflexivity|apply E]|]. unfold sys_open_a. look E. destruct (plook y true p) as [[q []|d n]|e]; cbn; (split; [reflexivity|]); try apply E.
  unfold new_pfile. rewrite (sh_umask _ _ (pe_same _ _ E)), (sh_now _ _ (pe_same _ _ E)). now apply put_same.
Qed.
Lemma data_resp q : resp peq (fd_data q).
Proof. apply obs_resp. intros x y E. now rewrite (peq_get x y q E). Qed.
Lemma append_resp q b : resp peq (fd_append q b).
Proof.
  apply resp_of; [apply steady_append|]. intros x y E. unfold fd_append. split; [reflexivity|]. cbn. rewrite (peq_get x y q E). destruct (pget q (p_tree y)) as [[]|]; try apply E.
  destruct b; [apply E|]. rewrite (sh_now _ _ (pe_same _ _ E)). now apply put_same.
Qed.
Lemma ren_same x y p q : peq x y -> shuffled (set_tree x (prename p q (p_tree x))) (set_tree y (prename p q (p_tree y))).
Proof. intros E. destruct (pe_same _ _ E). constructor; cbn; auto. now apply rename_perm. Qed.
Lemma rename_resp a b : resp peq (os_rename a b).
Proof.
  apply resp_of; [apply steady_rename|]. intros x y E. unfold os_rename. destruct (has_char 0 a || has_char 0 b); [split; [reflexivity|apply E]|]. look E.
  destruct (plook y false (chop a)) as [[p e|d n]|e]; cbn [fst snd]; try (split; [reflexivity|apply E]).
  2:{ destruct (plook y false (chop b)) as [[]|]; cbn [fst snd]; try (split; [reflexivity|apply E]); destruct (unnamed a || unnamed b); split; try reflexivity; apply E. }
  destruct (plook y false (chop b)) as [sp|e']; cbn [fst snd]; try (split; [reflexivity|apply E]). destruct (unnamed a || unnamed b); [split; [reflexivity|apply E]|].
  destruct (negb (is_pdir e) && (slashed a || slashed b)); [split; [reflexivity|apply E]|]. unfold sys_rename.
  cbv zeta. destruct p as [|c p]; [split; [reflexivity|apply E]|].
  destruct sp as [[|c' q] f|d n]; cbn [fst snd]; try (split; [reflexivity|apply E]).
  - destruct (path_eqb (c :: p) (c' :: q)); [split; [reflexivity|apply E]|]. destruct (is_pdir e && is_below (c :: p) (c' :: q)); [split; [reflexivity|apply E]|].
    destruct (is_below (c' :: q) (c :: p)); [split; [reflexivity|apply E]|]. destruct (is_pdir e), (is_pdir f); try (split; [reflexivity|apply E]).
    + pose proof (kids_perm (c' :: q) _ _ (sh_perm _ _ (pe_same _ _ E))) as P. destruct (pchildren (c' :: q) (p_tree x)) as [|k l].
      * apply Permutation_nil in P. rewrite P. split; [reflexivity|]. now apply ren_same.
      * destruct (pchildren (c' :: q) (p_tree y)); [apply Permutation_sym, Permutation_nil in P; discriminate|]. split; [reflexivity|apply E].
    + split; [reflexivity|]. now apply ren_same.
  - destruct (is_pdir e && _); split; try reflexivity; [apply E|]. now apply ren_same.
Qed.
Lemma same_resp a b : resp peq (samefile a b).
Proof. apply obs_resp. intros x y E. now look E. Qed.
Lemma parents_same comps : forall cur x y, peq x y -> is_dir_at x cur -> fst (make_parents cur comps x) = fst (make_parents cur comps y) /\ shuffled (snd (make_parents cur comps x)) (snd (make_parents cur comps y)).
Proof.
  induction comps as [|c comps IH]; intros cur x y E D; [split; [reflexivity|apply E]|]. destruct comps as [|c2 comps].
  - cbn [make_parents]. rewrite (peq_get x y _ E). destruct (pget (cur ++ [c]) (p_tree y)); split; try reflexivity; apply E.
  - cbn [make_parents]. rewrite (peq_get x y _ E). pose proof (peq_get x y (cur ++ [c]) E) as G. destruct (pget (cur ++ [c]) (p_tree y)) as [[]|]; try (split; [reflexivity|apply E]).
    + apply IH; auto. eexists; eauto.
    + rewrite (sh_umask _ _ (pe_same _ _ E)), (sh_now _ _ (pe_same _ _ E)). apply IH.
      * assert (D' : is_dir_at y cur) by (destruct D as (mo & mt & D); rewrite (peq_get x y _ E) in D; now exists mo, mt).
        constructor; [apply sound_put; [apply E|now right|right; split; [exact G|exists cur, c; auto]]|apply sound_put; [apply E|now right|right; split; [|exists cur, c; auto]]|now apply put_same].
        now rewrite <- (peq_get x y _ E).
      * eexists _, _. cbn [p_tree set_tree]. rewrite pget_pset, path_eqb_refl. reflexivity.
Qed.
Lemma tree_steady a r e : steady (fun x => match plook x true a with Ok (At p _) => copy_and_remove_tree p r x | _ => (Raise e, x) end).
Proof.
  intros x So. destruct (plook x true a) as [[p f|]|] eqn:La; auto. apply look_spot in La. cbn [spot_ok] in La.
  unfold copy_and_remove_tree. set (comps := filter _ _). destruct (parents_sound comps [] x So (so_root x So)) as [P1 P2].
  destruct (make_parents [] comps x) as [[q|] x'] eqn:M; cbn [snd] in *; auto. destruct (is_below p q) eqn:B; auto. cbn [snd].
  destruct (P2 q x' eq_refl) as (K & j & m & -> & Dj & Fq). apply is_below_false in B.
  assert (Hb : forall y, y <> [] -> pget ((j ++ [m]) ++ y) (p_tree x') = None).
  { intros y Ny. destruct (pget ((j ++ [m]) ++ y) (p_tree x')) eqn:E; auto. destruct (so_dir x' P1 (j ++ [m]) y Ny) as (? & ? & ?); congruence. }
  assert (Np : p <> []) by (intros ->; apply B; now exists (j ++ [m])).
  apply sound_rename; auto. intros [y ->]. apply K in La. destruct y as [|c y]; [rewrite app_nil_r in La; congruence|]. rewrite Hb in La; easy.
Qed.
Lemma copy_file_resp a b : resp peq (copy_and_remove_file a b).
Proof.
  apply resp_bind; [apply same_resp|]. intros []; [apply resp_raise|]. apply resp_bind; [apply open_r_resp|]. intros p. apply resp_bind; [apply open_w_resp|]. intros q.
  apply resp_bind; [apply data_resp|]. intros d. apply resp_bind; [apply append_resp|]. intros []. apply resp_bind; [apply copystat_resp|]. intros []. apply unlink_resp.
Qed.
Lemma fallback_resp a b r : resp peq (sh_move_fallback a b r).
Proof.
  unfold sh_move_fallback. apply resp_bind; [apply test_resp|]. intros [].
  - apply resp_bind; [apply readlink_resp|]. intros tg. apply resp_bind; [apply symlink_resp|]. intros _. apply unlink_resp.
  - apply resp_bind; [apply test_resp|]. intros []; [|apply copy_file_resp]. destruct (negb (clean_path a && clean_path r) || unnamed a); [apply resp_raise|]. destruct (destinsrc a b); [apply resp_raise|].
    apply resp_of; [apply tree_steady|]. intros x y E. look E. destruct (plook y true a) as [[p f|d n]|e']; cbn [fst snd]; try (split; [reflexivity|apply E]).
    unfold copy_and_remove_tree. set (comps := filter _ _). destruct (parents_same comps [] x y E (so_root x (pe_x _ _ E))) as [P1 P2].
    destruct (make_parents [] comps x) as [[q|] x'], (make_parents [] comps y) as [[q'|] y']; cbn [fst snd] in *; try discriminate; injection P1 as <-.
    + destruct (is_below p q); cbn [fst snd]; (split; [reflexivity|]); [apply E|]. destruct P2. constructor; cbn; auto. now apply rename_perm.
    + now split.
Qed.
Lemma sh_move_resp a b : resp peq (sh_move a b).
Proof.
  unfold sh_move. apply resp_bind; [apply test_resp|]. intros dd. apply resp_bind; [destruct dd; [apply same_resp|apply resp_ret]|]. intros same.
  apply resp_bind; [destruct same; [apply test_resp|apply resp_ret]|]. intros sl. destruct (same && negb sl); [apply rename_resp|].
  apply resp_bind; [destruct dd; [apply test_resp|apply resp_ret]|]. intros []; [apply resp_raise|].
  intros x y E. set (r := if dd then _ else _). destruct (rename_resp a r x y E) as [R1 R2]. destruct (os_rename a r x) as [[[]|[]] x'], (os_rename a r y) as [[[]|[]] y']; cbn [fst snd] in *; try discriminate; auto.
  injection R1 as <-. now apply fallback_resp.
Qed.
Lemma move_resp u v : resp peq (loc_move u v).
Proof.
  unfold loc_move. apply resp_bind; [apply test_resp|]. intros sd. apply resp_bind; [destruct sd; [apply test_resp|apply resp_ret]|]. intros dd.
  apply resp_bind; [destruct dd; [apply resp_lift|apply resp_ret]|]. intros d. apply sh_move_resp.
Qed.
Lemma content_resp u v : resp peq (loc_copy_content u v).
Proof.
  apply resp_bind; [apply open_r_resp|]. intros p. apply resp_bind; [apply open_w_resp|]. intros q. apply resp_bind; [apply data_resp|]. intros d. apply append_resp.
Qed.
Lemma loc_removedir_resp u : resp peq (loc_removedir u).
Proof. apply resp_bind; [apply test_resp|]. intros []; [apply resp_raise|apply rmdir_resp]. Qed.
Lemma loc_mkdir_resp u : resp peq (loc_mkdir u).
Proof. unfold loc_mkdir. destruct (u_path u); [apply resp_ret|apply mkdir_resp]. Qed.
Lemma loc_readlink_resp u : resp peq (loc_readlink u).
Proof. apply resp_bind; [apply readlink_resp|]. intros. apply resp_lift. Qed.
Lemma loc_keeps : keeps peq loc_backend.
Proof.
  constructor; intros; unfold loc_backend; cbn [b_hook b_exists b_isfile b_isdir b_islink b_listdir b_removefile b_removedir b_mkdir b_symlink b_readlink b_copystat b_copy_content b_removefile_by b_symlink_by].
  - apply resp_ret.
  - apply test_resp.
  - apply test_resp.
  - apply test_resp.
  - apply test_resp.
  - apply resp_bind; [apply loc_listdir_resp|]. intros. apply resp_ret.
  - apply unlink_resp.
  - apply loc_removedir_resp.
  - apply loc_mkdir_resp.
  - apply symlink_resp.
  - apply loc_readlink_resp.
  - apply copystat_resp.
  - apply content_resp.
  - apply unlink_resp.
  - apply symlink_resp.
Qed.
Lemma info_resp u f : resp peq (loc_info u f).
Proof. apply resp_bind; [apply test_resp|]. intros l. apply resp_bind; [apply stat_resp|]. intros. apply resp_ret. Qed.
Lemma set_mode_resp u m : resp peq (loc_set_mode u m).
Proof. apply resp_bind; [apply test_resp|]. intros _. apply chmod_resp. Qed.
Lemma lask_resp c : resp peq (lask c).
Proof.
  pose proof loc_keeps as K. destruct c; cbn [lask]; try (unfold said; apply resp_bind; [|intros; apply resp_ret]).
  - apply (resp_copy _ loc_backend K).
  - apply copystat_resp.
  - apply move_resp.
  - apply (resp_remove _ loc_backend K).
  - apply (resp_makedirs _ loc_backend K).
  - apply (resp_mkdir _ loc_backend K).
  - apply (resp_exists _ loc_backend K).
  - apply (resp_isfile _ loc_backend K).
  - apply (resp_isdir _ loc_backend K).
  - apply (resp_islink _ loc_backend K).
  - apply resp_bind; [apply info_resp|]. intros. apply resp_ret.
  - apply resp_bind; [apply info_resp|]. intros. apply set_mode_resp.
  - apply loc_readlink_resp.
  - apply symlink_resp.
  - apply resp_bind; [apply info_resp|]. intros. apply resp_ret.
  - apply info_resp.
  - apply set_mode_resp.
  - apply (resp_walk _ loc_backend K).
  - apply (resp_hooked _ loc_backend K), loc_listdir_resp.
  - apply (resp_glob _ loc_backend K). intros. apply loc_listdir_resp.
  - apply resp_bind; [apply open_r_resp|]. intros. apply data_resp.
  - apply resp_bind; [apply open_w_resp|]. intros. apply append_resp.
  - apply resp_bind; [apply open_a_resp|]. intros. apply append_resp.
  - intros x y [[X1 X2 X3] [Y1 Y2 Y3] [E1 E2 E3 E4]]. split; [reflexivity|]. constructor; constructor; cbn; auto.
Qed.
Theorem lrun_rel {X} (p : lprog X) : forall x y, peq x y -> fst (lrun p x) = fst (lrun p y) /\ peq (snd (lrun p x)) (snd (lrun p y)).
Proof.
  induction p as [a|c k IH]; intros x y E; cbn [lrun]; [now split|]. destruct (lask_resp c x y E) as [E1 E2].
  destruct (lask c x) as [r x'], (lask c y) as [r' y']. cbn in E1, E2. subst r'. now apply IH.
Qed.
