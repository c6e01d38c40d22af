(** Moving keeps the tree of local files sound, for all paths. *)
From Coq Require Import Lia.
From Verif Require Import Str Exc Utf8 UriParse BaseUri StrFacts UriFacts SpecUri UriFacts2 UriFacts3.
From Verif Require Import Mem SpecMem MemFacts MemFacts2 MemFacts3 MemFacts4 MemFacts5 MemFacts7 MemFacts9 MemUri.
From Verif Require Import Generic SpecGen GenFacts1 GenFacts2 GenFacts3.
From Verif Require Import Misc Posix Local SpecLocal LocalFacts1 LocalFacts2 LocalFacts3 LocalFacts6 LocalFacts7 LocalFacts12 LocalFacts14 LocalFacts15.

Lemma below_snoc p j m : below p (j ++ [m]) -> p = j ++ [m] \/ below p j.
Proof.
  intros [r E]. destruct (snoc_cases r) as [->|(r' & c & ->)]; [left; now rewrite app_nil_r in E|].
  right. rewrite app_assoc in E. apply snoc_inj in E as [-> _]. now exists r'.
Qed.
Lemma sound_rename x p j m : let q := j ++ [m] in sound x -> p <> [] -> is_dir_at x j ->
  ~ below p q -> ~ below q p -> (forall r, r <> [] -> pget (q ++ r) (p_tree x) = None) ->
  sound (set_tree x (prename p q (p_tree x))).
Proof.
  intros q So Np D Bp Bq Hb. destruct (prename_get (p_tree x) p q (so_nodup x So) Bp Bq Hb) as (H1 & H2 & H3).
  assert (Nq : q <> []) by apply snoc_ne.
  assert (Bj : ~ below p j) by (intros [r ->]; apply Bp; exists (r ++ [m]); unfold q; now rewrite app_assoc).
  split; cbn [p_tree set_tree].
  - rewrite H3; [apply So| |]; intros r E; symmetry in E; apply app_eq_nil in E; tauto.
  - intros y n Hy. destruct (below_dec q (y ++ [n])) as [[r E]|Nq'].
    + destruct (snoc_cases r) as [->|(r' & c & ->)].
      * rewrite app_nil_r in E. apply snoc_inj in E as [-> _]. destruct D as (mo & mt & D). exists mo, mt.
        rewrite H3; auto; [intros r ->; apply Bj; now exists r|]. intros r E. apply (f_equal (@length _)) in E. unfold q in E. rewrite !app_length in E. cbn in E. lia.
      * rewrite app_assoc in E. apply snoc_inj in E as [-> <-]. rewrite <- app_assoc, H1, app_assoc in Hy. rewrite H1. now apply (so_up x So) in Hy.
    + destruct (below_dec p (y ++ [n])) as [[r E]|Np'].
      * rewrite E, H2 in Hy. easy.
      * rewrite H3 in Hy by auto. apply (so_up x So) in Hy as (mo & mt & Dy). exists mo, mt. rewrite H3; auto.
        -- intros r ->. apply (Np' (r ++ [n])). now rewrite app_assoc.
        -- intros r ->. apply (Nq' (r ++ [n])). now rewrite app_assoc.
  - apply prename_nodup; auto. apply So.
Qed.
Lemma steady_rename a b : steady (os_rename a b).
Proof.
  intros x So. unfold os_rename. destruct (has_char 0 a || has_char 0 b); auto.
  destruct (plook x false (chop a)) as [[p e|d n]|] eqn:La; auto; [|destruct (plook x false (chop b)) as [[]|]; auto; destruct (unnamed a || unnamed b); auto].
  destruct (plook x false (chop b)) as [sp|] eqn:Lb; auto. destruct (unnamed a || unnamed b); auto. destruct (negb (is_pdir e) && _); auto. apply look_spot in La. cbn [spot_ok] in La. unfold sys_rename.
  destruct p as [|c p]; auto. remember (c :: p) as pp. assert (Np : pp <> []) by (subst; easy). clear c p Heqpp.
  destruct sp as [q f|d n]; apply look_spot in Lb; cbn [spot_ok] in Lb.
  - destruct (snoc_cases q) as [->|(j & m & ->)]; auto. rewrite (nonempty_match (j ++ [m])) by apply snoc_ne.
    destruct (path_eqb pp (j ++ [m])) eqn:Epq; auto.
    assert (Npq : pp <> j ++ [m]) by (intros ->; now rewrite path_eqb_refl in Epq).
    destruct (is_pdir e && is_below pp (j ++ [m])) eqn:Eb; auto. destruct (is_below (j ++ [m]) pp) eqn:Ec; auto. apply is_below_false in Ec.
    assert (Dj : is_dir_at x j) by (apply (so_up x So j m); congruence).
    assert (Bp : ~ below pp (j ++ [m])).
    { intros B. pose proof (proj2 (is_below_true _ _) B) as B'. rewrite B', andb_true_r in Eb. destruct B as [r Er].
      destruct r as [|c r]; [rewrite app_nil_r in Er; congruence|]. rewrite Er in Lb. now rewrite (nothing_below x pp e So La Eb) in Lb. }
    assert (Go : (forall r, r <> [] -> pget ((j ++ [m]) ++ r) (p_tree x) = None) -> sound (set_tree x (prename pp (j ++ [m]) (p_tree x)))) by (intros Hb; now apply sound_rename).
    destruct (is_pdir e), (is_pdir f) eqn:Ef; auto.
    + destruct (pchildren (j ++ [m]) (p_tree x)) eqn:C; auto. apply Go. now apply no_children.
    + apply Go. now apply (nothing_below x _ f So Lb).
  - destruct Lb as [D F]. destruct (is_pdir e && is_below pp (d ++ [n])) eqn:Eb; auto. cbn [snd].
    assert (Hb : forall r, r <> [] -> pget ((d ++ [n]) ++ r) (p_tree x) = None).
    { intros r Nr. destruct (pget ((d ++ [n]) ++ r) (p_tree x)) eqn:E; auto. destruct (so_dir x So (d ++ [n]) r Nr) as (? & ? & ?); congruence. }
    apply sound_rename; auto.
    + intros B. pose proof (proj2 (is_below_true _ _) B) as B'. rewrite B', andb_true_r in Eb. apply below_snoc in B as [->|B]; [congruence|].
      destruct B as [r ->]. destruct D as (mo & mt & D). destruct r as [|c r]; [rewrite app_nil_r, La in D; injection D as ->; discriminate|].
      now rewrite (nothing_below x pp e So La Eb) in D.
    + intros [r ->]. destruct r as [|c r]; [rewrite app_nil_r in La; congruence|]. rewrite Hb in La; easy.
Qed.
(** make_parents: the tree stays sound, the new place is free. *)
Lemma parents_sound comps : forall cur x, sound x -> is_dir_at x cur ->
  sound (snd (make_parents cur comps x)) /\
  forall q x', make_parents cur comps x = (Ok q, x') -> (forall p e, pget p (p_tree x) = Some e -> pget p (p_tree x') = Some e) /\
    exists j m, q = j ++ [m] /\ is_dir_at x' j /\ pget q (p_tree x') = None.
Proof.
  induction comps as [|c comps IH]; intros cur x So D; [cbn; split; auto; discriminate|].
  destruct comps as [|c2 comps].
  - cbn [make_parents]. destruct (pget (cur ++ [c]) (p_tree x)) eqn:E; cbn [snd]; split; auto; [discriminate|].
    intros q x' [= <- <-]. split; auto. exists cur, c. auto.
  - cbn [make_parents]. destruct (pget (cur ++ [c]) (p_tree x)) as [[]|] eqn:E; cbn [snd]; try (split; auto; discriminate).
    + apply IH; auto. eexists; eauto.
    + set (y := set_tree x (pset (cur ++ [c]) (PDir (Z.land 511 (Z.lnot (p_umask x))) (p_now x)) (p_tree x))).
      assert (Sy : sound y).
      { apply sound_put; auto. right. split; auto. exists cur, c. auto. }
      assert (Dy : is_dir_at y (cur ++ [c])) by (eexists; eexists; unfold y; cbn [p_tree set_tree]; rewrite pget_pset, path_eqb_refl; reflexivity).
      destruct (IH (cur ++ [c]) y Sy Dy) as [H1 H2]. split; [exact H1|]. intros q x' H. destruct (H2 q x' H) as [K J]. split; auto.
      intros p e Hp. apply K. unfold y. cbn [p_tree set_tree]. rewrite pget_pset. destruct (path_eqb p (cur ++ [c])) eqn:Ep; auto.
      apply path_eqb_spec in Ep as ->. congruence.
Qed.
Lemma steady_samefile a b : steady (samefile a b). Proof. intros x So. exact So. Qed.
Lemma steady_copy_file a b : steady (copy_and_remove_file a b).
Proof.
  apply steady_bind; [apply steady_samefile|]. intros []; [apply steady_raise|]. apply steady_bind; [intros x So; exact So|]. intros p. apply steady_bind; [apply steady_open_w|]. intros q.
  apply steady_bind; [intros x So; exact So|]. intros d. apply steady_bind; [apply steady_append|]. intros []. apply steady_bind; [apply steady_copystat|]. intros []. apply steady_unlink.
Qed.
Lemma steady_fallback a b r : steady (sh_move_fallback a b r).
Proof.
  unfold sh_move_fallback. apply steady_bind; [apply steady_test|]. intros []; [|].
  - apply steady_bind; [intros x So; exact So|]. intros tg. apply steady_bind; [apply steady_symlink|]. intros []. apply steady_unlink.
  - apply steady_bind; [apply steady_test|]. intros []; [|apply steady_copy_file]. destruct (negb (clean_path a && clean_path r) || unnamed a); [apply steady_raise|].
    destruct (destinsrc a b); [apply steady_raise|]. intros x So. destruct (plook x true a) as [[p f|]|] eqn:La; auto. apply look_spot in La. cbn [spot_ok] in La.
    unfold copy_and_remove_tree. set (comps := filter _ _).
    destruct (parents_sound comps [] x So (so_root x So)) as [P1 P2].
    destruct (make_parents [] comps x) as [[q|] x'] eqn:M; cbn [snd] in *; auto. destruct (is_below p q) eqn:B; auto. cbn [snd].
    destruct (P2 q x' eq_refl) as (K & j & m & -> & Dj & Fq). apply is_below_false in B.
    assert (Hb : forall y, y <> [] -> pget ((j ++ [m]) ++ y) (p_tree x') = None).
    { intros y Ny. destruct (pget ((j ++ [m]) ++ y) (p_tree x')) eqn:E; auto. destruct (so_dir x' P1 (j ++ [m]) y Ny) as (? & ? & ?); congruence. }
    assert (Np : p <> []) by (intros ->; apply B; now exists (j ++ [m])).
    apply sound_rename; auto. intros [y ->]. apply K in La. destruct y as [|c y]; [rewrite app_nil_r in La; congruence|]. rewrite Hb in La; easy.
Qed.
Lemma steady_sh_move a b : steady (sh_move a b).
Proof.
  unfold sh_move. apply steady_bind; [apply steady_test|]. intros dd. apply steady_bind; [destruct dd; [apply steady_samefile|apply steady_ret]|]. intros same.
  apply steady_bind; [destruct same; [apply steady_test|apply steady_ret]|]. intros sl. destruct (same && negb sl); [apply steady_rename|].
  apply steady_bind; [destruct dd; [apply steady_test|apply steady_ret]|]. intros []; [apply steady_raise|].
  intros x So. set (r := if dd then _ else _). pose proof (steady_rename a r x So) as R. destruct (os_rename a r x) as [[[]|[]] x']; cbn [snd] in *; auto.
  now apply steady_fallback.
Qed.
Lemma steady_loc_move u v : steady (loc_move u v).
Proof.
  unfold loc_move. apply steady_bind; [apply steady_test|]. intros sd. apply steady_bind; [destruct sd; [apply steady_test|apply steady_ret]|]. intros dd.
  apply steady_bind; [destruct dd; [apply steady_lift|apply steady_ret]|]. intros d. apply steady_sh_move.
Qed.

(** *** The operations shared by all backends *)
Local Notation LB := loc_backend.
Lemma steady_mapM {A} (f : A -> M pst unit) l : (forall a, steady (f a)) -> steady (mapM_ f l).
Proof. intros H. induction l as [|a l IH]; cbn; [apply steady_ret|]. apply steady_bind; auto. Qed.
Lemma steady_foldM {A B} (f : B -> A -> M pst B) l : (forall b a, steady (f b a)) -> forall b, steady (foldM f b l).
Proof. intros H. induction l as [|a l IH]; intros b; cbn; [apply steady_ret|]. apply steady_bind; auto. Qed.
Lemma steady_listdir u : steady (loc_listdir u).
Proof. apply steady_bind; [intros x So; exact So|]. intros. apply steady_ret. Qed.
Lemma steady_removedir u : steady (loc_removedir u).
Proof. apply steady_bind; [apply steady_test|]. intros []; [apply steady_raise|apply steady_rmdir]. Qed.
Lemma steady_loc_mkdir u : steady (loc_mkdir u).
Proof. unfold loc_mkdir. destruct (u_path u); [apply steady_ret|apply steady_mkdir]. Qed.
Lemma steady_readlink u : steady (loc_readlink u).
Proof. apply steady_bind; [intros x So; exact So|]. intros. apply steady_lift. Qed.
Lemma steady_content u v : steady (loc_copy_content u v).
Proof.
  apply steady_bind; [apply steady_open_r|]. intros p. apply steady_bind; [apply steady_open_w|]. intros q.
  apply steady_bind; [apply steady_data|]. intros d. apply steady_append.
Qed.
Lemma steady_hooked {A} n u (m : M pst A) : steady m -> steady (hooked LB n u m).
Proof. intros H. apply steady_bind; [apply steady_ret|auto]. Qed.
Ltac steady_step :=
  match goal with
  | |- steady (bind _ _) => apply steady_bind; [|intros ?]
  | |- steady (ret _) => apply steady_ret
  | |- steady (raise _) => apply steady_raise
  | |- steady (lift _) => apply steady_lift
  | |- steady (hooked _ _ _ _) => apply steady_hooked
  | |- steady (mapM_ _ _) => apply steady_mapM; intros ?
  | |- steady (foldM _ _ _) => apply steady_foldM; intros ? ?
  | |- steady (b_hook _ _ _) => apply steady_ret
  | |- steady (b_exists _ _) => apply steady_test
  | |- steady (b_isfile _ _) => apply steady_test
  | |- steady (b_isdir _ _) => apply steady_test
  | |- steady (b_islink _ _) => apply steady_test
  | |- steady (u_exists _ _) => apply steady_hooked, steady_test
  | |- steady (u_isfile _ _) => apply steady_hooked, steady_test
  | |- steady (u_isdir _ _) => apply steady_hooked, steady_test
  | |- steady (u_islink _ _) => apply steady_hooked, steady_test
  | |- steady (b_listdir _ _) => apply steady_listdir
  | |- steady (b_removefile _ _) => apply steady_unlink
  | |- steady (b_removefile_by _ _ _) => apply steady_unlink
  | |- steady (b_removedir _ _) => apply steady_removedir
  | |- steady (b_mkdir _ _) => apply steady_loc_mkdir
  | |- steady (b_symlink _ _ _) => apply steady_symlink
  | |- steady (b_symlink_by _ _ _ _) => apply steady_symlink
  | |- steady (b_readlink _ _) => apply steady_readlink
  | |- steady (b_copystat _ _ _) => apply steady_copystat
  | |- steady (b_copy_content _ _ _) => apply steady_content
  | |- steady (if ?c then _ else _) => destruct c
  | |- steady (match ?c with _ => _ end) => destruct c
  end.
Lemma steady_makedirs fuel : forall u, steady (fs_makedirs LB fuel u).
Proof.
  induction fuel as [|fuel IH]; intros u; cbn [fs_makedirs]; [apply steady_raise|]. repeat (steady_step || apply IH || apply steady_hooked).
  
Qed.
Lemma steady_kinds top names : steady (kinds LB top names).
Proof. induction names as [|n names IH]; cbn [kinds]; repeat (steady_step || apply IH). Qed.
Lemma steady_walk {A} td fl (body : A -> uri -> list str -> list str -> M pst (A * list str)) :
  (forall a u d f, steady (body a u d f)) -> forall fuel a u, steady (walk_gen LB fuel td fl body a u).
Proof.
  intros H. induction fuel as [|fuel IH]; intros a u; cbn [walk_gen]; [apply steady_raise|].
  repeat (steady_step || apply IH || apply H || apply steady_kinds).
Qed.
Lemma steady_u_makedirs fuel u : steady (u_makedirs LB fuel u). Proof. apply steady_hooked, steady_makedirs. Qed.
Lemma steady_u_walk fuel td fl u : steady (u_walk LB fuel td fl u).
Proof. apply steady_hooked, steady_walk. intros. apply steady_ret. Qed.
Lemma steady_u_remove fuel rc u : steady (u_remove LB fuel rc u).
Proof.
  unfold u_remove, remove_dir_recursively. repeat (steady_step || (apply steady_walk; intros ? ? ? ?)).
Qed.
Lemma steady_copy_link u v : steady (copy_link LB u v). Proof. unfold copy_link. repeat steady_step. Qed.
Lemma steady_copy_entry fl sm u v : steady (copy_entry LB fl sm u v). Proof. unfold copy_entry. repeat (steady_step || apply steady_copy_link). Qed.
Lemma steady_u_copy fuel rc ig fl u v : steady (u_copy LB fuel rc ig fl u v).
Proof.
  unfold u_copy, fs_copy, copy_step.
  repeat (steady_step || apply steady_u_makedirs || apply steady_copy_entry || apply steady_copy_link || (apply steady_walk; intros ? ? ? ?)).
Qed.
Lemma steady_u_glob fn u p : steady (u_glob LB fn u p).
Proof. unfold u_glob, fs_glob, u_listdir. repeat steady_step. Qed.
