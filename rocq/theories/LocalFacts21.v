(** Making directories and copying entries in a local tree, whatever links there are elsewhere. *)
From Coq Require Import Lia Permutation Sorted.
From Verif Require Import Str Exc Utf8 UriParse BaseUri StrFacts UriFacts SpecUri UriFacts2 UriFacts3 UriFacts4 UriFacts5 UriFacts6.
From Verif Require Import Mem SpecMem MemFacts MemUri GenFacts1 GenFacts4 GenFacts8.
From Verif Require Import Generic SpecGen.
From Verif Require Import Misc Posix Local SpecLocal SpecLinks LocalFacts1 LocalFacts3 LocalFacts4 LocalFacts6 LocalFacts7 LocalFacts12 LocalFacts15 LocalFacts18 LocalFacts19 LocalFacts20.

Local Notation LB := loc_backend.
Local Notation joined := (join_with [cSlash]).

(** The entries [D] are now [F], nothing else has changed. *)
Record wrote (x y : pst) (D : list str -> Prop) (F : list str -> option pent) : Prop := {
  wr_sound : sound y;
  wr_new : forall q, D q -> pget q (p_tree y) = F q;
  wr_old : forall q, ~ D q -> pget q (p_tree y) = pget q (p_tree x);
  wr_rest : p_cwd y = p_cwd x /\ p_now y = p_now x /\ p_umask y = p_umask x }.
Lemma wr_refl x (D : list str -> Prop) F : sound x -> (forall q, ~ D q) -> wrote x x D F.
Proof. intros S N. split; auto. intros q H. now apply N in H. Qed.
Lemma wr_trans x y z D E G F : wrote x y D F -> wrote y z E F -> (forall q, D q -> ~ E q) -> (forall q, G q <-> D q \/ E q) -> wrote x z G F.
Proof.
  intros [S1 G1 K1 (R1 & R2 & R3)] [S2 G2 K2 (Q1 & Q2 & Q3)] Dj H. split; auto.
  - intros q Hq. apply H in Hq as [Hq|Hq]; auto. rewrite K2; auto.
  - intros q Hq. assert (~ D q /\ ~ E q) as [Nd Ne] by (rewrite H in Hq; tauto). now rewrite K2, K1.
  - split; [congruence|]. split; congruence.
Qed.
Lemma wr_over x y z D F G : wrote x y D F -> wrote y z D G -> wrote x z D G.
Proof.
  intros [S1 G1 K1 (R1 & R2 & R3)] [S2 G2 K2 (Q1 & Q2 & Q3)]. split; auto.
  - intros q Hq. now rewrite K2, K1.
  - split; [congruence|]. split; congruence.
Qed.
Lemma wr_iff x y D E F : wrote x y D F -> (forall q, D q <-> E q) -> wrote x y E F.
Proof. intros [S1 G1 K1 R1] H. split; auto; intros q Hq; [apply G1; now apply H|apply K1; now rewrite H]. Qed.
Lemma wr_ext x y D F G : wrote x y D F -> (forall q, D q -> F q = G q) -> wrote x y D G.
Proof. intros [S1 G1 K1 R1] H. split; auto. intros q Hq. rewrite <- H by auto. now apply G1. Qed.
Lemma wr_put x p e : sound x -> ~ is_dir_at x p \/ is_pdir e = true -> pget p (p_tree x) <> None \/ free_at x p ->
  wrote x (set_tree x (pset p e (p_tree x))) (eq p) (fun _ => Some e).
Proof.
  intros S A B. split; cbn [p_tree set_tree p_cwd p_now p_umask]; auto.
  - now apply sound_put.
  - intros q <-. now rewrite pget_pset, path_eqb_refl.
  - intros q N. rewrite pget_pset, path_eqb_neq; auto.
Qed.

Definition new_dir (x : pst) : pent := PDir (Z.land 511 (Z.lnot (p_umask x))) (p_now x).
Lemma mkdir_run x i n : sound x -> plain_path (i ++ [n]) -> is_dir_at x i -> pget (i ++ [n]) (p_tree x) = None ->
  exists y, loc_mkdir (file_uri (i ++ [n])) x = (Ok tt, y) /\ wrote x y (eq (i ++ [n])) (fun _ => Some (new_dir x)).
Proof.
  intros S P D E. unfold loc_mkdir. rewrite local_path by auto.
  destruct (abs_path (i ++ [n])) as [|c l] eqn:Ea; [destruct i; discriminate|]. rewrite <- Ea. rewrite mkdir_abs by apply P. unfold sys_mkdir.
  rewrite (look_gap x S false i n (pp_names _ P) D E). eexists. split; [reflexivity|]. apply wr_put; auto.
  right. split; auto. now exists i, n.
Qed.

(** Nothing is found below a missing name of a directory. *)
Lemma absent_dir x i n r : sound x -> plain_path (i ++ n :: r) -> is_dir_at x i -> pget (i ++ [n]) (p_tree x) = None -> is_dir_b x (i ++ n :: r) = false.
Proof.
  intros S P D E. unfold is_dir_b, tests. destruct r as [|m r].
  - now rewrite (look_gap x S true i n (pp_names _ P) D E).
  - now rewrite (look_void x S true i n m r (pp_names _ P) D E).
Qed.
Lemma u_isdir_run x p : plain_path p -> u_isdir LB (file_uri p) x = (Ok (is_dir_b x p), x).
Proof. intros P. unfold u_isdir, hooked. erewrite bind_ok by reflexivity. cbn [b_isdir LB]. now apply isdir_run. Qed.

Definition steps_of (j b q : list str) : Prop := exists b1 b2, b = b1 ++ b2 /\ b1 <> [] /\ q = j ++ b1.
Lemma makedirs_run x j b : sound x -> plain_path (j ++ b) -> is_dir_at x j -> (forall m b', b = m :: b' -> pget (j ++ [m]) (p_tree x) = None) ->
  forall fuel, (length b < fuel)%nat ->
  exists y, fs_makedirs LB fuel (file_uri (j ++ b)) x = (Ok tt, y) /\ wrote x y (steps_of j b) (fun _ => Some (new_dir x)).
Proof.
  intros S. induction b as [|n b IH] using rev_ind; intros P D N fuel L; (destruct fuel as [|fuel]; [lia|]); cbn [fs_makedirs].
  - rewrite app_nil_r in *. erewrite bind_ok by (now apply u_isdir_run). rewrite dir_dir_b by auto. exists x. split; [reflexivity|].
    apply wr_refl; auto. intros q (b1 & b2 & E & Nb & _). symmetry in E. apply app_eq_nil in E as [-> _]. easy.
  - assert (Pb : plain_path (j ++ b)) by (rewrite app_assoc in P; eapply plain_app, P).
    assert (Nm : forall m b', b = m :: b' -> pget (j ++ [m]) (p_tree x) = None) by (intros m b' ->; now apply (N m (b' ++ [n]))).
    erewrite bind_ok by (now apply u_isdir_run).
    assert (F : is_dir_b x (j ++ b ++ [n]) = false).
    { destruct b as [|m b]; [now apply absent_dir; auto; apply (N n [])|]. cbn [app] in *. apply absent_dir; auto. now apply (N m (b ++ [n])). }
    rewrite F. rewrite app_assoc. erewrite bind_ok by (apply lift_ok, file_split; rewrite <- app_assoc; apply P). cbn [fst snd].
    erewrite bind_ok by (now apply u_isdir_run).
    assert (X : exists y, (if is_dir_b x (j ++ b) then ret tt else fs_makedirs LB fuel (file_uri (j ++ b))) x = (Ok tt, y) /\ wrote x y (steps_of j b) (fun _ => Some (new_dir x))).
    { destruct b as [|m b].
      - rewrite app_nil_r in *. rewrite dir_dir_b by auto. exists x. split; [reflexivity|]. apply wr_refl; auto.
        intros q (b1 & b2 & E & Nb & _). symmetry in E. apply app_eq_nil in E as [-> _]. easy.
      - rewrite absent_dir; auto; [|now apply (Nm m b)]. apply IH; auto. rewrite app_length in L. cbn in *. lia. }
    destruct X as (y & Ey & Wy). erewrite bind_ok by exact Ey.
    assert (Nn : n <> []).
    { destruct P as [P _]. apply Forall_app in P as [_ P]. apply Forall_app in P as [_ P]. inversion P as [|? ? Pn _]; subst. apply (name_ne _ (pn_name _ Pn)). }
    destruct n as [|c n]; [easy|]. set (nn := c :: n) in *.
    assert (Dy : is_dir_at y (j ++ b)).
    { destruct b as [|m b].
      - rewrite app_nil_r. destruct D as (mo & mt & D). exists mo, mt. rewrite (wr_old _ _ _ _ Wy); auto.
        intros (b1 & b2 & E & Nb & _). symmetry in E. apply app_eq_nil in E as [-> _]. easy.
      - eexists _, _. rewrite (wr_new _ _ _ _ Wy); [reflexivity|]. exists (m :: b), []. rewrite app_nil_r. repeat split; easy. }
    assert (Gy : pget ((j ++ b) ++ [nn]) (p_tree y) = None).
    { rewrite (wr_old _ _ _ _ Wy).
      - destruct (pget ((j ++ b) ++ [nn]) (p_tree x)) as [e|] eqn:E; auto. exfalso. destruct b as [|m b].
        + rewrite app_nil_r in E. pose proof (eq_trans (eq_sym E) (N nn [] eq_refl)) as Z. discriminate Z.
        + assert (Z : is_dir_at x (j ++ [m])).
          { apply (so_dir x S _ (b ++ [nn])); [now destruct b|]. rewrite <- !app_assoc in *. cbn [app] in *. congruence. }
          destruct Z as (? & ? & Z). pose proof (eq_trans (eq_sym Z) (N m (b ++ [nn]) eq_refl)) as Z'. discriminate Z'.
      - intros (b1 & b2 & E & Nb & Z). rewrite <- app_assoc in Z. apply app_inv_head in Z. apply (f_equal (@length _)) in Z, E.
        rewrite !app_length in *. cbn in *. lia. }
    destruct (mkdir_run y (j ++ b) nn (wr_sound _ _ _ _ Wy)) as (z & Ez & Wz); auto.
    { rewrite <- app_assoc. exact P. }
    exists z. split.
    + unfold u_mkdir, hooked. erewrite bind_ok by reflexivity. exact Ez.
    + eapply (wr_trans x y z (steps_of j b) (eq ((j ++ b) ++ [nn]))); [exact Wy| |intros q Hq <-|].
      * eapply wr_ext; [exact Wz|]. intros q _. unfold new_dir. destruct (wr_rest _ _ _ _ Wy) as (_ & -> & ->). reflexivity.
      * destruct Hq as (b1 & b2 & E & Nb & Z). rewrite <- app_assoc in Z. apply app_inv_head in Z. apply (f_equal (@length _)) in Z, E.
        rewrite !app_length in *. cbn in *. lia.
      * intros q. split.
        -- intros (b1 & b2 & E & Nb & ->). destruct b2 as [|k b2 _] using rev_ind.
           ++ right. rewrite app_nil_r in E. subst b1. now rewrite app_assoc.
           ++ left. rewrite app_assoc in E. apply app_inj_tail in E as [-> _]. exists b1, b2. auto.
        -- intros [(b1 & b2 & -> & Nb & ->)|<-]; [exists b1, (b2 ++ [nn]); now rewrite app_assoc|].
           exists (b ++ [nn]), []. rewrite app_nil_r, <- app_assoc. repeat split. now destruct b.
Qed.

(** One file *)
Lemma perm_mode mo : perm (Z.lor 32768 mo) = perm mo.
Proof. unfold perm. rewrite Z.land_lor_distr_l. reflexivity. Qed.
Lemma copy_file_run x p i n d mo mt same : sound x -> plain_path p -> plain_path (i ++ [n]) -> pget p (p_tree x) = Some (PFile d mo mt) ->
  is_dir_at x i -> pget (i ++ [n]) (p_tree x) = None -> same = true ->
  exists y, copy_entry LB false same (file_uri p) (file_uri (i ++ [n])) x = (Ok tt, y) /\ wrote x y (eq (i ++ [n])) (fun _ => Some (PFile d (perm mo) mt)).
Proof.
  intros S Pp Pq E D N ->. set (q := i ++ [n]) in *. assert (Npq : p <> q) by congruence.
  unfold copy_entry. erewrite bind_ok. 2:{ unfold u_islink, hooked. erewrite bind_ok by reflexivity. eapply islink_run; eauto. } cbn [is_plink andb].
  cbn [b_copy_content b_copystat LB]. unfold loc_copy_content. rewrite !local_path by auto.
  assert (Fq : free_at x q) by (split; auto; now exists i, n).
  assert (Lp : forall f, plook x f (abs_path p) = Ok (At p (PFile d mo mt))) by (intros; apply look_at; auto; try discriminate; apply Pp).
  pose (x1 := set_tree x (pset q (new_pfile x) (p_tree x))).
  assert (W1 : wrote x x1 (eq q) (fun _ => Some (new_pfile x))).
  { apply wr_put; auto. left. intros (? & ? & Z). congruence. }
  assert (Wo : exists x2, fd_append q d x1 = (Ok tt, x2) /\ exists mo1 mt1, wrote x x2 (eq q) (fun _ => Some (PFile d mo1 mt1))).
  { unfold fd_append. pose proof (wr_new _ _ _ _ W1 q eq_refl) as E1. rewrite E1. unfold new_pfile at 1. destruct d as [|a d].
    - exists x1. split; auto. eexists _, _. exact W1.
    - eexists. split; [reflexivity|]. eexists _, _. eapply wr_over; [exact W1|].
      apply wr_put; [apply (wr_sound _ _ _ _ W1)|left|left; congruence]. intros (? & ? & Z). rewrite E1 in Z. discriminate. }
  destruct Wo as (x2 & Ea & mo1 & mt1 & W2).
  pose proof (wr_sound _ _ _ _ W2) as S2.
  assert (Ep2 : pget p (p_tree x2) = Some (PFile d mo mt)) by (rewrite (wr_old _ _ _ _ W2); auto).
  assert (Eq2 : pget q (p_tree x2) = Some (PFile d mo1 mt1)) by (now rewrite (wr_new _ _ _ _ W2)).
  eexists. split.
  - erewrite bind_ok.
    2:{ erewrite bind_ok by (unfold os_open_r; rewrite Lp; reflexivity).
        erewrite bind_ok. 2:{ rewrite open_w_abs by apply Pq. unfold sys_open_w. unfold q. rewrite (look_gap x S true i n (pp_names _ Pq) D N). fold q. fold x1. reflexivity. }
        erewrite bind_ok. 2:{ unfold fd_data. rewrite (wr_old _ _ _ _ W1) by auto. rewrite E. reflexivity. } exact Ea. }
    unfold loc_copystat. rewrite !local_path by auto. unfold sh_copystat.
    rewrite (look_at x2 S2 true p _ (pp_names _ Pp) Ep2) by discriminate.
    rewrite (look_at x2 S2 true q _ (pp_names _ Pq) Eq2) by discriminate. reflexivity.
  - eapply wr_over; [exact W2|]. cbn [with_stat st_mode st_mtime]. rewrite perm_mode.
    apply wr_put; auto; [left|left; congruence]. intros (? & ? & Z). congruence.
Qed.
(** One link *)
Lemma copy_link_run x p i n tq : sound x -> plain_path p -> plain_path (i ++ [n]) -> pget p (p_tree x) = Some (PLink (abs_path tq)) -> plain_path tq ->
  is_dir_at x i -> pget (i ++ [n]) (p_tree x) = None ->
  exists y, copy_link LB (file_uri p) (file_uri (i ++ [n])) x = (Ok tt, y) /\ wrote x y (eq (i ++ [n])) (fun _ => Some (PLink (abs_path tq))).
Proof.
  intros S Pp Pq E Pt D N. set (q := i ++ [n]) in *. unfold copy_link.
  cbn [b_islink b_isfile b_readlink b_symlink_by b_removefile_by LB].
  erewrite bind_ok by (eapply islink_run; eauto). cbn [is_plink negb].
  erewrite bind_ok. 2:{ unfold u_isfile, hooked. erewrite bind_ok by reflexivity. cbn [b_isfile LB]. unfold loc_isfile, path_isfile. rewrite local_path by auto.
    rewrite test_run. unfold tests, q. rewrite (look_gap x S true i n (pp_names _ Pq) D N). reflexivity. }
  cbv iota. erewrite bind_ok by reflexivity.
  erewrite bind_ok. 2:{ unfold loc_readlink. erewrite bind_ok. 2:{ unfold os_readlink. rewrite local_path by auto. rewrite (look_at x S false p _ (pp_names _ Pp) E) by auto. reflexivity. }
    apply lift_ok, path_uri, Pt. }
  unfold loc_symlink. rewrite !local_path by auto. rewrite symlink_abs by apply Pq. unfold sys_symlink. rewrite no_nul by apply Pt. unfold q. rewrite (look_gap x S false i n (pp_names _ Pq) D N). fold q.
  exists (set_tree x (pset q (PLink (abs_path tq)) (p_tree x))). split; [destruct (abs_path tq) eqn:Ea; [destruct tq; discriminate|reflexivity]|].
  apply wr_put; auto; [left; intros (? & ? & Z); congruence|]. right. split; auto. now exists i, n.
Qed.
