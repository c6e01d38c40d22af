(** Copying and moving links of the local file system, and directories with links in them. *)
From Coq Require Import Lia.
From Verif Require Import Str Exc Utf8 UriParse BaseUri StrFacts UriFacts SpecUri UriFacts2 UriFacts3 UriFacts4 UriFacts5 UriFacts6.
From Verif Require Import Mem SpecMem MemFacts MemFacts7 MemUri GenFacts1 GenFacts4 GenFacts8.
From Verif Require Import Generic SpecGen.
From Verif Require Import Misc Posix Local SpecLocal SpecLinks LocalFacts1 LocalFacts3 LocalFacts4 LocalFacts6 LocalFacts7 LocalFacts11 LocalFacts12 LocalFacts15 LocalFacts18 LocalFacts19 LocalFacts20 LocalFacts21 LocalFacts22.

Local Notation LB := loc_backend.

(** ** Lookups when entries are added *)
Lemma walk_grows t t' f : (forall q e, pget q t = Some e -> pget q t' = Some e) ->
  forall b cs cur q e, pwalk t f b cur cs = Ok (At q e) -> pwalk t' f b cur cs = Ok (At q e).
Proof.
  intros G. induction b as [|b IHb]; induction cs as [|c cs IHc]; intros cur q e H; cbn [pwalk] in *;
    (destruct (pget cur t) as [ce|] eqn:Ec; [|discriminate]; rewrite (G _ _ Ec); destruct ce as [|mo mt|]; try exact H);
    (destruct (str_eqb c [] || str_eqb c dot); [now apply IHc|]);
    (destruct (str_eqb c dotdot); [now apply IHc|]);
    (destruct (pget (cur ++ [c]) t) as [ne|] eqn:En; [|destruct cs; discriminate]; rewrite (G _ _ En); destruct ne as [| |tg]; try (now apply IHc));
    (destruct (match cs with [] => negb f | _ => false end); [exact H|]); try discriminate; destruct tg; try discriminate; now apply IHb.
Qed.
Lemma look_grows x y f p q e : (forall q e, pget q (p_tree x) = Some e -> pget q (p_tree y) = Some e) -> p_cwd y = p_cwd x ->
  plook x f p = Ok (At q e) -> plook y f p = Ok (At q e).
Proof.
  intros G C. unfold plook. destruct (has_char 0 p); [easy|]. destruct p as [|c p]; [easy|]. rewrite C. now apply walk_grows.
Qed.
Lemma walk_there t f : forall b cs cur q e, pwalk t f b cur cs = Ok (At q e) -> pget q t = Some e.
Proof.
  induction b as [|b IHb]; induction cs as [|c cs IHc]; intros cur q e H; cbn [pwalk] in *;
    (destruct (pget cur t) as [ce|] eqn:Ec; [|discriminate]; destruct ce as [|mo mt|]; try discriminate; try (injection H as <- <-; exact Ec));
    (destruct (str_eqb c [] || str_eqb c dot); [now apply IHc in H|]);
    (destruct (str_eqb c dotdot); [now apply IHc in H|]);
    (destruct (pget (cur ++ [c]) t) as [ne|] eqn:En; [|destruct cs; discriminate]; destruct ne as [| |tg]; try (now apply IHc in H));
    (destruct (match cs with [] => negb f | _ => false end); [injection H as <- <-; exact En|]); try discriminate; destruct tg; try discriminate; now apply IHb in H.
Qed.
Lemma look_there x f p q e : plook x f p = Ok (At q e) -> pget q (p_tree x) = Some e.
Proof. unfold plook. destruct (has_char 0 p); [easy|]. destruct p as [|c p]; [easy|]. apply walk_there. Qed.

(** ** One file, read through links *)
Lemma copy_follow_run x p t i n d mo mt : sound x -> plain_path p -> plain_path (i ++ [n]) -> plook x true (abs_path p) = Ok (At t (PFile d mo mt)) ->
  is_dir_at x i -> pget (i ++ [n]) (p_tree x) = None ->
  exists y, copy_entry LB true true (file_uri p) (file_uri (i ++ [n])) x = (Ok tt, y) /\ wrote x y (eq (i ++ [n])) (fun _ => Some (PFile d (perm mo) mt)).
Proof.
  intros S Pp Pq E D N. set (q := i ++ [n]) in *. pose proof (look_there _ _ _ _ _ E) as Et. assert (Ntq : t <> q) by congruence.
  unfold copy_entry. erewrite bind_ok. 2:{ unfold u_islink, hooked. erewrite bind_ok by reflexivity. cbn [b_islink LB]. unfold loc_islink, path_islink. apply test_run. }
  rewrite andb_false_r.
  cbn [b_copy_content b_copystat LB]. unfold loc_copy_content. rewrite !local_path by auto.
  assert (Fq : free_at x q) by (split; auto; now exists i, n).
  pose (x1 := set_tree x (pset q (new_pfile x) (p_tree x))).
  assert (W1 : wrote x x1 (eq q) (fun _ => Some (new_pfile x))).
  { apply wr_put; auto. left. intros (? & ? & Z). congruence. }
  assert (Wo : exists x2, fd_append q d x1 = (Ok tt, x2) /\ exists mo1 mt1, wrote x x2 (eq q) (fun _ => Some (PFile d mo1 mt1))).
  { unfold fd_append. pose proof (wr_new _ _ _ _ W1 q eq_refl) as E1. rewrite E1. unfold new_pfile at 1. destruct d as [|a d].
    - exists x1. split; auto. eexists _, _. exact W1.
    - eexists. split; [reflexivity|]. eexists _, _. eapply wr_over; [exact W1|].
      apply wr_put; [apply (wr_sound _ _ _ _ W1)|left|left; congruence]. intros (? & ? & Z). rewrite E1 in Z. discriminate. }
  destruct Wo as (x2 & Ea & mo1 & mt1 & W2).
  pose proof (wr_sound _ _ _ _ W2) as S2.
  assert (Ep2 : plook x2 true (abs_path p) = Ok (At t (PFile d mo mt))).
  { eapply look_grows; [|apply (wr_rest _ _ _ _ W2)|exact E]. intros q' e' H. rewrite (wr_old _ _ _ _ W2); auto. congruence. }
  assert (Eq2 : pget q (p_tree x2) = Some (PFile d mo1 mt1)) by (now rewrite (wr_new _ _ _ _ W2)).
  eexists. split.
  - erewrite bind_ok.
    2:{ erewrite bind_ok by (unfold os_open_r; rewrite E; reflexivity).
        erewrite bind_ok. 2:{ rewrite open_w_abs by apply Pq. unfold sys_open_w. unfold q. rewrite (look_gap x S true i n (pp_names _ Pq) D N). fold q. fold x1. reflexivity. }
        erewrite bind_ok. 2:{ unfold fd_data. rewrite (wr_old _ _ _ _ W1) by auto. rewrite Et. reflexivity. } exact Ea. }
    unfold loc_copystat. rewrite !local_path by auto. unfold sh_copystat. rewrite Ep2.
    rewrite (look_at x2 S2 true q _ (pp_names _ Pq) Eq2) by discriminate. reflexivity.
  - eapply wr_over; [exact W2|]. cbn [with_stat st_mode st_mtime]. rewrite perm_mode.
    apply wr_put; auto; [left|left; congruence]. intros (? & ? & Z). congruence.
Qed.

(** ** The start of every copy *)
Lemma dest_run x i n q j b : sound x -> plain_path (i ++ [n]) -> plain_path q -> plain_path (j ++ b) -> goes_to x n q (j ++ b) -> b <> [] -> is_dir_at x j ->
  (forall m b', b = m :: b' -> pget (j ++ [m]) (p_tree x) = None) ->
  exists dd, u_isdir LB (file_uri q) x = (Ok dd, x) /\
    (if dd then lift (u_div (file_uri q) (u_last (file_uri (i ++ [n])))) else ret (file_uri q)) x = (Ok (file_uri (j ++ b)), x).
Proof.
  intros S Pp Pq Pd G Nb Dj Hn. exists (is_dir_b x q). split; [now apply u_isdir_run|].
  destruct G as [[D E]|[D E]].
  - rewrite dir_dir_b by auto. rewrite file_last. 2:{ destruct Pp as [Z _]. apply Forall_app in Z as [_ Z]. inversion Z; subst. now apply pn_name. }
    rewrite E in *. apply lift_ok. now apply file_div'.
  - rewrite E in *. destruct b as [|m b]; [easy|]. rewrite <- E in *. rewrite (absent_dir x j m b) in * by eauto. reflexivity.
Qed.
Lemma exists_run x p q e : plain_path p -> plook x true (abs_path p) = Ok (At q e) -> u_exists LB (file_uri p) x = (Ok true, x).
Proof.
  intros P H. unfold u_exists, hooked. erewrite bind_ok by reflexivity. cbn [b_exists LB]. unfold loc_exists, path_exists.
  rewrite local_path, test_run by auto. unfold tests. now rewrite H.
Qed.
Lemma isfile_run x p q e : plain_path p -> plook x true (abs_path p) = Ok (At q e) -> u_isfile LB (file_uri p) x = (Ok (is_pfile e), x).
Proof.
  intros P H. unfold u_isfile, hooked. erewrite bind_ok by reflexivity. cbn [b_isfile LB]. unfold loc_isfile, path_isfile.
  rewrite local_path, test_run by auto. unfold tests. now rewrite H.
Qed.
Lemma isdir_at_run x p q e : plain_path p -> plook x true (abs_path p) = Ok (At q e) -> u_isdir LB (file_uri p) x = (Ok (is_pdir e), x).
Proof.
  intros P H. rewrite u_isdir_run by auto. unfold is_dir_b, tests. now rewrite H.
Qed.
Lemma u_islink_run x p e : sound x -> plain_path p -> pget p (p_tree x) = Some e -> u_islink LB (file_uri p) x = (Ok (is_plink e), x).
Proof. intros. unfold u_islink, hooked. erewrite bind_ok by reflexivity. now apply islink_run. Qed.
Lemma same_scheme p q : opt_eqb (u_scheme (file_uri p)) (u_scheme (file_uri q)) = true.
Proof. reflexivity. Qed.
Lemma free_one x j m : free_at x (j ++ [m]) -> is_dir_at x j /\ (forall m' b', [m] = m' :: b' -> pget (j ++ [m']) (p_tree x) = None).
Proof.
  intros (N & j' & m' & E & D). apply app_inj_tail in E as [<- <-]. split; auto. intros ? ? Z. now injection Z as <- <-.
Qed.

(** ** copy(recursive=False) *)
Section One.
Variables (x : pst) (i : list str) (n : str) (q j : list str) (m : str) (fuel : nat).
Hypothesis S : sound x.
Hypothesis Pp : plain_path (i ++ [n]).
Hypothesis Pq : plain_path q.
Hypothesis Pd : plain_path (j ++ [m]).
Hypothesis G : goes_to x n q (j ++ [m]).
Hypothesis Fr : free_at x (j ++ [m]).
Lemma copy_one_start follow t d mo mt : plook x true (abs_path (i ++ [n])) = Ok (At t (PFile d mo mt)) ->
  u_copy LB fuel false [] follow (file_uri (i ++ [n])) (file_uri q) x = copy_entry LB follow true (file_uri (i ++ [n])) (file_uri (j ++ [m])) x.
Proof.
  intros E. destruct (free_one x j m Fr) as [Dj Hn].
  destruct (dest_run x i n q j [m]) as (dd & E1 & E2); auto; [easy|].
  unfold u_copy, hooked. erewrite bind_ok by reflexivity. unfold fs_copy. rewrite same_scheme.
  erewrite bind_ok by (now eapply exists_run; eauto). cbn [negb].
  erewrite bind_ok by (now eapply isfile_run; eauto). cbn [is_pfile negb].
  erewrite bind_ok by exact E1. erewrite bind_ok by exact E2. reflexivity.
Qed.
Lemma copy_one_follow t d mo mt : plook x true (abs_path (i ++ [n])) = Ok (At t (PFile d mo mt)) ->
  exists y, u_copy LB fuel false [] true (file_uri (i ++ [n])) (file_uri q) x = (Ok tt, y) /\ wrote x y (eq (j ++ [m])) (fun _ => Some (PFile d (perm mo) mt)).
Proof.
  intros E. destruct (free_one x j m Fr) as [Dj Hn]. erewrite copy_one_start by exact E. eapply copy_follow_run; eauto.
Qed.
Lemma copy_one_link tq t d mo mt : pget (i ++ [n]) (p_tree x) = Some (PLink (abs_path tq)) -> plain_path tq -> plook x true (abs_path (i ++ [n])) = Ok (At t (PFile d mo mt)) ->
  exists y, u_copy LB fuel false [] false (file_uri (i ++ [n])) (file_uri q) x = (Ok tt, y) /\ wrote x y (eq (j ++ [m])) (fun _ => Some (PLink (abs_path tq))).
Proof.
  intros El Pt E. destruct (free_one x j m Fr) as [Dj Hn]. erewrite copy_one_start by exact E. unfold copy_entry.
  erewrite bind_ok by (now eapply u_islink_run; eauto). cbn [is_plink negb andb]. eapply copy_link_run; eauto.
Qed.
(** A link to a directory, copied as a link *)
Lemma copy_dir_link tq t mo mt : pget (i ++ [n]) (p_tree x) = Some (PLink (abs_path tq)) -> plain_path tq -> plook x true (abs_path (i ++ [n])) = Ok (At t (PDir mo mt)) ->
  exists y, u_copy LB fuel true [] false (file_uri (i ++ [n])) (file_uri q) x = (Ok tt, y) /\ wrote x y (eq (j ++ [m])) (fun _ => Some (PLink (abs_path tq))).
Proof.
  intros El Pt E. destruct (free_one x j m Fr) as [Dj Hn].
  destruct (dest_run x i n q j [m]) as (dd & E1 & E2); auto; [easy|].
  unfold u_copy, hooked. erewrite bind_ok by reflexivity. unfold fs_copy. rewrite same_scheme.
  erewrite bind_ok by (now eapply exists_run; eauto). cbn [negb].
  erewrite bind_ok by (now eapply isdir_at_run; eauto). cbn [is_pdir negb].
  erewrite bind_ok by exact E1. erewrite bind_ok by exact E2.
  erewrite bind_ok by (now eapply u_islink_run; eauto). cbn [is_plink negb andb]. eapply copy_link_run; eauto.
Qed.
End One.

(** ** copy(recursive=True) of a real directory, links kept *)
Lemma copy_tree_run x i n q j b fuel : sound x -> plain_path (i ++ [n]) -> plain_path q -> plain_path (j ++ b) ->
  is_dir_at x (i ++ [n]) -> goes_to x n q (j ++ b) -> b <> [] -> is_dir_at x j -> (forall m b', b = m :: b' -> pget (j ++ [m]) (p_tree x) = None) ->
  ~ below (i ++ [n]) j ->
  (forall r, pget ((i ++ [n]) ++ r) (p_tree x) <> None -> plain_path ((i ++ [n]) ++ r) /\ Forall unpadded r) ->
  (forall r tg, pget ((i ++ [n]) ++ r) (p_tree x) = Some (PLink tg) -> exists tq, tg = abs_path tq /\ plain_path tq) ->
  (length (p_tree x) <= fuel)%nat -> (length b < fuel)%nat ->
  exists y, u_copy LB fuel true [] false (file_uri (i ++ [n])) (file_uri q) x = (Ok tt, y) /\ sound y /\
    (forall b1 b2, b = b1 ++ b2 -> b1 <> [] -> pget (j ++ b1) (p_tree y) = Some (new_dir x)) /\
    (forall z, z <> [] -> pget ((j ++ b) ++ z) (p_tree y) = option_map (dup x) (pget ((i ++ [n]) ++ z) (p_tree x))) /\
    (forall z, (forall b1 b2, b = b1 ++ b2 -> b1 <> [] -> z <> j ++ b1) -> ~ below (j ++ b) z -> pget z (p_tree y) = pget z (p_tree x)) /\
    p_cwd y = p_cwd x /\ p_now y = p_now x /\ p_umask y = p_umask x.
Proof.
  intros S Pp Pq Pd D G Nb Dj Hn Ap Hs Hl Hf Hb.
  set (p := i ++ [n]) in *.
  assert (Gone : forall r, r <> [] -> (exists m b', b = m :: b' /\ exists w, r = m :: w) -> pget (j ++ r) (p_tree x) = None).
  { intros r Nr (m & b' & -> & w & ->). destruct (pget (j ++ m :: w) (p_tree x)) eqn:E; auto. exfalso.
    specialize (Hn m b' eq_refl). destruct w as [|c w]; [congruence|].
    destruct (so_dir x S (j ++ [m]) (c :: w)) as (? & ? & Z); [easy|rewrite <- app_assoc; cbn; congruence|congruence]. }
  assert (Ap2 : ~ below p (j ++ b)).
  { intros [r Er]. destruct (Nat.le_gt_cases (length p) (length j)) as [L|L].
    - apply Ap. exists (firstn (length j - length p) r). apply (f_equal (firstn (length j))) in Er.
      rewrite firstn_app, firstn_all, Nat.sub_diag, firstn_O, app_nil_r in Er. rewrite firstn_app in Er.
      now rewrite (firstn_all2 p L) in Er.
    - assert (Ep : exists w, p = j ++ w /\ w <> []).
      { exists (skipn (length j) p). apply (f_equal (firstn (length j))) in Er as Er'.
        rewrite firstn_app, firstn_all, Nat.sub_diag, firstn_O, app_nil_r, firstn_app in Er'.
        replace (length j - length p)%nat with 0%nat in Er' by lia. rewrite firstn_O, app_nil_r in Er'. split.
        - rewrite Er' at 1. now rewrite firstn_skipn.
        - intros Z. apply (f_equal (@length _)) in Z. rewrite skipn_length in Z. cbn in Z. lia. }
      destruct Ep as (w & Ew & Nw). rewrite Ew, <- app_assoc in Er. apply app_inv_head in Er.
      destruct D as (mo & mt & D). rewrite Ew, Gone in D; [discriminate|exact Nw|].
      destruct b as [|m b]; [easy|]. destruct w as [|c w]; [easy|]. injection Er as -> _. eauto 6. }
  assert (Ap3 : ~ below (j ++ b) p).
  { intros [r Er]. destruct D as (mo & mt & D). rewrite Er, <- app_assoc, Gone in D; [discriminate|now destruct b|].
    destruct b as [|m b]; [easy|]. exists m, b. split; auto. now exists (b ++ r). }
  assert (Np : p <> []) by (unfold p; now destruct i).
  assert (Ndst : j ++ b <> []) by (intros Z; apply app_eq_nil in Z; tauto).
  pose proof D as (dmo & dmt & D').
  assert (Lp : plook x true (abs_path p) = Ok (At p (PDir dmo dmt))) by (apply look_at; auto; apply Pp).
  destruct (dest_run x i n q j b) as (dd & E1 & E2); auto. fold p in E2.
  destruct (makedirs_run x j b S Pd Dj Hn fuel Hb) as (x1 & Em & W1).
  assert (Un : u_copy LB fuel true [] false (file_uri p) (file_uri q) x =
    walk_gen LB fuel true false (body p (j ++ b) fuel) tt (file_uri p) x1).
  { unfold u_copy, hooked. erewrite bind_ok by reflexivity. unfold fs_copy. rewrite same_scheme.
    erewrite bind_ok by (now eapply exists_run; eauto). cbn [negb].
    erewrite bind_ok by (now eapply isdir_at_run; eauto). cbn [is_pdir negb].
    erewrite bind_ok by exact E1. erewrite bind_ok by exact E2.
    erewrite bind_ok by (now eapply u_islink_run; eauto). cbn [is_plink andb].
    erewrite bind_ok by (unfold u_makedirs, hooked; erewrite bind_ok by reflexivity; exact Em).
    erewrite bind_ok by reflexivity. reflexivity. }
  assert (Src : forall r, pget (p ++ r) (p_tree x1) = pget (p ++ r) (p_tree x)).
  { intros r. apply (wr_old _ _ _ _ W1). intros (b1 & b2 & -> & _ & Z). apply Ap2. exists (r ++ b2). now rewrite !app_assoc, Z. }
  pose proof (wr_sound _ _ _ _ W1) as S1. pose proof (wr_rest _ _ _ _ W1) as (C1 & C2 & C3).
  assert (Nd : new_dir x1 = new_dir x) by (unfold new_dir; now rewrite C2, C3).
  assert (Du : forall e, dup x1 e = dup x e) by (intros []; cbn; auto).
  destruct (copy_below x1 S1 p (j ++ b) fuel Np Ndst Pp Pd) with (fuel := fuel) (x := x1) (r := @nil str) as (y & Ey & W2); rewrite ?app_nil_r; auto.
  { intros r. rewrite Src. apply Hs. }
  { intros r tg. rewrite Src. apply Hl. }
  { destruct b; [easy|]. cbn in Hb. lia. }
  { constructor; auto. }
  { specialize (Src []). rewrite app_nil_r in Src. exists dmo, dmt. now rewrite Src. }
  { eexists _, _. rewrite (wr_new _ _ _ _ W1); [reflexivity|]. exists b, []. now rewrite app_nil_r. }
  { intros z Nz. rewrite (wr_old _ _ _ _ W1).
    - rewrite <- app_assoc. apply Gone; [now destruct b|]. destruct b as [|m b]; [easy|]. exists m, b. split; auto. now exists (b ++ z).
    - intros (b1 & b2 & Eb & _ & Z). rewrite <- app_assoc in Z. apply app_inv_head in Z. apply (f_equal (@length _)) in Z, Eb. rewrite !app_length in *.
      destruct z; [easy|]. cbn in Z. lia. }
  { intros z Hz. rewrite Src in Hz. apply deep in Hz; auto. lia. }
  exists y. rewrite app_nil_r in Ey. split; [now rewrite Un|]. pose proof (wr_rest _ _ _ _ W2) as (C4 & C5 & C6).
  split; [apply (wr_sound _ _ _ _ W2)|]. split; [|split; [|split; [|split; [|split]]]]; try congruence.
  - intros b1 b2 Eb Nb1. rewrite (wr_old _ _ _ _ W2).
    + apply (wr_new _ _ _ _ W1). now exists b1, b2.
    + intros (z & Nz & Z). rewrite app_nil_r, <- app_assoc in Z. apply app_inv_head in Z. apply (f_equal (@length _)) in Z, Eb. rewrite !app_length in *.
      destruct z; [easy|]. cbn in Z. lia.
  - intros z Nz. rewrite (wr_new _ _ _ _ W2) by (exists z; now rewrite app_nil_r). rewrite F_at, Src. destruct (pget (p ++ z) (p_tree x)) as [e|]; cbn; [now rewrite Du|auto].
  - intros z Z1 Z2. rewrite (wr_old _ _ _ _ W2).
    + apply (wr_old _ _ _ _ W1). intros (b1 & b2 & Eb & Nb1 & Z). now apply (Z1 b1 b2).
    + intros (w & _ & Z). apply Z2. exists w. now rewrite app_nil_r in Z.
Qed.

(** A link copied onto a file, which it replaces *)
Lemma copy_link_over x i n q tq t d mo mt fuel : sound x -> plain_path (i ++ [n]) -> plain_path q -> is_file_at x q ->
  pget (i ++ [n]) (p_tree x) = Some (PLink (abs_path tq)) -> plain_path tq -> plook x true (abs_path (i ++ [n])) = Ok (At t (PFile d mo mt)) ->
  exists y, u_copy LB fuel false [] false (file_uri (i ++ [n])) (file_uri q) x = (Ok tt, y) /\ wrote x y (eq q) (fun _ => Some (PLink (abs_path tq))).
Proof.
  intros S Pp Pq (d' & mo' & mt' & Eq) El Pt E.
  assert (Npq : i ++ [n] <> q) by congruence.
  assert (Lq : plook x true (abs_path q) = Ok (At q (PFile d' mo' mt'))) by (apply look_at; auto; apply Pq).
  destruct (unlink_run x q _ S Pq Eq eq_refl) as (x1 & Eu & Cl). pose proof (cl_sound _ _ _ Cl) as S1.
  assert (Ep1 : pget (i ++ [n]) (p_tree x1) = Some (PLink (abs_path tq))) by (rewrite (cl_kept _ _ _ Cl); auto).
  assert (Eq1 : pget q (p_tree x1) = None) by (now apply (cl_gone _ _ _ Cl)).
  destruct (snoc_cases q) as [Z|(j & m & Z)]; [subst q; destruct (so_root x S) as (? & ? & R); congruence|].
  assert (Dj : is_dir_at x j) by (apply (so_dir x S j [m]); [easy|rewrite <- Z; congruence]).
  assert (Dj1 : is_dir_at x1 j).
  { destruct Dj as (a & b & Dj). exists a, b. rewrite (cl_kept _ _ _ Cl); auto. intros ->. congruence. }
  exists (set_tree x1 (pset q (PLink (abs_path tq)) (p_tree x1))). split.
  - unfold u_copy, hooked. erewrite bind_ok by reflexivity. unfold fs_copy. rewrite same_scheme.
    erewrite bind_ok by (now eapply exists_run; eauto). cbn [negb].
    erewrite bind_ok by (now eapply isfile_run; eauto). cbn [is_pfile negb].
    erewrite bind_ok by (now eapply isdir_at_run; eauto). cbn [is_pdir].
    erewrite bind_ok by reflexivity. unfold copy_entry.
    erewrite bind_ok by (now eapply u_islink_run; eauto). cbn [is_plink negb andb]. unfold copy_link.
    cbn [b_islink b_readlink b_symlink_by b_removefile_by LB].
    erewrite bind_ok by (eapply islink_run; eauto). cbn [is_plink negb].
    erewrite bind_ok by (now eapply isfile_run; eauto). cbn [is_pfile].
    erewrite bind_ok by exact Eu.
    erewrite bind_ok. 2:{ unfold loc_readlink. erewrite bind_ok. 2:{ unfold os_readlink. rewrite local_path by auto. rewrite (look_at x1 S1 false _ _ (pp_names _ Pp) Ep1) by auto. reflexivity. }
      apply lift_ok, path_uri, Pt. }
    unfold loc_symlink. rewrite !local_path by auto. rewrite symlink_abs by apply Pq. unfold sys_symlink. rewrite no_nul by apply Pt. rewrite Z in *.
    rewrite (look_gap x1 S1 false j m (pp_names _ Pq) Dj1 Eq1). destruct (abs_path tq) eqn:Ea; [destruct tq; discriminate|reflexivity].
  - assert (W1 : wrote x1 (set_tree x1 (pset q (PLink (abs_path tq)) (p_tree x1))) (eq q) (fun _ => Some (PLink (abs_path tq)))).
    { apply wr_put; auto; [left; intros (? & ? & Z'); congruence|]. right. split; auto. now exists j, m. }
    split; [apply (wr_sound _ _ _ _ W1)|apply (wr_new _ _ _ _ W1)| |].
    + intros r Hr. rewrite (wr_old _ _ _ _ W1) by auto. now apply (cl_kept _ _ _ Cl).
    + pose proof (wr_rest _ _ _ _ W1) as (A1 & A2 & A3). pose proof (cl_rest _ _ _ Cl) as (B1 & B2 & B3). repeat split; congruence.
Qed.

(** ** move of a link *)
Section Move.
Variables (x : pst) (i : list str) (n : str) (q : list str) (tg : str).
Local Notation p := (i ++ [n]).
Local Notation T := (p_tree x).
Hypothesis So : sound x.
Hypothesis Gp : plain_path p.
Hypothesis Gq : plain_path q.
Hypothesis He : pget p T = Some (PLink tg).
Let Np : p <> [].
Proof. now destruct i. Qed.
Lemma no_child r : r <> [] -> pget (p ++ r) T = None.
Proof.
  intros Nr. destruct (pget (p ++ r) T) as [e0|] eqn:E; auto. destruct (so_dir x So p r) as (? & ? & D); congruence.
Qed.
Lemma rename_link q' : Forall plain_name q' -> p <> q' -> free_at x q' \/ is_file_at x q' ->
  os_rename (abs_path p) (abs_path q') x = (Ok tt, set_tree x (prename p q' T)) /\ relocated x (set_tree x (prename p q' T)) p q'.
Proof.
  intros P' Npq F.
  assert (Nd : ~ is_dir_at x q') by (destruct F as [(E & _)|(? & ? & ? & E)]; intros (? & ? & Z); congruence).
  assert (Bp : ~ below p q').
  { intros [r Er]. destruct r as [|c r]; [rewrite app_nil_r in Er; congruence|]. destruct F as [(E & j & m & Ej & D)|(? & ? & ? & E)].
    - destruct (snoc_cases (c :: r)) as [|(r' & c' & Er')]; [easy|]. rewrite Er', app_assoc, Ej in Er. apply app_inj_tail in Er as [-> _].
      destruct D as (mo & mt & D). destruct r' as [|c2 r2]; [rewrite app_nil_r in D; congruence|]. rewrite no_child in D; easy.
    - rewrite Er, no_child in E; easy. }
  assert (Bq : ~ below q' p).
  { intros [r Er]. destruct r as [|c r]; [rewrite app_nil_r in Er; congruence|].
    apply Nd. apply (so_dir x So q' (c :: r)); [easy|rewrite <- Er; congruence]. }
  assert (Hb : forall r, r <> [] -> pget (q' ++ r) T = None) by (intros r Nr; now apply LocalFacts7.nothing_below).
  split.
  - destruct F as [(E & j & m & Ej & D)|(d & mo & mt & E)].
    + subst q'. rewrite rename_abs by (auto; try apply snoc_ne; apply Gp). rewrite (look_at x So false p _ (pp_names _ Gp) He) by auto. rewrite (look_gap x So false j m P' D E).
      unfold sys_rename. now rewrite (nonempty_match p) by exact Np.
    + assert (Nq : q' <> []) by (intros ->; destruct (so_root _ So) as (? & ? & R); congruence).
      rewrite rename_abs by (auto; apply Gp). rewrite (look_at x So false p _ (pp_names _ Gp) He) by auto.
      rewrite (look_at x So false q' _ P' E) by discriminate. unfold sys_rename. rewrite (nonempty_match p) by exact Np. rewrite (nonempty_match q') by exact Nq.
      rewrite (path_eqb_neq _ _ Npq). cbn [is_pdir andb]. apply is_below_false in Bq. now rewrite Bq.
  - destruct (prename_get T p q' (so_nodup _ So) Bp Bq Hb) as (H1 & H2 & H3). split; [|split]; auto.
Qed.
Lemma not_dir_b q' : Forall plain_name q' -> free_at x q' \/ is_file_at x q' -> path_isdir (abs_path q') x = (Ok false, x).
Proof.
  intros P' F. unfold path_isdir. rewrite test_run. unfold tests. destruct F as [(E & j & m & -> & D)|(d & mo & mt & E)].
  - now rewrite (look_gap x So true j m P' D E).
  - now rewrite (look_at x So true q' _ P' E).
Qed.
(** To a free name, or onto a file *)
Lemma move_link_to : free_at x q \/ is_file_at x q -> exists x', loc_move (file_uri p) (file_uri q) x = (Ok tt, x') /\ relocated x x' p q.
Proof.
  intros F. assert (Npq : p <> q) by (destruct F as [(E & _)|(? & ? & ? & E)]; congruence).
  destruct (rename_link q (pp_names _ Gq) Npq F) as [R Re]. eexists. split; [|exact Re].
  pose proof (not_dir_b q (pp_names _ Gq) F) as Nd.
  unfold loc_move, loc_isdir. rewrite !local_path by auto. erewrite bind_ok by (unfold path_isdir; apply test_run).
  assert (E : (if tests x true is_pdir (abs_path p) then path_isdir (abs_path q) else ret false) x = (Ok false, x)) by (destruct (tests x true is_pdir (abs_path p)); auto).
  erewrite bind_ok by exact E. erewrite bind_ok by reflexivity. rewrite local_path by auto. now apply sh_move_plain.
Qed.
(** Into a directory *)
Lemma move_link_into : is_dir_at x q -> plain_path (q ++ [n]) -> pget (q ++ [n]) T = None -> exists x', loc_move (file_uri p) (file_uri q) x = (Ok tt, x') /\ relocated x x' p (q ++ [n]).
Proof.
  intros D Pn F. assert (Fr : free_at x (q ++ [n])) by (split; auto; now exists q, n).
  assert (Npq : p <> q ++ [n]) by congruence.
  destruct (rename_link (q ++ [n]) (pp_names _ Pn) Npq (or_introl Fr)) as [R Re]. eexists. split; [|exact Re].
  pose proof D as (mo & mt & D'). pose proof (look_at x So true q _ (pp_names _ Gq) D') as Lq.
  assert (Dq : path_isdir (abs_path q) x = (Ok true, x)) by (unfold path_isdir; rewrite test_run; unfold tests; now rewrite Lq).
  unfold loc_move, loc_isdir. rewrite !local_path by auto. erewrite bind_ok by (unfold path_isdir; apply test_run).
  destruct (tests x true is_pdir (abs_path p)) eqn:Et.
  - erewrite bind_ok by exact Dq.
    assert (B : (rlet b <- u_basename (file_uri p); u_div (file_uri q) b) = Ok (file_uri (q ++ [n]))) by (rewrite file_basename by apply Gp; now apply file_div').
    erewrite bind_ok by (apply lift_ok, B). rewrite local_path by auto. apply sh_move_plain; auto. apply not_dir_b; auto. apply Pn.
  - erewrite bind_ok by reflexivity. erewrite bind_ok by reflexivity. rewrite local_path by auto. unfold sh_move. erewrite bind_ok by exact Dq.
    assert (Sf : samefile (abs_path p) (abs_path q) x = (Ok false, x)).
    { unfold samefile. rewrite !no_nul by (apply Gp || apply Gq). cbn [orb]. rewrite Lq by discriminate. destruct (plook x true (abs_path p)) as [[a e|]|] eqn:Lp; auto. destruct (path_eqb a q) eqn:Ea; auto. exfalso.
      assert (a = q) by (destruct (list_eq_dec (list_eq_dec N.eq_dec) a q); auto; rewrite path_eqb_neq in Ea; easy). subst a.
      apply look_there in Lp as Lt. rewrite D' in Lt. injection Lt as <-. unfold tests in Et. now rewrite Lp in Et. }
    erewrite bind_ok by exact Sf. unfold bind at 1, ret at 1. cbn [andb].
    assert (Nn : name_ok n) by (destruct Gp as [Z _]; apply Forall_app in Z as [_ Z]; inversion Z; subst; now apply pn_name).
    rewrite basename_abs by exact Nn. rewrite join_abs by (apply plain_names, Gq).
    erewrite bind_ok by (apply tested_free; auto; apply Pn). cbv iota beta. now rewrite R.
Qed.
End Move.
