(** Moves of local directories that fail, and those that create directories. *)
From Coq Require Import Lia.
From Verif Require Import Str Exc Utf8 UriParse BaseUri StrFacts UriFacts SpecUri UriFacts2 UriFacts3 UriFacts4 UriFacts5 UriFacts6.
From Verif Require Import Mem SpecMem MemFacts MemFacts2 MemFacts3 MemFacts4 MemFacts5 MemFacts6 MemFacts7 MemFacts8 MemFacts9 MemFacts10 MemFacts11 MemUri.
From Verif Require Import Generic SpecGen GenFacts1 GenFacts2 GenFacts3 GenFacts6 GenFacts8.
From Verif Require Import Misc Posix Local SpecLocal LocalFacts1 LocalFacts2 LocalFacts3 LocalFacts6 LocalFacts7.

Lemma known_test x g q : sound x -> Forall plain_name q -> known x q ->
  exists b, os_test true g (abs_path q) x = (Ok b, x) /\ (b = true -> exists f, pget q (p_tree x) = Some f /\ is_plink f = false /\ g f = true) /\
            (b = false -> forall f, pget q (p_tree x) = Some f -> g f = false).
Proof.
  intros So P [(f & E & L)|F].
  - exists (g f). rewrite (tested_at x So g q f P E L). split; auto. split; [eauto|]. intros <- f' E'. congruence.
  - exists false. rewrite (tested_free x So true g q P F). split; auto. split; [discriminate|]. intros _ f' E'. destruct F as [F _]. congruence.
Qed.

Section Move.
Variable x : pst.
Hypothesis So : sound x.
Local Notation T := (p_tree x).
Variables (p i : list str) (n : str).
Hypothesis Ep : p = i ++ [n].
Hypothesis Gp : plain_path p.
Let Pp : Forall plain_name p := pp_names _ Gp.
Let Np : p <> [].
Proof. rewrite Ep. apply snoc_ne. Qed.

Section Inside.
Variable e : pent.
Hypothesis He : pget p T = Some e.
Hypothesis Ed : is_pdir e = true.
Hypothesis Unlinked : forall r tg, pget r T <> Some (PLink tg).
Let Hl : is_plink e = false.
Proof. now destruct e. Qed.
Lemma unlinked_known r m : is_dir_at x r -> known x (r ++ [m]).
Proof.
  intros D. destruct (pget (r ++ [m]) T) as [f|] eqn:E.
  - left. exists f. split; auto. destruct f; auto. now destruct (Unlinked (r ++ [m]) target).
  - right. split; auto. exists r, m. auto.
Qed.
Lemma inside_more r m : below p r -> below p (r ++ [m]) /\ r ++ [m] <> p.
Proof.
  intros [z ->]. split; [exists (z ++ [m]); now rewrite app_assoc|]. intros E.
  rewrite <- app_assoc in E. rewrite <- (app_nil_r p) in E at 2. apply app_inv_head in E. now destruct z.
Qed.
Lemma sh_move_inside q : plain_path q -> below p q -> q <> p -> known x q -> plain_path (q ++ [n]) ->
  sh_move (abs_path p) (abs_path q) x = (Raise ShutilError, x).
Proof.
  intros Gq B Nq K Gqn. pose proof (pp_names _ Gq) as Pq. pose proof (pp_names _ Gqn) as Pqn.
  assert (Nr : q <> []) by (intros ->; destruct B as [r Br]; symmetry in Br; apply app_eq_nil in Br; tauto).
  destruct (known_test x is_pdir q So Pq K) as (b & D & D1 & D2). destruct b.
  - destruct (D1 eq_refl) as (f & Ef & Lf & Df).
    assert (Dq : is_dir_at x q) by (destruct f; try discriminate; eexists; eauto).
    pose proof (unlinked_known q n Dq) as Kn. destruct (inside_more q n B) as [Bn Nn].
    destruct (known_test x (fun _ => true) _ So Pqn Kn) as (g & Eg & G1 & G2).
    rewrite (sh_move_into x So p q i n e Ep Gp Gq He Hl Dq g (not_eq_sym Nq) Eg). destruct g; auto.
    rewrite (rename_inside x So p i n e Ep Gp He Hl (q ++ [n]) Pqn Ed Bn Nn (snoc_ne _ _) Kn).
    apply (fallback_self x So p q i n e Ep Gp Gq He Hl); auto using clean_abs.
  - unfold sh_move. rewrite (bind_ok _ _ x false x D). unfold bind, ret. cbn [andb].
    rewrite (rename_inside x So p i n e Ep Gp He Hl q Pq Ed B Nq Nr K).
    apply (fallback_self x So p q i n e Ep Gp Gq He Hl); auto using clean_abs.
Qed.
Lemma move_inside q : plain_path q -> below p q -> known x q -> plain_path ((q ++ [n]) ++ [n]) ->
  loc_move (file_uri p) (file_uri q) x = (Raise ShutilError, x).
Proof.
  intros Gq B K Gnn. pose proof (proj1 (plain_snoc _ _ Gnn)) as Gn. pose proof (pp_names _ Gq) as Pq.
  destruct (known_test x is_pdir q So Pq K) as (b & D & D1 & D2). destruct b.
  - destruct (D1 eq_refl) as (f & Ef & Lf & Df).
    assert (Dq : is_dir_at x q) by (destruct f; try discriminate; eexists; eauto).
    rewrite (move_dir x So p q i n e Ep Gp Gq He Hl Dq Gn Ed). destruct (inside_more q n B) as [Bn Nn].
    apply sh_move_inside; auto. now apply unlinked_known.
  - assert (Nq : q <> p) by (intros ->; specialize (D2 eq_refl e He); congruence).
    rewrite (move_other x So p q e Gp Gq He Hl); [now apply sh_move_inside|].
    unfold loc_isdir, path_isdir. now rewrite file_path by now apply plain_good.
Qed.
End Inside.

(** The name is taken by a directory: the source goes one level further down. *)
Lemma move_nested e q : pget p T = Some e -> is_pdir e = true -> plain_path q -> is_dir_at x q -> is_dir_at x (q ++ [n]) -> p <> q ++ [n] ->
  plain_path ((q ++ [n]) ++ [n]) -> pget ((q ++ [n]) ++ [n]) T = None -> ~ below p q ->
  exists x', loc_move (file_uri p) (file_uri q) x = (Ok tt, x') /\ relocated x x' p ((q ++ [n]) ++ [n]).
Proof.
  intros He Ed Gq Dq Dn Nq Gnn F Nb. assert (Hl : is_plink e = false) by now destruct e.
  pose proof (proj1 (plain_snoc _ _ Gnn)) as Gn.
  assert (Fr : free_at x ((q ++ [n]) ++ [n])) by (split; auto; exists (q ++ [n]), n; auto).
  assert (Nb' : ~ below p ((q ++ [n]) ++ [n])).
  { intros [r Er]. destruct (snoc_cases r) as [->|(r' & c & ->)]; [rewrite app_nil_r in Er; congruence|].
    rewrite app_assoc in Er. apply snoc_inj in Er as [Er _]. destruct (snoc_cases r') as [->|(r2 & c2 & ->)]; [rewrite app_nil_r in Er; congruence|].
    rewrite app_assoc in Er. apply snoc_inj in Er as [-> _]. apply Nb. now exists r2. }
  destruct (rename_free x So p i n e Ep Gp He Hl _ (pp_names _ Gnn) Fr) as [R Re]; [tauto|]. eexists. split; [|exact Re].
  rewrite (move_dir x So p q i n e Ep Gp Gq He Hl Dq Gn Ed).
  rewrite (sh_move_into x So p (q ++ [n]) i n e Ep Gp Gn He Hl Dn false Nq); [now rewrite R|].
  apply (tested_free x So); auto. apply Gnn.
Qed.

(** No source *)
Lemma move_missing q : free_at x p -> plain_path q -> known x q -> (is_dir_at x q -> pget (q ++ [n]) T = None /\ plain_path (q ++ [n])) ->
  loc_move (file_uri p) (file_uri q) x = (Raise (OSError ENOENT), x).
Proof.
  intros Fp Gq K Hn. pose proof (pp_names _ Gq) as Pq. pose proof Fp as (E0 & i' & n' & E' & D').
  assert (Lp : forall f, plook x f (abs_path p) = Ok (Gap i' n')).
  { intros f. subst p. rewrite E' in *. now apply (look_gap x So). }
  assert (Tp : forall f g, os_test f g (abs_path p) x = (Ok false, x)) by (intros f g; unfold os_test, os_stat; now rewrite Lp).
  unfold loc_move. unfold loc_isdir. rewrite !file_path by now apply plain_good.
  rewrite (bind_ok (path_isdir (abs_path p)) _ x false x (Tp _ _)). cbv iota. rewrite (bind_ok (ret false) _ x false x eq_refl). cbv iota.
  rewrite (bind_ok (ret (file_uri q)) _ x _ x eq_refl). rewrite file_path by now apply plain_good.
  assert (Fb : forall r, Forall plain_name r -> sh_move_fallback (abs_path p) (abs_path q) (abs_path r) x = (Raise (OSError ENOENT), x)).
  { intros r Pr. unfold sh_move_fallback. rewrite (bind_ok (path_islink (abs_path p)) _ x false x (Tp _ _)). cbv iota.
    rewrite (bind_ok (path_isdir (abs_path p)) _ x false x (Tp _ _)). cbv iota. unfold copy_and_remove_file, bind, samefile, os_open_r. rewrite !no_nul by auto. cbn [orb]. rewrite !Lp. reflexivity. }
  assert (Rn : forall r, Forall plain_name r -> r <> [] -> (exists b, plook x false (abs_path r) = Ok b) -> os_rename (abs_path p) (abs_path r) x = (Raise (OSError ENOENT), x)).
  { intros r Pr Nr [b Lr]. rewrite rename_abs by auto. now rewrite Lp, Lr. }
  unfold sh_move. destruct (known_test x is_pdir q So Pq K) as (b & D & D1 & D2).
  rewrite (bind_ok _ _ x b x D). destruct b.
  - destruct (D1 eq_refl) as (f & Ef & Lf & Df).
    assert (Dq : is_dir_at x q) by (destruct f; try discriminate; eexists; eauto).
    destruct (Hn Dq) as [Fn Gn].
    assert (Sf : samefile (abs_path p) (abs_path q) x = (Ok false, x)) by (unfold samefile; rewrite !no_nul by auto; now rewrite Lp).
    rewrite (bind_ok _ _ x false x Sf). unfold bind at 1, ret at 1. cbn [andb].
    assert (Bn : sh_basename (abs_path p) = n) by (rewrite Ep; apply basename_abs; pose proof Gp as Gp'; rewrite Ep in Gp'; apply (pn_name _ (proj2 (plain_snoc _ _ Gp')))).
    rewrite Bn, join_abs by now apply plain_names.
    rewrite (bind_ok _ _ x false x) by (apply (tested_free x So); [apply Gn|]; split; auto; exists q, n; auto).
    cbv iota. rewrite Rn; [apply Fb, Gn|apply Gn|apply snoc_ne|]. eexists. apply (look_gap x So); auto. apply Gn.
  - unfold bind, ret. cbn [andb]. rewrite Rn; [now apply Fb|auto| |].
    + intros ->. destruct (so_root x So) as (mo & mt & R). destruct K as [(f & Ef & _)|(Ef & _)]; [|congruence]. pose proof (D2 eq_refl f Ef) as Y. rewrite R in Ef. injection Ef as <-. discriminate Y.
    + destruct K as [(f & Ef & Lf)|(Ef & j & m & -> & Dj)]; eexists; [apply (look_at x So); eauto; congruence|apply (look_gap x So); auto].
Qed.

(** *** copytree after a failed rename *)
Lemma filter_split cs : Forall plain_name cs -> filter (fun c => negb (str_eqb c [])) (split_on cSlash (abs_path cs)) = cs.
Proof.
  intros P. rewrite split_abs by now apply plain_names.
  assert (F : filter (fun c => negb (str_eqb c [])) cs = cs).
  { induction P as [|c cs Hc P IH]; [reflexivity|]. cbn [filter]. destruct (plain_step c Hc) as [S _]. apply orb_false_iff in S as [S _].
    rewrite S. cbn [negb]. now rewrite IH. }
  destruct cs; [reflexivity|]. exact F.
Qed.
Lemma parents_taken cs : cs <> [] -> forall cur, pget (cur ++ cs) T <> None -> make_parents cur cs x = (Raise (OSError EEXIST), x).
Proof.
  intros N. induction cs as [|c cs IH]; [easy|]. intros cur E. destruct cs as [|d cs].
  - cbn [make_parents]. now destruct (pget (cur ++ [c]) T).
  - assert (D : is_dir_at x (cur ++ [c])) by (apply (so_dir x So (cur ++ [c]) (d :: cs)); [easy|now rewrite <- app_assoc]).
    destruct D as (mo & mt & D). change (make_parents cur (c :: d :: cs) x) with
      (match pget (cur ++ [c]) T with
       | None => make_parents (cur ++ [c]) (d :: cs) (set_tree x (pset (cur ++ [c]) (PDir (Z.land 511 (Z.lnot (p_umask x))) (p_now x)) (p_tree x)))
       | Some (PDir _ _) => make_parents (cur ++ [c]) (d :: cs) x
       | Some (PFile _ _ _) => (Raise (OSError ENOTDIR), x)
       | Some (PLink _) => (Raise OutOfFuel, x)
       end). rewrite D. apply IH; [easy|now rewrite <- app_assoc].
Qed.
Lemma move_dir_onto_file e q : pget p T = Some e -> is_pdir e = true -> plain_path q -> is_dir_at x q -> is_file_at x (q ++ [n]) ->
  plain_path (q ++ [n]) -> ~ below p q -> loc_move (file_uri p) (file_uri q) x = (Raise (OSError EEXIST), x).
Proof.
  intros He Ed Gq Dq Fn Gn Nb. assert (Hl : is_plink e = false) by now destruct e.
  pose proof (pp_names _ Gn) as Pn. destruct Fn as (d & mo & mt & Fn).
  rewrite (move_dir x So p q i n e Ep Gp Gq He Hl Dq Gn Ed). unfold sh_move.
  rewrite (bind_ok _ _ x false x) by now apply (tested_at x So is_pdir (q ++ [n]) _ Pn Fn). unfold bind, ret. cbn [andb].
  assert (Npq : p <> q ++ [n]).
  { intros E. rewrite <- E, He in Fn. injection Fn as ->. discriminate. }
  assert (Nb' : ~ below p (q ++ [n])).
  { intros [r Er]. destruct (snoc_cases r) as [->|(r' & c & ->)]; [rewrite app_nil_r in Er; congruence|].
    rewrite app_assoc in Er. apply snoc_inj in Er as [-> _]. apply Nb. now exists r'. }
  assert (Nb2 : ~ below (q ++ [n]) p).
  { intros [r Er]. destruct r as [|c r]; [rewrite app_nil_r in Er; congruence|].
    destruct (so_dir x So (q ++ [n]) (c :: r)) as (mo' & mt' & D'); [easy|congruence|]. congruence. }
  assert (R : os_rename (abs_path p) (abs_path (q ++ [n])) x = (Raise (OSError ENOTDIR), x)).
  { rewrite rename_abs by (auto; apply snoc_ne). rewrite (look_at x So false p e Pp He) by congruence.
    rewrite (look_at x So false (q ++ [n]) _ Pn Fn) by discriminate. unfold sys_rename. rewrite (nonempty_match p) by exact Np. rewrite (nonempty_match (q ++ [n])) by apply snoc_ne.
    rewrite (path_eqb_neq _ _ Npq), Ed. apply is_below_false in Nb', Nb2. rewrite Nb', Nb2. reflexivity. }
  rewrite R. unfold sh_move_fallback. rewrite (bind_ok _ _ x false x (tested_link x So p e Pp He Hl)).
  pose proof (tested_at x So is_pdir p e Pp He Hl) as Hd0. rewrite Ed in Hd0.
  rewrite (bind_ok (path_isdir (abs_path p)) _ x true x Hd0).
  assert (Ds : destinsrc (abs_path p) (abs_path (q ++ [n])) = false).
  { destruct (destinsrc (abs_path p) (abs_path (q ++ [n]))) eqn:X; auto. apply (proj1 (destinsrc_abs _ _ Np (plain_names _ Pp) (plain_names _ Pn))) in X. contradiction. }
  rewrite (clean_abs _ Pn), (clean_abs _ Pp), (unnamed_abs _ Pp Np). cbn [negb andb orb].
  rewrite Ds, (look_at x So true p e Pp He) by congruence. unfold copy_and_remove_tree. rewrite filter_split by auto.
  rewrite parents_taken; auto using snoc_ne. cbn [app]. congruence.
Qed.

(** A destination some levels below an existing directory *)
Lemma parents_new rest : rest <> [] -> forall y cur, NoDup (map fst (p_tree y)) -> (forall c l s, rest = c :: l -> pget (cur ++ c :: s) (p_tree y) = None) ->
  exists y', make_parents cur rest y = (Ok (cur ++ rest), y') /\ NoDup (map fst (p_tree y')) /\
    (forall b1 b2, rest = b1 ++ b2 -> b1 <> [] -> b2 <> [] -> is_dir_at y' (cur ++ b1)) /\
    (forall z, (forall b1 b2, rest = b1 ++ b2 -> b1 <> [] -> b2 <> [] -> z <> cur ++ b1) -> pget z (p_tree y') = pget z (p_tree y)) /\
    p_cwd y' = p_cwd y /\ p_now y' = p_now y /\ p_umask y' = p_umask y.
Proof.
  intros N. induction rest as [|c rest IH]; [easy|]. intros y cur Nd H. destruct rest as [|d rest].
  - cbn [make_parents]. rewrite (H c [] [] eq_refl). exists y. split; auto. split; auto. split; [|auto].
    intros [|b1 l1] b2 E N1 N2; [easy|]. injection E as _ E. symmetry in E. apply app_eq_nil in E. tauto.
  - set (y1 := set_tree y (pset (cur ++ [c]) (PDir (Z.land 511 (Z.lnot (p_umask y))) (p_now y)) (p_tree y))).
    change (make_parents cur (c :: d :: rest) y) with
      (match pget (cur ++ [c]) (p_tree y) with
       | None => make_parents (cur ++ [c]) (d :: rest) y1
       | Some (PDir _ _) => make_parents (cur ++ [c]) (d :: rest) y
       | Some (PFile _ _ _) => (Raise (OSError ENOTDIR), y)
       | Some (PLink _) => (Raise OutOfFuel, y)
       end). rewrite (H c _ [] eq_refl).
    assert (G1 : forall z, pget z (p_tree y1) = if path_eqb z (cur ++ [c]) then Some (PDir (Z.land 511 (Z.lnot (p_umask y))) (p_now y)) else pget z (p_tree y))
      by (intros z; apply pget_pset).
    destruct (IH ltac:(easy) y1 (cur ++ [c])) as (y' & R & Nd' & D' & O' & C').
    + now apply pset_nodup.
    + intros c' l s E'. rewrite G1. rewrite path_eqb_neq.
      * rewrite <- app_assoc. now apply (H c (d :: rest)).
      * intros E. rewrite <- (app_nil_r (cur ++ [c])) in E at 2. now apply app_inv_head in E.
    + exists y'. split; [rewrite R; now rewrite <- app_assoc|]. split; auto. split; [|split; [|exact C']].
      * intros [|b b1] b2 E N1 N2; [easy|]. cbn [app] in E. injection E as <- E. destruct b1 as [|b' b1].
        -- exists (Z.land 511 (Z.lnot (p_umask y))), (p_now y). rewrite O'.
           ++ now rewrite G1, path_eqb_refl.
           ++ intros a1 a2 Ea A1 A2 Ez. rewrite <- (app_nil_r (cur ++ [c])) in Ez at 1. apply app_inv_head in Ez. now subst.
        -- change (cur ++ c :: b' :: b1) with (cur ++ [c] ++ b' :: b1). rewrite app_assoc. now apply (D' (b' :: b1) b2).
      * intros z Hz. rewrite O'.
        -- rewrite G1. rewrite path_eqb_neq; auto. apply (Hz [c] (d :: rest)); auto; easy.
        -- intros b1 b2 E N1 N2. rewrite <- app_assoc. apply (Hz (c :: b1) b2); auto; [now rewrite E|easy].
Qed.
Lemma parents_down rest j : rest <> [] -> forall cur, is_dir_at x (cur ++ j) -> make_parents cur (j ++ rest) x = make_parents (cur ++ j) rest x.
Proof.
  intros Nr. induction j as [|c j IH]; intros cur D; [now rewrite app_nil_r|].
  assert (D1 : is_dir_at x (cur ++ [c])).
  { destruct j as [|c' j]; auto. apply (so_dir x So (cur ++ [c]) (c' :: j)); [easy|]. rewrite <- app_assoc. cbn [app]. destruct D as (? & ? & D). congruence. }
  destruct D1 as (mo & mt & D1). cbn [app].
  assert (X : make_parents cur (c :: j ++ rest) x = make_parents (cur ++ [c]) (j ++ rest) x).
  { assert (Nj : j ++ rest <> []) by (intros E; apply app_eq_nil in E; tauto). destruct (j ++ rest) as [|d l]; [easy|].
    change (make_parents cur (c :: d :: l) x) with
      (match pget (cur ++ [c]) T with
       | None => make_parents (cur ++ [c]) (d :: l) (set_tree x (pset (cur ++ [c]) (PDir (Z.land 511 (Z.lnot (p_umask x))) (p_now x)) (p_tree x)))
       | Some (PDir _ _) => make_parents (cur ++ [c]) (d :: l) x
       | Some (PFile _ _ _) => (Raise (OSError ENOTDIR), x)
       | Some (PLink _) => (Raise OutOfFuel, x)
       end). now rewrite D1. }
  rewrite X, IH by (rewrite <- app_assoc; exact D). now rewrite <- app_assoc.
Qed.

Section Far.
Variables (e : pent) (j : list str) (m1 m2 : str) (rest : list str).
Local Notation q := (j ++ m1 :: m2 :: rest).
Hypothesis He : pget p T = Some e.
Hypothesis Hl : is_plink e = false.
Hypothesis Gq : plain_path q.
Hypothesis Dj : is_dir_at x j.
Hypothesis Fj : pget (j ++ [m1]) T = None.
Let Pq : Forall plain_name q := pp_names _ Gq.
Lemma far_void r : r <> [] -> (exists s, r = m1 :: s) -> pget (j ++ r) T = None.
Proof.
  intros _ [s ->]. destruct (pget (j ++ m1 :: s) T) eqn:E; auto. exfalso. destruct s as [|c s]; [congruence|].
  destruct (so_dir x So (j ++ [m1]) (c :: s)) as (mo & mt & D); [easy|rewrite <- app_assoc; cbn [app]; congruence|congruence].
Qed.
Lemma far_test g : os_test true g (abs_path q) x = (Ok false, x).
Proof. unfold os_test, os_stat. now rewrite (look_void x So true j m1 m2 rest Pq Dj Fj). Qed.
Lemma far_rename : os_rename (abs_path p) (abs_path q) x = (Raise (OSError ENOENT), x).
Proof.
  rewrite rename_abs by (auto; destruct j; easy). rewrite (look_at x So false p e Pp He) by congruence.
  now rewrite (look_void x So false j m1 m2 rest Pq Dj Fj).
Qed.
Lemma far_start : loc_move (file_uri p) (file_uri q) x = sh_move_fallback (abs_path p) (abs_path q) (abs_path q) x.
Proof.
  rewrite (move_other x So p q e Gp Gq He Hl).
  - unfold sh_move. rewrite (bind_ok (path_isdir (abs_path q)) _ x false x (far_test _)). unfold bind, ret. cbn [andb]. now rewrite far_rename.
  - unfold loc_isdir, path_isdir. rewrite file_path by now apply plain_good. apply far_test.
Qed.
Lemma move_file_far : is_pdir e = false -> loc_move (file_uri p) (file_uri q) x = (Raise (OSError ENOENT), x).
Proof.
  intros Nd. rewrite far_start. unfold sh_move_fallback. rewrite (bind_ok _ _ x false x (tested_link x So p e Pp He Hl)).
  pose proof (tested_at x So is_pdir p e Pp He Hl) as Hd0. rewrite Nd in Hd0. rewrite (bind_ok (path_isdir (abs_path p)) _ x false x Hd0). cbv iota.
  assert (Lv : forall f, plook x f (abs_path q) = Raise (OSError ENOENT)) by (intros f; exact (look_void x So f j m1 m2 rest Pq Dj Fj)).
  unfold copy_and_remove_file, bind, samefile, os_open_r. rewrite !no_nul by auto. cbn [orb]. rewrite (look_at x So true p e Pp He) by congruence. rewrite Lv.
  destruct e; try discriminate. rewrite open_w_abs by auto. unfold sys_open_w. rewrite Lv. now rewrite (look_at x So true p _ Pp He) by congruence.
Qed.
Lemma move_dir_far : is_pdir e = true -> ~ below p q ->
  exists x1 x', loc_move (file_uri p) (file_uri q) x = (Ok tt, x') /\ relocated x1 x' p q /\
    (forall b1 b2, m1 :: m2 :: rest = b1 ++ b2 -> b1 <> [] -> b2 <> [] -> is_dir_at x1 (j ++ b1)) /\
    (forall z, (forall b1 b2, m1 :: m2 :: rest = b1 ++ b2 -> b1 <> [] -> b2 <> [] -> z <> j ++ b1) -> pget z (p_tree x1) = pget z T).
Proof.
  intros Ed Nb. rewrite far_start. unfold sh_move_fallback. rewrite (bind_ok _ _ x false x (tested_link x So p e Pp He Hl)).
  pose proof (tested_at x So is_pdir p e Pp He Hl) as Hd0. rewrite Ed in Hd0.
  rewrite (bind_ok (path_isdir (abs_path p)) _ x true x Hd0).
  assert (Ds : destinsrc (abs_path p) (abs_path q) = false).
  { destruct (destinsrc (abs_path p) (abs_path q)) eqn:X; auto.
    apply (proj1 (destinsrc_abs _ _ Np (plain_names _ Pp) (plain_names _ Pq))) in X. contradiction. }
  rewrite (clean_abs _ Pq), (clean_abs _ Pp), (unnamed_abs _ Pp Np). cbn [negb andb orb].
  rewrite Ds, (look_at x So true p e Pp He) by congruence. unfold copy_and_remove_tree. rewrite filter_split by auto.
  rewrite parents_down by easy. cbn [app].
  assert (V : forall s, pget (j ++ m1 :: s) T = None) by (intros s; apply far_void; [easy|eauto]).
  destruct (parents_new (m1 :: m2 :: rest) ltac:(easy) x j (so_nodup x So)) as (x1 & R & Nd & D & O & C).
  { intros c l s E. injection E as <- <-. apply V. }
  rewrite R. assert (Hib : is_below p q = false) by now apply is_below_false. rewrite Hib. exists x1. eexists. split; [reflexivity|]. split; [|auto].
  assert (Q : forall r, pget (q ++ r) (p_tree x1) = None).
  { intros r. rewrite O; [rewrite <- app_assoc; apply V|]. intros b1 b2 E N1 N2 Ez. rewrite E, <- !app_assoc in Ez. apply app_inv_head in Ez.
    rewrite <- (app_nil_r b1) in Ez at 2. apply app_inv_head in Ez. apply app_eq_nil in Ez. tauto. }
  apply prename_get; auto.
  - intros [r Er]. apply (f_equal (fun z => pget z T)) in Er. rewrite He, <- app_assoc in Er. cbn [app] in Er. now rewrite V in Er.
Qed.
End Far.
End Move.
