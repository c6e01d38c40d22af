(** Local trees as source and as destination of WorldFacts2.v. *)
From Coq Require Import Lia Sorted.
From Verif Require Import Str Exc Utf8 UriParse BaseUri StrFacts SpecUri Mem SpecMem Generic SpecGen World.
From Verif Require Import UriFacts2 UriFacts3 MemFacts MemFacts5 MemFacts6 MemFacts7 MemUri MemFacts10 GenFacts1 GenFacts3 GenFacts8.
From Verif Require Import Misc Posix Local SpecLocal LocalFacts1 LocalFacts4 LocalFacts6 LocalFacts11 LocalFacts12 LocalFacts15 LocalFacts17 WorldFacts1 WorldFacts2.

Local Notation joined := (join_with [cSlash]).
Local Notation B := loc_backend.

Lemma test_at x f g p e : sound x -> Forall plain_name p -> pget p (p_tree x) = Some e -> (is_plink e = true -> f = false) ->
  os_test f g (abs_path p) x = (Ok (g e), x).
Proof. intros So P E L. unfold os_test, os_stat. now rewrite (look_at x So f p e). Qed.
Lemma test_gap x g d n b : sound x -> Forall plain_name (d ++ n :: b) -> is_dir_at x d -> pget (d ++ [n]) (p_tree x) = None ->
  os_test true g (abs_path (d ++ n :: b)) x = (Ok false, x).
Proof.
  intros So P D N. unfold os_test, os_stat. rewrite (plook_abs x) by auto.
  assert (X : pwalk (p_tree x) true pbudget [] (d ++ n :: b) = match b with [] => Ok (Gap d n) | _ => Raise (OSError ENOENT) end).
  { apply Forall_app in P as [Pd Pn]. inversion Pn; subst. rewrite (walk_down x So true pbudget (n :: b) d []) by auto. cbn [app]. now apply (walk_none x). }
  rewrite X. now destruct b.
Qed.

Section Source.
Variables (x0 : pst) (cs : list str).
Hypothesis Ncs : cs <> [].
Record lsrc (T : ftree) (x : pst) : Prop := {
  ls_sound : sound x;
  ls_tree : forall r, T r = content x (cs ++ r);
  ls_nolink : forall r tg, pget (cs ++ r) (p_tree x) <> Some (PLink tg);
  ls_good : forall r, T r <> None -> plain_path (cs ++ r);
  ls_out : forall q, (forall r, q <> cs ++ r) -> pget q (p_tree x) = pget q (p_tree x0);
  ls_in : forall r, T r <> None -> pget (cs ++ r) (p_tree x) = pget (cs ++ r) (p_tree x0);
  ls_env : p_cwd x = p_cwd x0 /\ p_now x = p_now x0 /\ p_umask x = p_umask x0 }.
Definition lus (r : list str) : uri := file_uri (cs ++ r).
Section One.
Variables (T : ftree) (x : pst) (r : list str).
Hypothesis k : lsrc T x.
Lemma ls_some : T r <> None <-> pget (cs ++ r) (p_tree x) <> None.
Proof.
  rewrite (ls_tree T x k). unfold content. pose proof (ls_nolink T x k r) as N. destruct (pget (cs ++ r) (p_tree x)) as [[| |tg]|]; try easy.
  now destruct (N tg).
Qed.
Lemma ls_get : T r <> None -> exists e, pget (cs ++ r) (p_tree x) = Some e /\ is_plink e = false /\
  T r = Some (match e with PFile d _ _ => Some d | _ => None end).
Proof.
  intros H. pose proof (ls_nolink T x k r) as N. rewrite (ls_tree T x k) in *. unfold content in *.
  destruct (pget (cs ++ r) (p_tree x)) as [[| |tg]|] eqn:E; try easy; eexists; repeat split; try reflexivity; now destruct (N tg).
Qed.
Lemma ls_path : T r <> None -> u_path (lus r) = abs_path (cs ++ r).
Proof. intros H. apply file_path, plain_good. now apply (ls_good T x k). Qed.
Lemma ls_plain : T r <> None -> Forall plain_name (cs ++ r).
Proof. intros H. now apply (ls_good T x k). Qed.
End One.
Lemma loc_source : source B loc_read_all lus lsrc.
Proof.
  constructor.
  - intros T x r n k H. apply (ls_some T x _ k) in H. rewrite app_assoc in H.
    destruct (so_up x (ls_sound T x k) _ _ H) as (mo & mt & E). rewrite (ls_tree T x k). unfold content. now rewrite E.
  - intros T x r k H. pose proof (ls_plain T x r k H) as P. apply Forall_app in P as [_ P]. now apply plain_names.
  - intros T x r n k H. unfold lus. rewrite app_assoc. apply file_div. rewrite <- app_assoc. now apply (ls_plain T x).
  - intros T x r k H. rewrite (ls_path T x r k H). unfold lus. rewrite app_nil_r, file_path; [now apply skip_source|].
    apply plain_good. apply (plain_app cs r). now apply (ls_good T x k).
  - reflexivity.
  - intros T x r k H. destruct (ls_get T x r k H) as (e & E & L & _). cbn [loc_backend b_exists]. unfold loc_exists, path_exists. rewrite (ls_path T x r k H).
    rewrite (test_at x true _ _ e); auto; [apply k|now apply (ls_plain T x)|congruence].
  - intros T x r k H. destruct (ls_get T x r k H) as (e & E & L & Te). cbn [loc_backend b_isdir]. unfold loc_isdir, path_isdir. rewrite (ls_path T x r k H).
    rewrite (test_at x true _ _ e); auto; [|apply k|now apply (ls_plain T x)|congruence]. rewrite Te. now destruct e.
  - intros T x r d k H. assert (Hn : T r <> None) by congruence. destruct (ls_get T x r k Hn) as (e & E & L & Te). cbn [loc_backend b_isfile]. unfold loc_isfile, path_isfile. rewrite (ls_path T x r k Hn).
    rewrite (test_at x true _ _ e); auto; [|apply k|now apply (ls_plain T x)|congruence]. rewrite Te in H. now destruct e.
  - intros T x r k H. destruct (ls_get T x r k H) as (e & E & L & Te). cbn [loc_backend b_islink]. unfold loc_islink, path_islink. rewrite (ls_path T x r k H).
    rewrite (test_at x false _ _ e); auto; [now rewrite L|apply k|now apply (ls_plain T x)].
  - intros T x r k H. assert (Hn : T r <> None) by congruence. destruct (ls_get T x r k Hn) as (e & E & L & Te). rewrite H in Te.
    destruct e as [|mo mt|]; try discriminate. pose proof (so_nodup x (ls_sound T x k)) as Nd.
    exists (sort_strs (pchildren (cs ++ r) (p_tree x))). split; [|split].
    + cbn [loc_backend b_listdir]. unfold loc_listdir, bind, os_listdir. rewrite (ls_path T x r k Hn).
      rewrite (look_at x (ls_sound T x k) true _ _ (ls_plain T x r k Hn) E) by discriminate. reflexivity.
    + apply sort_strict. now apply children_nodup.
    + intros n. rewrite sort_In, children_get, <- app_assoc by auto. symmetry. apply (ls_some T x (r ++ [n]) k).
  - intros T x r d k H. assert (Hn : T r <> None) by congruence. destruct (ls_get T x r k Hn) as (e & E & L & Te). rewrite H in Te.
    destruct e as [d' mo mt| |]; try discriminate. injection Te as <-. exists x. split; auto.
    apply (read_file x (ls_sound T x k) (cs ++ r) (ls_good T x k r Hn) d mo mt E).
Qed.
Lemma ls_cut T x r : lsrc T x -> sound (set_tree x (pdel (cs ++ r) (p_tree x))) -> lsrc (cutT T r) (set_tree x (pdel (cs ++ r) (p_tree x))).
Proof.
  intros k So. assert (Xc : forall z, pget (cs ++ z) (pdel (cs ++ r) (p_tree x)) = if path_eqb z r then None else pget (cs ++ z) (p_tree x)).
  { intros z. rewrite pget_pdel. destruct (path_dec z r) as [->|Nz]; [now rewrite !path_eqb_refl|]. rewrite !path_eqb_neq; auto.
    intros Y. apply app_inv_head in Y. contradiction. }
  constructor; auto; cbn [set_tree p_tree p_cwd p_now p_umask].
  - intros z. unfold cutT, content. cbn [set_tree p_tree]. rewrite Xc. destruct (path_eqb z r); [reflexivity|apply k].
  - intros z tg. rewrite Xc. destruct (path_eqb z r); [discriminate|apply k].
  - intros z. unfold cutT. destruct (path_eqb z r); [easy|apply k].
  - intros q Hq. rewrite pget_pdel, path_eqb_neq by apply Hq. now apply k.
  - intros z. rewrite Xc. unfold cutT. destruct (path_eqb z r); [easy|]. apply (ls_in T x k).
  - apply k.
Qed.
Lemma loc_gone : gone B lus lsrc.
Proof.
  constructor.
  - intros T x r k H. destruct (ls_get T x r k H) as (e & E & L & Te). cbn [loc_backend b_isfile]. unfold loc_isfile, path_isfile. rewrite (ls_path T x r k H).
    rewrite (test_at x true _ _ e); auto; [|apply k|now apply (ls_plain T x)|congruence]. rewrite Te. now destruct e.
  - intros T x r d k H. assert (Hn : T r <> None) by congruence. destruct (ls_get T x r k Hn) as (e & E & L & Te). rewrite H in Te.
    destruct e as [d' mo mt| |]; try discriminate. eexists.
    assert (R : b_removefile B (lus r) x = (Ok tt, set_tree x (pdel (cs ++ r) (p_tree x)))).
    { cbn [loc_backend b_removefile]. unfold loc_removefile. rewrite (ls_path T x r k Hn). rewrite unlink_abs by now apply (ls_plain T x). unfold sys_unlink.
      now rewrite (look_at x (ls_sound T x k) false _ _ (ls_plain T x r k Hn) E) by discriminate. }
    split; [exact R|]. apply ls_cut; auto.
    pose proof (steady_unlink (u_path (lus r)) x (ls_sound T x k)) as X. change (os_unlink (u_path (lus r)) x) with (b_removefile B (lus r) x) in X. now rewrite R in X.
  - intros T x r k H N. assert (Hn : T r <> None) by congruence. destruct (ls_get T x r k Hn) as (e & E & L & Te). rewrite H in Te.
    destruct e as [|mo mt|]; try discriminate. eexists.
    assert (R : b_removedir B (lus r) x = (Ok tt, set_tree x (pdel (cs ++ r) (p_tree x)))).
    { cbn [loc_backend b_removedir]. unfold loc_removedir, loc_islink, path_islink. rewrite (ls_path T x r k Hn).
      erewrite bind_ok by (apply (test_at x false _ _ (PDir mo mt)); auto; [apply k|now apply (ls_plain T x)]). cbn [is_plink].
      rewrite rmdir_abs by now apply (ls_plain T x). unfold sys_rmdir. rewrite (look_at x (ls_sound T x k) false _ _ (ls_plain T x r k Hn) E) by discriminate.
      destruct (cs ++ r) as [|a q] eqn:Ea; [apply app_eq_nil in Ea; tauto|]. rewrite <- Ea in *.
      assert (Pc : pchildren (cs ++ r) (p_tree x) = []).
      { destruct (pchildren (cs ++ r) (p_tree x)) as [|n l] eqn:Ec; auto. exfalso.
        assert (I : In n (pchildren (cs ++ r) (p_tree x))) by (rewrite Ec; now left).
        apply children_get in I; [|apply (so_nodup x), k]. rewrite <- app_assoc in I. apply (ls_some T x (r ++ [n]) k) in I. now apply I. }
      now rewrite Pc. }
    split; [exact R|]. apply ls_cut; auto.
    pose proof (steady_removedir (lus r) x (ls_sound T x k)) as X. change (loc_removedir (lus r) x) with (b_removedir B (lus r) x) in X. now rewrite R in X.
Qed.
End Source.

Section Target.
Variable x0 : pst.
Definition ndirmode : Z := Z.land 511 (Z.lnot (p_umask x0)).
Record ldst (D : list str -> option pent) (x : pst) : Prop := {
  ld_sound : sound x;
  ld_tree : forall q, D q = pget q (p_tree x);
  ld_env : p_cwd x = p_cwd x0 /\ p_now x = p_now x0 /\ p_umask x = p_umask x0 }.
(** What is written over a file keeps its permissions. *)
Definition rewritten (o : option pent) (d : list N) : pent :=
  PFile d (match o with Some (PFile _ mo _) => mo | _ => new_mode x0 end) (p_now x0).
Lemma dirE_dir D x p : ldst D x -> dirE is_pdir (D p) = true <-> is_dir_at x p.
Proof.
  intros k. rewrite (ld_tree D x k). unfold is_dir_at, dirE. split; [|intros (? & ? & ->); reflexivity].
  destruct (pget p (p_tree x)) as [[]|]; try discriminate. intros _. repeat eexists.
Qed.
Lemma ld_put D x x' p e : ldst D x -> sound x' -> only x x' p (Some e) -> ldst (put D p e) x'.
Proof.
  intros k So (P1 & P2 & E1 & E2 & E3). constructor; auto.
  - intros q. unfold put. destruct (path_dec q p) as [->|N]; [now rewrite path_eqb_refl|]. rewrite path_eqb_neq, P2 by auto. apply k.
  - rewrite E1, E2, E3. apply k.
Qed.
Lemma loc_target : target B (fun u d => loc_write_all u [d]) file_uri plain_path is_pdir is_plink (PDir ndirmode (p_now x0)) rewritten ldst.
Proof.
  constructor.
  - now intros [].
  - reflexivity.
  - reflexivity.
  - intros D x p n k H. apply (dirE_dir D x p k). rewrite (ld_tree D x k) in H. now apply (so_up x (ld_sound D x k) p n).
  - intros a b. apply plain_app.
  - intros p n G. apply name_ne. apply pp_names, Forall_app in G as [_ G]. inversion G; subst. now apply pn_name.
  - intros p r G N. now apply file_div_path.
  - intros p n G. apply file_split. apply G.
  - reflexivity.
  - intros D x p k G A. cbn [loc_backend b_isdir]. unfold loc_isdir, path_isdir. rewrite file_path by now apply plain_good.
    destruct A as [(e & E & L)|(d & n & b & -> & Dd & Dn)].
    + rewrite E. cbn [dirE]. rewrite (ld_tree D x k) in E. apply test_at; auto; [apply k|apply G|congruence].
    + apply (dirE_dir D x d k) in Dd. rewrite (ld_tree D x k) in *.
      assert (X : pget (d ++ n :: b) (p_tree x) = None).
      { destruct (pget (d ++ n :: b) (p_tree x)) eqn:Ex; auto. exfalso. change (n :: b) with ([n] ++ b) in Ex. rewrite app_assoc in Ex.
        destruct b as [|m b]; [rewrite app_nil_r in Ex; congruence|].
        destruct (so_dir x (ld_sound D x k) (d ++ [n]) (m :: b)) as (? & ? & Y); [easy|congruence|congruence]. }
      rewrite X. apply test_gap; auto; [apply k|apply G].
  - intros D x p n k G Dp N. apply (dirE_dir D x p k) in Dp. rewrite (ld_tree D x k) in N.
    assert (R : loc_mkdir (file_uri (p ++ [n])) x = (Ok tt, set_tree x (pset (p ++ [n]) (PDir (Z.land 511 (Z.lnot (p_umask x))) (p_now x)) (p_tree x)))).
    { unfold loc_mkdir. rewrite file_path by now apply plain_good. destruct (abs_path (p ++ [n])) as [|c q] eqn:Ea; [now destruct p|]. rewrite <- Ea.
      rewrite mkdir_abs by apply G. unfold sys_mkdir. now rewrite (look_gap x (ld_sound D x k)) by (auto; apply G). }
    eexists. split; [exact R|]. destruct (ld_env D x k) as (E1 & E2 & E3). rewrite E2, E3. apply (ld_put D x); auto; [|apply only_set].
    pose proof (steady_loc_mkdir (file_uri (p ++ [n])) x (ld_sound D x k)) as X. rewrite R in X. cbn [snd] in X. now rewrite E2, E3 in X.
  - intros D x d p n k G Dp Nd Nl. apply (dirE_dir D x p k) in Dp. pose proof (ld_tree D x k (p ++ [n])) as Et. rewrite Et in *.
    destruct (ld_env D x k) as (E1 & E2 & E3).
    assert (X : exists x', loc_write_all (file_uri (p ++ [n])) [d] x = (Ok tt, x') /\ only x x' (p ++ [n]) (Some (rewritten (pget (p ++ [n]) (p_tree x)) d))).
    { destruct (pget (p ++ [n]) (p_tree x)) as [[d' mo mt| |]|] eqn:E; try discriminate.
      - destruct (write_file x (ld_sound D x k) (p ++ [n]) G d' mo mt [d] E) as (x' & R & O). exists x'. split; auto.
        cbn [concat] in O. rewrite app_nil_r, E2 in O. exact O.
      - destruct (write_free x (ld_sound D x k) (p ++ [n]) G [d]) as (x' & R & O). { split; auto. exists p, n. auto. } exists x'. split; auto.
        cbn [concat] in O. rewrite app_nil_r, E2 in O. unfold new_mode in O. rewrite E3 in O. exact O. }
    destruct X as (x' & R & O). exists x'. split; auto. apply (ld_put D x); auto.
    pose proof (steady_loc_write (file_uri (p ++ [n])) [d] x (ld_sound D x k)) as X. now rewrite R in X.
Qed.
End Target.
