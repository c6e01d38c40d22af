(** shutil.move and localfs move. *)
From Coq Require Import Lia.
From Verif Require Import Str Exc Utf8 UriParse BaseUri StrFacts UriFacts SpecUri UriFacts2 UriFacts3 UriFacts4 UriFacts5 UriFacts6.
From Verif Require Import Mem SpecMem MemFacts MemFacts2 MemFacts3 MemFacts4 MemFacts5 MemFacts6 MemFacts7 MemFacts8 MemFacts9 MemFacts10 MemFacts11 MemUri.
From Verif Require Import Generic SpecGen GenFacts1 GenFacts2 GenFacts3 GenFacts6 GenFacts8.
From Verif Require Import Misc Posix Local SpecLocal LocalFacts1 LocalFacts2 LocalFacts3 LocalFacts6.

(** *** Texts *)
Lemma last_snoc {A} (l : list A) a d : last (l ++ [a]) d = a.
Proof. induction l as [|b l IH]; [reflexivity|]. cbn. destruct (l ++ [a]) eqn:E; [now destruct l|]. exact IH. Qed.
Lemma name_last n : name_ok n -> exists a c, n = a ++ [c] /\ c <> cSlash.
Proof.
  intros H. destruct (snoc_cases n) as [->|(a & c & ->)]; [now destruct (name_ne _ H)|].
  exists a, c. split; auto. intros ->. apply (name_no_slash _ H). apply in_app_iff. right. now left.
Qed.
Lemma basename_abs i n : name_ok n -> sh_basename (abs_path (i ++ [n])) = n.
Proof.
  intros H. unfold sh_basename. rewrite abs_path_snoc. destruct (name_last n H) as (a & c & E & Nc).
  assert (R : rev (drop_slashes (rev (flat_map (fun c => cSlash :: c) i ++ cSlash :: n))) = flat_map (fun c => cSlash :: c) i ++ cSlash :: n).
  { rewrite E. change (cSlash :: a ++ [c]) with ((cSlash :: a) ++ [c]). rewrite app_assoc, rev_unit. cbn [drop_slashes].
    apply N.eqb_neq in Nc. rewrite Nc. cbn [rev]. now rewrite rev_involutive. }
  unfold str in *. rewrite R, split_on_gen, (split_on_none _ n) by now apply name_no_slash. apply last_snoc.
Qed.
Lemma abs_last q : q <> [] -> Forall name_ok q -> exists a c, abs_path q = a ++ [c] /\ c <> cSlash.
Proof.
  intros N H. destruct (snoc_cases q) as [->|(i & n & ->)]; [easy|]. apply Forall_app in H as [_ H]. inversion H as [|? ? Hn _]; subst.
  destruct (name_last n Hn) as (a & c & E & Nc). exists (flat_map (fun c => cSlash :: c) i ++ cSlash :: a), c. split; auto.
  rewrite abs_path_snoc, E. now rewrite <- app_assoc.
Qed.
Lemma join_abs q n : Forall name_ok q -> path_join (abs_path q) n = abs_path (q ++ [n]).
Proof.
  intros H. destruct q as [|c q]; [cbn; now rewrite app_nil_r|].
  destruct (abs_last (c :: q)) as (a & z & E & Nz); [easy|auto|]. unfold path_join.
  assert (X : (last (abs_path (c :: q)) 0 =? cSlash)%N = false) by (rewrite E, last_snoc; now apply N.eqb_neq).
  rewrite X. rewrite abs_path_snoc. reflexivity.
Qed.
Lemma destinsrc_abs p q : p <> [] -> Forall name_ok p -> Forall name_ok q -> destinsrc (abs_path p) (abs_path q) = true <-> below p q.
Proof.
  intros Np Hp Hq. unfold destinsrc.
  assert (Wp : with_slash (abs_path p) = flat_map (fun c => cSlash :: c) p ++ [cSlash]).
  { unfold with_slash. destruct (abs_last p Np Hp) as (a & z & E & Nz).
    rewrite E, last_snoc. apply N.eqb_neq in Nz. rewrite Nz, <- E. now rewrite abs_path_ne. }
  assert (Wq : with_slash (abs_path q) = flat_map (fun c => cSlash :: c) q ++ [cSlash]).
  { unfold with_slash. destruct q as [|c q]; [reflexivity|]. destruct (abs_last (c :: q)) as (a & z & E & Nz); [easy|auto|].
    rewrite E, last_snoc. apply N.eqb_neq in Nz. rewrite Nz, <- E. now rewrite abs_path_ne. }
  rewrite Wp, Wq. rewrite prefixb_spec. split.
  - intros (z & E). clear Wq Wp Np. revert q z Hq E. induction Hp as [|c p Hc Hp IH]; intros q z Hq E; [now exists q|].
    destruct Hq as [|d q Hd Hq].
    + exfalso. cbn [flat_map app] in E. injection E as E. destruct c; [now apply (name_ne _ Hc)|discriminate].
    + cbn [flat_map app] in E. injection E as E. rewrite <- !app_assoc in E.
      assert (Sp : forall l, exists r, flat_map (fun c => cSlash :: c) l ++ [cSlash] = cSlash :: r) by (intros [|y l]; cbn; eauto).
      assert (X : forall a b y z : str, ~ In cSlash a -> ~ In cSlash b -> a ++ cSlash :: y = b ++ cSlash :: z -> a = b /\ y = z).
      { clear. induction a as [|u a IH]; intros [|v b] y z Ha Hb E; cbn in *.
        - now injection E as ->.
        - injection E as E1 E2. subst. exfalso. apply Hb. now left.
        - injection E as E1 E2. subst. exfalso. apply Ha. now left.
        - injection E as E1 E2. subst v. destruct (IH b y z) as [-> ->]; auto. }
      destruct (Sp p) as [r1 E1]. destruct (Sp q) as [r2 E2].
      assert (Eq : c = d /\ flat_map (fun c => cSlash :: c) q ++ [cSlash] = (flat_map (fun c => cSlash :: c) p ++ [cSlash]) ++ z).
      { assert (E' : d ++ cSlash :: r2 = c ++ cSlash :: (r1 ++ z)).
        { rewrite <- E2, E. f_equal. rewrite app_assoc, E1. reflexivity. }
        apply X in E' as [-> E']; auto using name_no_slash. split; auto. rewrite E2, E1, E'. reflexivity. }
      destruct Eq as [<- Eq]. destruct (IH q z Hq Eq) as [r ->]. now exists r.
  - intros [r ->]. rewrite flat_map_app. destruct r as [|c r]; [exists []; now rewrite !app_nil_r|].
    cbn [flat_map app]. eexists. rewrite <- !app_assoc. cbn [app]. reflexivity.
Qed.

(** *** Moving *)
Lemma clean_abs cs : Forall plain_name cs -> clean_path (abs_path cs) = true.
Proof.
  intros P. unfold clean_path. rewrite split_abs by now apply plain_names. destruct cs as [|c cs]; [reflexivity|].
  apply orb_true_iff. right. apply forallb_forall. intros d I. apply (proj1 (Forall_forall _ _) P) in I. destruct (plain_step d I) as [S1 S2]. rewrite S1, S2. reflexivity.
Qed.
Lemma nonempty_match {A B} (l : list A) (a b : B) : l <> [] -> match l with [] => a | _ => b end = b.
Proof. now destruct l. Qed.
Section Move.
Variable x : pst.
Hypothesis So : sound x.
Local Notation T := (p_tree x).

Lemma tested_at g cs e : Forall plain_name cs -> pget cs T = Some e -> is_plink e = false -> os_test true g (abs_path cs) x = (Ok (g e), x).
Proof. intros P E L. unfold os_test, os_stat. rewrite (look_at x So true cs e P E) by congruence. reflexivity. Qed.
Lemma tested_link cs e : Forall plain_name cs -> pget cs T = Some e -> is_plink e = false -> path_islink (abs_path cs) x = (Ok false, x).
Proof. intros P E L. unfold path_islink, os_test, os_stat. rewrite (look_at x So false cs e P E) by congruence. now rewrite L. Qed.
Lemma tested_free f g cs : Forall plain_name cs -> free_at x cs -> os_test f g (abs_path cs) x = (Ok false, x).
Proof.
  intros P (E & i & n & -> & D). unfold os_test, os_stat. rewrite (look_gap x So f i n P D E). reflexivity.
Qed.
Lemma nothing_below cs r : ~ is_dir_at x cs -> r <> [] -> pget (cs ++ r) T = None.
Proof.
  intros N Nr. destruct (pget (cs ++ r) T) eqn:E; auto. exfalso. apply N, (so_dir x So cs r); congruence.
Qed.

Variables (p q : list str) (i : list str) (n : str) (e : pent).
Hypothesis Ep : p = i ++ [n].
Hypothesis Gp : plain_path p.
Hypothesis Gq : plain_path q.
Hypothesis He : pget p T = Some e.
Hypothesis Hl : is_plink e = false.
Let Pp : Forall plain_name p := pp_names _ Gp.
Let Pq : Forall plain_name q := pp_names _ Gq.
Let Np : p <> [].
Proof. rewrite Ep. apply snoc_ne. Qed.
Let Nn : plain_name n.
Proof. rewrite Ep in Pp. apply Forall_app in Pp as [_ H]. now inversion H. Qed.
Let Op : Forall name_ok p := plain_names _ Pp.
Let Oq : Forall name_ok q := plain_names _ Pq.

Lemma rename_free q' : Forall plain_name q' -> free_at x q' -> ~ (is_pdir e = true /\ below p q') ->
  os_rename (abs_path p) (abs_path q') x = (Ok tt, set_tree x (prename p q' T)) /\ relocated x (set_tree x (prename p q' T)) p q'.
Proof.
  intros P' F Nb. pose proof F as (E & j & m & Ej & D).
  assert (Bp : ~ below p q').
  { intros B. destruct (is_pdir e) eqn:Ed; [tauto|]. destruct B as [r Er]. destruct r as [|c r]; [rewrite app_nil_r in Er; congruence|].
    destruct (snoc_cases (c :: r)) as [|(r' & c' & Er')]; [easy|]. rewrite Er', app_assoc, Ej in Er. apply snoc_inj in Er as [-> _].
    destruct D as (mo & mt & D). destruct r' as [|c2 r2]; [rewrite app_nil_r, He in D; injection D as ->; discriminate|].
    destruct (so_dir x So p (c2 :: r2)) as (mo' & mt' & D'); [easy|congruence|]. rewrite He in D'. injection D' as ->. discriminate. }
  assert (Bq : ~ below q' p).
  { intros [r Er]. destruct r as [|c r]; [rewrite app_nil_r in Er; congruence|].
    destruct (so_dir x So q' (c :: r)) as (mo' & mt' & D'); [easy|congruence|]. congruence. }
  assert (Hb : forall r, r <> [] -> pget (q' ++ r) T = None).
  { intros r Nr. apply nothing_below; auto. intros (? & ? & D'). congruence. }
  split.
  - subst q'. rewrite rename_abs by (auto; apply snoc_ne). rewrite (look_at x So false p e Pp He) by congruence.
    rewrite (look_gap x So false j m P' D E). unfold sys_rename. rewrite (nonempty_match p) by exact Np.
    replace (is_pdir e && is_below p (j ++ [m])) with false; auto.
    symmetry. apply andb_false_iff. right. now apply is_below_false.
  - destruct (prename_get T p q' (so_nodup _ So) Bp Bq Hb) as (H1 & H2 & H3). split; [|split]; auto.
Qed.
Lemma rename_file d mo mt : is_pdir e = false -> pget q T = Some (PFile d mo mt) -> p <> q ->
  os_rename (abs_path p) (abs_path q) x = (Ok tt, set_tree x (prename p q T)) /\ relocated x (set_tree x (prename p q T)) p q.
Proof.
  intros Nd E Npq.
  assert (Bp : ~ below p q).
  { intros [r Er]. destruct r as [|c r]; [rewrite app_nil_r in Er; congruence|].
    destruct (so_dir x So p (c :: r)) as (mo' & mt' & D'); [easy|congruence|]. rewrite He in D'. injection D' as ->. discriminate. }
  assert (Bq : ~ below q p).
  { intros [r Er]. destruct r as [|c r]; [rewrite app_nil_r in Er; congruence|].
    destruct (so_dir x So q (c :: r)) as (mo' & mt' & D'); [easy|congruence|]. congruence. }
  assert (Hb : forall r, r <> [] -> pget (q ++ r) T = None).
  { intros r Nr. apply nothing_below; auto. intros (? & ? & D'). congruence. }
  assert (Nq : q <> []) by (intros ->; destruct (so_root _ So) as (? & ? & R); congruence).
  split.
  - rewrite rename_abs by auto. rewrite (look_at x So false p e Pp He) by congruence.
    rewrite (look_at x So false q _ Pq E) by discriminate. unfold sys_rename. rewrite (nonempty_match p) by exact Np. rewrite (nonempty_match q) by exact Nq.
    rewrite (path_eqb_neq _ _ Npq), Nd. cbn [andb is_pdir].
    apply is_below_false in Bq. rewrite Bq. reflexivity.
  - destruct (prename_get T p q (so_nodup _ So) Bp Bq Hb) as (H1 & H2 & H3). split; [|split]; auto.
Qed.

(** shutil.move onto something that is not a directory *)
Lemma sh_move_plain x' : path_isdir (abs_path q) x = (Ok false, x) -> os_rename (abs_path p) (abs_path q) x = (Ok tt, x') ->
  sh_move (abs_path p) (abs_path q) x = (Ok tt, x').
Proof.
  intros D R. unfold sh_move. rewrite (bind_ok _ _ x false x D). cbn [andb]. unfold bind, ret. cbn [andb]. now rewrite R.
Qed.
Lemma fallback_self q' : is_pdir e = true -> below p q -> clean_path q' = true -> sh_move_fallback (abs_path p) (abs_path q) q' x = (Raise ShutilError, x).
Proof.
  intros Ed B Cl. unfold sh_move_fallback. rewrite (bind_ok _ _ x false x (tested_link p e Pp He Hl)).
  pose proof (tested_at is_pdir p e Pp He Hl) as Hd0. rewrite Ed in Hd0.
  rewrite (bind_ok (path_isdir (abs_path p)) _ x true x Hd0).
  assert (Hd : destinsrc (abs_path p) (abs_path q) = true) by now apply destinsrc_abs. now rewrite Cl, Hd, clean_abs, unnamed_abs by auto.
Qed.
Lemma rename_inside q' : Forall plain_name q' -> is_pdir e = true -> below p q' -> q' <> p -> q' <> [] ->
  (exists f, pget q' T = Some f /\ is_plink f = false) \/ free_at x q' ->
  os_rename (abs_path p) (abs_path q') x = (Raise (OSError EINVAL), x).
Proof.
  intros P' Ed B Nq' Nr H. rewrite rename_abs by auto. rewrite (look_at x So false p e Pp He) by congruence. apply is_below_true in B.
  destruct H as [(f & E & L)|(E & j & m & Ej & D)].
  - rewrite (look_at x So false q' f P' E) by congruence. unfold sys_rename. rewrite (nonempty_match p) by exact Np. rewrite (nonempty_match q') by exact Nr.
    rewrite (path_eqb_neq p q') by congruence. now rewrite Ed, B.
  - subst q'. rewrite (look_gap x So false j m P' D E). unfold sys_rename. rewrite (nonempty_match p) by exact Np. now rewrite Ed, B.
Qed.

Local Notation U := (file_uri p).
Local Notation V := (file_uri q).
Lemma src_isdir : loc_isdir U x = (Ok (is_pdir e), x).
Proof. unfold loc_isdir, path_isdir. rewrite file_path by now apply plain_good. now apply tested_at. Qed.
Lemma move_start b : loc_isdir V x = (Ok b, x) ->
  loc_move U V x = (let! dest' <- (if is_pdir e && b then lift (rlet b <- u_basename U; u_div V b) else ret V);
                    sh_move (abs_path p) (u_path dest')) x.
Proof.
  intros D. unfold loc_move. rewrite (bind_ok _ _ x _ x src_isdir). rewrite file_path by now apply plain_good.
  destruct (is_pdir e); cbn [andb]; [|reflexivity]. now rewrite (bind_ok _ _ x b x D).
Qed.
Lemma move_other : loc_isdir V x = (Ok false, x) -> loc_move U V x = sh_move (abs_path p) (abs_path q) x.
Proof.
  intros D. rewrite (move_start false D). rewrite andb_false_r. unfold bind, ret. now rewrite file_path by now apply plain_good.
Qed.
Lemma dest_free : free_at x q -> loc_isdir V x = (Ok false, x).
Proof. intros F. unfold loc_isdir, path_isdir. rewrite file_path by now apply plain_good. now apply tested_free. Qed.
Lemma dest_at f : pget q T = Some f -> is_plink f = false -> loc_isdir V x = (Ok (is_pdir f), x).
Proof. intros F L. unfold loc_isdir, path_isdir. rewrite file_path by now apply plain_good. now apply tested_at. Qed.

Lemma move_free : free_at x q -> ~ (is_pdir e = true /\ below p q) -> exists x', loc_move U V x = (Ok tt, x') /\ relocated x x' p q.
Proof.
  intros F Nb. destruct (rename_free q Pq F Nb) as [R Re]. eexists. split; [|exact Re].
  rewrite move_other by now apply dest_free. apply sh_move_plain; auto. now apply tested_free.
Qed.
Lemma move_file : is_pdir e = false -> is_file_at x q -> p <> q -> exists x', loc_move U V x = (Ok tt, x') /\ relocated x x' p q.
Proof.
  intros Nd (d & mo & mt & F) Npq. destruct (rename_file d mo mt Nd F Npq) as [R Re]. eexists. split; [|exact Re].
  rewrite move_other by now apply (dest_at _ F). apply sh_move_plain; auto. now apply (tested_at is_pdir q _ Pq F).
Qed.
Lemma move_self : is_pdir e = false -> p = q -> loc_move U V x = (Ok tt, x).
Proof.
  intros Nd E. rewrite move_other by (rewrite <- Nd; apply dest_at; congruence). apply sh_move_plain.
  - rewrite <- Nd. apply tested_at; congruence.
  - rewrite <- E. rewrite rename_abs by auto. rewrite (look_at x So false p e Pp He) by congruence. unfold sys_rename.
    rewrite !(nonempty_match p) by exact Np. now rewrite path_eqb_refl.
Qed.

(** Into a directory *)
Section Into.
Hypothesis Dq : is_dir_at x q.
Hypothesis Gn : plain_path (q ++ [n]).
Let Pn : Forall plain_name (q ++ [n]) := pp_names _ Gn.
Lemma into_isdir : path_isdir (abs_path q) x = (Ok true, x).
Proof. destruct Dq as (mo & mt & D). now apply (tested_at is_pdir q _ Pq D). Qed.
Lemma move_dir : is_pdir e = true -> loc_move U V x = sh_move (abs_path p) (abs_path (q ++ [n])) x.
Proof.
  intros Ed. destruct Dq as (mo & mt & D). rewrite (move_start true) by now apply (dest_at _ D). rewrite Ed. cbn [andb].
  assert (B : (rlet b <- u_basename U; u_div V b) = Ok (file_uri (q ++ [n]))).
  { rewrite Ep, file_basename by now rewrite <- Ep. now apply file_div'. }
  unfold bind, lift. rewrite B. now rewrite file_path by now apply plain_good.
Qed.
Lemma move_nondir : is_pdir e = false -> loc_move U V x = sh_move (abs_path p) (abs_path q) x.
Proof.
  intros Ed. destruct Dq as (mo & mt & D). rewrite (move_start true) by now apply (dest_at _ D). rewrite Ed. cbn [andb].
  unfold bind, ret. now rewrite file_path by now apply plain_good.
Qed.
(** shutil.move onto a directory other than the source *)
Lemma sh_move_into (g : bool) : p <> q -> path_exists (abs_path (q ++ [n])) x = (Ok g, x) ->
  sh_move (abs_path p) (abs_path q) x =
  if g then (Raise ShutilError, x)
  else match os_rename (abs_path p) (abs_path (q ++ [n])) x with
       | (Raise (OSError er), x') => sh_move_fallback (abs_path p) (abs_path q) (abs_path (q ++ [n])) x'
       | r => r
       end.
Proof.
  intros Npq Eg. unfold sh_move. rewrite (bind_ok _ _ x true x into_isdir).
  destruct Dq as (mo & mt & D).
  assert (Sf : samefile (abs_path p) (abs_path q) x = (Ok false, x)).
  { unfold samefile. rewrite !no_nul by auto. cbn [orb]. rewrite (look_at x So true p e Pp He) by congruence. rewrite (look_at x So true q _ Pq D) by discriminate.
    now rewrite path_eqb_neq. }
  rewrite (bind_ok _ _ x false x Sf). unfold bind at 1, ret at 1. cbn [andb].
  assert (Bn : sh_basename (abs_path p) = n) by (rewrite Ep; apply (basename_abs i n (pn_name _ Nn))).
  rewrite Bn, join_abs by auto.
  rewrite (bind_ok _ _ x g x Eg). now destruct g.
Qed.
Lemma into_not_self : is_pdir e = false -> p <> q.
Proof. intros Nd E. destruct Dq as (mo & mt & D). rewrite <- E, He in D. injection D as ->. discriminate. Qed.

Lemma move_into : pget (q ++ [n]) T = None -> ~ (is_pdir e = true /\ below p q) ->
  exists x', loc_move U V x = (Ok tt, x') /\ relocated x x' p (q ++ [n]).
Proof.
  intros F Nb.
  assert (Fr : free_at x (q ++ [n])) by (split; [exact F|exists q, n; auto]).
  assert (Nb' : ~ (is_pdir e = true /\ below p (q ++ [n]))).
  { intros [Ed [r Er]]. destruct (snoc_cases r) as [->|(r' & c & ->)]; [rewrite app_nil_r in Er; congruence|].
    rewrite app_assoc in Er. apply snoc_inj in Er as [-> _]. apply Nb. split; auto. now exists r'. }
  destruct (rename_free (q ++ [n]) Pn Fr Nb') as [R Re]. eexists. split; [|exact Re].
  destruct (is_pdir e) eqn:Ed.
  - rewrite move_dir by auto. unfold sh_move.
    rewrite (bind_ok _ _ x false x) by (apply tested_free; auto). unfold bind, ret. cbn [andb]. now rewrite R.
  - rewrite move_nondir by auto. rewrite (sh_move_into false); [now rewrite R|now apply into_not_self|].
    now apply tested_free.
Qed.

(** The name is already in use there *)
Section Taken.
Variable f : pent.
Hypothesis Hf : pget (q ++ [n]) T = Some f.
Hypothesis Lf : is_plink f = false.
Lemma taken_file : is_pdir e = false -> loc_move U V x = (Raise ShutilError, x).
Proof.
  intros Ed. rewrite move_nondir by auto. rewrite (sh_move_into true); auto using into_not_self.
  now apply (tested_at (fun _ => true) (q ++ [n]) f).
Qed.
Lemma taken_self : is_pdir e = true -> p = q ++ [n] -> loc_move U V x = (Ok tt, x).
Proof.
  intros Ed E. rewrite move_dir by auto. unfold sh_move.
  assert (D1 : path_isdir (abs_path (q ++ [n])) x = (Ok true, x)) by (rewrite <- Ed, <- E; now apply tested_at).
  rewrite (bind_ok _ _ x true x D1).
  assert (Sf : samefile (abs_path p) (abs_path (q ++ [n])) x = (Ok true, x)).
  { unfold samefile. rewrite !no_nul by auto. cbn [orb]. rewrite <- E. rewrite (look_at x So true p e Pp He) by congruence. now rewrite path_eqb_refl. }
  rewrite (bind_ok _ _ x true x Sf). rewrite (bind_ok _ _ x false x (tested_link p e Pp He Hl)). cbn [andb negb].
  rewrite <- E. rewrite rename_abs by auto. rewrite (look_at x So false p e Pp He) by congruence. unfold sys_rename.
  rewrite !(nonempty_match p) by exact Np. now rewrite path_eqb_refl.
Qed.
End Taken.
End Into.
End Move.
