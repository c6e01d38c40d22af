(** Reading, writing, links and permissions of local files. *)
From Coq Require Import Lia.
From Verif Require Import Str Exc Utf8 UriParse BaseUri StrFacts UriFacts SpecUri UriFacts2 UriFacts3.
From Verif Require Import Mem SpecMem MemFacts MemFacts2 MemFacts3 MemFacts4 MemFacts5 MemFacts9 MemUri MemFacts7.
From Verif Require Import Generic SpecGen GenFacts1 GenFacts2 GenFacts3 GenFacts6 GenFacts8.
From Verif Require Import Misc Posix Local SpecLocal LocalFacts1 LocalFacts2 LocalFacts3 LocalFacts6 LocalFacts7.

Lemma only_set x p e : only x (set_tree x (pset p e (p_tree x))) p (Some e).
Proof.
  split; [|split; [|auto]]; cbn [p_tree set_tree].
  - now rewrite pget_pset, path_eqb_refl.
  - intros q N. now rewrite pget_pset, path_eqb_neq.
Qed.
Lemma only_del x p : only x (set_tree x (pdel p (p_tree x))) p None.
Proof.
  split; [|split; [|auto]]; cbn [p_tree set_tree].
  - now rewrite pget_pdel, path_eqb_refl.
  - intros q N. now rewrite pget_pdel, path_eqb_neq.
Qed.
Lemma only_trans x y z p e f : only x y p e -> only y z p f -> only x z p f.
Proof. intros (A & B & C & D & E) (A' & B' & C' & D' & E'). split; auto. split; [|split; [|split]]; try congruence. intros q N. now rewrite B', B. Qed.
Lemma only_same x p : only x x p (pget p (p_tree x)). Proof. repeat split; auto. Qed.
(** Setting or adding something that is no directory keeps the tree sound. *)
Lemma sound_put x p e : sound x -> ~ is_dir_at x p \/ is_pdir e = true -> pget p (p_tree x) <> None \/ free_at x p ->
  sound (set_tree x (pset p e (p_tree x))).
Proof.
  intros So Nd H. assert (U : forall i n, p = i ++ [n] -> is_dir_at x i).
  { intros i n ->. destruct H as [H|(_ & j & m & E & D)]; [now apply (so_up x So i n)|]. apply snoc_inj in E as [-> _]. exact D. }
  assert (Up : forall q, is_dir_at x q -> exists mo mt, pget q (p_tree (set_tree x (pset p e (p_tree x)))) = Some (PDir mo mt)).
  { intros q (mo & mt & D). cbn [p_tree set_tree]. rewrite pget_pset. destruct (path_eqb q p) eqn:E; [|eauto].
    apply path_eqb_spec in E. subst q. destruct Nd as [Nd|Nd]; [exfalso; apply Nd; eexists; eauto|]. destruct e; try discriminate. eauto. }
  split.
  - apply Up. apply (so_root x So).
  - intros q n Hq. apply Up. cbn [p_tree set_tree] in Hq. rewrite pget_pset in Hq. destruct (path_eqb (q ++ [n]) p) eqn:E.
    + apply path_eqb_spec in E. symmetry in E. now apply (U q n).
    + now apply (so_up x So q n).
  - cbn [p_tree set_tree]. apply pset_nodup, So.
Qed.

Section Files.
Variable x : pst.
Hypothesis So : sound x.
Local Notation T := (p_tree x).
Variable p : list str.
Hypothesis Gp : plain_path p.
Let Pp : Forall plain_name p := pp_names _ Gp.
Local Notation u := (file_uri p).
Lemma p_at : u_path u = abs_path p. Proof. apply file_path. now apply plain_good. Qed.

Lemma read_file d mo mt : pget p T = Some (PFile d mo mt) -> loc_read_all u x = (Ok d, x).
Proof.
  intros E. unfold loc_read_all. rewrite p_at. unfold bind, os_open_r. rewrite (look_at x So true p _ Pp E) by discriminate.
  unfold fd_data. now rewrite E.
Qed.
Lemma read_dir : is_dir_at x p -> loc_read_all u x = (Raise (OSError EISDIR), x).
Proof.
  intros (mo & mt & E). unfold loc_read_all. rewrite p_at. unfold bind, os_open_r. now rewrite (look_at x So true p _ Pp E) by discriminate.
Qed.
Lemma read_free : free_at x p -> loc_read_all u x = (Raise (OSError ENOENT), x).
Proof.
  intros (E & i & n & Ep & D). unfold loc_read_all. rewrite p_at. unfold bind, os_open_r.
  assert (L : plook x true (abs_path p) = Ok (Gap i n)) by (rewrite Ep in *; now apply (look_gap x So)). now rewrite L.
Qed.
Lemma append_at y d mo mt b : pget p (p_tree y) = Some (PFile d mo mt) ->
  exists y' mt', fd_append p b y = (Ok tt, y') /\ only y y' p (Some (PFile (d ++ b) mo mt')) /\ (mt' = p_now y \/ (mt' = mt /\ b = [])).
Proof.
  intros E. unfold fd_append. rewrite E. destruct b as [|c b].
  - exists y, mt. split; auto. rewrite app_nil_r. split; auto. rewrite <- E. apply only_same.
  - eexists. exists (p_now y). split; [reflexivity|]. split; auto. apply only_set.
Qed.
Lemma write_file d mo mt ds : pget p T = Some (PFile d mo mt) ->
  exists x', loc_write_all u ds x = (Ok tt, x') /\ only x x' p (Some (PFile (concat ds) mo (p_now x))).
Proof.
  intros E. unfold loc_write_all. rewrite p_at. unfold bind. rewrite open_w_abs by auto. unfold sys_open_w. rewrite (look_at x So true p _ Pp E) by discriminate.
  destruct (append_at (set_tree x (pset p (PFile [] mo (p_now x)) T)) [] mo (p_now x) (concat ds)) as (y' & mt' & Ea & O & H).
  { cbn [p_tree set_tree]. now rewrite pget_pset, path_eqb_refl. }
  rewrite Ea. exists y'. split; auto. eapply only_trans; [apply only_set|]. destruct H as [->|[-> _]]; exact O.
Qed.
Lemma write_free ds : free_at x p -> exists x', loc_write_all u ds x = (Ok tt, x') /\ only x x' p (Some (PFile (concat ds) (new_mode x) (p_now x))).
Proof.
  intros (E & i & n & Ep & D). unfold loc_write_all. rewrite p_at. unfold bind. rewrite open_w_abs by auto. unfold sys_open_w.
  assert (L : plook x true (abs_path p) = Ok (Gap i n)) by (rewrite Ep in *; now apply (look_gap x So)). rewrite L, <- Ep.
  destruct (append_at (set_tree x (pset p (new_pfile x) T)) [] (new_mode x) (p_now x) (concat ds)) as (y' & mt' & Ea & O & H).
  { cbn [p_tree set_tree]. now rewrite pget_pset, path_eqb_refl. }
  rewrite Ea. exists y'. split; auto. eapply only_trans; [apply only_set|]. destruct H as [->|[-> _]]; exact O.
Qed.
Lemma write_dir ds : is_dir_at x p -> loc_write_all u ds x = (Raise (OSError EISDIR), x).
Proof. intros (mo & mt & E). unfold loc_write_all. rewrite p_at. unfold bind. rewrite open_w_abs by auto. unfold sys_open_w. now rewrite (look_at x So true p _ Pp E) by discriminate. Qed.
Lemma app_file d mo mt ds : pget p T = Some (PFile d mo mt) ->
  exists x' mt', loc_append_all u ds x = (Ok tt, x') /\ only x x' p (Some (PFile (d ++ concat ds) mo mt')) /\ (mt' = p_now x \/ (mt' = mt /\ concat ds = [])).
Proof.
  intros E. unfold loc_append_all. rewrite p_at. unfold bind. rewrite open_a_abs by auto. unfold sys_open_a. rewrite (look_at x So true p _ Pp E) by discriminate.
  apply (append_at x d mo mt (concat ds) E).
Qed.
Lemma app_free ds : free_at x p -> exists x', loc_append_all u ds x = (Ok tt, x') /\ only x x' p (Some (PFile (concat ds) (new_mode x) (p_now x))).
Proof.
  intros (E & i & n & Ep & D). unfold loc_append_all. rewrite p_at. unfold bind. rewrite open_a_abs by auto. unfold sys_open_a.
  assert (L : plook x true (abs_path p) = Ok (Gap i n)) by (rewrite Ep in *; now apply (look_gap x So)). rewrite L, <- Ep.
  destruct (append_at (set_tree x (pset p (new_pfile x) T)) [] (new_mode x) (p_now x) (concat ds)) as (y' & mt' & Ea & O & H).
  { cbn [p_tree set_tree]. now rewrite pget_pset, path_eqb_refl. }
  rewrite Ea. exists y'. split; auto. eapply only_trans; [apply only_set|]. destruct H as [->|[-> _]]; exact O.
Qed.
End Files.

(** *** Links *)
Section Links.
Variable x : pst.
Hypothesis So : sound x.
Local Notation T := (p_tree x).
Lemma walk_at b cs e : Forall plain_name cs -> pget cs T = Some e -> is_plink e = false -> pwalk T true b [] cs = Ok (At cs e).
Proof.
  intros P E L. destruct (snoc_cases cs) as [->|(i & n & ->)]; [now apply walk_here|].
  assert (D : is_dir_at x i) by (apply (so_dir x So i [n]); [easy|congruence]).
  apply Forall_app in P as [Pi Pn]. inversion Pn as [|? ? Pn' _]; subst.
  rewrite (walk_down x So true b [n] i []) by auto. cbn [app]. rewrite (walk_enter x) by eauto. now apply walk_here.
Qed.
Lemma walk_gap b f i n : Forall plain_name (i ++ [n]) -> is_dir_at x i -> pget (i ++ [n]) T = None -> pwalk T f b [] (i ++ [n]) = Ok (Gap i n).
Proof.
  intros P D E. apply Forall_app in P as [Pi Pn]. inversion Pn as [|? ? Pn' _]; subst.
  rewrite (walk_down x So f b [n] i []) by auto. cbn [app]. now rewrite (walk_none x).
Qed.
(** A link to an absolute path: the target takes its place. *)
Lemma walk_through b i n q rest f : Forall plain_name (i ++ [n]) -> Forall plain_name q -> pget (i ++ [n]) T = Some (PLink (abs_path q)) ->
  f = true \/ rest <> [] -> pwalk T f (S b) [] ((i ++ [n]) ++ rest) = pwalk T f b [] (q ++ rest).
Proof.
  intros P Pq E Hf. assert (D : is_dir_at x i) by (apply (so_dir x So i [n]); [easy|congruence]).
  apply Forall_app in P as [Pi Pn]. inversion Pn as [|? ? Pn' _]; subst. rewrite <- app_assoc.
  rewrite (walk_down x So f (S b) ([n] ++ rest) i []) by auto. cbn [app]. destruct (plain_step n Pn') as [S1 S2].
  pose proof D as (mo & mt & D'). cbn [pwalk]. rewrite D', S1, S2, E.
  assert (Hr : match rest with [] => negb f | _ => false end = false) by (destruct Hf as [->|Nr]; destruct rest; easy). rewrite Hr.
  assert (Pf : prefixb [cSlash] (abs_path q) = true) by (apply prefixb_spec; destruct q; cbn; eauto).
  destruct (abs_path q) as [|a l] eqn:Ea; [destruct q; discriminate|]. rewrite Pf, <- Ea, split_abs by now apply plain_names.
  destruct (so_root _ So) as (mo0 & mt0 & D0).
  assert (W : forall l, pwalk T f b [] ([] :: l) = pwalk T f b [] l) by (intros l0; destruct b; cbn [pwalk]; now rewrite D0).
  destruct q as [|c q]; cbn [app]; now rewrite !W.
Qed.
Lemma look_link i n q e : Forall plain_name (i ++ [n]) -> Forall plain_name q -> pget (i ++ [n]) T = Some (PLink (abs_path q)) ->
  pget q T = Some e -> is_plink e = false -> plook x true (abs_path (i ++ [n])) = Ok (At q e).
Proof.
  intros P Pq E Eq L. rewrite plook_abs by auto. rewrite <- (app_nil_r (i ++ [n])). change pbudget with (S 39).
  rewrite (walk_through 39 i n q []) by auto. rewrite app_nil_r. now apply walk_at.
Qed.
Lemma look_dangling i n j m : Forall plain_name (i ++ [n]) -> Forall plain_name (j ++ [m]) -> pget (i ++ [n]) T = Some (PLink (abs_path (j ++ [m]))) ->
  is_dir_at x j -> pget (j ++ [m]) T = None -> plook x true (abs_path (i ++ [n])) = Ok (Gap j m).
Proof.
  intros P Pq E D Eq. rewrite plook_abs by auto. rewrite <- (app_nil_r (i ++ [n])). change pbudget with (S 39).
  rewrite (walk_through 39 i n (j ++ [m]) []) by auto. rewrite app_nil_r. now apply walk_gap.
Qed.
(** A path through a link to a directory *)
Lemma look_below_link i n q r e : Forall plain_name (i ++ [n]) -> Forall plain_name (q ++ r) -> pget (i ++ [n]) T = Some (PLink (abs_path q)) ->
  pget (q ++ r) T = Some e -> is_plink e = false -> Forall plain_name r -> plook x true (abs_path ((i ++ [n]) ++ r)) = Ok (At (q ++ r) e).
Proof.
  intros P Pq E Eq L Pr. rewrite plook_abs; [|exact So|apply Forall_app; auto]. change pbudget with (S 39).
  pose proof (proj1 (Forall_app _ _ _) Pq) as Pq'. rewrite (walk_through 39 i n q r) by tauto. now apply walk_at.
Qed.
End Links.
