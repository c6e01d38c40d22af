(** Properties C105 and C106: complete rules for the operations on local files, for every URI and every local tree with
    links; with them C64 and C65 in full.  SpecPosix.v says what the rules are. *)
From Coq Require Import Sorted.
From Verif Require Import Str Exc Utf8 UriParse BaseUri StrFacts Utf8Facts SpecUri SpecParse SpecNames NamesFacts Mem SpecMem Generic UriOps.
From Verif Require Import UriFacts2 UriFacts3 MemUri PropsMem.
From Verif Require Import Misc Posix Local SpecLocal LocalFacts1 LocalFacts2 LocalFacts3 LocalFacts6 LocalFacts12 LocalFacts13 LocalFacts14 LocalFacts15 PropsLocal2.
From Verif Require Import SpecPosix PosixFacts PosixFacts2 PosixFacts3.
Open Scope string_scope.
Open Scope list_scope.

(** ** Concrete trees: relative and absolute links, through "..", chains, loops, links to nothing *)
Definition tree20 : ptree :=
  [([], PDir 493 5); (P ["d"], PDir 493 5); (P ["d"; "f"], PFile (lit "one") 420 6); (P ["d"; "e"], PDir 493 7);
   (P ["l"], PLink (lit "d")); (P ["d"; "e"; "up"], PLink (lit "../../l/f")); (P ["m"], PLink (lit "/l/../l//"));
   (P ["o"], PLink (lit "o")); (P ["z"], PLink (lit "d/new")); (P ["d"; "k"], PDir 493 7)].
Definition loc20 : pst := mkP tree20 (P ["d"]) 50 18.
Lemma loc20_sound : sound loc20. Proof. apply sound_b_ok. vm_compute. reflexivity. Qed.
Definition U (s : string) : uri := match URI (lit s) cSlash [] with Ok u => u | Raise _ => FU [] end.

(** ** C105 *)
(** A path leads to exactly one place. *)
Theorem C105_place x f u : exists o, sees x f u o /\ forall o', sees x f u o' -> o' = o.
Proof. destruct (sees_ex x f u) as [o H]. exists o. split; auto. intros o' H'. eapply sees_det; eauto. Qed.
Print Assumptions C105_place.
(** exists, isfile, isdir and islink never raise. *)
Theorem C105_exists x u : exists b, loc_exists u x = (Ok b, x) /\ (b = true <-> exists p e, sees x true u (Is p e)).
Proof.
  destruct (sees_ex x true u) as [o H]. eexists. split; [exact (test_run _ _ _ _ _ H)|]. destruct o as [p e|d n|e]; split; try discriminate; eauto; intros (p' & e' & H'); pose proof (sees_det _ _ _ _ _ H H'); discriminate.
Qed.
Print Assumptions C105_exists.
Theorem C105_isfile x u : exists b, loc_isfile u x = (Ok b, x) /\ (b = true <-> exists p d mo mt, sees x true u (Is p (PFile d mo mt))).
Proof.
  destruct (sees_ex x true u) as [o H]. eexists. split; [exact (test_run _ _ _ _ _ H)|].
  destruct o as [p [d mo mt|mo mt|t]|d n|e]; split; try discriminate; eauto 6; intros (p' & d' & mo' & mt' & H'); pose proof (sees_det _ _ _ _ _ H H'); discriminate.
Qed.
Print Assumptions C105_isfile.
Theorem C105_isdir x u : exists b, loc_isdir u x = (Ok b, x) /\ (b = true <-> exists p mo mt, sees x true u (Is p (PDir mo mt))).
Proof.
  destruct (sees_ex x true u) as [o H]. eexists. split; [exact (test_run _ _ _ _ _ H)|].
  destruct o as [p [d mo mt|mo mt|t]|d n|e]; split; try discriminate; eauto; intros (p' & mo' & mt' & H'); pose proof (sees_det _ _ _ _ _ H H'); discriminate.
Qed.
Print Assumptions C105_isdir.
Theorem C105_islink x u : exists b, loc_islink u x = (Ok b, x) /\ (b = true <-> exists p t, sees x false u (Is p (PLink t))).
Proof.
  destruct (sees_ex x false u) as [o H]. eexists. split; [exact (test_run _ _ _ _ _ H)|].
  destruct o as [p [d mo mt|mo mt|t]|d n|e]; split; try discriminate; eauto; intros (p' & t' & H'); pose proof (sees_det _ _ _ _ _ H H'); discriminate.
Qed.
Print Assumptions C105_islink.
Theorem C105_read x u r : sound x -> (reads x u r <-> loc_read_all u x = (r, x)).
Proof.
  intros So. destruct (reads_run x u So) as (r0 & E & H). rewrite E. split; [|intros [= <-]; exact H]. intros H'. now rewrite (reads_det _ _ _ _ H H').
Qed.
Print Assumptions C105_read.
Theorem C105_listdir x u r : sound x -> (lists x u r <-> loc_listdir u x = (r, x)).
Proof.
  intros So. destruct (lists_run x u So) as (r0 & E & H). rewrite E. split; [|intros [= <-]; exact H]. intros H'. now rewrite (lists_det _ _ _ _ H H').
Qed.
Print Assumptions C105_listdir.
Theorem C105_readlink x u r : leads x u r <-> loc_readlink u x = (r, x).
Proof.
  destruct (leads_run x u) as (r0 & E & H). rewrite E. split; [|intros [= <-]; exact H]. intros H'. now rewrite (leads_det _ _ _ _ H H').
Qed.
Print Assumptions C105_readlink.
Theorem C105_info x f u r : informs x f u r <-> loc_info u f x = (r, x).
Proof.
  destruct (informs_run x f u) as (r0 & E & H). rewrite E. split; [|intros [= <-]; exact H]. intros H'. now rewrite (informs_det _ _ _ _ _ H H').
Qed.
Print Assumptions C105_info.
Theorem C105_mtime x u p e : sees x true u (Is p e) -> loc_mtime u x = (Ok (entry_time e), x).
Proof. intros H. apply if_entry, C105_info in H. unfold loc_mtime, bind. rewrite H. reflexivity. Qed.
Print Assumptions C105_mtime.
Theorem C105_isexec x u p e m : sees x true u (Is p e) -> exists b, loc_isexec u m x = (Ok b, x) /\ (b = true <-> Z.land (Z.lor (kind_bits e) (perms e)) m <> 0%Z).
Proof.
  intros H. apply if_entry, C105_info in H. unfold loc_isexec, bind. rewrite H. eexists. split; [reflexivity|]. cbn [i_mode]. rewrite negb_true_iff. apply Z.eqb_neq.
Qed.
Print Assumptions C105_isexec.
(** Errors of both *)
Theorem C105_absent x u o e : sees x true u o -> absent o e -> loc_mtime u x = (Raise e, x) /\ forall m, loc_isexec u m x = (Raise e, x).
Proof. intros H A. pose proof (if_absent x true u o e H A) as I. apply C105_info in I. unfold loc_mtime, loc_isexec, bind. rewrite I. auto. Qed.
Print Assumptions C105_absent.
Example C105_witness : sound loc20 /\
  sees loc20 true (U "/d/e/up") (Is (P ["d"; "f"]) (PFile (lit "one") 420 6)) /\ sees loc20 false (U "/d/e/up") (Is (P ["d"; "e"; "up"]) (PLink (lit "../../l/f"))) /\
  sees loc20 true (U "/m/.././z") (Free (P ["d"]) (lit "new")) /\ sees loc20 true (U "/o") (Wrong (OSError ELOOP)) /\ sees loc20 true (U "e/") (Is (P ["d"; "e"]) (PDir 493 7)) /\
  sees loc20 true (U "/d/f/") (Wrong (OSError ENOTDIR)) /\ sees loc20 true (U "/m") (Is (P ["d"]) (PDir 493 5)) /\
  fst (loc_read_all (U "/m/e/up") loc20) = Ok (lit "one") /\ fst (loc_listdir (U "/m") loc20) = Ok [lit "e"; lit "f"; lit "k"] /\
  fst (loc_readlink (U "/l/e/up") loc20) = URI (lit "../../l/f") cSlash [] /\ fst (loc_exists (U "/o") loc20) = Ok false /\ fst (loc_islink (U "/o") loc20) = Ok true.
Proof. split; [apply loc20_sound|]. repeat (split; [apply sees_iff; vm_compute; reflexivity|]). vm_compute. auto. Qed.

(** ** C106 *)
Theorem C106_aims x u : exists o, aims x u o /\ forall o', aims x u o' -> o' = o.
Proof. destruct (aims_ex x u) as [o H]. exists o. split; auto. intros o' H'. eapply aims_det; eauto. Qed.
Print Assumptions C106_aims.
(** Paths with a slash at the end lead to the directory named without it, or nowhere. *)
Theorem C106_slash x f u o : trailing u -> aims x u o ->
  match o with
  | Is p (PFile _ _ _) => sees x f u (Wrong (OSError ENOTDIR))
  | Is p (PLink _) => forall q e, sound x -> sees x f u (Is q e) -> is_dir_at x q
  | Free _ _ => sees x f u (Wrong (OSError ENOENT))
  | o => sees x f u o
  end.
Proof.
  intros T A. destruct o as [p [d mo mt|mo mt|t]|d n|e]; try (apply (aims_slash x f u _ T A); discriminate). intros q e So H. now apply (sees_trailing x f u q e).
Qed.
Print Assumptions C106_slash.
Theorem C106_remove x u fuel : sound x -> u_cls u = ULocal ->
  exists r x', u_remove loc_backend fuel false u x = (r, x') /\ removes x u r x' /\ forall r1 x1, removes x u r1 x1 -> r1 = r /\ alike x1 x'.
Proof.
  intros So L. pose proof (removes_run x u fuel So L) as H. destruct (u_remove loc_backend fuel false u x) as [r x']. exists r, x'. split; auto. split; auto. intros r1 x1 H1. eapply removes_det; eauto.
Qed.
Print Assumptions C106_remove.
Theorem C106_mkdir x u : exists r x', u_mkdir loc_backend u x = (r, x') /\ mkdirs x u r x' /\ forall r1 x1, mkdirs x u r1 x1 -> r1 = r /\ alike x1 x'.
Proof.
  pose proof (mkdirs_run x u) as H. destruct (u_mkdir loc_backend u x) as [r x']. exists r, x'. split; auto. split; auto. intros r1 x1 H1. eapply mkdirs_det; eauto.
Qed.
Print Assumptions C106_mkdir.
Theorem C106_symlink x u v : exists r x', loc_symlink u v x = (r, x') /\ links x u v r x' /\ forall r1 x1, links x u v r1 x1 -> r1 = r /\ alike x1 x'.
Proof.
  pose proof (links_run x u v) as H. destruct (loc_symlink u v x) as [r x']. exists r, x'. split; auto. split; auto. intros r1 x1 H1. eapply links_det; eauto.
Qed.
Print Assumptions C106_symlink.
Theorem C106_write x u ds : sound x -> exists r x', loc_write_all u ds x = (r, x') /\ writes x u ds r x' /\ forall r1 x1, writes x u ds r1 x1 -> r1 = r /\ alike x1 x'.
Proof.
  intros So. pose proof (writes_run x u ds So) as H. destruct (loc_write_all u ds x) as [r x']. exists r, x'. split; auto. split; auto. intros r1 x1 H1. eapply writes_det; eauto.
Qed.
Print Assumptions C106_write.
Theorem C106_append x u ds : sound x -> exists r x', loc_append_all u ds x = (r, x') /\ appends x u ds r x' /\ forall r1 x1, appends x u ds r1 x1 -> r1 = r /\ alike x1 x'.
Proof.
  intros So. pose proof (appends_run x u ds So) as H. destruct (loc_append_all u ds x) as [r x']. exists r, x'. split; auto. split; auto. intros r1 x1 H1. eapply appends_det; eauto.
Qed.
Print Assumptions C106_append.
Theorem C106_set_exec x u m : sound x -> exists r x', loc_set_exec u m x = (r, x') /\ reexecs x u m r x' /\ forall r1 x1, reexecs x u m r1 x1 -> r1 = r /\ alike x1 x'.
Proof.
  intros So. pose proof (reexecs_run x u m So) as H. destruct (loc_set_exec u m x) as [r x']. exists r, x'. split; auto. split; auto. intros r1 x1 H1. eapply reexecs_det; eauto.
Qed.
Print Assumptions C106_set_exec.
(** "link/" leads to the directory but cannot be removed; "new/" can be made as a directory, not as a file or link. *)
Example C106_witness : sound loc20 /\ u_cls (U "/l/") = ULocal /\ trailing (U "/l/") /\ ends_in (U "/d/..") (lit "..") /\ aims loc20 (U "/l/") (Is (P ["l"]) (PLink (lit "d"))) /\
  fst (u_remove loc_backend 9 false (U "/l/") loc20) = Raise (OSError ENOTDIR) /\ fst (u_remove loc_backend 9 false (U "/d/.") loc20) = Raise (OSError EINVAL) /\
  fst (u_remove loc_backend 9 false (U "/l/k/") loc20) = Ok tt /\ pget (P ["d"; "k"]) (p_tree (snd (u_remove loc_backend 9 false (U "/l/k/") loc20))) = None /\
  pget (P ["l"]) (p_tree (snd (u_remove loc_backend 9 false (U "/l") loc20))) = None /\ fst (u_remove loc_backend 9 false (U "/m/") loc20) = Raise (OSError ENOTDIR) /\
  fst (u_remove loc_backend 9 false (U "/d/") loc20) = Raise (OSError ENOTEMPTY) /\ fst (u_remove loc_backend 9 false (U "/o/") loc20) = Raise FileDoesNotExistError /\
  pget (P ["d"; "new"]) (p_tree (snd (u_mkdir loc_backend (U "/l/new//") loc20))) = Some (PDir 493 50) /\ fst (u_mkdir loc_backend (U "/z/") loc20) = Raise (OSError EEXIST) /\
  fst (loc_symlink (U "/x") (U "/new/") loc20) = Raise (OSError ENOENT) /\ fst (loc_write_all (U "/new/") [] loc20) = Raise (OSError EISDIR) /\
  pget (P ["d"; "new"]) (p_tree (snd (loc_append_all (U "/z") [lit "x"; lit "y"] loc20))) = Some (PFile (lit "xy") 420 50) /\
  pget (P ["d"; "f"]) (p_tree (snd (loc_set_exec (U "/d/e/up") 64 loc20))) = Some (PFile (lit "one") 484 6).
Proof.
  split; [apply loc20_sound|]. split; [reflexivity|]. split; [apply trailing_iff; vm_compute; reflexivity|]. split; [apply ends_iff; vm_compute; reflexivity|].
  split; [apply aims_iff; vm_compute; reflexivity|]. vm_compute. repeat (split; [reflexivity|]). reflexivity.
Qed.

(** ** C64 in full *)
(** Either the file named by the path, wherever links lead, holds the pieces and gives them back, keeping its
    permissions if it was there before, and nothing else is changed; or opening raises and changes nothing. *)
Definition mode_kept (x : pst) (o : option pent) (mo : Z) : Prop := (exists d mt, o = Some (PFile d mo mt)) \/ (o = None /\ mo = new_mode x).
Theorem C64_write x u ds : sound x ->
  (exists x' p o mo, loc_write_all u ds x = (Ok tt, x') /\ opens x u p o /\ entry_at x p o /\ mode_kept x o mo /\ only x x' p (Some (PFile (concat ds) mo (p_now x))) /\
     loc_read_all u x' = (Ok (concat ds), x')) \/
  (exists e, loc_write_all u ds x = (Raise e, x)).
Proof.
  intros So. pose proof (writes_run x u ds So) as H. pose proof (steady_loc_write u ds x So) as So'. destruct (loc_write_all u ds x) as [r x']. cbn [fst snd] in *.
  destruct H as [p d mo mt x' O Y|p x' O Y|e R]; [left|left|right; eauto].
  - exists x', p, (Some (PFile d mo mt)), mo. split; auto. split; auto. split; [now apply opens_spot with u|]. split; [left; eauto|]. split; auto.
    apply C105_read; auto. eapply opens_read, opens_after; eauto.
  - exists x', p, None, (new_mode x). split; auto. split; auto. split; [now apply opens_spot with u|]. split; [right; auto|]. split; auto.
    apply C105_read; auto. eapply opens_read, opens_after; eauto.
Qed.
Print Assumptions C64_write.
Theorem C64_append x u ds : sound x ->
  (exists x' p d mo mt mt', loc_append_all u ds x = (Ok tt, x') /\ opens x u p (Some (PFile d mo mt)) /\ only x x' p (Some (PFile (d ++ concat ds) mo mt')) /\
     mt' = (match concat ds with [] => mt | _ => p_now x end) /\ loc_read_all u x = (Ok d, x) /\ loc_read_all u x' = (Ok (d ++ concat ds), x')) \/
  (exists x' p, loc_append_all u ds x = (Ok tt, x') /\ opens x u p None /\ only x x' p (Some (PFile (concat ds) (new_mode x) (p_now x))) /\
     loc_read_all u x' = (Ok (concat ds), x')) \/
  (exists e, loc_append_all u ds x = (Raise e, x)).
Proof.
  intros So. pose proof (appends_run x u ds So) as H. pose proof (steady_loc_append u ds x So) as So'. destruct (loc_append_all u ds x) as [r x']. cbn [fst snd] in *.
  destruct H as [p d mo mt x' O N Y|p d mo mt O N|p x' O Y|e R].
  - left. exists x', p, d, mo, mt, (p_now x). split; auto. split; auto. split; auto. split; [now destruct (concat ds)|]. split; apply C105_read; auto; [eapply opens_read; eauto|]. eapply opens_read, opens_after; eauto.
  - left. exists x, p, d, mo, mt, mt. split; auto. split; auto. rewrite N, app_nil_r. pose proof (opens_spot _ _ _ _ O) as E. split; [unfold entry_at in E; rewrite <- E; apply only_same|].
    split; auto. split; apply C105_read; auto; eapply opens_read; eauto.
  - right. left. exists x', p. split; auto. split; auto. split; auto. apply C105_read; auto. eapply opens_read, opens_after; eauto.
  - right. right. eauto.
Qed.
Print Assumptions C64_append.
Example C64_links_witness : sound loc20 /\ opens loc20 (U "/z") (P ["d"; "new"]) None /\ opens loc20 (U "/d/e/up") (P ["d"; "f"]) (Some (PFile (lit "one") 420 6)) /\
  fst (loc_read_all (U "/l/new") (snd (loc_write_all (U "/m/.././z") [lit "a"; lit "b"] loc20))) = Ok (lit "ab") /\ loc_write_all (U "/o") [lit "a"] loc20 = (Raise (OSError ELOOP), loc20).
Proof.
  split; [apply loc20_sound|]. split; [|split; [|vm_compute; auto]].
  - change (P ["d"; "new"]) with (P ["d"] ++ [lit "new"]). apply op_new; [rewrite trailing_iff; vm_compute; discriminate|apply sees_iff; vm_compute; reflexivity].
  - apply op_file; [rewrite trailing_iff; vm_compute; discriminate|apply sees_iff; vm_compute; reflexivity].
Qed.

(** ** C65 in full *)
(** URIs that lead to the same place behave alike, whatever links there are on the way. *)
Theorem C65_same x u v o : sees x true u o -> sees x true v o ->
  loc_exists v x = loc_exists u x /\ loc_isfile v x = loc_isfile u x /\ loc_isdir v x = loc_isdir u x /\ loc_listdir v x = loc_listdir u x /\
  loc_read_all v x = loc_read_all u x /\
  (~ trailing u -> ~ trailing v -> forall ds, loc_write_all v ds x = loc_write_all u ds x /\ loc_append_all v ds x = loc_append_all u ds x) /\
  loc_info v true x = loc_info u true x /\ loc_mtime v x = loc_mtime u x /\
  (forall m, loc_isexec v m x = loc_isexec u m x /\ loc_set_exec v m x = loc_set_exec u m x).
Proof.
  intros Hu Hv. pose proof (sees_answer x true u v o Hu Hv) as E.
  assert (Is : loc_info v true x = loc_info u true x).
  { unfold loc_info, bind, loc_islink, path_islink. destruct (sees_ex x false u) as [a Ha], (sees_ex x false v) as [b Hb]. rewrite (test_run _ _ _ _ _ Ha), (test_run _ _ _ _ _ Hb).
    rewrite !andb_false_r. cbn [negb]. unfold os_stat. now rewrite E. }
  unfold loc_exists, loc_isfile, loc_isdir, path_exists, path_isfile, path_isdir. rewrite !(test_run _ _ _ _ _ Hu), !(test_run _ _ _ _ _ Hv). do 3 (split; [reflexivity|]).
  split; [unfold loc_listdir, bind, os_listdir; now rewrite E|]. split; [unfold loc_read_all, bind, os_open_r; now rewrite E|].
  split; [intros Tu Tv ds; unfold loc_write_all, loc_append_all, bind, os_open_w, os_open_a, refuse_slashed, sys_open_w, sys_open_a; rewrite !not_slashed by auto; now rewrite E|].
  split; [exact Is|]. split; [unfold loc_mtime, bind; now rewrite Is|]. intros m. split; [unfold loc_isexec, bind; now rewrite Is|].
  unfold loc_set_exec, bind. rewrite Is. destruct (loc_info u true x) as [[i|e] y] eqn:Ei; auto.
  assert (y = x) as -> by (destruct (informs_run x true u) as (r & Er & _); congruence).
  unfold loc_set_mode, loc_islink, path_islink, bind. destruct (sees_ex x false u) as [a Ha], (sees_ex x false v) as [b Hb]. rewrite (test_run _ _ _ _ _ Ha), (test_run _ _ _ _ _ Hb).
  unfold os_chmod. now rewrite E.
Qed.
Print Assumptions C65_same.
(** The end of a chain of links of any kind: an entry, or a free name *)
Theorem C65_end x v u p e : sound x -> sees x true v (Is p e) -> file_at p u -> sees x true u (Is p e).
Proof.
  intros So H (Pp & Hu). pose proof (sees_spot _ _ _ _ H) as E. rewrite (file_at_eq p u (conj Pp Hu)). apply sees_iff. rewrite file_path by now apply plain_good.
  apply (look_at x So); [apply Pp|exact E|]. destruct e; try discriminate. now destruct (sees_nolink x v p target So).
Qed.
Print Assumptions C65_end.
Theorem C65_end_free x v u d n : sound x -> sees x true v (Free d n) -> file_at (d ++ [n]) u -> sees x true u (Free d n).
Proof.
  intros So H (Pp & Hu). pose proof (sees_spot _ _ _ _ H) as [D E]. rewrite (file_at_eq _ u (conj Pp Hu)). apply sees_iff. rewrite file_path by now apply plain_good.
  apply (look_gap x So); auto. apply Pp.
Qed.
Print Assumptions C65_end_free.
(** What a link leads to: its text, taken from the directory it is in. *)
Theorem C65_link x v d n t o : sound x -> sees x false v (Is (d ++ [n]) (PLink t)) -> sees x true v o -> o <> Wrong (OSError ELOOP) -> t <> [] ->
  exists st ps k, starts d t st /\ pieces t ps /\ (k < 40)%nat /\ walks x true k st ps o.
Proof. apply link_text. Qed.
Print Assumptions C65_link.
(** Making a link *)
Theorem C65_link_made x u v x' : sound x -> loc_symlink u v x = (Ok tt, x') ->
  exists t d n, paths u t /\ aims x v (Free d n) /\ only x x' (d ++ [n]) (Some (PLink t)) /\ sees x' false v (Is (d ++ [n]) (PLink t)) /\ forall r, SpecParse.made t cSlash [] r -> loc_readlink v x' = (r, x').
Proof.
  intros So E. pose proof (links_run x u v) as H. rewrite E in H. cbn [fst snd] in H. inversion H as [| |t d n x1 Pt Nt Nu A T O| | |]; subst.
  exists t, d, n. split; auto. split; auto. split; auto. assert (S : sees x' false v (Is (d ++ [n]) (PLink t))).
  { apply aims_plain in A; auto. eapply sees_new; eauto. }
  split; auto. intros r M. apply C105_readlink. eapply le_link; eauto.
Qed.
Print Assumptions C65_link_made.
(** Links that lead nowhere, or in circles, do not exist but are links. *)
Theorem C65_nowhere x v p t o e : sees x false v (Is p (PLink t)) -> sees x true v o -> absent o e ->
  loc_islink v x = (Ok true, x) /\ loc_exists v x = (Ok false, x) /\ loc_isfile v x = (Ok false, x) /\ loc_isdir v x = (Ok false, x) /\ loc_read_all v x = (Raise e, x).
Proof.
  intros L H A. unfold loc_islink, loc_exists, loc_isfile, loc_isdir, path_islink, path_exists, path_isfile, path_isdir. rewrite !(test_run _ _ _ _ _ L), !(test_run _ _ _ _ _ H).
  split; auto. unfold loc_read_all, bind, os_open_r. pose proof H as H'. apply sees_iff in H'. rewrite H'. destruct A; subst; auto.
Qed.
Print Assumptions C65_nowhere.
Theorem C65_remove_any x v p t fuel rc : sound x -> sees x false v (Is p (PLink t)) -> exists x', u_remove loc_backend fuel rc v x = (Ok tt, x') /\ only x x' p None.
Proof.
  intros So H. pose proof H as H'. apply sees_iff in H'. eexists. unfold u_remove, hooked, bind. cbn [loc_backend b_hook b_islink b_removefile]. unfold ret, loc_islink, path_islink.
  rewrite (test_run _ _ _ _ _ H). cbn [is_plink]. unfold loc_removefile, os_unlink. rewrite not_slashed.
  - unfold sys_unlink. rewrite H'. cbn [answer]. split; [reflexivity|apply only_del].
  - intros T. apply (link_not_dir x p t); [exact (sees_spot _ _ _ _ H)|now apply (sees_trailing x false v p (PLink t))].
Qed.
Print Assumptions C65_remove_any.
Example C65_links_witness : sound loc20 /\ sees loc20 true (U "/m/e/up") (Is (P ["d"; "f"]) (PFile (lit "one") 420 6)) /\ file_at (P ["d"; "f"]) (FU ["d"; "f"]) /\
  sees loc20 true (U "/z") (Free (P ["d"]) (lit "new")) /\ sees loc20 false (U "/o") (Is (P ["o"]) (PLink (lit "o"))) /\ sees loc20 true (U "/o") (Wrong (OSError ELOOP)) /\
  (let r := loc_symlink (U "../l") (U "e/../k/q") loc20 in fst r = Ok tt /\ sees (snd r) true (U "/d/k/q/f") (Is (P ["d"; "f"]) (PFile (lit "one") 420 6))) /\
  pget (P ["d"; "e"; "up"]) (p_tree (snd (u_remove loc_backend 9 true (U "/m/e/up") loc20))) = None.
Proof.
  split; [apply loc20_sound|]. split; [apply sees_iff; vm_compute; reflexivity|]. split; [apply at_file; plain|]. do 3 (split; [apply sees_iff; vm_compute; reflexivity|]).
  split; [split; [vm_compute; reflexivity|apply sees_iff; vm_compute; reflexivity]|]. vm_compute. reflexivity.
Qed.
