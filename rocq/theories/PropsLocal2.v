(** Properties C63, C64, C65 and C66: moving, reading and writing, links and permissions of local files.
    SpecLocal.v says what the theorems are stated with.  Local files are those of Posix.v. *)
From Verif Require Import Str Exc Utf8 UriParse BaseUri StrFacts Utf8Facts SpecUri Mem SpecMem MemOps Generic SpecGen UriOps.
From Verif Require Import UriFacts2 UriFacts3 MemFacts MemFacts2 MemFacts3 MemFacts4 MemFacts6 MemFacts9 MemUri MemFacts10 PropsMem.
From Verif Require Import Misc Posix Local SpecLocal LocalFacts1 LocalFacts2 LocalFacts3 LocalFacts6 LocalFacts7 LocalFacts8 LocalFacts12 LocalFacts13 LocalFacts14 LocalFacts15 LocalFacts16 MoveFacts.
Open Scope string_scope.
Open Scope list_scope.

(** ** A concrete state *)
Definition tree0 : ptree :=
  [([], PDir 493 5); (P ["a"], PDir 493 5); (P ["a"; "f"], PFile (lit "hello") 420 6); (P ["a"; "s"], PDir 493 7); (P ["a"; "s"; "g"], PFile (lit "x") 384 8);
   (P ["b"], PDir 493 5); (P ["k"], PFile (lit "old") 493 9); (P ["c"], PDir 493 5); (P ["c"; "a"], PDir 493 5); (P ["c"; "f"], PFile [] 420 3)].
Definition loc1 : pst := mkP tree0 [] 50 18.
Lemma loc1_sound : sound loc1. Proof. apply sound_b_ok. vm_compute. reflexivity. Qed.
Lemma loc1_unlinked : forall r tg, pget r (p_tree loc1) <> Some (PLink tg).
Proof.
  intros r tg E. assert (X : forall t, forallb (fun pe : list str * pent => negb (is_plink (snd pe))) t = true -> pget r t <> Some (PLink tg)).
  { clear. induction t as [|[q e] t IH]; [easy|]. cbn. intros H. apply andb_true_iff in H as [H1 H2]. destruct (path_eqb r q); auto.
    intros [= ->]. discriminate. }
  apply (X tree0); [reflexivity|exact E].
Qed.
Ltac plain := apply plain_b_ok; vm_compute; reflexivity.
Lemma at_file cs : plain_path cs -> file_at cs (file_uri cs).
Proof. intros H. split; auto. apply file_uri_eq, H. Qed.
Definition FU (l : list string) : uri := file_uri (P l).

(** ** C63 *)
(** To a name that is free, or over a file: what was at [p], with everything below, is at [q].  Into a directory:
    it is there under its own name.  Nothing else changes.
    Partial: destinations and sources that are no links. *)
Theorem C63_to_partial x i n q u v e : sound x -> file_at (i ++ [n]) u -> file_at q v ->
  pget (i ++ [n]) (p_tree x) = Some e -> is_plink e = false ->
  (free_at x q /\ ~ (is_pdir e = true /\ below (i ++ [n]) q)) \/ (is_pdir e = false /\ is_file_at x q /\ i ++ [n] <> q) ->
  exists x', loc_move u v x = (Ok tt, x') /\ relocated x x' (i ++ [n]) q.
Proof.
  intros So Hu Hv He Hl H. rewrite (file_at_eq _ _ Hu), (file_at_eq _ _ Hv). destruct H as [[F Nb]|(Nd & Fq & N)].
  - eapply (move_free x So (i ++ [n]) q); eauto; [apply Hu|apply Hv].
  - eapply (move_file x So (i ++ [n]) q); eauto; [apply Hu|apply Hv].
Qed.
Print Assumptions C63_to_partial.
Theorem C63_into_partial x i n q u v e : sound x -> file_at (i ++ [n]) u -> file_at q v -> plain_path (q ++ [n]) ->
  pget (i ++ [n]) (p_tree x) = Some e -> is_plink e = false ->
  is_dir_at x q -> pget (q ++ [n]) (p_tree x) = None -> ~ (is_pdir e = true /\ below (i ++ [n]) q) ->
  exists x', loc_move u v x = (Ok tt, x') /\ relocated x x' (i ++ [n]) (q ++ [n]).
Proof.
  intros So Hu Hv G He Hl D F Nb. rewrite (file_at_eq _ _ Hu), (file_at_eq _ _ Hv). eapply (move_into x So (i ++ [n]) q i n); eauto; [apply Hu|apply Hv].
Qed.
Print Assumptions C63_into_partial.
(** Moving a file onto itself changes nothing, and neither does moving a directory into the directory it is in. *)
Theorem C63_itself x i n u v e : sound x -> file_at (i ++ [n]) u ->
  pget (i ++ [n]) (p_tree x) = Some e -> is_plink e = false ->
  (is_pdir e = false /\ file_at (i ++ [n]) v) \/ (is_pdir e = true /\ file_at i v) -> loc_move u v x = (Ok tt, x).
Proof.
  intros So Hu He Hl H. rewrite (file_at_eq _ _ Hu). destruct H as [[Nd Hv]|[Ed Hv]]; rewrite (file_at_eq _ _ Hv).
  - eapply (move_self x So (i ++ [n]) (i ++ [n])); eauto; apply Hu.
  - eapply (taken_self x So (i ++ [n]) i i n e); eauto; try apply Hu; try apply Hv. apply (so_up x So i n). congruence.
Qed.
Print Assumptions C63_itself.
(** A move that raises changes nothing: for every pair of URIs, links or not.  ([OutOfFuel]: what Posix.v leaves out.) *)
Theorem C63_failure x u v e x' : sound x -> loc_move u v x = (Raise e, x') -> e <> OutOfFuel -> x' = x.
Proof. intros So H _. now apply move_raises in H. Qed.
Print Assumptions C63_failure.
(** Which moves raise: what is missing, a file or directory whose name is taken, a directory into itself, and a file
    into a directory that does not exist. *)
Theorem C63_missing_partial x i n q u v : sound x -> file_at (i ++ [n]) u -> file_at q v -> free_at x (i ++ [n]) -> known x q ->
  (is_dir_at x q -> pget (q ++ [n]) (p_tree x) = None /\ plain_path (q ++ [n])) ->
  loc_move u v x = (Raise (OSError ENOENT), x).
Proof.
  intros So Hu Hv F K H. rewrite (file_at_eq _ _ Hu), (file_at_eq _ _ Hv). eapply (move_missing x So (i ++ [n]) i n); eauto; [apply Hu|apply Hv].
Qed.
Print Assumptions C63_missing_partial.
Theorem C63_taken_partial x i n q u v e : sound x -> file_at (i ++ [n]) u -> file_at q v -> plain_path (q ++ [n]) ->
  pget (i ++ [n]) (p_tree x) = Some e -> is_dir_at x q ->
  (is_pfile e = true -> forall f, pget (q ++ [n]) (p_tree x) = Some f -> is_plink f = false -> loc_move u v x = (Raise ShutilError, x)) /\
  (is_pdir e = true -> is_file_at x (q ++ [n]) -> ~ below (i ++ [n]) q -> loc_move u v x = (Raise (OSError EEXIST), x)).
Proof.
  intros So Hu Hv G He D. rewrite (file_at_eq _ _ Hu), (file_at_eq _ _ Hv). split.
  - intros Fe f Hf Lf. eapply (taken_file x So (i ++ [n]) q i n e); eauto; try apply Hu; try apply Hv; now destruct e.
  - intros Ed Fq Nb. eapply (move_dir_onto_file x So (i ++ [n]) i n); eauto; [apply Hu|apply Hv].
Qed.
Print Assumptions C63_taken_partial.
Theorem C63_inside_partial x i n q u v : sound x -> file_at (i ++ [n]) u -> file_at q v -> plain_path ((q ++ [n]) ++ [n]) ->
  (forall r tg, pget r (p_tree x) <> Some (PLink tg)) -> is_dir_at x (i ++ [n]) -> below (i ++ [n]) q -> known x q ->
  loc_move u v x = (Raise ShutilError, x).
Proof.
  intros So Hu Hv G Un (mo & mt & D) B K. rewrite (file_at_eq _ _ Hu), (file_at_eq _ _ Hv).
  apply (move_inside x So (i ++ [n]) i n eq_refl (proj1 Hu) _ D eq_refl Un q); auto. apply Hv.
Qed.
Print Assumptions C63_inside_partial.
(** To a place whose directory is missing: a file is not moved, a directory is, and the directories are made. *)
Theorem C63_far_partial x i n j m1 m2 rest u v e : sound x -> file_at (i ++ [n]) u -> file_at (j ++ m1 :: m2 :: rest) v ->
  pget (i ++ [n]) (p_tree x) = Some e -> is_plink e = false -> is_dir_at x j -> pget (j ++ [m1]) (p_tree x) = None ->
  (is_pdir e = false -> loc_move u v x = (Raise (OSError ENOENT), x)) /\
  (is_pdir e = true -> ~ below (i ++ [n]) (j ++ m1 :: m2 :: rest) ->
   exists x1 x', loc_move u v x = (Ok tt, x') /\ relocated x1 x' (i ++ [n]) (j ++ m1 :: m2 :: rest) /\
     (forall b1 b2, m1 :: m2 :: rest = b1 ++ b2 -> b1 <> [] -> b2 <> [] -> is_dir_at x1 (j ++ b1)) /\
     (forall z, (forall b1 b2, m1 :: m2 :: rest = b1 ++ b2 -> b1 <> [] -> b2 <> [] -> z <> j ++ b1) -> pget z (p_tree x1) = pget z (p_tree x))).
Proof.
  intros So Hu Hv He Hl D F. rewrite (file_at_eq _ _ Hu), (file_at_eq _ _ Hv). split.
  - intros Nd. eapply (move_file_far x So (i ++ [n]) i n); eauto; [apply Hu|apply Hv].
  - intros Ed Nb. eapply (move_dir_far x So (i ++ [n]) i n); eauto; [apply Hu|apply Hv].
Qed.
Print Assumptions C63_far_partial.
Example C63_witness :
  sound loc1 /\ file_at (P ["a"]) (FU ["a"]) /\ file_at (P ["b"]) (FU ["b"]) /\ file_at (P ["n"]) (FU ["n"]) /\ file_at (P ["x"; "y"]) (FU ["x"; "y"]) /\
  pget (P ["a"]) (p_tree loc1) = Some (PDir 493 5) /\ free_at loc1 (P ["n"]) /\ ~ below (P ["a"]) (P ["n"]) /\
  is_dir_at loc1 (P ["b"]) /\ pget (P ["b"; "a"]) (p_tree loc1) = None /\ pget (P ["x"]) (p_tree loc1) = None /\
  pget (P ["b"; "a"; "s"; "g"]) (p_tree (snd (loc_move (FU ["a"]) (FU ["b"]) loc1))) = Some (PFile (lit "x") 384 8) /\
  pget (P ["x"; "y"; "f"]) (p_tree (snd (loc_move (FU ["a"]) (FU ["x"; "y"]) loc1))) = Some (PFile (lit "hello") 420 6) /\
  loc_move (FU ["a"; "f"]) (FU ["x"; "y"]) loc1 = (Raise (OSError ENOENT), loc1) /\
  loc_move (FU ["a"]) (FU ["a"; "s"]) loc1 = (Raise ShutilError, loc1) /\
  loc_move (FU ["a"; "f"]) (FU ["c"]) loc1 = (Raise ShutilError, loc1).
Proof.
  split; [apply loc1_sound|]. do 4 (split; [apply at_file; plain|]). split; [reflexivity|].
  split; [split; [reflexivity|]; exists [], (lit "n"); split; [reflexivity|]; exists 493%Z, 5%Z; reflexivity|].
  split; [intros [r E]; discriminate|]. split; [exists 493%Z, 5%Z; reflexivity|]. repeat (split; [vm_compute; reflexivity|]). vm_compute. reflexivity.
Qed.
(** A directory moved into a directory that has one of that name goes one level too deep; for every state. *)
Theorem C63_nested_refuted x i n q u v : sound x -> file_at (i ++ [n]) u -> file_at q v -> plain_path ((q ++ [n]) ++ [n]) ->
  is_dir_at x (i ++ [n]) -> is_dir_at x q -> is_dir_at x (q ++ [n]) -> i ++ [n] <> q ++ [n] -> ~ below (i ++ [n]) q ->
  pget ((q ++ [n]) ++ [n]) (p_tree x) = None ->
  exists x', loc_move u v x = (Ok tt, x') /\ relocated x x' (i ++ [n]) ((q ++ [n]) ++ [n]).
Proof.
  intros So Hu Hv G (mo & mt & D) Dq Dn N Nb F. rewrite (file_at_eq _ _ Hu), (file_at_eq _ _ Hv).
  apply (move_nested x So (i ++ [n]) i n eq_refl (proj1 Hu) _ q D eq_refl); auto. apply Hv.
Qed.
Print Assumptions C63_nested_refuted.
Example C63_nested_witness : is_dir_at loc1 (P ["a"]) /\ is_dir_at loc1 (P ["c"]) /\ is_dir_at loc1 (P ["c"; "a"]) /\ ~ below (P ["a"]) (P ["c"]) /\
  pget (P ["c"; "a"; "a"]) (p_tree loc1) = None /\
  pget (P ["c"; "a"; "a"; "f"]) (p_tree (snd (loc_move (FU ["a"]) (FU ["c"]) loc1))) = Some (PFile (lit "hello") 420 6).
Proof.
  do 3 (split; [exists 493%Z, 5%Z; reflexivity|]). split; [intros [r E]; discriminate|]. split; vm_compute; reflexivity.
Qed.

(** ** C64 *)
(** What is written is read, in one go, whatever the pieces; the permissions of an existing file stay, a new file
    gets those of the umask; no other entry changes.  Partial: names that are no links (C65 for those). *)
Theorem C64_write_plain x p u ds : sound x -> file_at p u -> is_file_at x p \/ free_at x p ->
  exists x' mo, loc_write_all u ds x = (Ok tt, x') /\ only x x' p (Some (PFile (concat ds) mo (p_now x))) /\
    (forall d mo' mt, pget p (p_tree x) = Some (PFile d mo' mt) -> mo = mo') /\ (free_at x p -> mo = new_mode x) /\
    loc_read_all u x' = (Ok (concat ds), x').
Proof.
  intros So Hu H. rewrite (file_at_eq _ _ Hu). destruct Hu as [G _].
  assert (R : forall x' mo, loc_write_all (file_uri p) ds x = (Ok tt, x') -> only x x' p (Some (PFile (concat ds) mo (p_now x))) ->
            loc_read_all (file_uri p) x' = (Ok (concat ds), x')).
  { intros x' mo E (O & _). eapply read_file; eauto. pose proof (steady_loc_write (file_uri p) ds x So) as S'. now rewrite E in S'. }
  destruct H as [(d & mo & mt & F)|F].
  - destruct (write_file x So p G d mo mt ds F) as (x' & E & O). exists x', mo. split; auto. split; auto. split; [congruence|]. split; [|eauto].
    intros [F' _]. congruence.
  - destruct (write_free x So p G ds F) as (x' & E & O). exists x', (new_mode x). split; auto. split; auto. split; [|split; eauto].
    destruct F as [F _]. congruence.
Qed.
Print Assumptions C64_write_plain.
Theorem C64_append_plain x p u ds : sound x -> file_at p u -> is_file_at x p \/ free_at x p ->
  exists x' mo mt, let old := match pget p (p_tree x) with Some (PFile d _ _) => d | _ => [] end in
    loc_append_all u ds x = (Ok tt, x') /\ only x x' p (Some (PFile (old ++ concat ds) mo mt)) /\
    (forall d mo' mt', pget p (p_tree x) = Some (PFile d mo' mt') -> mo = mo') /\ (free_at x p -> mo = new_mode x) /\
    loc_read_all u x' = (Ok (old ++ concat ds), x').
Proof.
  intros So Hu H. cbv zeta. rewrite (file_at_eq _ _ Hu). destruct Hu as [G _].
  assert (R : forall x' b mo mt, loc_append_all (file_uri p) ds x = (Ok tt, x') -> only x x' p (Some (PFile b mo mt)) ->
            loc_read_all (file_uri p) x' = (Ok b, x')).
  { intros x' b mo mt E (O & _). eapply read_file; eauto. pose proof (steady_loc_append (file_uri p) ds x So) as S'. now rewrite E in S'. }
  destruct H as [(d & mo & mt & F)|F].
  - destruct (app_file x So p G d mo mt ds F) as (x' & mt' & E & O & _). rewrite F. exists x', mo, mt'. split; auto. split; auto. split; [congruence|].
    split; [|eauto]. intros [F' _]. congruence.
  - destruct (app_free x So p G ds F) as (x' & E & O). destruct F as [F F2]. rewrite F. exists x', (new_mode x), (p_now x). split; auto. split; auto.
    split; [congruence|]. split; eauto.
Qed.
Print Assumptions C64_append_plain.
(** Directories cannot be opened, a missing file cannot be read, and nothing can be made in a missing directory or
    in a file. *)
Theorem C64_denied x p u ds : sound x -> file_at p u ->
  (is_dir_at x p -> loc_read_all u x = (Raise (OSError EISDIR), x) /\ loc_write_all u ds x = (Raise (OSError EISDIR), x) /\
                    loc_append_all u ds x = (Raise (OSError EISDIR), x)) /\
  (free_at x p -> loc_read_all u x = (Raise (OSError ENOENT), x)) /\
  (forall j m1 m2 rest, p = j ++ m1 :: m2 :: rest -> is_dir_at x j -> pget (j ++ [m1]) (p_tree x) = None ->
     loc_read_all u x = (Raise (OSError ENOENT), x) /\ loc_write_all u ds x = (Raise (OSError ENOENT), x) /\
     loc_append_all u ds x = (Raise (OSError ENOENT), x)) /\
  (forall j m rest, p = j ++ m :: rest -> is_file_at x j ->
     loc_read_all u x = (Raise (OSError ENOTDIR), x) /\ loc_write_all u ds x = (Raise (OSError ENOTDIR), x) /\
     loc_append_all u ds x = (Raise (OSError ENOTDIR), x)).
Proof.
  intros So Hu. rewrite (file_at_eq _ _ Hu). destruct Hu as [G _]. pose proof (pp_names _ G) as P0.
  assert (Q : forall e, plook x true (abs_path p) = Raise e -> loc_read_all (file_uri p) x = (Raise e, x) /\ loc_write_all (file_uri p) ds x = (Raise e, x) /\
     loc_append_all (file_uri p) ds x = (Raise e, x)).
  { intros e L. unfold loc_read_all, loc_write_all, loc_append_all, bind, os_open_r. rewrite (p_at p G), open_w_abs, open_a_abs by auto. unfold sys_open_w, sys_open_a. rewrite L. auto. }
  split; [|split; [|split]].
  - intros D. split; [now apply read_dir|]. split; [now apply write_dir|]. destruct D as (mo & mt & D).
    unfold loc_append_all, bind. rewrite (p_at p G), open_a_abs by auto. unfold sys_open_a. now rewrite (look_at x So true p _ P0 D) by discriminate.
  - intros F. now apply read_free.
  - intros j m1 m2 rest -> D F. apply Q. now apply (look_void x So).
  - intros j m rest -> F. apply Q. now apply (look_under_file x So).
Qed.
Print Assumptions C64_denied.
Example C64_witness : file_at (P ["k"]) (FU ["k"]) /\ is_file_at loc1 (P ["k"]) /\ file_at (P ["b"; "n"]) (FU ["b"; "n"]) /\ free_at loc1 (P ["b"; "n"]) /\
  (let x := snd (loc_write_all (FU ["b"; "n"]) [lit "ab"; lit "c"] loc1) in
   let y := snd (loc_append_all (FU ["b"; "n"]) [lit "d"] x) in fst (loc_read_all (FU ["b"; "n"]) y) = Ok (lit "abcd") /\
   pget (P ["b"; "n"]) (p_tree y) = Some (PFile (lit "abcd") 420 50)).
Proof.
  split; [apply at_file; plain|]. split; [exists (lit "old"), 493%Z, 9%Z; reflexivity|]. split; [apply at_file; plain|].
  split; [split; [reflexivity|]; exists (P ["b"]), (lit "n"); split; [reflexivity|]; exists 493%Z, 5%Z; reflexivity|]. vm_compute. auto.
Qed.

(** ** C65 *)
(** Making a link: it is there, it is a link, and it says where it leads to; nothing else changes. *)
Theorem C65_made x p q v u : sound x -> file_at p v -> file_at q u -> free_at x p ->
  exists x', loc_symlink u v x = (Ok tt, x') /\ only x x' p (Some (PLink (abs_path q))) /\
    loc_islink v x' = (Ok true, x') /\ loc_readlink v x' = (Ok u, x').
Proof.
  intros So Hv Hu F. rewrite (file_at_eq _ _ Hu), (file_at_eq _ _ Hv). destruct Hu as [Gq _], Hv as [Gp _].
  pose proof (steady_loc_symlink (file_uri q) (file_uri p) x So) as S'.
  assert (E : loc_symlink (file_uri q) (file_uri p) x = (Ok tt, set_tree x (pset p (PLink (abs_path q)) (p_tree x)))).
  { unfold loc_symlink. rewrite !file_path by now apply plain_good. rewrite symlink_abs by apply Gp. unfold sys_symlink. rewrite no_nul by apply Gq.
    destruct F as (E & i & n & -> & D). rewrite (look_gap x So) by (auto; apply Gp). now destruct (abs_path q) eqn:Ea; [destruct q; discriminate|]. }
  rewrite E in S'. cbn [snd] in S'. eexists. split; [exact E|]. split; [apply only_set|].
  set (x' := set_tree x _) in *. assert (H : pget p (p_tree x') = Some (PLink (abs_path q))) by (unfold x'; cbn [p_tree set_tree]; now rewrite pget_pset, path_eqb_refl).
  assert (L : plook x' false (abs_path p) = Ok (At p (PLink (abs_path q)))) by (apply (look_at x' S'); auto; apply Gp).
  split.
  - unfold loc_islink, path_islink, os_test, os_stat. rewrite file_path by now apply plain_good. now rewrite L.
  - unfold loc_readlink, bind, os_readlink. rewrite file_path by now apply plain_good. rewrite L. now rewrite path_uri by apply Gq.
Qed.
Print Assumptions C65_made.
(** A name in use cannot be made a link. *)
Theorem C65_taken x p q v u e : sound x -> file_at p v -> file_at q u -> pget p (p_tree x) = Some e ->
  loc_symlink u v x = (Raise (OSError EEXIST), x).
Proof.
  intros So Hv Hu E. rewrite (file_at_eq _ _ Hu), (file_at_eq _ _ Hv). destruct Hu as [Gq _], Hv as [Gp _].
  unfold loc_symlink. rewrite !file_path by now apply plain_good. rewrite symlink_abs by apply Gp. unfold sys_symlink. rewrite no_nul by apply Gq.
  rewrite (look_at x So false p e) by (auto; apply Gp). now destruct (abs_path q) eqn:Ea; [destruct q; discriminate|].
Qed.
Print Assumptions C65_taken.
(** Through a chain of at most 40 links, and below it, everything is as at its end: [p ++ r] and [q ++ r] give the
    same answers and have the same effects.  Partial: links to absolute paths without other links on the way. *)
Theorem C65_through x n p q r v u : sound x -> chain x n p q -> n <= 40 -> file_at (p ++ r) v -> file_at (q ++ r) u -> known x (q ++ r) ->
  loc_exists v x = loc_exists u x /\ loc_isfile v x = loc_isfile u x /\ loc_isdir v x = loc_isdir u x /\ loc_listdir v x = loc_listdir u x /\
  loc_read_all v x = loc_read_all u x /\
  (forall ds, loc_write_all v ds x = loc_write_all u ds x /\ loc_append_all v ds x = loc_append_all u ds x) /\
  loc_info v true x = loc_info u true x /\ loc_mtime v x = loc_mtime u x /\
  (forall m, loc_isexec v m x = loc_isexec u m x /\ loc_set_exec v m x = loc_set_exec u m x).
Proof.
  intros So C L Hv Hu K. rewrite (file_at_eq _ _ Hu), (file_at_eq _ _ Hv). destruct Hu as [Gq _], Hv as [Gp _].
  assert (E : plook x true (abs_path (p ++ r)) = plook x true (abs_path (q ++ r))) by (apply (look_chain x So n); auto; [apply Gp|apply Gq]).
  pose proof (same_tests x _ _ E) as Ts.
  assert (P1 : u_path (file_uri (p ++ r)) = abs_path (p ++ r)) by now apply file_path, plain_good.
  assert (P2 : u_path (file_uri (q ++ r)) = abs_path (q ++ r)) by now apply file_path, plain_good.
  assert (I : loc_info (file_uri (p ++ r)) true x = loc_info (file_uri (q ++ r)) true x).
  { rewrite !info_follow, P1, P2. unfold bind, os_stat. now rewrite E. }
  unfold loc_exists, loc_isfile, loc_isdir, loc_listdir, loc_read_all, loc_write_all, loc_append_all. rewrite P1, P2.
  unfold path_exists, path_isfile, path_isdir. rewrite !Ts. do 3 (split; [reflexivity|]).
  split; [unfold bind, os_listdir; now rewrite E|]. split; [unfold bind, os_open_r; now rewrite E|].
  split; [intros ds; unfold bind; rewrite !open_w_abs, !open_a_abs by (apply Gp || apply Gq); unfold sys_open_w, sys_open_a; now rewrite E|]. split; [exact I|].
  split; [unfold loc_mtime, bind; now rewrite I|]. intros m. split; [unfold loc_isexec, bind; now rewrite I|].
  rewrite !set_exec_follow, P1, P2. unfold bind, os_stat, os_chmod. now rewrite E.
Qed.
Print Assumptions C65_through.
(** Longer chains, and loops, lead nowhere; they are links all the same. *)
Theorem C65_loop x n p q r v : sound x -> chain x n p q -> 40 < n -> file_at (p ++ r) v -> plain_path q ->
  loc_exists v x = (Ok false, x) /\ loc_isfile v x = (Ok false, x) /\ loc_isdir v x = (Ok false, x) /\
  loc_read_all v x = (Raise (OSError ELOOP), x) /\ (forall ds, loc_write_all v ds x = (Raise (OSError ELOOP), x)).
Proof.
  intros So C L Hv Gq. rewrite (file_at_eq _ _ Hv). destruct Hv as [Gp _].
  assert (E : plook x true (abs_path (p ++ r)) = Raise (OSError ELOOP)) by (apply (look_loop x So n p q); auto; [apply Gp|apply Gq]).
  assert (P1 : u_path (file_uri (p ++ r)) = abs_path (p ++ r)) by now apply file_path, plain_good.
  unfold loc_exists, loc_isfile, loc_isdir, loc_read_all, loc_write_all, path_exists, path_isfile, path_isdir, os_test, os_stat, bind, os_open_r.
  rewrite P1, E. repeat (split; [reflexivity|]). intros ds. rewrite open_w_abs by apply Gp. unfold sys_open_w. now rewrite E.
Qed.
Print Assumptions C65_loop.
(** remove() of a link takes away the link and nothing else, wherever it leads. *)
Theorem C65_remove x p tg v fuel rc : sound x -> file_at p v -> pget p (p_tree x) = Some (PLink tg) ->
  exists x', u_remove loc_backend fuel rc v x = (Ok tt, x') /\ only x x' p None.
Proof.
  intros So Hv E. rewrite (file_at_eq _ _ Hv). destruct Hv as [Gp _].
  assert (L : plook x false (abs_path p) = Ok (At p (PLink tg))) by (apply (look_at x So); auto; apply Gp).
  exists (set_tree x (pdel p (p_tree x))). split; [|apply only_del].
  unfold u_remove, hooked, bind. cbn [loc_backend b_hook b_islink b_removefile]. unfold ret, loc_islink, path_islink, os_test, os_stat, loc_removefile.
  rewrite !file_path by now apply plain_good. rewrite L. cbn [is_plink]. rewrite unlink_abs by apply Gp. unfold sys_unlink. now rewrite L.
Qed.
Print Assumptions C65_remove.
Definition tree2 : ptree := tree0 ++ [(P ["l"], PLink (lit "/m")); (P ["m"], PLink (lit "/a")); (P ["o"], PLink (lit "/o")); (P ["z"], PLink (lit "/nowhere"))].
Definition loc2 : pst := mkP tree2 [] 50 18.
Example C65_witness : sound loc2 /\ chain loc2 2 (P ["l"]) (P ["a"]) /\ known loc2 (P ["a"] ++ P ["s"; "g"]) /\ chain loc2 50 (P ["o"]) (P ["o"]) /\
  fst (loc_read_all (FU ["l"; "s"; "g"]) loc2) = Ok (lit "x") /\ fst (loc_listdir (FU ["l"]) loc2) = Ok [lit "f"; lit "s"] /\
  fst (loc_exists (FU ["o"]) loc2) = Ok false /\ fst (loc_islink (FU ["o"]) loc2) = Ok true /\
  chain loc2 1 (P ["z"]) (P ["nowhere"]) /\ known loc2 (P ["nowhere"] ++ []) /\
  fst (loc_read_all (FU ["nowhere"]) (snd (loc_write_all (FU ["z"]) [lit "w"] loc2))) = Ok (lit "w").
Proof.
  assert (S2 : sound loc2) by (apply sound_b_ok; vm_compute; reflexivity).
  split; [exact S2|]. split; [apply chain_link with (P ["m"]); [plain|reflexivity|]; apply chain_link with (P ["a"]); [plain|reflexivity|]; constructor|].
  split; [left; eexists; split; vm_compute; reflexivity|]. split; [apply chain_self; [plain|reflexivity]|].
  do 4 (split; [vm_compute; reflexivity|]). split; [apply chain_link with (P ["nowhere"]); [plain|reflexivity|]; constructor|].
  split; [|vm_compute; reflexivity]. right. split; [reflexivity|]. exists [], (lit "nowhere"). split; [reflexivity|]. exists 493%Z, 5%Z. reflexivity.
Qed.

(** ** C66 *)
(** Partial: both masks consist of execute bits.  Content, time, the other permissions and all other entries stay. *)
Theorem C66_exec_bits_partial x p u d mo mt m : sound x -> file_at p u -> pget p (p_tree x) = Some (PFile d mo mt) -> (0 <= mo < 4096)%Z ->
  Z.land m exec_mask = m ->
  exists x' mo', loc_set_exec u m x = (Ok tt, x') /\ only x x' p (Some (PFile d mo' mt)) /\
    Z.land mo' (Z.lnot exec_mask) = Z.land mo (Z.lnot exec_mask) /\
    (forall k, Z.land k exec_mask = k -> loc_isexec u k x' = (Ok (negb (Z.land m k =? 0)%Z), x')).
Proof.
  intros So Hu E B Hm. rewrite (file_at_eq _ _ Hu). destruct Hu as [Gp _]. pose proof (pp_names _ Gp) as Pp.
  assert (P1 : u_path (file_uri p) = abs_path p) by now apply file_path, plain_good.
  set (mo' := Z.lor (Z.land mo (Z.lnot exec_mask)) m).
  assert (R : loc_set_exec (file_uri p) m x = (Ok tt, set_tree x (pset p (PFile d mo' mt) (p_tree x)))).
  { rewrite set_exec_follow, P1. unfold bind, os_stat, os_chmod. rewrite (look_at x So true p _ Pp E) by discriminate.
    cbn [st_mode with_stat]. now rewrite mode_bits. }
  pose proof (steady_loc_set_exec (file_uri p) m x So) as S'. rewrite R in S'. cbn [snd] in S'.
  exists (set_tree x (pset p (PFile d mo' mt) (p_tree x))), mo'. split; [exact R|]. split; [apply only_set|]. split; [now apply mask_keep|].
  intros k Hk. unfold loc_isexec, bind. rewrite info_follow, P1. unfold bind, os_stat.
  rewrite (look_at _ S' true p (PFile d mo' mt) Pp); [|cbn [p_tree set_tree]; now rewrite pget_pset, path_eqb_refl|discriminate].
  unfold ret. cbn [i_mode st_mode]. f_equal. f_equal. f_equal. f_equal. rewrite Z.land_lor_distr_l.
  assert (K : Z.land 32768 k = 0%Z) by (rewrite <- Hk, Z.land_comm, <- Z.land_assoc; apply Z.land_0_r). rewrite K, Z.lor_0_l. unfold mo'. now apply mask_bits.
Qed.
Print Assumptions C66_exec_bits_partial.
Example C66_witness : file_at (P ["a"; "f"]) (FU ["a"; "f"]) /\ pget (P ["a"; "f"]) (p_tree loc1) = Some (PFile (lit "hello") 420 6) /\ Z.land 65 exec_mask = 65%Z /\
  fst (loc_isexec (FU ["a"; "f"]) 64 (snd (loc_set_exec (FU ["a"; "f"]) 65 loc1))) = Ok true /\
  fst (loc_isexec (FU ["a"; "f"]) 8 (snd (loc_set_exec (FU ["a"; "f"]) 65 loc1))) = Ok false.
Proof. split; [apply at_file; plain|]. repeat split; vm_compute; reflexivity. Qed.
(** Other bits of the mask are set too, and the kind of the file counts as executable. *)
Theorem C66_refuted : pget (P ["a"; "f"]) (p_tree (snd (loc_set_exec (FU ["a"; "f"]) 2 loc1))) = Some (PFile (lit "hello") 422 6) /\
  fst (loc_isexec (FU ["a"; "f"]) 32768 loc1) = Ok true.
Proof. split; vm_compute; reflexivity. Qed.
Print Assumptions C66_refuted.
