(** Properties C85 to C88: removing, walking, globbing, copying and moving local trees with links in them.
    SpecLocal.v and SpecLinks.v say what the theorems are stated with.  Local files are those of Posix.v. *)
From Coq Require Import Lia Sorted.
From Verif Require Import Str Exc Utf8 UriParse BaseUri StrFacts SpecUri Mem SpecMem Generic SpecGen Fnmatch SpecFn.
From Verif Require Import MemFacts MemFacts7 MemFacts10 MemUri GenFacts1 GenFacts4 GenFacts5 PropsMem PropsWalk.
From Verif Require Import Misc Posix Local SpecLocal SpecLinks LocalFacts1 LocalFacts3 LocalFacts6 LocalFacts7 LocalFacts13 LocalFacts14 LocalFacts18 LocalFacts19 LocalFacts20.
From Verif Require Import LocalFacts21 LocalFacts22 LocalFacts23 LocalFacts24 LocalFacts25 PropsLocal2.
Open Scope string_scope.
Open Scope list_scope.
Local Notation LB := loc_backend.

(** A tree with links: into it, out of it, to a directory above, and to nothing *)
Definition tree9 : ptree :=
  [([], PDir 493 5); (P ["d"], PDir 493 5); (P ["d"; "f"], PFile (lit "hello") 420 6); (P ["d"; "s"], PDir 448 7); (P ["d"; "s"; "g"], PFile (lit "x") 384 8);
   (P ["d"; "in"], PLink (lit "/d/f")); (P ["d"; "out"], PLink (lit "/e")); (P ["d"; "s"; "up"], PLink (lit "/d")); (P ["d"; "s"; "no"], PLink (lit "/nowhere"));
   (P ["e"], PDir 493 5); (P ["e"; "h"], PFile (lit "keep") 420 9); (P ["l"], PLink (lit "/d/s")); (P ["lf"], PLink (lit "/e/h"))].
Definition loc9 : pst := mkP tree9 [] 50 18.
Lemma loc9_sound : sound loc9. Proof. apply sound_b_ok. vm_compute. reflexivity. Qed.
Lemma in_tree (t : ptree) (C : list str -> pent -> bool) p e : forallb (fun pe => C (fst pe) (snd pe)) t = true -> pget p t = Some e -> C p e = true.
Proof.
  induction t as [|[q e'] t IH]; cbn; [discriminate|]. intros A E. apply andb_true_iff in A as [A1 A2]. destruct (path_eqb p q) eqn:Eq; auto.
  injection E as ->. assert (p = q) by (destruct (list_eq_dec (list_eq_dec N.eq_dec) p q); auto; rewrite path_eqb_neq in Eq; easy). now subst.
Qed.
Lemma loc9_plain p : pget p (p_tree loc9) <> None -> plain_path p.
Proof.
  intros Hp. destruct (pget p (p_tree loc9)) as [e|] eqn:E; [|easy]. apply plain_b_ok.
  apply (in_tree tree9 (fun p _ => plain_b p) p e); [vm_compute; reflexivity|exact E].
Qed.

Definition pad_b (c : str) : bool := negb (is_space (hd 0%N c)) && negb (is_space (last c 0%N)).
Lemma pad_b_ok c : pad_b c = true -> unpadded c.
Proof.
  unfold pad_b. rewrite andb_true_iff, !negb_true_iff. intros [A1 A2] a y [-> | ->]; [exact A1|]. now rewrite last_last in A2.
Qed.

(** ** C85 *)
(** remove(recursive=True) of a directory takes away what is in it, links as well, and nothing that links lead to.
    Partial: names as in [plain_path]. *)
Theorem C85_remove_tree_partial x i n u fuel : sound x -> file_at (i ++ [n]) u -> is_dir_at x (i ++ [n]) ->
  (forall r, pget ((i ++ [n]) ++ r) (p_tree x) <> None -> plain_path ((i ++ [n]) ++ r)) -> (length (p_tree x) <= fuel)%nat ->
  exists x', u_remove LB fuel true u x = (Ok tt, x') /\ sound x' /\ all_gone x x' (i ++ [n]).
Proof.
  intros So Hu D Hn Hf. rewrite (file_at_eq _ _ Hu). destruct (remove_tree_run x (i ++ [n]) fuel So (proj1 Hu)) as (y & Ey & C); auto; [now destruct i|].
  exists y. split; auto. split; [apply (cl_sound _ _ _ C)|]. split; [apply (cl_gone _ _ _ C)|]. split; [apply (cl_kept _ _ _ C)|apply (cl_rest _ _ _ C)].
Qed.
Print Assumptions C85_remove_tree_partial.
Example C85_witness : sound loc9 /\ file_at (P ["d"]) (FU ["d"]) /\ is_dir_at loc9 (P ["d"]) /\
  (forall r, pget (P ["d"] ++ r) (p_tree loc9) <> None -> plain_path (P ["d"] ++ r)) /\ (length (p_tree loc9) <= 20)%nat /\
  u_remove LB 20 true (FU ["d"]) loc9 = (Ok tt, set_tree loc9 [([], PDir 493 5); (P ["e"], PDir 493 5); (P ["e"; "h"], PFile (lit "keep") 420 9);
                                                               (P ["l"], PLink (lit "/d/s")); (P ["lf"], PLink (lit "/e/h"))]).
Proof.
  split; [apply loc9_sound|]. split; [apply at_file; plain|]. split; [exists 493%Z, 5%Z; reflexivity|]. split; [intros r; apply loc9_plain|].
  split; [vm_compute; lia|]. vm_compute. reflexivity.
Qed.
(** A file whose name has a question mark in it cannot be removed this way, and neither can its directory. *)
Theorem C85_names_refuted : exists x i n m fuel, sound x /\ file_at (i ++ [n]) (file_uri (i ++ [n])) /\ is_dir_at x (i ++ [n]) /\ (length (p_tree x) <= fuel)%nat /\
  is_file_at x ((i ++ [n]) ++ [m]) /\ u_remove LB fuel true (file_uri (i ++ [n])) x = (Raise ValueError, x).
Proof.
  exists (mkP [([], PDir 493 5); (P ["d"], PDir 493 5); (P ["d"; "a?b"], PFile (lit "x") 420 6)] [] 50 18), [], (lit "d"), (lit "a?b"), 20.
  split; [apply sound_b_ok; vm_compute; reflexivity|]. split; [apply at_file; plain|]. split; [exists 493%Z, 5%Z; reflexivity|]. split; [vm_compute; lia|].
  split; [exists (lit "x"), 420%Z, 6%Z; reflexivity|]. vm_compute. reflexivity.
Qed.
Print Assumptions C85_names_refuted.

(** The same holds without links (C68), and such a name makes walk fail (C69, C86); a directory whose name looks like a query is not entered. *)
Definition quest_tree (m : string) (e : pent) : pst := mkP [([], PDir 493 5); (P ["d"], PDir 493 5); (P ["d"; m], e)] [] 50 18.
Lemma quest_plain m e : sound (quest_tree m e) -> (forall t, e <> PLink t) -> forall p t, pget p (p_tree (quest_tree m e)) <> Some (PLink t).
Proof. intros So N p t E. apply (pget_in _ _ _ (so_nodup _ So)) in E. cbn in E. destruct E as [E|[E|[E|[]]]]; try discriminate. injection E as _ ->. now apply (N t). Qed.
Theorem C68_names_refuted : exists x u fuel, sound x /\ (forall p t, pget p (p_tree x) <> Some (PLink t)) /\ file_at (P ["d"]) u /\ is_dir_at x (P ["d"]) /\ (length (p_tree x) <= fuel)%nat /\
  u_remove LB fuel true u x = (Raise ValueError, x).
Proof.
  exists (quest_tree "a?b" (PFile (lit "x") 420 6)), (FU ["d"]), 20. split; [apply sound_b_ok; vm_compute; reflexivity|].
  split; [|split; [apply at_file; plain|split; [exists 493%Z, 5%Z; reflexivity|split; [vm_compute; lia|vm_compute; reflexivity]]]].
  apply quest_plain; [apply sound_b_ok; vm_compute; reflexivity|discriminate].
Qed.
Print Assumptions C68_names_refuted.
Theorem C69_names_refuted : exists x y u fuel, sound x /\ sound y /\ (forall p t, pget p (p_tree x) <> Some (PLink t)) /\ (forall p t, pget p (p_tree y) <> Some (PLink t)) /\
  file_at (P ["d"]) u /\ is_dir_at x (P ["d"]) /\ is_dir_at y (P ["d"; "a?b=c"]) /\ (length (p_tree x) <= fuel)%nat /\
  u_walk LB fuel true false u x = (Raise ValueError, x) /\ u_walk LB fuel true false u y = (Ok [(u, [], P ["a?b=c"])], y).
Proof.
  exists (quest_tree "a?b" (PFile (lit "x") 420 6)), (quest_tree "a?b=c" (PDir 493 6)), (FU ["d"]), 20.
  split; [apply sound_b_ok; vm_compute; reflexivity|]. split; [apply sound_b_ok; vm_compute; reflexivity|].
  split; [apply quest_plain; [apply sound_b_ok; vm_compute; reflexivity|discriminate]|].
  split; [apply quest_plain; [apply sound_b_ok; vm_compute; reflexivity|discriminate]|].
  split; [apply at_file; plain|]. split; [exists 493%Z, 5%Z; reflexivity|]. split; [exists 493%Z, 6%Z; reflexivity|]. split; [vm_compute; lia|]. split; vm_compute; reflexivity.
Qed.
Print Assumptions C69_names_refuted.
Theorem C86_names_refuted : exists x u, sound x /\ file_at (P ["d"]) u /\ is_dir_at x (P ["d"]) /\ pget (P ["d"; "a?b=c"]) (p_tree x) = Some (PLink (lit "/d")) /\
  forall td follow, u_walk LB 200 td follow u x = (Ok [(u, [], P ["a?b=c"])], x).
Proof.
  exists (quest_tree "a?b=c" (PLink (lit "/d"))), (FU ["d"]). split; [apply sound_b_ok; vm_compute; reflexivity|]. split; [apply at_file; plain|]. split; [exists 493%Z, 5%Z; reflexivity|].
  split; [reflexivity|]. intros [] []; vm_compute; reflexivity.
Qed.
Print Assumptions C86_names_refuted.

(** ** C86 *)
(** walk yields every directory it enters once, each with the sorted names in it; links count as what they lead to,
    and are entered only with followlinks=True.  It always ends, loops or not, after at most 41 times as many levels as there
    are entries.  Partial: names as in [plain_path]. *)
Theorem C86_walk_partial x cs u td follow fuel : sound x -> file_at cs u -> leads_to_dir x cs ->
  (forall r q n, enters x follow [] cs r q -> pget (q ++ [n]) (p_tree x) <> None -> plain_path ((cs ++ r) ++ [n])) -> (41 * length (p_tree x) <= fuel)%nat ->
  exists (l : list (list str * list str * list str)) l',
    u_walk LB fuel td follow u x = (Ok l', x) /\
    Forall2 (fun a b => file_at (cs ++ fst (fst a)) (fst (fst b)) /\ snd (fst a) = snd (fst b) /\ snd a = snd b) l l' /\
    StronglySorted (visit_before td) (map (fun a => fst (fst a)) l) /\
    NoDup (map (fun a => fst (fst a)) l) /\
    (forall r, In r (map (fun a => fst (fst a)) l) <-> exists q, enters x follow [] cs r q) /\
    (forall r dirs files q, In (r, dirs, files) l -> enters x follow [] cs r q -> lists x (cs ++ r) q dirs files).
Proof.
  intros So Hu (q0 & D) Hn Hf. rewrite (file_at_eq _ _ Hu). destruct Hu as [Gp _].
  destruct (local_triples x So cs follow [] q0 Gp D Hn fuel) with (td := td) as (l & E & S & I & L); auto.
  { intros r q V. pose proof (enters_bound x So cs follow [] Gp Hn r q V). lia. }
  exists l. eexists. split; [exact E|]. split; [|split; [exact S|split; [eapply visit_before_NoDup; exact S|split; auto]]].
  assert (Hl : forall r, In r (map (fun a => fst (fst a)) l) -> plain_path (cs ++ r)).
  { intros r Hr. apply I in Hr as [q V]. now apply (enters_through x cs follow [] Gp Hn r q V). }
  clear - Hl. induction l as [|[[r ds] fs] l IH]; cbn in *; constructor; auto. cbn. split; auto. apply at_file. auto.
Qed.
Print Assumptions C86_walk_partial.
(** Without followlinks, from a directory that is no link: the directories at or below it and no others.  A link to a
    directory is listed among the directories but not entered. *)
Theorem C86_real_partial x q u td fuel : sound x -> file_at q u -> is_dir_at x q ->
  (forall r, pget (q ++ r) (p_tree x) <> None -> plain_path (q ++ r)) -> (41 * length (p_tree x) <= fuel)%nat ->
  exists (l : list (list str * list str * list str)) l',
    u_walk LB fuel td false u x = (Ok l', x) /\
    Forall2 (fun a b => file_at (q ++ fst (fst a)) (fst (fst b)) /\ snd (fst a) = snd (fst b) /\ snd a = snd b) l l' /\
    StronglySorted (visit_before td) (map (fun a => fst (fst a)) l) /\
    NoDup (map (fun a => fst (fst a)) l) /\
    (forall r, In r (map (fun a => fst (fst a)) l) <-> is_dir_at x (q ++ r)) /\
    (forall r dirs files, In (r, dirs, files) l -> lists x (q ++ r) (q ++ r) dirs files).
Proof.
  intros So Hu D Hn Hf. pose proof (enters_real x q So D Hn) as V.
  assert (Lt : leads_to_dir x q) by (destruct D as (mo & mt & D); exists q, mo, mt; apply look_at; auto; apply Hu).
  destruct (C86_walk_partial x q u td false fuel So Hu Lt) as (l & l' & E & F & S & N & I & L); auto.
  { intros r y n Hr Hy. apply V in Hr as [-> Hr]. rewrite <- app_assoc in *. now apply Hn. }
  assert (I' : forall r, In r (map (fun a => fst (fst a)) l) <-> is_dir_at x (q ++ r)).
  { intros r. rewrite I. split; [intros [y Hy]; now apply V in Hy|]. intros Hr. exists (q ++ r). now apply V. }
  exists l, l'. repeat (split; [assumption|]). intros r ds fs Hr. apply L with (1 := Hr). apply V. split; auto. apply I'.
  apply in_map_iff. now exists (r, ds, fs).
Qed.
Print Assumptions C86_real_partial.
(** glob in a directory, reached perhaps through links *)
Theorem C86_glob_partial x cs q u pat : sound x -> file_at cs u -> dir_through x cs q ->
  (forall n, pget (q ++ [n]) (p_tree x) <> None -> plain_path (cs ++ [n])) ->
  exists names l', u_glob LB fnmatch u pat x = (Ok l', x) /\ Forall2 (fun n v => file_at (cs ++ [n]) v) names l' /\
    StronglySorted slt names /\ forall n, In n names <-> pget (q ++ [n]) (p_tree x) <> None /\ shell pat n.
Proof.
  intros So Hu D Hn. rewrite (file_at_eq _ _ Hu). destruct Hu as [Gp _].
  exists (filter (fun n => fnmatch n pat) (kids_at x q)), (map (fun n => file_uri (cs ++ [n])) (filter (fun n => fnmatch n pat) (kids_at x q))).
  assert (K : forall n, In n (kids_at x q) -> plain_path (cs ++ [n])) by (intros n; rewrite (kids_in x So); apply Hn).
  split; [|split; [|split]].
  - unfold u_glob, hooked. erewrite bind_ok by reflexivity. unfold fs_glob.
    erewrite bind_ok. 2:{ unfold u_listdir, hooked. erewrite bind_ok by reflexivity. now apply (listdir_through x cs q). }
    assert (X : forall l a, (forall n, In n l -> plain_path (cs ++ [n])) ->
      foldM (fun res f => if fnmatch f pat then let! p <- lift (u_div (file_uri cs) f); ret (res ++ [p]) else ret res) a l x =
      (Ok (a ++ map (fun n => file_uri (cs ++ [n])) (filter (fun n => fnmatch n pat) l)), x)).
    { induction l as [|n l IH]; intros a Hl; cbn [foldM filter map]; [now rewrite app_nil_r|]. destruct (fnmatch n pat) eqn:En.
      - erewrite bind_ok. 2:{ erewrite bind_ok by (apply lift_ok, file_div', Hl; now left). reflexivity. }
        rewrite IH by (intros; apply Hl; now right). cbn [map]. now rewrite <- app_assoc.
      - erewrite bind_ok by reflexivity. apply IH. intros; apply Hl; now right. }
    now rewrite X.
  - assert (X : forall l, (forall n, In n l -> plain_path (cs ++ [n])) -> Forall2 (fun n v => file_at (cs ++ [n]) v) l (map (fun n => file_uri (cs ++ [n])) l)).
    { induction l as [|n l IH]; intros Hl; constructor; [apply at_file, Hl; now left|]. apply IH. intros; apply Hl; now right. }
    apply X. intros n Z. apply filter_In in Z as [Z _]. auto.
  - apply ss_filter, (kids_sorted x So).
  - intros n. rewrite filter_In, (kids_in x So). now rewrite C47_fnmatch.
Qed.
Print Assumptions C86_glob_partial.
(** The walk from /d meets a link to /d: 122 directories are visited, /d itself 41 times. *)
Example C86_witness : sound loc9 /\ file_at (P ["d"]) (FU ["d"]) /\ is_dir_at loc9 (P ["d"]) /\ leads_to_dir loc9 (P ["d"]) /\ (41 * length (p_tree loc9) <= 533)%nat /\
  (forall follow r q n, enters loc9 follow [] (P ["d"]) r q -> pget (q ++ [n]) (p_tree loc9) <> None -> plain_path ((P ["d"] ++ r) ++ [n])) /\
  (forall r, pget (P ["d"] ++ r) (p_tree loc9) <> None -> plain_path (P ["d"] ++ r)) /\
  u_walk LB 533 true false (FU ["d"]) loc9 =
    (Ok [(FU ["d"], map lit ["out"; "s"], map lit ["f"; "in"]); (FU ["d"; "s"], map lit ["up"], map lit ["g"; "no"])], loc9) /\
  match fst (u_walk LB 533 true true (FU ["d"]) loc9) with Ok l => length l = 122 | Raise _ => False end /\
  enters loc9 true [] (P ["d"]) (P ["s"; "up"; "out"]) (P ["e"]) /\
  u_glob LB fnmatch (FU ["l"]) (lit "?") loc9 = (Ok [FU ["l"; "g"]], loc9) /\ dir_through loc9 (P ["l"]) (P ["d"; "s"]).
Proof.
  split; [apply loc9_sound|]. split; [apply at_file; plain|]. split; [exists 493%Z, 5%Z; reflexivity|]. split; [exists (P ["d"]), 493%Z, 5%Z; reflexivity|].
  split; [vm_compute; lia|]. split.
  { intros follow r q n V Hn. destruct (loc9_plain _ Hn) as [Z _]. apply Forall_app in Z as [_ Zn].
    assert (Zr : Forall plain_name r).
    { clear - V. induction V as [|r q n q' V IH Hn _ _ _]; [constructor|]. apply Forall_app. split; auto.
      destruct (loc9_plain _ Hn) as [Z _]. now apply Forall_app in Z. }
    assert (Zd : plain_path (P ["d"])) by plain. destruct Zd as [Z1 Z2]. split.
    - apply Forall_app. split; auto. apply Forall_app. now split.
    - intros c cs' E. apply (Z2 c []). injection E as <- _. reflexivity. }
  split; [intros r; apply loc9_plain|]. split; [vm_compute; reflexivity|]. split; [vm_compute; reflexivity|]. split.
  { apply (en_down loc9 true [] (P ["d"]) (P ["s"; "up"]) (P ["d"]) (lit "out") (P ["e"])); [|discriminate|easy|exists 493%Z, 5%Z; reflexivity|now left].
    apply (en_down loc9 true [] (P ["d"]) (P ["s"]) (P ["d"; "s"]) (lit "up") (P ["d"])); [|discriminate|easy|exists 493%Z, 5%Z; reflexivity|now left].
    apply (en_down loc9 true [] (P ["d"]) [] (P ["d"]) (lit "s") (P ["d"; "s"])); [|discriminate|easy|exists 448%Z, 7%Z; reflexivity|now left].
    apply en_top. exists 493%Z, 5%Z; reflexivity. }
  split; [vm_compute; reflexivity|]. exists 448%Z, 7%Z. reflexivity.
Qed.

(** ** C87 *)
Lemma wrote_only x y q e : wrote x y (eq q) (fun _ => Some e) -> sound y /\ only x y q (Some e).
Proof.
  intros W. split; [apply (wr_sound _ _ _ _ W)|]. split; [now apply (wr_new _ _ _ _ W)|]. split; [intros z Nz; apply (wr_old _ _ _ _ W); congruence|apply (wr_rest _ _ _ _ W)].
Qed.
(** A directory copied recursively without following links, to a place that does not exist yet: everything below it is
    there, files with their permissions and times, links as links that say the same; the directories on the way are
    made; nothing else changes.
    Partial: links to absolute paths, names as in [plain_path] that do not begin or end with a blank, and the
    destination not below the source. *)
Theorem C87_copy_tree_partial x i n q j b u v fuel : sound x -> file_at (i ++ [n]) u -> file_at q v -> plain_path (j ++ b) ->
  is_dir_at x (i ++ [n]) -> goes_to x n q (j ++ b) -> b <> [] -> is_dir_at x j -> (forall m b', b = m :: b' -> pget (j ++ [m]) (p_tree x) = None) ->
  ~ below (i ++ [n]) j ->
  (forall r, pget ((i ++ [n]) ++ r) (p_tree x) <> None -> plain_path ((i ++ [n]) ++ r) /\ Forall unpadded r) ->
  (forall r, is_link_at x ((i ++ [n]) ++ r) -> exists t, points x ((i ++ [n]) ++ r) t /\ plain_path t) ->
  (length (p_tree x) <= fuel)%nat -> (length b < fuel)%nat ->
  exists x', u_copy LB fuel true [] false u v x = (Ok tt, x') /\ sound x' /\
    (forall b1 b2, b = b1 ++ b2 -> b1 <> [] -> pget (j ++ b1) (p_tree x') = Some (made_dir x)) /\
    (forall z, z <> [] -> pget ((j ++ b) ++ z) (p_tree x') = option_map (copy_of x) (pget ((i ++ [n]) ++ z) (p_tree x))) /\
    (forall z, (forall b1 b2, b = b1 ++ b2 -> b1 <> [] -> z <> j ++ b1) -> ~ below (j ++ b) z -> pget z (p_tree x') = pget z (p_tree x)) /\
    p_cwd x' = p_cwd x /\ p_now x' = p_now x /\ p_umask x' = p_umask x.
Proof.
  intros So Hu Hv Pd D G Nb Dj Hn Ap Hs Hl Hf Hb. rewrite (file_at_eq _ _ Hu), (file_at_eq _ _ Hv).
  apply (copy_tree_run x i n q j b fuel); auto; try apply Hu; try apply Hv.
  intros r tg E. destruct (Hl r) as (t & Ht & Pt); [now exists tg|]. exists t. split; auto. unfold points in Ht. congruence.
Qed.
Print Assumptions C87_copy_tree_partial.
(** One link copied without following it: a new link that says the same, at a free name or in place of a file.
    recursive=True is for links to directories. *)
Theorem C87_copy_link_partial x i n q j m t u v fuel : sound x -> file_at (i ++ [n]) u -> file_at q v -> points x (i ++ [n]) t -> plain_path t ->
  ((goes_to x n q (j ++ [m]) /\ plain_path (j ++ [m]) /\ free_at x (j ++ [m])) \/ (q = j ++ [m] /\ is_file_at x q /\ ~ leads_to_dir x (i ++ [n]))) ->
  forall rc, (exists f d mo mt, rc = false /\ file_through x (i ++ [n]) f d mo mt) \/ (rc = true /\ leads_to_dir x (i ++ [n])) ->
  exists x', u_copy LB fuel rc [] false u v x = (Ok tt, x') /\ sound x' /\ only x x' (j ++ [m]) (Some (PLink (abs_path t))).
Proof.
  intros So Hu Hv Ht Pt Hd rc Hs. rewrite (file_at_eq _ _ Hu), (file_at_eq _ _ Hv). destruct Hu as [Gp _], Hv as [Gq _].
  assert (X : forall A, (exists y, A y /\ wrote x y (eq (j ++ [m])) (fun _ => Some (PLink (abs_path t)))) -> exists y : pst, A y /\ sound y /\ only x y (j ++ [m]) (Some (PLink (abs_path t)))).
  { intros A (y & Hy & W). exists y. split; auto. now apply wrote_only. }
  apply X. destruct Hs as [(f & d & mo & mt & -> & Hf)|[-> (f & mo & mt & Hf)]]; destruct Hd as [(G & Pd & Fr)|(-> & F & Nd)].
  - now apply (copy_one_link x i n q j m fuel So Gp Gq Pd G Fr t f d mo mt).
  - now apply (copy_link_over x i n (j ++ [m]) t f d mo mt fuel).
  - now apply (copy_dir_link x i n q j m fuel So Gp Gq Pd G Fr t f mo mt).
  - destruct Nd. now exists f, mo, mt.
Qed.
Print Assumptions C87_copy_link_partial.
(** A link copied by following it: a file with the content, permissions and time of the file it leads to. *)
Theorem C87_copy_through_partial x i n q j m f d mo mt u v fuel : sound x -> file_at (i ++ [n]) u -> file_at q v -> file_through x (i ++ [n]) f d mo mt ->
  goes_to x n q (j ++ [m]) -> plain_path (j ++ [m]) -> free_at x (j ++ [m]) ->
  exists x', u_copy LB fuel false [] true u v x = (Ok tt, x') /\ sound x' /\ only x x' (j ++ [m]) (Some (copy_of x (PFile d mo mt))).
Proof.
  intros So Hu Hv Hf G Pd Fr. rewrite (file_at_eq _ _ Hu), (file_at_eq _ _ Hv). destruct Hu as [Gp _], Hv as [Gq _].
  destruct (copy_one_follow x i n q j m fuel So Gp Gq Pd G Fr f d mo mt Hf) as (y & Ey & W). exists y. split; [exact Ey|]. now apply wrote_only.
Qed.
Print Assumptions C87_copy_through_partial.
Example C87_witness : sound loc9 /\ file_at (P ["d"]) (FU ["d"]) /\ file_at (P ["new"; "x"]) (FU ["new"; "x"]) /\ is_dir_at loc9 (P ["d"]) /\
  goes_to loc9 (lit "d") (P ["new"; "x"]) (P ["new"; "x"]) /\ pget (P ["new"]) (p_tree loc9) = None /\
  (forall r, pget (P ["d"] ++ r) (p_tree loc9) <> None -> plain_path (P ["d"] ++ r) /\ Forall unpadded r) /\
  (forall r, is_link_at loc9 (P ["d"] ++ r) -> exists t, points loc9 (P ["d"] ++ r) t /\ plain_path t) /\
  (exists x', u_copy LB 20 true [] false (FU ["d"]) (FU ["new"; "x"]) loc9 = (Ok tt, x') /\
    map (fun r => pget (P ["new"; "x"] ++ P r) (p_tree x')) [[]; ["f"]; ["s"]; ["in"]; ["out"]; ["s"; "up"]; ["s"; "g"]] =
      [Some (PDir 493 50); Some (PFile (lit "hello") 420 6); Some (PDir 493 50); Some (PLink (lit "/d/f")); Some (PLink (lit "/e")); Some (PLink (lit "/d"));
       Some (PFile (lit "x") 384 8)]) /\
  file_through loc9 (P ["lf"]) (P ["e"; "h"]) (lit "keep") 420 9 /\ points loc9 (P ["lf"]) (P ["e"; "h"]) /\ free_at loc9 (P ["n"]) /\
  pget (P ["n"]) (p_tree (snd (u_copy LB 20 false [] true (FU ["lf"]) (FU ["n"]) loc9))) = Some (PFile (lit "keep") 420 9) /\
  pget (P ["n"]) (p_tree (snd (u_copy LB 20 false [] false (FU ["lf"]) (FU ["n"]) loc9))) = Some (PLink (lit "/e/h")) /\
  pget (P ["n"]) (p_tree (snd (u_copy LB 20 true [] false (FU ["l"]) (FU ["n"]) loc9))) = Some (PLink (lit "/d/s")).
Proof.
  split; [apply loc9_sound|]. do 2 (split; [apply at_file; plain|]). split; [exists 493%Z, 5%Z; reflexivity|].
  split; [right; split; [intros (? & ? & E); discriminate|reflexivity]|]. split; [reflexivity|]. split.
  { intros r Hr. split; [now apply loc9_plain|]. destruct (pget (P ["d"] ++ r) (p_tree loc9)) as [e|] eqn:E; [|easy].
    assert (Z : Forall unpadded (P ["d"] ++ r)).
    { assert (A : forallb pad_b (P ["d"] ++ r) = true) by (apply (in_tree tree9 (fun q _ => forallb pad_b q) (P ["d"] ++ r) e); [vm_compute; reflexivity|exact E]).
      rewrite forallb_forall in A. apply Forall_forall. intros c Hc. now apply pad_b_ok, A. }
    now apply Forall_app in Z. }
  split.
  { intros r (tg & E).
    assert (A : match PLink tg with PLink tg => str_eqb tg (abs_path (tl (split_on cSlash tg))) && plain_b (tl (split_on cSlash tg)) | _ => true end = true).
    { apply (in_tree tree9 (fun _ e => match e with PLink tg => str_eqb tg (abs_path (tl (split_on cSlash tg))) && plain_b (tl (split_on cSlash tg)) | _ => true end) (P ["d"] ++ r) (PLink tg)); [vm_compute; reflexivity|exact E]. }
    apply andb_true_iff in A as [A1 A2]. exists (tl (split_on cSlash tg)). split; [|now apply plain_b_ok]. unfold points. rewrite E.
    apply str_eqb_eq in A1. now rewrite <- A1. }
  split; [exists (snd (u_copy LB 20 true [] false (FU ["d"]) (FU ["new"; "x"]) loc9)); split; vm_compute; reflexivity|].
  split; [reflexivity|]. split; [reflexivity|]. split; [split; [reflexivity|]; exists [], (lit "n"); split; [reflexivity|]; exists 493%Z, 5%Z; reflexivity|].
  split; [vm_compute; reflexivity|]. split; vm_compute; reflexivity.
Qed.
(** A directory, or a link to one, copied recursively by following links: below the new place there is, at every path,
    the copy of what the same names lead to from the source, so no links.
    Partial: no entry met on the way is a link to nothing or in a loop; the directory the copy is made in is not itself
    one of those copied; names as before. *)
Theorem C87_copy_follow_partial x i n q j b u v fuel : sound x -> file_at (i ++ [n]) u -> file_at q v -> plain_path (j ++ b) ->
  leads_to_dir x (i ++ [n]) -> goes_to x n q (j ++ b) -> b <> [] -> is_dir_at x j -> (forall m b', b = m :: b' -> pget (j ++ [m]) (p_tree x) = None) ->
  (forall r, ~ enters x true [] (i ++ [n]) r j) ->
  (forall r s m, enters x true [] (i ++ [n]) r s -> pget (s ++ [m]) (p_tree x) <> None ->
     plain_path (((i ++ [n]) ++ r) ++ [m]) /\ unpadded m /\ seen x (((i ++ [n]) ++ r) ++ [m]) [] <> None) ->
  (41 * length (p_tree x) <= fuel)%nat -> (length b < fuel)%nat ->
  exists x', u_copy LB fuel true [] true u v x = (Ok tt, x') /\ sound x' /\
    (forall b1 b2, b = b1 ++ b2 -> b1 <> [] -> pget (j ++ b1) (p_tree x') = Some (made_dir x)) /\
    (forall z, z <> [] -> pget ((j ++ b) ++ z) (p_tree x') = option_map (copy_of x) (seen x (i ++ [n]) z)) /\
    (forall z, (forall b1 b2, b = b1 ++ b2 -> b1 <> [] -> z <> j ++ b1) -> ~ below (j ++ b) z -> pget z (p_tree x') = pget z (p_tree x)) /\
    p_cwd x' = p_cwd x /\ p_now x' = p_now x /\ p_umask x' = p_umask x.
Proof.
  intros So Hu Hv Pd D G Nb Dj Hn Nj Hm Hf Hb. rewrite (file_at_eq _ _ Hu), (file_at_eq _ _ Hv).
  apply (copy_follow_tree x i n q j b fuel); auto; try apply Hu; try apply Hv.
  intros r s m V N. destruct (Hm r s m V N) as (A1 & A2 & A3). split; auto. split; auto. cbn [seen] in A3.
  destruct (plook x true (abs_path (((i ++ [n]) ++ r) ++ [m]))) as [[t e|]|]; try easy. now exists t, e.
Qed.
Print Assumptions C87_copy_follow_partial.
Lemma enters_in x cs (L : list (list str * list str)) : (forall q, dir_through x cs q -> In ([], q) L) ->
  (forall r q n q', In (r, q) L -> pget (q ++ [n]) (p_tree x) <> None -> dir_through x ((cs ++ r) ++ [n]) q' -> In (r ++ [n], q') L) ->
  forall r q, enters x true [] cs r q -> In (r, q) L.
Proof. intros A1 A2 r q V. induction V as [q D|r q n q' V IH N _ D _]; auto. apply (A2 r q n q'); auto. Qed.
(** The walk by following links from /l enters four directories: those of [via11]. *)
Definition tree11 : ptree :=
  [([], PDir 493 5); (P ["d"], PDir 493 5); (P ["d"; "f"], PFile (lit "hello") 420 6); (P ["d"; "s"], PDir 448 7); (P ["d"; "s"; "g"], PFile (lit "x") 384 8);
   (P ["d"; "in"], PLink (lit "/d/f")); (P ["d"; "out"], PLink (lit "/e")); (P ["d"; "s"; "again"], PLink (lit "/e"));
   (P ["e"], PDir 493 5); (P ["e"; "h"], PFile (lit "keep") 420 9); (P ["l"], PLink (lit "/d"))].
Definition loc11 : pst := mkP tree11 [] 50 18.
Lemma loc11_sound : sound loc11. Proof. apply sound_b_ok. vm_compute. reflexivity. Qed.
Definition via11 : list (list str * list str) := [([], P ["d"]); (P ["s"], P ["d"; "s"]); (P ["out"], P ["e"]); (P ["s"; "again"], P ["e"])].
Definition met_b (x : pst) (cs : list str) (rq : list str * list str) (n : str) : bool :=
  plain_b ((cs ++ fst rq) ++ [n]) && pad_b n && match seen x ((cs ++ fst rq) ++ [n]) [] with Some _ => true | None => false end.
Definition next_b (x : pst) (cs : list str) (L : list (list str * list str)) (rq : list str * list str) (n : str) : bool :=
  match plook x true (abs_path ((cs ++ fst rq) ++ [n])) with
  | Ok (At q (PDir _ _)) => existsb (fun a => path_eqb (fst a) (fst rq ++ [n]) && path_eqb (snd a) q) L
  | _ => true
  end.
Lemma path_eqb_true p q : path_eqb p q = true -> p = q.
Proof. intros E. destruct (list_eq_dec (list_eq_dec N.eq_dec) p q); auto. rewrite path_eqb_neq in E; easy. Qed.
Lemma via11_ok r q : enters loc11 true [] (P ["l"]) r q -> In (r, q) via11.
Proof.
  revert r q. apply enters_in.
  - intros q (mo & mt & E). vm_compute in E. injection E as <- _ _. now left.
  - intros r q n q' I N (mo & mt & E).
    assert (A : forallb (fun rq => forallb (next_b loc11 (P ["l"]) via11 rq) (kids_at loc11 (snd rq))) via11 = true) by (vm_compute; reflexivity).
    rewrite forallb_forall in A. specialize (A _ I). cbn [snd] in A. rewrite forallb_forall in A. specialize (A n (proj2 (kids_in loc11 loc11_sound q n) N)).
    unfold next_b in A. cbn [fst] in A. rewrite E in A. apply existsb_exists in A as ([r1 q1] & I1 & A). cbn [fst snd] in A.
    apply andb_true_iff in A as [A1 A2]. apply path_eqb_true in A1, A2. now subst.
Qed.
Example C87_follow_witness : sound loc11 /\ file_at (P ["l"]) (FU ["l"]) /\ file_at (P ["new"; "x"]) (FU ["new"; "x"]) /\ leads_to_dir loc11 (P ["l"]) /\
  goes_to loc11 (lit "l") (P ["new"; "x"]) (P ["new"; "x"]) /\ is_dir_at loc11 [] /\ pget (P ["new"]) (p_tree loc11) = None /\
  (forall r, ~ enters loc11 true [] (P ["l"]) r []) /\
  (forall r s m, enters loc11 true [] (P ["l"]) r s -> pget (s ++ [m]) (p_tree loc11) <> None ->
     plain_path ((P ["l"] ++ r) ++ [m]) /\ unpadded m /\ seen loc11 ((P ["l"] ++ r) ++ [m]) [] <> None) /\
  (41 * length (p_tree loc11) <= 451)%nat /\
  (exists x', u_copy LB 451 true [] true (FU ["l"]) (FU ["new"; "x"]) loc11 = (Ok tt, x') /\
    map (fun r => pget (P ["new"; "x"] ++ P r) (p_tree x')) [[]; ["f"]; ["s"]; ["s"; "g"]; ["in"]; ["out"]; ["out"; "h"]; ["s"; "again"; "h"]] =
      [Some (PDir 493 50); Some (PFile (lit "hello") 420 6); Some (PDir 493 50); Some (PFile (lit "x") 384 8); Some (PFile (lit "hello") 420 6);
       Some (PDir 493 50); Some (PFile (lit "keep") 420 9); Some (PFile (lit "keep") 420 9)]).
Proof.
  split; [apply loc11_sound|]. do 2 (split; [apply at_file; plain|]). split; [exists (P ["d"]), 493%Z, 5%Z; reflexivity|].
  split; [right; split; [intros (? & ? & E); discriminate|reflexivity]|]. split; [exists 493%Z, 5%Z; reflexivity|]. split; [reflexivity|]. split.
  { intros r V. apply via11_ok in V. cbn in V. repeat (destruct V as [V|V]; [discriminate|]). easy. }
  split.
  { intros r s m V N. apply via11_ok in V.
    assert (A : forallb (fun rq => forallb (met_b loc11 (P ["l"]) rq) (kids_at loc11 (snd rq))) via11 = true) by (vm_compute; reflexivity).
    rewrite forallb_forall in A. specialize (A _ V). cbn [snd] in A. rewrite forallb_forall in A. specialize (A m (proj2 (kids_in loc11 loc11_sound s m) N)).
    unfold met_b in A. cbn [fst] in A. apply andb_true_iff in A as [A A3]. apply andb_true_iff in A as [A1 A2].
    split; [now apply plain_b_ok|]. split; [now apply pad_b_ok|]. intros Z. now rewrite Z in A3. }
  split; [vm_compute; lia|].
  exists (snd (u_copy LB 451 true [] true (FU ["l"]) (FU ["new"; "x"]) loc11)). split; vm_compute; reflexivity.
Qed.
(** A link to nothing ends the copy half way: what comes after it, here the directory s, is not copied. *)
Theorem C87_dangling_refuted : exists x d fuel x', sound x /\ file_at [d] (file_uri [d]) /\ is_dir_at x [d] /\ is_dir_at x (d :: P ["s"]) /\ is_link_at x (d :: P ["b"]) /\
  free_at x (P ["new"]) /\ (41 * length (p_tree x) <= fuel)%nat /\
  u_copy LB fuel true [] true (file_uri [d]) (FU ["new"]) x = (Raise (OSError ENOENT), x') /\
  is_file_at x' (P ["new"; "a"]) /\ pget (P ["new"; "b"]) (p_tree x') = None /\ pget (P ["new"; "c"]) (p_tree x') = None /\ is_file_at x (d :: P ["c"]).
Proof.
  set (x := mkP [([], PDir 493 5); (P ["d"], PDir 493 5); (P ["d"; "a"], PFile (lit "1") 420 6); (P ["d"; "b"], PLink (lit "/nowhere")); (P ["d"; "c"], PFile (lit "2") 420 6); (P ["d"; "s"], PDir 448 7)] [] 50 18).
  exists x, (lit "d"), 246, (snd (u_copy LB 246 true [] true (file_uri [lit "d"]) (FU ["new"]) x)).
  split; [apply sound_b_ok; vm_compute; reflexivity|]. split; [apply at_file; plain|]. split; [exists 493%Z, 5%Z; reflexivity|]. split; [exists 448%Z, 7%Z; reflexivity|].
  split; [exists (lit "/nowhere"); reflexivity|]. split; [split; [reflexivity|]; exists [], (lit "new"); split; [reflexivity|]; exists 493%Z, 5%Z; reflexivity|].
  split; [vm_compute; lia|]. split; [vm_compute; reflexivity|]. split; [exists (lit "1"), 420%Z, 6%Z; vm_compute; reflexivity|].
  split; [vm_compute; reflexivity|]. split; [vm_compute; reflexivity|]. exists (lit "2"), 420%Z, 6%Z. reflexivity.
Qed.
Print Assumptions C87_dangling_refuted.
(** Links with a relative path do not survive a copy: ../f becomes /f. *)
Definition loc10 : pst :=
  mkP [([], PDir 493 5); (P ["f"], PFile (lit "hello") 420 6); (P ["l"], PLink (lit "/f")); (P ["d"], PDir 493 5); (P ["d"; "s"], PDir 493 5); (P ["d"; "g"], PFile (lit "x") 420 6);
       (P ["d"; "s"; "r"], PLink (lit "../g"))] [] 50 18.
Theorem C87_relative_refuted : exists x i n j m fuel x', sound x /\ file_at (i ++ [n]) (file_uri (i ++ [n])) /\ file_at (j ++ [m]) (file_uri (j ++ [m])) /\
  free_at x (j ++ [m]) /\ file_through x (i ++ [n]) (P ["d"; "g"]) (lit "x") 420 6 /\ i = j /\
  u_copy LB fuel false [] false (file_uri (i ++ [n])) (file_uri (j ++ [m])) x = (Ok tt, x') /\
  pget (i ++ [n]) (p_tree x') = Some (PLink (lit "../g")) /\ pget (j ++ [m]) (p_tree x') = Some (PLink (lit "/g")) /\
  loc_exists (file_uri (j ++ [m])) x' = (Ok false, x').
Proof.
  exists loc10, (P ["d"; "s"]), (lit "r"), (P ["d"; "s"]), (lit "q"), 20, (set_tree loc10 (pset (P ["d"; "s"; "q"]) (PLink (lit "/g")) (p_tree loc10))).
  split; [apply sound_b_ok; vm_compute; reflexivity|]. do 2 (split; [apply at_file; plain|]).
  split; [split; [reflexivity|]; exists (P ["d"; "s"]), (lit "q"); split; [reflexivity|]; exists 493%Z, 5%Z; reflexivity|].
  split; [reflexivity|]. split; [reflexivity|]. split; [vm_compute; reflexivity|]. split; [vm_compute; reflexivity|]. split; vm_compute; reflexivity.
Qed.
Print Assumptions C87_relative_refuted.
(** A link copied onto itself without following it is lost: in every state. *)
Theorem C87_itself_refuted x p t f d mo mt u fuel : sound x -> file_at p u -> points x p t -> file_through x p f d mo mt ->
  exists x', u_copy LB fuel false [] false u u x = (Raise (OSError ENOENT), x') /\ only x x' p None.
Proof.
  intros So Hu Ht Hf. rewrite (file_at_eq _ _ Hu). destruct Hu as [Gp _]. unfold points in Ht.
  destruct (unlink_run x p _ So Gp Ht eq_refl) as (x1 & Eu & Cl). pose proof (cl_sound _ _ _ Cl) as S1.
  assert (E1 : pget p (p_tree x1) = None) by (now apply (cl_gone _ _ _ Cl)).
  exists x1. split.
  - unfold u_copy, hooked. erewrite bind_ok by reflexivity. unfold fs_copy. rewrite same_scheme.
    erewrite bind_ok by (now eapply exists_run; eauto). cbn [negb].
    erewrite bind_ok by (now eapply isfile_run; eauto). cbn [is_pfile negb].
    erewrite bind_ok by (now eapply isdir_at_run; eauto). cbn [is_pdir].
    erewrite bind_ok by reflexivity. unfold copy_entry.
    erewrite bind_ok by (now eapply u_islink_run; eauto). cbn [is_plink negb andb]. unfold copy_link.
    cbn [b_islink b_readlink b_symlink_by b_removefile_by LB].
    erewrite bind_ok by (eapply islink_run; eauto). cbn [is_plink negb].
    erewrite bind_ok by (now eapply isfile_run; eauto). cbn [is_pfile].
    erewrite bind_ok by exact Eu. unfold bind at 1, loc_readlink, bind at 1, os_readlink. rewrite local_path by auto.
    destruct (snoc_cases p) as [Z|(j & m & Z)]; [subst p; destruct (so_root x So) as (? & ? & R); congruence|]. rewrite Z in *.
    assert (Dj : is_dir_at x1 j).
    { destruct (so_dir x So j [m]) as (a & b & Dj); [easy|congruence|]. exists a, b. rewrite (cl_kept _ _ _ Cl); auto. intros Z'. apply (f_equal (@length _)) in Z'. rewrite app_length in Z'. cbn in Z'. lia. }
    now rewrite (look_gap x1 S1 false j m (pp_names _ Gp) Dj E1).
  - split; [exact E1|]. split; [intros q Nq; apply (cl_kept _ _ _ Cl); congruence|apply (cl_rest _ _ _ Cl)].
Qed.
Print Assumptions C87_itself_refuted.
Example C87_itself_witness : sound loc9 /\ file_at (P ["lf"]) (FU ["lf"]) /\ points loc9 (P ["lf"]) (P ["e"; "h"]) /\ file_through loc9 (P ["lf"]) (P ["e"; "h"]) (lit "keep") 420 9 /\
  fst (u_copy LB 20 false [] false (FU ["lf"]) (FU ["lf"]) loc9) = Raise (OSError ENOENT).
Proof. split; [apply loc9_sound|]. split; [apply at_file; plain|]. split; [reflexivity|]. split; [reflexivity|]. vm_compute. reflexivity. Qed.
(** A file copied onto a link to it is emptied, and a link moved or copied onto the file it leads to replaces it: the content is lost. *)
Theorem C87_lost_refuted : exists x f l fuel, sound x /\ file_at f (file_uri f) /\ file_at l (file_uri l) /\ points x l f /\ is_file_at x f /\
  content x f = Some (Some (lit "hello")) /\
  fst (u_copy LB fuel false [] true (file_uri f) (file_uri l) x) = Ok tt /\ content (snd (u_copy LB fuel false [] true (file_uri f) (file_uri l) x)) f = Some (Some []) /\
  fst (u_copy LB fuel false [] false (file_uri l) (file_uri f) x) = Ok tt /\ points (snd (u_copy LB fuel false [] false (file_uri l) (file_uri f) x)) f f /\
  fst (loc_move (file_uri l) (file_uri f) x) = Ok tt /\ points (snd (loc_move (file_uri l) (file_uri f) x)) f f.
Proof.
  exists loc10, (P ["f"]), (P ["l"]), 20. split; [apply sound_b_ok; vm_compute; reflexivity|]. do 2 (split; [apply at_file; plain|]). split; [reflexivity|].
  split; [exists (lit "hello"), 420%Z, 6%Z; reflexivity|]. repeat (split; [vm_compute; reflexivity|]). vm_compute. reflexivity.
Qed.
Print Assumptions C87_lost_refuted.

(** ** C88 *)
(** move of a link moves the link, whatever it leads to: to a free name, in place of a file, or into a directory.
    Destinations that are no links; PropsMove.v has the others. *)
Theorem C88_move_link x i n q u v : sound x -> file_at (i ++ [n]) u -> file_at q v -> is_link_at x (i ++ [n]) -> free_at x q \/ is_file_at x q ->
  exists x', loc_move u v x = (Ok tt, x') /\ relocated x x' (i ++ [n]) q.
Proof.
  intros So Hu Hv (tg & E) F. rewrite (file_at_eq _ _ Hu), (file_at_eq _ _ Hv). apply (move_link_to x i n q tg); auto; [apply Hu|apply Hv].
Qed.
Print Assumptions C88_move_link.
Theorem C88_move_into x i n q u v : sound x -> file_at (i ++ [n]) u -> file_at q v -> plain_path (q ++ [n]) -> is_link_at x (i ++ [n]) -> is_dir_at x q ->
  pget (q ++ [n]) (p_tree x) = None -> exists x', loc_move u v x = (Ok tt, x') /\ relocated x x' (i ++ [n]) (q ++ [n]).
Proof.
  intros So Hu Hv Pn (tg & E) D F. rewrite (file_at_eq _ _ Hu), (file_at_eq _ _ Hv). apply (move_link_into x i n q tg); auto; [apply Hu|apply Hv].
Qed.
Print Assumptions C88_move_into.
Example C88_witness : sound loc9 /\ file_at (P ["l"]) (FU ["l"]) /\ file_at (P ["e"]) (FU ["e"]) /\ is_link_at loc9 (P ["l"]) /\ is_link_at loc9 (P ["d"; "s"; "no"]) /\ free_at loc9 (P ["n"]) /\
  is_dir_at loc9 (P ["e"]) /\ pget (P ["e"; "l"]) (p_tree loc9) = None /\ is_file_at loc9 (P ["e"; "h"]) /\
  pget (P ["e"; "l"]) (p_tree (snd (loc_move (FU ["l"]) (FU ["e"]) loc9))) = Some (PLink (lit "/d/s")) /\
  pget (P ["e"; "no"]) (p_tree (snd (loc_move (FU ["d"; "s"; "no"]) (FU ["e"]) loc9))) = Some (PLink (lit "/nowhere")) /\
  pget (P ["n"]) (p_tree (snd (loc_move (FU ["l"]) (FU ["n"]) loc9))) = Some (PLink (lit "/d/s")) /\
  pget (P ["e"; "h"]) (p_tree (snd (loc_move (FU ["l"]) (FU ["e"; "h"]) loc9))) = Some (PLink (lit "/d/s")).
Proof.
  split; [apply loc9_sound|]. do 2 (split; [apply at_file; plain|]). do 2 (split; [eexists; reflexivity|]).
  split; [split; [reflexivity|]; exists [], (lit "n"); split; [reflexivity|]; exists 493%Z, 5%Z; reflexivity|].
  split; [exists 493%Z, 5%Z; reflexivity|]. split; [reflexivity|]. split; [exists (lit "keep"), 420%Z, 9%Z; reflexivity|].
  repeat (split; [vm_compute; reflexivity|]). vm_compute. reflexivity.
Qed.
