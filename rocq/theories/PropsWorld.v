(** Properties C79 to C82: copies and moves between different backends.
    [mem_loc], [zip_mem], [zip_file] (World.v) are two connections at once.  [lands isd isl D n ct cd] (SpecWorld.v): a
    copy of something named [n] to [ct] goes to [cd].  [transferred D D' new T ignore d b]: the copy of [T] is at d/b, and
    nothing else has changed. *)
From Verif Require Import Str Exc UriParse BaseUri StrFacts SpecUri Mem SpecMem MemOps Generic SpecGen World SpecWorld UriOps.
From Verif Require Import UriFacts2 UriFacts3 UriFacts5 MemFacts MemFacts2 MemFacts3 MemFacts4 MemFacts5 MemFacts6 MemFacts7 MemFacts9 MemUri MemFacts10 GenFacts1 GenFacts3 LocalFacts1 LocalFacts11 LocalFacts13 LocalFacts14.
From Verif Require Import Misc Posix Local SpecLocal Zip SpecZip ZipFacts ZipFacts2 WorldFacts1 WorldFacts2 WorldFacts3 WorldFacts4 WorldFacts5 WorldFacts6 WorldFacts7.
From Verif Require Import PropsMem PropsGeneric PropsCopy PropsZip PropsLocal2.
Open Scope string_scope.
Open Scope list_scope.

Notation loc_lands x := (lands is_pdir is_plink (loc_tree x)).
Notation mem_lands s := (lands mem_dir mem_link (mem_tree s)).
Notation loc_fits x := (fits is_pdir is_plink (loc_tree x)).
Notation mem_fits s := (fits mem_dir mem_link (mem_tree s)).
Notation loc_dir x := (dir_at is_pdir (loc_tree x)).
Notation mem_has_dir s := (dir_at mem_dir (mem_tree s)).

(** ** Concrete states *)
Lemma U_at l : good_path (P l) -> mem_at (P l) (U l). Proof. apply mem_at_uri. Qed.
Lemma FU_at l : plain_path (P l) -> file_at (P l) (FU l). Proof. apply at_file. Qed.
Lemma demo_below r : view demo (P ["d"] ++ r) <> None -> In r [[]; P ["f"]; P ["e"]].
Proof. intros N. entries_of (reachable_wf _ demo_reachable) N; injection N as <-; cbn; auto. Qed.
Lemma tree_in q (t : ptree) : pget q t <> None -> In q (map fst t).
Proof. induction t as [|[k e] t IH]; [easy|]. cbn. destruct (path_eqb q k) eqn:X; [apply path_eqb_spec in X; auto|auto]. Qed.
Lemma loc1_below r : pget (P ["a"] ++ r) (p_tree loc1) <> None -> In r [[]; P ["f"]; P ["s"]; P ["s"; "g"]].
Proof.
  intros N. apply tree_in in N. cbn [loc1 p_tree tree0 map fst In] in N. repeat destruct N as [N|N]; try discriminate N; try contradiction; injection N as <-; cbn; auto.
Qed.
Lemma demo_plain : mem_plain demo (P ["d"]).
Proof.
  split; intros r N.
  - pose proof (demo_below r (some_entry (or_intror (or_intror N)))) as X. destruct X as [<-|[<-|[<-|[]]]]; revert N; not_link.
  - apply demo_below in N. destruct N as [<-|[<-|[<-|[]]]]; good.
Qed.
Lemma mem_some s cs r : mem_below s cs r <> None -> view s (cs ++ r) <> None.
Proof. unfold mem_below, mem_content. destruct (view s (cs ++ r)); congruence. Qed.
Lemma loc_some x cs r : loc_below x cs r <> None -> pget (cs ++ r) (p_tree x) <> None.
Proof. unfold loc_below, content. destruct (pget (cs ++ r) (p_tree x)); congruence. Qed.
Lemma demo_portable : portable (mem_below demo (P ["d"])) plain_path (P ["x"; "y"]) 5.
Proof.
  constructor; [reflexivity| | |]; intros r N; [|assert (Y : mem_below demo (P ["d"]) r <> None) by congruence|];
    pose proof (demo_below r (mem_some _ _ _ ltac:(eassumption))) as X; destruct X as [<-|[<-|[<-|[]]]]; first [plain | pad | vm_compute; lia].
Qed.
Lemma loc1_plain : loc_plain loc1 (P ["a"]).
Proof. split; intros r; [intros tg; apply loc1_unlinked|]. intros N. apply loc1_below in N. destruct N as [<-|[<-|[<-|[<-|[]]]]]; plain. Qed.
Lemma loc1_portable : portable (loc_below loc1 (P ["a"])) good_path (P ["x"; "y"]) 5.
Proof.
  constructor; [reflexivity| | |]; intros r N; [|assert (Y : loc_below loc1 (P ["a"]) r <> None) by congruence|];
    pose proof (loc1_below r (loc_some _ _ _ ltac:(eassumption))) as X; destruct X as [<-|[<-|[<-|[<-|[]]]]]; first [good | pad | vm_compute; lia].
Qed.
(** What [arch] has in /dir1 *)
Definition arch_dir (r : list str) : option (option (list N)) :=
  match r with
  | [] => Some None
  | [n] => if str_eqb n (lit "foo.txt") then Some (Some (lit "1")) else if str_eqb n (lit "bar.txt") then Some (Some (lit "2")) else None
  | _ => None
  end.
Lemma arch_proper : proper arch arch_tree. Proof. apply C58_witness. Qed.
Lemma arch_stored p d : stored arch p d <-> lookup_last p arch = Some d. Proof. symmetry. apply lookup_stored. Qed.
Lemma arch_archived r c : arch_dir r = Some c <-> archived arch arch_tree (P ["dir1"] ++ r) c.
Proof.
  split.
  - destruct r as [|n [|]]; [|destruct (str_eqb n (lit "foo.txt")) eqn:E1; [|destruct (str_eqb n (lit "bar.txt")) eqn:E2]|]; unfold arch_dir; rewrite ?E1, ?E2; try discriminate; intros X; injection X as <-.
    + exists (P ["foo.txt"]). split; [discriminate|]. right. now left.
    + apply str_eqb_eq in E1 as ->. split; [right; now left|]. apply arch_stored. reflexivity.
    + apply str_eqb_eq in E2 as ->. split; [right; right; now left|]. apply arch_stored. reflexivity.
  - destruct c as [d|].
    + intros [I St]. apply arch_stored in St. cbn [arch_tree In] in I. destruct I as [I|[I|[I|[I|[]]]]]; try discriminate I; injection I as <-; vm_compute in St; injection St as <-; reflexivity.
    + intros (b & Nb & I). cbn [arch_tree In] in I. destruct I as [I|[I|[I|[I|[]]]]]; try discriminate I; cbn in I; injection I as I;
        (destruct r as [|a r]; [reflexivity|]); cbn in I; injection I as <- I; symmetry in I; apply app_eq_nil in I as [-> ->]; now destruct Nb.
Qed.
Lemma arch_portable (good : list str -> Prop) : good (P ["x"; "y"]) -> good (P ["x"; "y"; "foo.txt"]) -> good (P ["x"; "y"; "bar.txt"]) -> portable arch_dir good (P ["x"; "y"]) 5.
Proof.
  intros G1 G2 G3. assert (B : forall r, arch_dir r <> None -> In r [[]; P ["foo.txt"]; P ["bar.txt"]]).
  { intros [|n [|]] N; unfold arch_dir in N; [now left| |easy]. destruct (str_eqb n (lit "foo.txt")) eqn:E1; [apply str_eqb_eq in E1 as ->; cbn; auto|].
    destruct (str_eqb n (lit "bar.txt")) eqn:E2; [apply str_eqb_eq in E2 as ->; cbn; auto|easy]. }
  constructor; [reflexivity| | |]; intros r N; [|assert (Y : arch_dir r <> None) by congruence|]; pose proof (B r ltac:(assumption)) as X; destruct X as [<-|[<-|[<-|[]]]]; auto; try (vm_compute; lia); vm_compute in N; try discriminate; constructor.
Qed.
Lemma demo_new n : view demo [n] = None -> mem_has_dir demo [] /\ view demo ([] ++ [n]) = None.
Proof. intros H. split; [eexists; split; [vm_compute; reflexivity|reflexivity]|exact H]. Qed.
Lemma demo_lands n : mem_lands demo n (P ["x"; "y"]) ([] ++ lit "x" :: P ["y"]).
Proof. apply (lands_new _ _ _ n _ [] (lit "x") (P ["y"])); auto. eexists; split; [vm_compute; reflexivity|reflexivity]. Qed.
Lemma loc1_lands n : loc_lands loc1 n (P ["x"; "y"]) ([] ++ lit "x" :: P ["y"]).
Proof. apply (lands_new _ _ _ n _ [] (lit "x") (P ["y"])); auto. eexists; split; [vm_compute; reflexivity|reflexivity]. Qed.
Lemma loc1_dir : loc_dir loc1 []. Proof. eexists; split; [vm_compute; reflexivity|reflexivity]. Qed.
Lemma demo_dir : mem_has_dir demo []. Proof. eexists; split; [vm_compute; reflexivity|reflexivity]. Qed.

(** ** C79 *)
(** Partial: ordinary names; the source is no link; no links on the way to the destination. *)
Theorem C79_mem_to_local_partial s x cs n u data mt mo ct v p m ignore follow fuel :
  reachable s -> silent s -> sound x -> mem_at (cs ++ [n]) u -> file_at ct v -> view s (cs ++ [n]) = Some (EFile data mt mo) ->
  loc_lands x n ct (p ++ [m]) -> plain_path (p ++ [m]) -> loc_fits x p m ->
  exists s' x', u_copy mem_loc fuel false ignore follow u v (s, x) = (Ok tt, (s', x')) /\
    same_tree (view s) (view s') /\ same_rest s s' /\ only x x' (p ++ [m]) (Some (loc_over x (p ++ [m]) data)).
Proof.
  intros R Q So Hu Hv E La Gd [Dp Nd]. pose proof (mem_at_good _ _ Hu) as G. rewrite (mem_at_eq _ _ Hu), (file_at_eq _ _ Hv). destruct Hv as [Gt _].
  destruct (file_nolink s _ _ _ _ E) as [Nl Bl]. pose proof (snoc_ne cs n) as Ne.
  assert (k : K12 (msrc s (cs ++ [n])) (ldst x) (mem_below s (cs ++ [n])) (loc_tree x) (s, x)).
  { split; [|now apply ldst_start]. apply msrc_start; auto; [now apply reachable_wf|]. intros r Hr. rewrite (Bl r Hr). now rewrite app_nil_r. }
  destruct (gen_copy_file _ _ _ _ _ _ _ _ _ (mem_loc_way s x _ Ne) _ (new_loc x) _ _ (s, x) fuel n ct p m data eq_refl (mlast cs n G) k Gt La Gd) with (ignore := ignore) (fl := follow) as ([s' x'] & X & k1 & k2); auto.
  { rewrite mT0. unfold mem_content. now rewrite E. }
  exists s', x'. rewrite mus0 in X. split; [exact X|]. split; [now apply (msrc_same s (cs ++ [n]))|]. split; [apply k1|]. now apply only_put.
Qed.
Print Assumptions C79_mem_to_local_partial.
(** memory:///d/f to file:///b, a directory, and over file:///k *)
Example C79_mem_to_local_witness : exists u v w data, mem_at (P ["d"; "f"]) u /\ file_at (P ["b"]) v /\ file_at (P ["k"]) w /\ reachable demo /\ silent demo /\ sound loc1 /\
  view demo (P ["d"; "f"]) = Some (EFile data 99 420) /\ data <> [] /\
  loc_lands loc1 (lit "f") (P ["b"]) (P ["b"; "f"]) /\ plain_path (P ["b"; "f"]) /\ loc_fits loc1 (P ["b"]) (lit "f") /\
  loc_lands loc1 (lit "f") (P ["k"]) (P ["k"]) /\ plain_path (P ["k"]) /\ loc_fits loc1 [] (lit "k") /\
  fst (u_copy mem_loc 9 false [] true u v (demo, loc1)) = Ok tt.
Proof.
  exists (U ["d"; "f"]), (FU ["b"]), (FU ["k"]). eexists. split; [apply U_at; good|]. split; [apply FU_at; plain|]. split; [apply FU_at; plain|].
  split; [apply demo_reachable|]. split; [apply demo_silent|]. split; [apply loc1_sound|]. split; [vm_compute; reflexivity|]. split; [discriminate|].
  split; [apply lands_in; eexists; split; [vm_compute; reflexivity|reflexivity]|]. split; [plain|].
  split; [split; [eexists; split; [vm_compute; reflexivity|reflexivity]|intros e X; vm_compute in X; discriminate]|].
  split; [eapply lands_on; [vm_compute; reflexivity|reflexivity|reflexivity]|]. split; [plain|].
  split; [split; [apply loc1_dir|intros e X; vm_compute in X; injection X as <-; auto]|]. vm_compute. reflexivity.
Qed.
Theorem C79_local_to_mem_partial s x cs n u data mo mt ct v p m ignore follow fuel :
  reachable s -> silent s -> sound x -> file_at (cs ++ [n]) u -> mem_at ct v -> pget (cs ++ [n]) (p_tree x) = Some (PFile data mo mt) ->
  mem_lands s n ct (p ++ [m]) -> good_path (p ++ [m]) -> mem_fits s p m ->
  exists s' x', u_copy mem_loc fuel false ignore follow u v (s, x) = (Ok tt, (s', x')) /\
    loc_same x x' /\ put_at (view s) (view s') (p ++ [m]) (EFile data (m_now s) 0) /\ same_rest s s'.
Proof.
  intros R Q So Hu Hv E La Gd [Dp Nd]. assert (G : plain_path (cs ++ [n])) by apply Hu. pose proof (mem_at_good _ _ Hv) as Gt. rewrite (file_at_eq _ _ Hu), (mem_at_eq _ _ Hv).
  destruct (lfile_nolink x _ _ _ _ So E) as [Nl Bl]. pose proof (snoc_ne cs n) as Ne.
  assert (k : K21 (lsrc x (cs ++ [n])) (mdst s) (loc_below x (cs ++ [n])) (view s) (s, x)).
  { split; [|apply mdst_start; auto; now apply reachable_wf]. apply lsrc_start; auto. intros r Hr. rewrite (Bl r Hr). now rewrite app_nil_r. }
  destruct (gen_copy_file _ _ _ _ _ _ _ _ _ (loc_mem_way s x _ Ne) _ (new_mem s) _ _ (s, x) fuel n ct p m data eq_refl (llast cs n G) k Gt La Gd) with (ignore := ignore) (fl := follow) as ([s' x'] & X & k1 & k2); auto.
  { rewrite lT0. unfold content. now rewrite E. }
  exists s', x'. rewrite lus0 in X. split; [exact X|]. split; [now apply (lsrc_same x (cs ++ [n]))|]. split; [now apply mem_put_one|apply k2].
Qed.
Print Assumptions C79_local_to_mem_partial.
(** file:///a/s/g to memory:///e, over a file *)
Example C79_local_to_mem_witness : exists u v, file_at (P ["a"; "s"; "g"]) u /\ mem_at (P ["e"]) v /\ pget (P ["a"; "s"; "g"]) (p_tree loc1) = Some (PFile (lit "x") 384 8) /\
  mem_lands demo (lit "g") (P ["e"]) (P ["e"]) /\ good_path (P ["e"]) /\ mem_fits demo [] (lit "e") /\ fst (u_copy mem_loc 9 false [] true u v (demo, loc1)) = Ok tt.
Proof.
  exists (FU ["a"; "s"; "g"]), (U ["e"]). split; [apply FU_at; plain|]. split; [apply U_at; good|]. split; [vm_compute; reflexivity|].
  split; [eapply lands_on; [vm_compute; reflexivity|reflexivity|reflexivity]|]. split; [good|].
  split; [split; [apply demo_dir|intros e X; vm_compute in X; injection X as <-; auto]|]. vm_compute. reflexivity.
Qed.
(** From an archive *)
(** What the archive has at a place, as a tree *)
Lemma zip_start {S E} z ms L cs n data (s : S) (K2 : (list str -> option E) -> S -> Prop) D :
  connected z ms -> proper ms L -> In (cs ++ [n]) L -> stored ms (abs_path (cs ++ [n])) data -> K2 D s ->
  exists T, T [] = Some (Some data) /\ K12 (zsrc ms L (cs ++ [n])) K2 T D (z, s).
Proof.
  intros Hc P I St k. exists (fun r => match r with [] => Some (Some data) | _ => None end). split; auto. split; auto. apply zsrc_start; auto.
  intros r c. destruct r as [|a r].
  - rewrite app_nil_r. split.
    + intros X. injection X as <-. now split.
    + destruct c as [d|].
      * intros [_ St']. apply lookup_stored in St, St'. congruence.
      * intros (b & Nb & Ib). now apply (pr_tree _ _ P _ b) in I.
  - split; [discriminate|]. intros X. exfalso. assert (Y : exists b, In ((cs ++ [n]) ++ (a :: r) ++ b) L).
    { destruct c as [d|]; [exists []; rewrite app_nil_r; apply X|destruct X as (b & _ & X); exists b; now rewrite app_assoc]. }
    destruct Y as [b Y]. apply (pr_tree _ _ P _ _ I) in Y. discriminate.
Qed.

Theorem C79_zip_to_mem_partial z ms L vc s cs n u data ct v p m ignore follow fuel :
  connected z ms -> proper ms L -> reachable s -> silent s -> zip_at vc (cs ++ [n]) u -> mem_at ct v ->
  In (cs ++ [n]) L -> stored ms (abs_path (cs ++ [n])) data ->
  mem_lands s n ct (p ++ [m]) -> good_path (p ++ [m]) -> mem_fits s p m ->
  exists z' s', u_copy zip_mem fuel false ignore follow u v (z, s) = (Ok tt, (z', s')) /\
    z_disk z' = DZip ms /\ put_at (view s) (view s') (p ++ [m]) (EFile data (m_now s) 0) /\ same_rest s s'.
Proof.
  intros Hc P R Q Hu Hv I St La Gd [Dp Nd]. pose proof (zip_at_good _ _ _ Hu) as G. pose proof (mem_at_good _ _ Hv) as Gt. rewrite (zip_at_eq _ _ _ Hu), (mem_at_eq _ _ Hv).
  destruct Hu as (Av & _). pose proof (snoc_ne cs n) as Ne.
  destruct (zip_start z ms L cs n data s (mdst s) (view s) Hc P I St) as (T & Tr & k); [apply mdst_start; auto; now apply reachable_wf|].
  assert (La' : u_last (zus vc (cs ++ [n]) []) = n) by (rewrite zus0; apply zip_last; now apply good_name in G).
  destruct (gen_copy_file _ _ _ _ _ _ _ _ _ (zip_mem_way s vc ms L _ Av P Ne) _ (new_mem s) _ _ (z, s) fuel n ct p m data eq_refl La' k Gt La Gd) with (ignore := ignore) (fl := follow) as ([z' s'] & X & k1 & k2); auto.
  exists z', s'. rewrite zus0 in X. split; [exact X|]. split; [apply k1|]. split; [now apply mem_put_one|apply k2].
Qed.
Print Assumptions C79_zip_to_mem_partial.
Theorem C79_zip_to_local_partial z ms L vc x cs n u data ct v p m ignore follow fuel :
  connected z ms -> proper ms L -> sound x -> zip_at vc (cs ++ [n]) u -> file_at ct v ->
  In (cs ++ [n]) L -> stored ms (abs_path (cs ++ [n])) data ->
  loc_lands x n ct (p ++ [m]) -> plain_path (p ++ [m]) -> loc_fits x p m ->
  exists z' x', u_copy zip_file fuel false ignore follow u v (z, x) = (Ok tt, (z', x')) /\
    z_disk z' = DZip ms /\ only x x' (p ++ [m]) (Some (loc_over x (p ++ [m]) data)).
Proof.
  intros Hc P So Hu Hv I St La Gd [Dp Nd]. pose proof (zip_at_good _ _ _ Hu) as G. rewrite (zip_at_eq _ _ _ Hu), (file_at_eq _ _ Hv). destruct Hv as [Gt _].
  destruct Hu as (Av & _). pose proof (snoc_ne cs n) as Ne.
  destruct (zip_start z ms L cs n data x (ldst x) (loc_tree x) Hc P I St) as (T & Tr & k); [now apply ldst_start|].
  assert (La' : u_last (zus vc (cs ++ [n]) []) = n) by (rewrite zus0; apply zip_last; now apply good_name in G).
  destruct (gen_copy_file _ _ _ _ _ _ _ _ _ (zip_loc_way x vc ms L _ Av P Ne) _ (new_loc x) _ _ (z, x) fuel n ct p m data eq_refl La' k Gt La Gd) with (ignore := ignore) (fl := follow) as ([z' x'] & X & k1 & k2); auto.
  exists z', x'. rewrite zus0 in X. split; [exact X|]. split; [apply k1|]. now apply only_put.
Qed.
Print Assumptions C79_zip_to_local_partial.
(** /dir1/foo.txt of an archive to memory:///d/foo.txt and file:///b/foo.txt, given the directories *)
Example C79_zip_witness : exists u, zip_at zv (P ["dir1"; "foo.txt"]) u /\ connected open_arch arch /\ proper arch arch_tree /\
  In (P ["dir1"; "foo.txt"]) arch_tree /\ stored arch (abs_path (P ["dir1"; "foo.txt"])) (lit "1") /\
  mem_lands demo (lit "foo.txt") (P ["d"]) (P ["d"; "foo.txt"]) /\ good_path (P ["d"; "foo.txt"]) /\ mem_fits demo (P ["d"]) (lit "foo.txt") /\
  loc_lands loc1 (lit "foo.txt") (P ["b"]) (P ["b"; "foo.txt"]) /\ plain_path (P ["b"; "foo.txt"]) /\ loc_fits loc1 (P ["b"]) (lit "foo.txt") /\
  fst (u_copy zip_mem 9 false [] true u (U ["d"]) (open_arch, demo)) = Ok tt /\ fst (u_copy zip_file 9 false [] true u (FU ["b"]) (open_arch, loc1)) = Ok tt.
Proof.
  exists (ZU ["dir1"; "foo.txt"]). split; [apply ZU_at; good|]. split; [apply arch_connected|]. split; [apply arch_proper|]. split; [cbn; auto|].
  split; [apply arch_stored; reflexivity|].
  split; [apply lands_in; eexists; split; [vm_compute; reflexivity|reflexivity]|]. split; [good|].
  split; [split; [eexists; split; [vm_compute; reflexivity|reflexivity]|intros e X; vm_compute in X; discriminate]|].
  split; [apply lands_in; eexists; split; [vm_compute; reflexivity|reflexivity]|]. split; [plain|].
  split; [split; [eexists; split; [vm_compute; reflexivity|reflexivity]|intros e X; vm_compute in X; discriminate]|].
  split; vm_compute; reflexivity.
Qed.
(** Two memory file systems have the same scheme but different users.  FileSystem.copy goes by the scheme and copies the
    times within the source's file system: an error although the content has been copied, or a file of the same name in
    the source's file system changed. *)
Definition HU (h p : String.string) : uri := match URI (lit "memory://" ++ lit h ++ lit "@" ++ lit p) cSlash [] with Ok u => u | _ => U [] end.
Theorem C79_users_refuted : exists u v s s', URI (lit "memory://a@/d/f") cSlash [] = Ok u /\ URI (lit "memory://b@/g") cSlash [] = Ok v /\
  view (init_mem 5 0) (P ["g"]) = None /\
  u_copy (mem_mem (Some (lit "a"))) 9 false [] true u v (demo, init_mem 5 0) = (Raise (OSError ENOENT), (s, s')) /\
  is_efile (view s' (P ["g"])).
Proof.
  destruct (u_copy (mem_mem (Some (lit "a"))) 9 false [] true (HU "a" "/d/f") (HU "b" "/g") (demo, init_mem 5 0)) as [r [s s']] eqn:E.
  exists (HU "a" "/d/f"), (HU "b" "/g"), s, s'. split; [vm_compute; reflexivity|]. split; [vm_compute; reflexivity|]. split; [vm_compute; reflexivity|].
  vm_compute in E. injection E as <- <- <-. split; [vm_compute; reflexivity|file_here].
Qed.
Print Assumptions C79_users_refuted.
Theorem C79_users_source_refuted : exists u v s s' d d', URI (lit "memory://a@/d/f") cSlash [] = Ok u /\ URI (lit "memory://b@/e") cSlash [] = Ok v /\
  u_copy (mem_mem (Some (lit "a"))) 9 false [] true u v (demo, init_mem 5 0) = (Ok tt, (s, s')) /\
  view demo (P ["e"]) = Some d /\ view s (P ["e"]) = Some d' /\ d <> d'.
Proof.
  destruct (u_copy (mem_mem (Some (lit "a"))) 9 false [] true (HU "a" "/d/f") (HU "b" "/e") (demo, init_mem 5 0)) as [r [s s']] eqn:E.
  exists (HU "a" "/d/f"), (HU "b" "/e"), s, s'. vm_compute in E. injection E as <- <- <-. do 2 eexists.
  split; [vm_compute; reflexivity|]. split; [vm_compute; reflexivity|]. split; [vm_compute; reflexivity|]. split; [vm_compute; reflexivity|]. split; [vm_compute; reflexivity|]. discriminate.
Qed.
Print Assumptions C79_users_source_refuted.
(** With followlinks=False a link is made in the source's file system, at the destination's path; a file that is there
    is lost, and the destination is as before. *)
Theorem C79_links_refuted : exists s x, mem_at (P ["k"]) (U ["k"]) /\ file_at (P ["new"]) (FU ["new"]) /\ is_elink (view linked (P ["k"])) /\
  view linked (P ["new"]) = None /\ u_copy mem_loc 9 false [] false (U ["k"]) (FU ["new"]) (linked, loc1) = (Ok tt, (s, x)) /\
  is_elink (view s (P ["new"])) /\ pget (P ["new"]) (p_tree x) = None.
Proof.
  assert (H1 : mem_at (P ["k"]) (U ["k"])) by (apply U_at; good). assert (H2 : file_at (P ["new"]) (FU ["new"])) by (apply FU_at; plain).
  destruct (u_copy mem_loc 9 false [] false (U ["k"]) (FU ["new"]) (linked, loc1)) as [r [s x]] eqn:E. exists s, x.
  split; [exact H1|]. split; [exact H2|]. split; [do 3 eexists; vm_compute; reflexivity|]. split; [vm_compute; reflexivity|].
  vm_compute in E. injection E as <- <- <-. split; [vm_compute; reflexivity|]. split; [do 3 eexists; vm_compute; reflexivity|vm_compute; reflexivity].
Qed.
Print Assumptions C79_links_refuted.
Definition loc_lk : pst := mkP (tree0 ++ [(P ["l"], PLink (lit "/a/f")); (P ["e"], PFile (lit "precious") 420 3)]) [] 50 18.
Theorem C79_links_lost_refuted : exists s x, sound loc_lk /\ file_at (P ["l"]) (FU ["l"]) /\ mem_at (P ["e"]) (U ["e"]) /\
  pget (P ["e"]) (p_tree loc_lk) = Some (PFile (lit "precious") 420 3) /\ is_efile (view demo (P ["e"])) /\
  u_copy mem_loc 9 false [] false (FU ["l"]) (U ["e"]) (demo, loc_lk) = (Ok tt, (s, x)) /\
  pget (P ["e"]) (p_tree x) = Some (PLink (lit "/a/f")) /\ view s (P ["e"]) = view demo (P ["e"]).
Proof.
  assert (H1 : file_at (P ["l"]) (FU ["l"])) by (apply FU_at; plain). assert (H2 : mem_at (P ["e"]) (U ["e"])) by (apply U_at; good).
  destruct (u_copy mem_loc 9 false [] false (FU ["l"]) (U ["e"]) (demo, loc_lk)) as [r [s x]] eqn:E. exists s, x.
  split; [apply sound_b_ok; vm_compute; reflexivity|]. split; [exact H1|]. split; [exact H2|]. split; [vm_compute; reflexivity|]. split; [file_here|].
  vm_compute in E. injection E as <- <- <-. repeat split; vm_compute; reflexivity.
Qed.
Print Assumptions C79_links_lost_refuted.
(** Nothing can be copied out of an archive before something of it has been opened or listed. *)
Theorem C79_fresh_refuted : zip_at zv (P ["foo.txt"]) (ZU ["foo.txt"]) /\ stored arch (lit "/foo.txt") (lit "bar") /\
  fst (u_copy zip_mem 9 false [] true (ZU ["foo.txt"]) (U ["new"]) (zip_init (DZip arch), demo)) = Raise AttributeError.
Proof. split; [apply ZU_at; good|]. split; [apply arch_stored; reflexivity|]. vm_compute. reflexivity. Qed.
Print Assumptions C79_fresh_refuted.

(** ** C80 *)
(** Partial: ordinary names, no links; the destination does not exist yet. *)
Theorem C80_mem_to_local_partial s x cs n u ct v d m b ignore follow fuel :
  reachable s -> silent s -> sound x -> mem_at (cs ++ [n]) u -> file_at ct v -> mem_plain s (cs ++ [n]) ->
  portable (mem_below s (cs ++ [n])) plain_path (d ++ m :: b) fuel ->
  loc_lands x n ct (d ++ m :: b) -> loc_dir x d -> loc_tree x (d ++ [m]) = None -> length (m :: b) < fuel ->
  exists s' x', u_copy mem_loc fuel true ignore follow u v (s, x) = (Ok tt, (s', x')) /\
    same_tree (view s) (view s') /\ same_rest s s' /\
    transferred (loc_tree x) (loc_tree x') (loc_new x) (mem_below s (cs ++ [n])) ignore d (m :: b) /\ same_host x x'.
Proof.
  intros R Q So Hu Hv [Nl Bl] [P1 P2 P3 P4] La Dd Dn Fb. pose proof (mem_at_good _ _ Hu) as G. rewrite (mem_at_eq _ _ Hu), (file_at_eq _ _ Hv). destruct Hv as [Gt _].
  pose proof (snoc_ne cs n) as Ne.
  assert (k : K12 (msrc s (cs ++ [n])) (ldst x) (mem_below s (cs ++ [n])) (loc_tree x) (s, x)).
  { split; [|now apply ldst_start]. apply msrc_start; auto. now apply reachable_wf. }
  destruct (gen_copy_tree _ _ _ _ _ _ _ _ _ (mem_loc_way s x _ Ne) _ (new_loc x) _ _ (s, x) fuel n ct d m b eq_refl (mlast cs n G) k Gt La P2 ignore follow P1 P3 Dd Dn P4 Fb) as (D' & [s' x'] & X & [k1 k2] & Y).
  exists s', x'. rewrite mus0 in X. split; [exact X|]. split; [now apply (msrc_same s (cs ++ [n]))|]. split; [apply k1|].
  split; [|apply k2]. eapply transferred_ext; [|exact Y]. intros q. apply (ld_tree x _ x' k2).
Qed.
Print Assumptions C80_mem_to_local_partial.
(** memory:///d to file:///x/y, neither of which is there *)
Example C80_mem_to_local_witness : exists u v, mem_at (P ["d"]) u /\ file_at (P ["x"; "y"]) v /\ mem_plain demo (P ["d"]) /\
  portable (mem_below demo (P ["d"])) plain_path (P ["x"; "y"]) 5 /\ loc_lands loc1 (lit "d") (P ["x"; "y"]) (P ["x"; "y"]) /\ loc_dir loc1 [] /\ loc_tree loc1 (P ["x"]) = None /\
  (let r := u_copy mem_loc 5 true [] true u v (demo, loc1) in fst r = Ok tt /\ loc_tree (snd (snd r)) (P ["x"; "y"; "f"]) <> None).
Proof.
  exists (U ["d"]), (FU ["x"; "y"]). split; [apply U_at; good|]. split; [apply FU_at; plain|]. split; [apply demo_plain|]. split; [apply demo_portable|].
  split; [apply loc1_lands|]. split; [apply loc1_dir|]. split; [reflexivity|]. split; [vm_compute; reflexivity|]. intros X. vm_compute in X. discriminate.
Qed.
Theorem C80_local_to_mem_partial s x cs n u ct v d m b ignore follow fuel :
  reachable s -> silent s -> sound x -> file_at (cs ++ [n]) u -> mem_at ct v -> loc_plain x (cs ++ [n]) ->
  portable (loc_below x (cs ++ [n])) good_path (d ++ m :: b) fuel ->
  mem_lands s n ct (d ++ m :: b) -> mem_has_dir s d -> view s (d ++ [m]) = None -> length (m :: b) < fuel ->
  exists s' x', u_copy mem_loc fuel true ignore follow u v (s, x) = (Ok tt, (s', x')) /\
    loc_same x x' /\ transferred (mem_tree s) (mem_tree s') (mem_new s) (loc_below x (cs ++ [n])) ignore d (m :: b) /\ same_rest s s'.
Proof.
  intros R Q So Hu Hv [Nl Bl] [P1 P2 P3 P4] La Dd Dn Fb. assert (G : plain_path (cs ++ [n])) by apply Hu. pose proof (mem_at_good _ _ Hv) as Gt. rewrite (file_at_eq _ _ Hu), (mem_at_eq _ _ Hv).
  pose proof (snoc_ne cs n) as Ne.
  assert (k : K21 (lsrc x (cs ++ [n])) (mdst s) (loc_below x (cs ++ [n])) (view s) (s, x)).
  { split; [now apply lsrc_start|apply mdst_start; auto; now apply reachable_wf]. }
  destruct (gen_copy_tree _ _ _ _ _ _ _ _ _ (loc_mem_way s x _ Ne) _ (new_mem s) _ _ (s, x) fuel n ct d m b eq_refl (llast cs n G) k Gt La P2 ignore follow P1 P3 Dd Dn P4 Fb) as (D' & [s' x'] & X & [k1 k2] & Y).
  exists s', x'. rewrite lus0 in X. split; [exact X|]. split; [now apply (lsrc_same x (cs ++ [n]))|].
  split; [|apply k2]. eapply transferred_ext; [|exact Y]. intros q. apply (md_tree s _ s' k2).
Qed.
Print Assumptions C80_local_to_mem_partial.
(** file:///a to memory:///x/y; leaving out the directories called s *)
Example C80_local_to_mem_witness : exists u v, file_at (P ["a"]) u /\ mem_at (P ["x"; "y"]) v /\ loc_plain loc1 (P ["a"]) /\
  portable (loc_below loc1 (P ["a"])) good_path (P ["x"; "y"]) 5 /\ mem_lands demo (lit "a") (P ["x"; "y"]) (P ["x"; "y"]) /\ mem_has_dir demo [] /\ view demo (P ["x"]) = None /\
  (let r := u_copy mem_loc 5 true [] true u v (demo, loc1) in fst r = Ok tt /\ is_efile (view (fst (snd r)) (P ["x"; "y"; "s"; "g"]))) /\
  (let r := u_copy mem_loc 5 true [lit "s"] true u v (demo, loc1) in fst r = Ok tt /\ is_efile (view (fst (snd r)) (P ["x"; "y"; "f"])) /\ view (fst (snd r)) (P ["x"; "y"; "s"; "g"]) = None).
Proof.
  exists (FU ["a"]), (U ["x"; "y"]). split; [apply FU_at; plain|]. split; [apply U_at; good|]. split; [apply loc1_plain|]. split; [apply loc1_portable|].
  split; [apply demo_lands|]. split; [apply demo_dir|]. split; [reflexivity|].
  split; [split; [vm_compute; reflexivity|file_here]|]. split; [vm_compute; reflexivity|]. split; [file_here|vm_compute; reflexivity].
Qed.
(** From an archive: [T] is what it has at [cs]. *)
Theorem C80_zip_to_mem_partial z ms L vc T s cs n u ct v d m b ignore follow fuel :
  connected z ms -> proper ms L -> reachable s -> silent s -> zip_at vc (cs ++ [n]) u -> mem_at ct v ->
  (forall r c, T r = Some c <-> archived ms L ((cs ++ [n]) ++ r) c) -> portable T good_path (d ++ m :: b) fuel ->
  mem_lands s n ct (d ++ m :: b) -> mem_has_dir s d -> view s (d ++ [m]) = None -> length (m :: b) < fuel ->
  exists z' s', u_copy zip_mem fuel true ignore follow u v (z, s) = (Ok tt, (z', s')) /\
    z_disk z' = DZip ms /\ transferred (mem_tree s) (mem_tree s') (mem_new s) T ignore d (m :: b) /\ same_rest s s'.
Proof.
  intros Hc P R Q Hu Hv HT [P1 P2 P3 P4] La Dd Dn Fb. pose proof (zip_at_good _ _ _ Hu) as G. pose proof (mem_at_good _ _ Hv) as Gt. rewrite (zip_at_eq _ _ _ Hu), (mem_at_eq _ _ Hv).
  destruct Hu as (Av & _). pose proof (snoc_ne cs n) as Ne.
  assert (k : K12 (zsrc ms L (cs ++ [n])) (mdst s) T (view s) (z, s)).
  { split; [now apply zsrc_start|apply mdst_start; auto; now apply reachable_wf]. }
  assert (La' : u_last (zus vc (cs ++ [n]) []) = n) by (rewrite zus0; apply zip_last; now apply good_name in G).
  destruct (gen_copy_tree _ _ _ _ _ _ _ _ _ (zip_mem_way s vc ms L _ Av P Ne) _ (new_mem s) _ _ (z, s) fuel n ct d m b eq_refl La' k Gt La P2 ignore follow P1 P3 Dd Dn P4 Fb) as (D' & [z' s'] & X & [k1 k2] & Y).
  exists z', s'. rewrite zus0 in X. split; [exact X|]. split; [apply k1|].
  split; [|apply k2]. eapply transferred_ext; [|exact Y]. intros q. apply (md_tree s _ s' k2).
Qed.
Print Assumptions C80_zip_to_mem_partial.
Theorem C80_zip_to_local_partial z ms L vc T x cs n u ct v d m b ignore follow fuel :
  connected z ms -> proper ms L -> sound x -> zip_at vc (cs ++ [n]) u -> file_at ct v ->
  (forall r c, T r = Some c <-> archived ms L ((cs ++ [n]) ++ r) c) -> portable T plain_path (d ++ m :: b) fuel ->
  loc_lands x n ct (d ++ m :: b) -> loc_dir x d -> loc_tree x (d ++ [m]) = None -> length (m :: b) < fuel ->
  exists z' x', u_copy zip_file fuel true ignore follow u v (z, x) = (Ok tt, (z', x')) /\
    z_disk z' = DZip ms /\ transferred (loc_tree x) (loc_tree x') (loc_new x) T ignore d (m :: b) /\ same_host x x'.
Proof.
  intros Hc P So Hu Hv HT [P1 P2 P3 P4] La Dd Dn Fb. pose proof (zip_at_good _ _ _ Hu) as G. rewrite (zip_at_eq _ _ _ Hu), (file_at_eq _ _ Hv). destruct Hv as [Gt _].
  destruct Hu as (Av & _). pose proof (snoc_ne cs n) as Ne.
  assert (k : K12 (zsrc ms L (cs ++ [n])) (ldst x) T (loc_tree x) (z, x)) by (split; [now apply zsrc_start|now apply ldst_start]).
  assert (La' : u_last (zus vc (cs ++ [n]) []) = n) by (rewrite zus0; apply zip_last; now apply good_name in G).
  destruct (gen_copy_tree _ _ _ _ _ _ _ _ _ (zip_loc_way x vc ms L _ Av P Ne) _ (new_loc x) _ _ (z, x) fuel n ct d m b eq_refl La' k Gt La P2 ignore follow P1 P3 Dd Dn P4 Fb) as (D' & [z' x'] & X & [k1 k2] & Y).
  exists z', x'. rewrite zus0 in X. split; [exact X|]. split; [apply k1|].
  split; [|apply k2]. eapply transferred_ext; [|exact Y]. intros q. apply (ld_tree x _ x' k2).
Qed.
Print Assumptions C80_zip_to_local_partial.
(** /dir1 of an archive to memory:///x/y and file:///x/y *)
Example C80_zip_witness : exists u, zip_at zv (P ["dir1"]) u /\ connected open_arch arch /\ proper arch arch_tree /\
  (forall r c, arch_dir r = Some c <-> archived arch arch_tree (P ["dir1"] ++ r) c) /\
  portable arch_dir good_path (P ["x"; "y"]) 5 /\ portable arch_dir plain_path (P ["x"; "y"]) 5 /\
  mem_lands demo (lit "dir1") (P ["x"; "y"]) (P ["x"; "y"]) /\ loc_lands loc1 (lit "dir1") (P ["x"; "y"]) (P ["x"; "y"]) /\
  fst (u_copy zip_mem 5 true [] true u (U ["x"; "y"]) (open_arch, demo)) = Ok tt /\ fst (u_copy zip_file 5 true [] true u (FU ["x"; "y"]) (open_arch, loc1)) = Ok tt.
Proof.
  exists (ZU ["dir1"]). split; [apply ZU_at; good|]. split; [apply arch_connected|]. split; [apply arch_proper|]. split; [apply arch_archived|].
  split; [apply arch_portable; good|]. split; [apply arch_portable; plain|]. split; [apply demo_lands|]. split; [apply loc1_lands|]. split; vm_compute; reflexivity.
Qed.
(** An archive cannot be copied from its root: the files are looked for under names with the first letter cut off. *)
Theorem C80_root_refuted : exists z s, zip_at zv [] (ZU []) /\ connected open_arch arch /\ proper arch arch_tree /\
  u_copy zip_mem 9 true [] true (ZU []) (U ["new"]) (open_arch, demo) = (Raise (OSError ENOENT), (z, s)) /\
  view s (P ["new"; "dir1"; "foo.txt"]) = None.
Proof.
  assert (H : zip_at zv [] (ZU [])) by apply C58_witness.
  destruct (u_copy zip_mem 9 true [] true (ZU []) (U ["new"]) (open_arch, demo)) as [r [z s]] eqn:E. exists z, s.
  split; [exact H|]. split; [apply arch_connected|]. split; [apply arch_proper|].
  vm_compute in E. injection E as <- <- <-. split; vm_compute; reflexivity.
Qed.
Print Assumptions C80_root_refuted.

(** ** C81 *)
(** Partial: as above.  Memory files are moved by FileSystem.move, local files by LocalFileSystem.move. *)
Lemma mem_gone_way s x cs : cs <> [] -> removal mem_loc (mus cs) (K12 (msrc s cs) (ldst x)).
Proof. intros N. apply removal12; [reflexivity|now apply mem_gone]. Qed.
Lemma loc_gone_way s x cs : cs <> [] -> removal mem_loc (lus cs) (K21 (lsrc x cs) (mdst s)).
Proof. intros N. apply removal21; [reflexivity|now apply loc_gone]. Qed.
Theorem C81_mem_to_local_file_partial s x cs n u data mt mo ct v p m fuel :
  reachable s -> silent s -> sound x -> mem_at (cs ++ [n]) u -> file_at ct v -> view s (cs ++ [n]) = Some (EFile data mt mo) ->
  loc_lands x n ct (p ++ [m]) -> plain_path (p ++ [m]) -> loc_fits x p m -> 0 < fuel ->
  exists s' x', fs_move mem_loc fuel u v (s, x) = (Ok tt, (s', x')) /\
    cut_at (view s) (view s') (cs ++ [n]) /\ same_rest s s' /\ only x x' (p ++ [m]) (Some (loc_over x (p ++ [m]) data)).
Proof.
  intros R Q So Hu Hv E La Gd [Dp Nd] Fu. pose proof (mem_at_good _ _ Hu) as G. rewrite (mem_at_eq _ _ Hu), (file_at_eq _ _ Hv). destruct Hv as [Gt _].
  destruct (file_nolink s _ _ _ _ E) as [Nl Bl]. pose proof (snoc_ne cs n) as Ne.
  assert (k : K12 (msrc s (cs ++ [n])) (ldst x) (mem_below s (cs ++ [n])) (loc_tree x) (s, x)).
  { split; [|now apply ldst_start]. apply msrc_start; auto; [now apply reachable_wf|]. intros r Hr. rewrite (Bl r Hr). now rewrite app_nil_r. }
  destruct (gen_move_file _ _ _ _ _ _ _ _ _ (mem_loc_way s x _ Ne) _ (new_loc x) _ _ (s, x) fuel n ct p m data eq_refl (mlast cs n G) k Gt La Gd) as (T' & [s' x'] & X & [k1 k2] & Z); auto.
  { rewrite mT0. unfold mem_content. now rewrite E. }
  { now apply mem_gone_way. }
  exists s', x'. rewrite mus0 in X. split; [exact X|]. split; [now apply (msrc_cut s (cs ++ [n]) T')|]. split; [apply k1|]. now apply only_put.
Qed.
Print Assumptions C81_mem_to_local_file_partial.
Theorem C81_local_to_mem_file_partial s x cs n u data mo mt ct v p m fuel :
  reachable s -> silent s -> sound x -> file_at (cs ++ [n]) u -> mem_at ct v -> pget (cs ++ [n]) (p_tree x) = Some (PFile data mo mt) ->
  mem_lands s n ct (p ++ [m]) -> good_path (p ++ [m]) -> mem_fits s p m -> 0 < fuel ->
  exists s' x', loc_move_to mem_loc fuel u v (s, x) = (Ok tt, (s', x')) /\
    loc_cut x x' (cs ++ [n]) /\ put_at (view s) (view s') (p ++ [m]) (EFile data (m_now s) 0) /\ same_rest s s'.
Proof.
  intros R Q So Hu Hv E La Gd [Dp Nd] Fu. assert (G : plain_path (cs ++ [n])) by apply Hu. pose proof (mem_at_good _ _ Hv) as Gt. rewrite (file_at_eq _ _ Hu), (mem_at_eq _ _ Hv).
  destruct (lfile_nolink x _ _ _ _ So E) as [Nl Bl]. pose proof (snoc_ne cs n) as Ne.
  assert (k : K21 (lsrc x (cs ++ [n])) (mdst s) (loc_below x (cs ++ [n])) (view s) (s, x)).
  { split; [|apply mdst_start; auto; now apply reachable_wf]. apply lsrc_start; auto. intros r Hr. rewrite (Bl r Hr). now rewrite app_nil_r. }
  destruct (gen_move_file _ _ _ _ _ _ _ _ _ (loc_mem_way s x _ Ne) _ (new_mem s) _ _ (s, x) fuel n ct p m data eq_refl (llast cs n G) k Gt La Gd) as (T' & [s' x'] & X & [k1 k2] & Z); auto.
  { rewrite lT0. unfold content. now rewrite E. }
  { now apply loc_gone_way. }
  exists s', x'. rewrite lus0 in X. split; [exact X|]. split; [now apply (lsrc_cut x (cs ++ [n]) T')|]. split; [now apply mem_put_one|apply k2].
Qed.
Print Assumptions C81_local_to_mem_file_partial.
Theorem C81_mem_to_local_partial s x cs n u ct v d m b fuel :
  reachable s -> silent s -> sound x -> mem_at (cs ++ [n]) u -> file_at ct v -> mem_plain s (cs ++ [n]) ->
  portable (mem_below s (cs ++ [n])) plain_path (d ++ m :: b) fuel ->
  loc_lands x n ct (d ++ m :: b) -> loc_dir x d -> loc_tree x (d ++ [m]) = None -> length (m :: b) < fuel ->
  exists s' x', fs_move mem_loc fuel u v (s, x) = (Ok tt, (s', x')) /\
    cut_at (view s) (view s') (cs ++ [n]) /\ same_rest s s' /\
    transferred (loc_tree x) (loc_tree x') (loc_new x) (mem_below s (cs ++ [n])) [] d (m :: b) /\ same_host x x'.
Proof.
  intros R Q So Hu Hv [Nl Bl] [P1 P2 P3 P4] La Dd Dn Fb. pose proof (mem_at_good _ _ Hu) as G. rewrite (mem_at_eq _ _ Hu), (file_at_eq _ _ Hv). destruct Hv as [Gt _].
  pose proof (snoc_ne cs n) as Ne.
  assert (k : K12 (msrc s (cs ++ [n])) (ldst x) (mem_below s (cs ++ [n])) (loc_tree x) (s, x)).
  { split; [|now apply ldst_start]. apply msrc_start; auto. now apply reachable_wf. }
  destruct (gen_move_tree _ _ _ _ _ _ _ _ _ (mem_loc_way s x _ Ne) _ (new_loc x) _ _ (s, x) fuel n ct d m b eq_refl (mlast cs n G) k Gt La P2 (mem_gone_way s x _ Ne) P1 P3 Dd Dn P4 Fb) as (T' & D' & [s' x'] & X & [k1 k2] & Z & Y).
  exists s', x'. rewrite mus0 in X. split; [exact X|]. split; [now apply (msrc_cut s (cs ++ [n]) T')|]. split; [apply k1|].
  split; [|apply k2]. eapply transferred_ext; [|exact Y]. intros q. apply (ld_tree x _ x' k2).
Qed.
Print Assumptions C81_mem_to_local_partial.
Theorem C81_local_to_mem_partial s x cs n u ct v d m b fuel :
  reachable s -> silent s -> sound x -> file_at (cs ++ [n]) u -> mem_at ct v -> loc_plain x (cs ++ [n]) ->
  portable (loc_below x (cs ++ [n])) good_path (d ++ m :: b) fuel ->
  mem_lands s n ct (d ++ m :: b) -> mem_has_dir s d -> view s (d ++ [m]) = None -> length (m :: b) < fuel ->
  exists s' x', loc_move_to mem_loc fuel u v (s, x) = (Ok tt, (s', x')) /\
    loc_cut x x' (cs ++ [n]) /\ transferred (mem_tree s) (mem_tree s') (mem_new s) (loc_below x (cs ++ [n])) [] d (m :: b) /\ same_rest s s'.
Proof.
  intros R Q So Hu Hv [Nl Bl] [P1 P2 P3 P4] La Dd Dn Fb. assert (G : plain_path (cs ++ [n])) by apply Hu. pose proof (mem_at_good _ _ Hv) as Gt. rewrite (file_at_eq _ _ Hu), (mem_at_eq _ _ Hv).
  pose proof (snoc_ne cs n) as Ne.
  assert (k : K21 (lsrc x (cs ++ [n])) (mdst s) (loc_below x (cs ++ [n])) (view s) (s, x)).
  { split; [now apply lsrc_start|apply mdst_start; auto; now apply reachable_wf]. }
  destruct (gen_move_tree _ _ _ _ _ _ _ _ _ (loc_mem_way s x _ Ne) _ (new_mem s) _ _ (s, x) fuel n ct d m b eq_refl (llast cs n G) k Gt La P2 (loc_gone_way s x _ Ne) P1 P3 Dd Dn P4 Fb) as (T' & D' & [s' x'] & X & [k1 k2] & Z & Y).
  exists s', x'. rewrite lus0 in X. split; [exact X|]. split; [now apply (lsrc_cut x (cs ++ [n]) T')|].
  split; [|apply k2]. eapply transferred_ext; [|exact Y]. intros q. apply (md_tree s _ s' k2).
Qed.
Print Assumptions C81_local_to_mem_partial.
(** The hypotheses are those of C79 and C80. *)
Example C81_witness : mem_at (P ["d"]) (U ["d"]) /\ file_at (P ["x"; "y"]) (FU ["x"; "y"]) /\ file_at (P ["a"]) (FU ["a"]) /\ mem_at (P ["x"; "y"]) (U ["x"; "y"]) /\
  (let r := fs_move mem_loc 5 (U ["d"]) (FU ["x"; "y"]) (demo, loc1) in fst r = Ok tt /\ view (fst (snd r)) (P ["d"; "f"]) = None /\ loc_tree (snd (snd r)) (P ["x"; "y"; "f"]) <> None) /\
  (let r := loc_move_to mem_loc 5 (FU ["a"]) (U ["x"; "y"]) (demo, loc1) in fst r = Ok tt /\ loc_tree (snd (snd r)) (P ["a"; "f"]) = None /\ is_efile (view (fst (snd r)) (P ["x"; "y"; "s"; "g"]))).
Proof.
  split; [apply U_at; good|]. split; [apply FU_at; plain|]. split; [apply FU_at; plain|]. split; [apply U_at; good|].
  split; (split; [vm_compute; reflexivity|]; split; [vm_compute; reflexivity|]); [intros X; vm_compute in X; discriminate|file_here].
Qed.
(** Files cannot be moved out of an archive: they are copied, then the move fails. *)
Theorem C81_zip_refuted : exists z s, zip_at zv (P ["foo.txt"]) (ZU ["foo.txt"]) /\ connected open_arch arch /\
  fs_move zip_mem 9 (ZU ["foo.txt"]) (U ["new"]) (open_arch, demo) = (Raise NotImplementedError, (z, s)) /\
  z_disk z = DZip arch /\ is_efile (view s (P ["new"])).
Proof.
  assert (H : zip_at zv (P ["foo.txt"]) (ZU ["foo.txt"])) by (apply ZU_at; good).
  destruct (fs_move zip_mem 9 (ZU ["foo.txt"]) (U ["new"]) (open_arch, demo)) as [r [z s]] eqn:E. exists z, s.
  split; [exact H|]. split; [apply arch_connected|]. vm_compute in E. injection E as <- <- <-. split; [vm_compute; reflexivity|]. split; [vm_compute; reflexivity|file_here].
Qed.
Print Assumptions C81_zip_refuted.

(** ** C82 *)
(** Single files into an archive that has been opened before: the archive has one more member, which is the one found
    under its name from now on.  Partial: ordinary names; the source is no link; the destination is not the root.
    [storable] (PropsZip.v) names can be stored in an archive. *)
Definition zip_lands (ms : list member) (n : str) (ct cd : list str) : Prop :=
  ((exists m, is_member ms m /\ below (abs_path ct) m) /\ cd = ct ++ [n]) \/
  ((forall m, is_member ms m -> ~ below (abs_path ct) m) /\ cd = ct).
Section Into.
Context {S : Type}.
Variables (b : backend S) (rd : uri -> M S (list N)) (wr : uri -> list N -> M S unit) (us : list str -> uri) (K : ftree -> S -> Prop) (T : ftree).
Hypothesis P : source b rd us K.
Local Notation w := (world zip_backend b (fun u => zip_read u (Some (lit "rb"))) (fun u d => zip_write u (lit "wb") d) rd wr (has_scheme "zip")).
Hypothesis Hs : forall r, has_scheme "zip" (us r) = false.
Lemma into_zip z ms vc s n data ct cd v ignore follow fuel : connected z ms -> K T s -> T [] = Some (Some data) -> u_last (us []) = n ->
  zip_at vc ct v -> ct <> [] -> Forall name_ok cd -> zip_lands ms n ct cd -> storable (abs_path cd) -> good_path cd ->
  exists z' s', u_copy w fuel false ignore follow (us []) v (z, s) = (Ok tt, (z', s')) /\ K T s' /\
    z_disk z' = DZip (ms ++ [(abs_path cd, data)]) /\ connected z' (ms ++ [(abs_path cd, data)]).
Proof.
  intros Hc k Tr Hn Hv Nct Nd La [St1 St2] Gd. pose proof (zip_at_good _ _ _ Hv) as Gt. rewrite (zip_at_eq _ _ _ Hv). destruct Hv as (Av & _).
  assert (Tne : T [] <> None) by congruence.
  assert (Hook : forall n, b_hook w (us []) n (z, s) = (Ok tt, (z, s))).
  { intros m. cbn [world b_hook]. unfold both. rewrite Hs. apply on2_ok. now apply (s_hook _ _ _ _ P T). }
  unfold u_copy, hooked. erewrite bind_ok by apply Hook. unfold fs_copy.
  assert (Es : opt_eqb (u_scheme (us [])) (u_scheme (zip_uri vc ct)) = false) by (specialize (Hs []); exact Hs). rewrite Es.
  unfold u_exists, hooked. erewrite bind_ok.
  2:{ erewrite bind_ok by apply Hook. cbn [world b_exists]. unfold both. rewrite Hs. apply on2_ok. now apply (s_exists _ _ _ _ P T). }
  cbn [negb]. unfold u_isfile at 1, hooked. erewrite bind_ok.
  2:{ erewrite bind_ok by apply Hook. cbn [world b_isfile]. unfold both. rewrite Hs. apply on2_ok. now apply (s_isfile _ _ _ _ P T s [] data). }
  cbn [negb]. destruct (connected_handle z ms Hc) as (h & Eh & Em). pose proof Hc as (Rz & _ & Ed).
  destruct (isdir_run z h Eh (zip_uri vc ct)) as (bd & Rd & Xd). rewrite Em, zip_path in Xd by auto.
  assert (Nr : abs_path ct <> root).
  { destruct ct as [|c l]; [easy|]. intros X. cbn in X. injection X as X. apply app_eq_nil in X as [-> _]. destruct Gt as [Gt _]. inversion Gt as [|? ? Gc _]; subst. now apply name_ne in Gc. }
  unfold u_isdir, hooked. erewrite bind_ok with (a := bd).
  2:{ cbn [world b_hook b_isdir]. unfold both. change (has_scheme "zip" (zip_uri vc ct)) with true. cbv iota. cbn [zip_backend b_hook]. erewrite bind_ok by reflexivity. apply on1_ok. exact Rd. }
  erewrite bind_ok with (a := zip_uri vc cd).
  2:{ destruct La as [[La ->]|[La ->]].
      - assert (bd = true) as -> by (apply Xd; now right). apply lift_ok. rewrite Hn. apply zip_div; auto.
      - assert (bd = false) as ->; [|reflexivity]. destruct bd; auto. exfalso. destruct Xd as [Xd _]. destruct (Xd eq_refl) as [X|(m & X & Y)]; [auto|]. now apply (La m). }
  unfold copy_entry, u_islink, hooked. erewrite bind_ok.
  2:{ erewrite bind_ok by apply Hook. cbn [world b_islink]. unfold both. rewrite Hs. apply on2_ok. now apply (s_islink _ _ _ _ P T). }
  cbn [andb]. destruct (s_read _ _ _ _ P T s [] data k Tr) as (s1 & R1 & k1).
  assert (Kz : knows z) by now apply reachable_knows.
  assert (Rw : zip_write (zip_uri vc cd) (lit "wb") data z = (Ok tt, fresh_h (ms ++ [(abs_path cd, data)]))).
  { rewrite (write_run z (zip_uri vc cd) (lit "wb") data Kz); rewrite ?zip_path by auto; auto. unfold base. now rewrite Ed. }
  exists (fresh_h (ms ++ [(abs_path cd, data)])), s1. split; [|split; [exact k1|split; [reflexivity|]]].
  - erewrite bind_ok; [reflexivity|]. cbn [world b_copy_content]. unfold world_content. rewrite Hs. change (has_scheme "zip" (zip_uri vc cd)) with true. cbv iota.
    erewrite bind_ok by (apply on2_ok; exact R1). apply on1_ok. exact Rw.
  - split; [|split; [discriminate|reflexivity]]. destruct Rz as (d0 & l & ->). exists d0, (l ++ [ZOpen (zip_uri vc cd) (Some (lit "wb")); ZExit (abs_path cd) data]).
    unfold zruns. rewrite fold_left_app. cbn [fold_left zrun]. fold (zruns l (zip_init d0)).
    unfold zip_write in Rw. unfold bind in Rw. unfold zip_open, bind in *. destruct (open_zip (Some (lit "wb")) (zruns l (zip_init d0))) as [[[]|e] s2] eqn:Eo; [|discriminate].
    cbn [snd]. change (has_char 114 (lit "wb")) with false in *. cbv iota in *. unfold ret in Rw. rewrite zip_path in Rw by auto. cbn [ret snd]. now rewrite Rw.
Qed.
End Into.
Theorem C82_mem_to_zip_partial z ms vc s cs n u data mt mo ct cd v ignore follow fuel :
  connected z ms -> reachable s -> silent s -> mem_at (cs ++ [n]) u -> zip_at vc ct v -> ct <> [] -> view s (cs ++ [n]) = Some (EFile data mt mo) ->
  zip_lands ms n ct cd -> good_path cd -> storable (abs_path cd) ->
  exists z' s', u_copy zip_mem fuel false ignore follow u v (z, s) = (Ok tt, (z', s')) /\
    same_tree (view s) (view s') /\ same_rest s s' /\ connected z' (ms ++ [(abs_path cd, data)]).
Proof.
  intros Hc R Q Hu Hv Nct E La Gd St. pose proof (mem_at_good _ _ Hu) as G. rewrite (mem_at_eq _ _ Hu). pose proof (snoc_ne cs n) as Ne. destruct (file_nolink s _ _ _ _ E) as [Nl Bl].
  destruct (into_zip mem_backend mem_fetch mem_put (mus (cs ++ [n])) (msrc s (cs ++ [n])) (mem_below s (cs ++ [n])) (mem_source s _ Ne)) with
    (z := z) (ms := ms) (vc := vc) (s := s) (n := n) (data := data) (ct := ct) (cd := cd) (v := v) (ignore := ignore) (follow := follow) (fuel := fuel) as (z' & s' & X & k & _ & Y); auto.
  { apply msrc_start; auto; [now apply reachable_wf|]. intros r Hr. rewrite (Bl r Hr). now rewrite app_nil_r. }
  { rewrite mT0. unfold mem_content. now rewrite E. }
  { now apply mlast. }
  { apply Gd. }
  exists z', s'. rewrite mus0 in X. split; [exact X|]. split; [now apply (msrc_same s (cs ++ [n]))|]. split; [apply k|exact Y].
Qed.
Print Assumptions C82_mem_to_zip_partial.
Theorem C82_local_to_zip_partial z ms vc x cs n u data mo mt ct cd v ignore follow fuel :
  connected z ms -> sound x -> file_at (cs ++ [n]) u -> zip_at vc ct v -> ct <> [] -> pget (cs ++ [n]) (p_tree x) = Some (PFile data mo mt) ->
  zip_lands ms n ct cd -> good_path cd -> storable (abs_path cd) ->
  exists z' x', u_copy zip_file fuel false ignore follow u v (z, x) = (Ok tt, (z', x')) /\
    loc_same x x' /\ connected z' (ms ++ [(abs_path cd, data)]).
Proof.
  intros Hc So Hu Hv Nct E La Gd St. assert (G : plain_path (cs ++ [n])) by apply Hu. rewrite (file_at_eq _ _ Hu). pose proof (snoc_ne cs n) as Ne. destruct (lfile_nolink x _ _ _ _ So E) as [Nl Bl].
  destruct (into_zip loc_backend loc_read_all (fun u d => loc_write_all u [d]) (lus (cs ++ [n])) (lsrc x (cs ++ [n])) (loc_below x (cs ++ [n])) (loc_source x _ Ne)) with
    (z := z) (ms := ms) (vc := vc) (s := x) (n := n) (data := data) (ct := ct) (cd := cd) (v := v) (ignore := ignore) (follow := follow) (fuel := fuel) as (z' & x' & X & k & _ & Y); auto.
  { apply lsrc_start; auto. intros r Hr. rewrite (Bl r Hr). now rewrite app_nil_r. }
  { rewrite lT0. unfold content. now rewrite E. }
  { now apply llast. }
  { apply Gd. }
  exists z', x'. rewrite lus0 in X. split; [exact X|]. split; [now apply (lsrc_same x (cs ++ [n]))|exact Y].
Qed.
Print Assumptions C82_local_to_zip_partial.
(** memory:///d/f into /dir1, file:///a/f to /new *)
Example C82_witness : connected open_arch arch /\ zip_at zv (P ["new"]) (ZU ["new"]) /\ zip_at zv (P ["dir1"]) (ZU ["dir1"]) /\
  zip_lands arch (lit "f") (P ["new"]) (P ["new"]) /\ zip_lands arch (lit "f") (P ["dir1"]) (P ["dir1"; "f"]) /\ good_path (P ["dir1"; "f"]) /\ storable (abs_path (P ["dir1"; "f"])) /\
  (let r := u_copy zip_mem 9 false [] true (U ["d"; "f"]) (ZU ["dir1"]) (open_arch, demo) in fst r = Ok tt /\ exists d, d <> [] /\ z_disk (fst (snd r)) = DZip (arch ++ [(lit "/dir1/f", d)])) /\
  (let r := u_copy zip_file 9 false [] true (FU ["a"; "f"]) (ZU ["new"]) (open_arch, loc1) in fst r = Ok tt /\ z_disk (fst (snd r)) = DZip (arch ++ [(lit "/new", lit "hello")])).
Proof.
  split; [apply arch_connected|]. split; [apply ZU_at; good|]. split; [apply ZU_at; good|].
  split; [right; split; [|reflexivity]; intros m H B; cbn in H; repeat destruct H as [<-|H]; try contradiction; destruct B as (y & B); vm_compute in B; discriminate|].
  split; [left; split; [|reflexivity]; exists (lit "/dir1/foo.txt"); split; [cbn; auto|]; exists (lit "foo.txt"); reflexivity|]. split; [good|].
  split; [split; [cbn; intuition discriminate|reflexivity]|].
  split; [split; [vm_compute; reflexivity|]; eexists; split; [|vm_compute; reflexivity]; discriminate|]. split; vm_compute; reflexivity.
Qed.
(** A connection that has not been used yet; a directory *)
Theorem C82_fresh_refuted : zip_at zv (P ["new"]) (ZU ["new"]) /\ fst (u_copy zip_mem 9 false [] true (U ["d"; "f"]) (ZU ["new"]) (zip_init (DZip arch), demo)) = Raise AttributeError /\
  fst (u_copy zip_mem 9 false [] true (U ["d"; "f"]) (ZU ["new"]) (zip_init DNone, demo)) = Raise AttributeError.
Proof. split; [apply ZU_at; good|]. split; vm_compute; reflexivity. Qed.
Print Assumptions C82_fresh_refuted.
Theorem C82_tree_refuted : zip_at zv (P ["new"]) (ZU ["new"]) /\ connected open_arch arch /\ is_edir (view demo (P ["d"])) /\
  let r := u_copy zip_mem 9 true [] true (U ["d"]) (ZU ["new"]) (open_arch, demo) in fst r = Raise NotImplementedError /\ z_disk (fst (snd r)) = DZip arch.
Proof. split; [apply ZU_at; good|]. split; [apply arch_connected|]. split; [dir_here|]. split; vm_compute; reflexivity. Qed.
Print Assumptions C82_tree_refuted.
