(** Properties C55-C58: the zip backend. *)
From Coq Require Import Lia Sorted Permutation.
From Verif Require Import Str Exc Utf8 UriParse BaseUri StrFacts SpecUri UriFacts2 UriFacts3 UriFacts5 SpecMem Mem MemUri Generic GenFacts1 GenFacts8.
From Verif Require Import Zip SpecZip ZipFacts ZipFacts2 PropsMem.

Lemma connected_handle s ms : connected s ms -> exists h, z_handle s = Some h /\ zh_members h = ms.
Proof.
  intros (R & H & D). apply reachable_knows in R. unfold knows in R. destruct (z_handle s) as [h|] eqn:E; [|easy]. exists h. split; [reflexivity|].
  destruct R as [R|[R _]]; congruence.
Qed.

(** ** C55 *)
(** For every archive, whatever its names; also while members are being written. *)
Theorem C55_isfile_partial s ms u : connected s ms -> u_path u <> root ->
  exists b, zip_isfile u s = (Ok b, s) /\ (b = true <-> is_member ms (u_path u)).
Proof. intros C N. destruct (connected_handle s ms C) as (h & H & <-). now apply isfile_run. Qed.
Print Assumptions C55_isfile_partial.
Theorem C55_isdir_partial s ms u : connected s ms ->
  exists b, zip_isdir u s = (Ok b, s) /\ (b = true <-> u_path u = root \/ exists m, is_member ms m /\ below (u_path u) m).
Proof. intros C. destruct (connected_handle s ms C) as (h & H & <-). now apply isdir_run. Qed.
Print Assumptions C55_isdir_partial.
Theorem C55_exists_partial s ms u : connected s ms ->
  exists b d f, zip_exists u s = (Ok b, s) /\ zip_isdir u s = (Ok d, s) /\ zip_isfile u s = (Ok f, s) /\ b = d || f.
Proof.
  intros C. destruct (connected_handle s ms C) as (h & H & E). destruct (exists_run s h H u) as (b & Eb & Hb).
  destruct (isdir_run s h H u) as (d & Ed & Hd).
  destruct (str_eqb (u_path u) root) eqn:R.
  - apply root_eqb in R. exists true, true, true. unfold zip_exists, zip_isdir, zip_isfile, zip_ispart. fold root. rewrite R. repeat split.
  - assert (N : u_path u <> root) by (intros X; apply root_eqb in X; congruence).
    destruct (isfile_run s h H u N) as (f & Ef & Hf). exists b, d, f. repeat split; auto. apply eq_true_iff_eq. rewrite orb_true_iff, Hb, Hd, Hf. tauto.
Qed.
Print Assumptions C55_exists_partial.
(** The listing, for every URI.  [sub] is the path of an entry. *)
Theorem C55_listdir s ms u : zreachable s -> z_disk s = DZip ms -> all_absolute ms ->
  u_path u = root \/ (exists m, is_member ms m /\ below (u_path u) m) ->
  exists l s', zip_listdir u s = (Ok l, s') /\ connected s' ms /\ StronglySorted slt l /\
    forall x, In x l <-> x <> [] /\ ~ In cSlash x /\ exists m, is_member ms m /\ (m = sub (u_path u) x \/ below (sub (u_path u) x) m).
Proof.
  intros R D A X. destruct (z_handle s) as [h|] eqn:H.
  - assert (C : connected s ms) by (repeat split; auto; congruence). destruct (connected_handle s ms C) as (h' & H' & E). rewrite H in H'. injection H' as <-.
    subst ms. destruct (listdir_run s h H u) as (l & El & S & I); auto; [congruence|]. exists l, s. auto.
  - destruct (listdir_run (fresh_h ms) _ eq_refl u) as (l & El & S & I); auto; [discriminate|]. exists l, (fresh_h ms).
    assert (E : zip_listdir u s = (Ok l, fresh_h ms)).
    { rewrite <- El. unfold zip_listdir at 1. rewrite D, H. unfold bind at 1. unfold open_zip, bind at 1, close_zip. rewrite H. unfold zipfile_r. rewrite D. reflexivity. }
    split; [exact E|]. split; [|auto]. destruct R as (d & o & ->). repeat split; [|discriminate].
    exists d, (o ++ [ZListdir u]). unfold zruns. rewrite fold_left_app. cbn [fold_left zrun]. unfold zruns in E. now rewrite E.
Qed.
Print Assumptions C55_listdir.
(** Hence, for ordinary URIs: listed exactly when it exists. *)
Theorem C55_listed_exists s ms v cs d : connected s ms -> all_absolute ms -> zip_at v cs d -> fst (zip_isdir d s) = Ok true ->
  exists l, zip_listdir d s = (Ok l, s) /\ StronglySorted slt l /\
    forall n e, zip_at v (cs ++ [n]) e -> u_div d n = Ok e /\ (In n l <-> fst (zip_exists e s) = Ok true).
Proof.
  intros C A Z Di. pose proof C as (R & Hn & D). destruct (connected_handle s ms C) as (h & H & E).
  destruct (isdir_run s h H d) as (b & Eb & Hb). rewrite Eb in Di. injection Di as ->. rewrite E in Hb.
  destruct (listdir_run s h H d) as (l & El & S & I); [congruence|now rewrite E|rewrite E; now apply Hb|].
  exists l. split; [exact El|]. split; [exact S|]. intros n e Ze. rewrite (zip_at_eq _ _ _ Z), (zip_at_eq _ _ _ Ze) in *.
  pose proof (zip_at_good _ _ _ Z) as G. pose proof (zip_at_good _ _ _ Ze) as Ge. split; [apply zip_div; [apply Z|apply Ge]|].
  destruct (exists_run s h H (zip_uri v (cs ++ [n]))) as (x & Ex & Hx). rewrite Ex. rewrite I, E in *. rewrite zip_path in * by auto. rewrite abs_sub by apply G.
  pose proof (good_name cs n [] Ge) as Nn. cbn [fst]. split.
  - intros (_ & _ & m & Hm & X). f_equal. apply Hx. right. destruct X as [->|X]; eauto.
  - intros X. injection X as ->. split; [apply (name_ne _ Nn)|]. split; [now apply UriFacts4.name_no_slash|].
    destruct (proj1 Hx eq_refl) as [X|[X|(m & Hm & X)]].
    + exfalso. rewrite <- abs_sub in X by apply G. unfold sub in X. destruct (str_eqb (abs_path cs) root).
      * injection X as X. now apply (name_ne _ Nn).
      * destruct (abs_path cs) as [|y ys] eqn:Ya; [now destruct cs|]. cbn in X. injection X as _ X. now destruct ys.
    + eexists. split; [exact X|now left].
    + eexists. split; [exact Hm|now right].
Qed.
Print Assumptions C55_listed_exists.
(** What is no directory cannot be listed. *)
Theorem C55_listdir_fails s ms u : connected s ms -> u_path u <> root -> (forall m, is_member ms m -> ~ below (u_path u) m) ->
  zip_listdir u s = (Raise FileDoesNotExistError, s).
Proof.
  intros C N F. pose proof C as (_ & _ & D). destruct (connected_handle s ms C) as (h & H & E). subst ms. apply listdir_fails with (h := h); auto. congruence.
Qed.
Print Assumptions C55_listdir_fails.

(** *** Examples *)
Definition zv : str := lit "memory:///file.zip".
Definition ZU (l : list String.string) : uri := zip_uri zv (P l).
Lemma zv_ok : auth_ok (Connector zv).
Proof.
  constructor; [discriminate|intros c Hc; cbn in Hc; intuition (subst; cbn in *; intuition discriminate)|].
  intros x y. now apply not_contains.
Qed.
Definition arch : list member :=
  [(lit "/foo.txt", lit "bar"); (lit "/dir1/foo.txt", lit "1"); (lit "/dir1/bar.txt", lit "2"); (lit "/dir2/sub/x", [])].
Definition open_arch : zst := zruns [ZListdir (ZU [])] (zip_init (DZip arch)).
Lemma arch_connected : connected open_arch arch.
Proof. split; [eexists _, _; reflexivity|]. split; [discriminate|reflexivity]. Qed.
Lemma arch_absolute : all_absolute arch.
Proof. intros m H. cbn in H. repeat destruct H as [<-|H]; [..|destruct H]; now eexists. Qed.
Lemma ZU_at l : good_path (P l) -> zip_at zv (P l) (ZU l).
Proof. intros G. apply zip_at_uri; [apply zv_ok|exact G]. Qed.
Example C55_witness : connected open_arch arch /\ all_absolute arch /\ zip_at zv (P ["dir1"]%string) (ZU ["dir1"]%string) /\
  zip_at zv (P ["dir1"; "foo.txt"]%string) (ZU ["dir1"; "foo.txt"]%string) /\ fst (zip_isdir (ZU ["dir1"]%string) open_arch) = Ok true /\
  zip_listdir (ZU ["dir1"]%string) open_arch = (Ok [lit "bar.txt"; lit "foo.txt"], open_arch) /\
  zip_listdir (ZU []%string) open_arch = (Ok [lit "dir1"; lit "dir2"; lit "foo.txt"], open_arch) /\
  fst (zip_isfile (ZU ["foo.txt"]%string) open_arch) = Ok true /\ fst (zip_isfile (ZU ["dir2"]%string) open_arch) = Ok false.
Proof.
  split; [apply arch_connected|]. split; [apply arch_absolute|]. split; [apply ZU_at; good|]. split; [apply ZU_at; good|].
  repeat split; vm_compute; reflexivity.
Qed.
(** Before anything has been opened or listed the tests fail. *)
Theorem C55_refuted ms u : u_path u <> root -> let s := zip_init (DZip ms) in
  zip_exists u s = (Raise AttributeError, s) /\ zip_isdir u s = (Raise AttributeError, s) /\ zip_isfile u s = (Raise AttributeError, s).
Proof.
  intros N s. unfold zip_exists, zip_isdir, zip_isfile, zip_ispart. fold root.
  destruct (str_eqb (u_path u) root) eqn:E; [now apply root_eqb in E|]. repeat split.
Qed.
Print Assumptions C55_refuted.
(** The root of every archive is a file as well. *)
Theorem C55_root_refuted s u : u_path u = root -> zip_isfile u s = (Ok true, s).
Proof. intros E. unfold zip_isfile, zip_ispart. now rewrite E. Qed.
Print Assumptions C55_root_refuted.
(** With a slash at the end a directory is none; an entry of the root starting with a dot is listed, but does not exist. *)
Theorem C55_slash_refuted : exists u e, URI (lit "zip://((memory:///file.zip))/dir1/") cSlash [] = Ok u /\ fst (zip_isdir u open_arch) = Ok false /\
  let s := zruns [ZListdir (ZU [])] (zip_init (DZip [(lit "/.x", [])])) in
  fst (zip_listdir (ZU []) s) = Ok [lit ".x"] /\ u_div (ZU []) (lit ".x") = Ok e /\ fst (zip_exists e s) = Ok false.
Proof.
  destruct (URI (lit "zip://((memory:///file.zip))/dir1/") cSlash []) as [u|] eqn:E; [|vm_compute in E; discriminate].
  destruct (u_div (ZU []) (lit ".x")) as [e|] eqn:Ee; [|vm_compute in Ee; discriminate].
  exists u, e. split; [reflexivity|]. vm_compute in E. injection E as <-. vm_compute in Ee. injection Ee as <-.
  repeat split; vm_compute; reflexivity.
Qed.
Print Assumptions C55_slash_refuted.

(** ** C56 *)
(** Names the format can hold: no NUL, no surrogates. *)
Definition storable (p : str) : Prop := ~ In 0%N p /\ text_ok p.
Definition write_mode (o : str) : Prop := has_char 114 o = false /\ has_char 119 o = true.
(** The members of the archive; none while there is no archive. *)
Definition members_of (s : zst) : list member := match z_disk s with DZip ms => ms | _ => [] end.
(** Any state, also with other members being written at the time. *)
Theorem C56_write_read_partial s u o d : zreachable s -> write_mode o -> storable (u_path u) ->
  exists s', zip_write u o d s = (Ok tt, s') /\ zreachable s' /\
    z_disk s' = DZip (members_of s ++ [(u_path u, d)]) /\
    (forall r, read_mode r -> fst (zip_read u r s') = Ok d) /\
    (forall p x, p <> u_path u -> (stored (members_of s') p x <-> stored (members_of s) p x)) /\
    (z_disk s = DNone -> z_disk s' = DZip [(u_path u, d)]).
Proof.
  intros R [M1 M2] [N S]. pose proof (reachable_knows s R) as K. eexists. split; [apply write_run; auto|]. change (base s) with (members_of s).
  assert (R' : zreachable (fresh_h (members_of s ++ [(u_path u, d)]))).
  { destruct R as (d0 & l & ->). exists d0, (l ++ [ZOpen u (Some o); ZExit (u_path u) d]). unfold zruns. rewrite fold_left_app. cbn [fold_left zrun].
    fold (zruns l (zip_init d0)). destruct (open_w _ o K M1 M2) as (dd & dirty & E & _). unfold zip_open, bind. rewrite E, M1. cbn [ret snd].
    now rewrite exit_run. }
  split; [exact R'|]. split; [reflexivity|]. split; [|split].
  - intros r Hr. rewrite (read_run _ u r _ (reachable_knows _ R') Hr eq_refl). cbn [fst].
    rewrite (proj2 (lookup_stored _ (u_path u) d)); [reflexivity|]. exists (members_of s), []. auto.
  - intros p x Np. unfold members_of at 1. cbn [fresh_h z_disk]. split.
    + intros (l1 & l2 & E & X). destruct l2 as [|y l2 _] using rev_ind.
      * apply app_inj_tail in E as [_ E]. injection E as E _. now destruct Np.
      * rewrite app_comm_cons, app_assoc in E. apply app_inj_tail in E as [E _]. exists l1, l2. split; [exact E|]. intros Y. apply X. rewrite map_app. apply in_or_app. now left.
    + intros (l1 & l2 & E & X). exists l1, (l2 ++ [(u_path u, d)]). split; [rewrite E, <- app_assoc; reflexivity|]. rewrite map_app, in_app_iff. cbn. intros [Y|[Y|[]]]; [contradiction|congruence].
  - intros E. unfold members_of. now rewrite E.
Qed.
Print Assumptions C56_write_read_partial.
(** Any sequence of completed writes: reading gives what was written last under the name, or what was there before. *)
Definition write_all (ws : list (uri * str * list N)) : M zst unit := mapM_ (fun w => zip_write (fst (fst w)) (snd (fst w)) (snd w)) ws.
Theorem C56_sequence_partial ws s : zreachable s -> Forall (fun w => write_mode (snd (fst w)) /\ storable (u_path (fst (fst w)))) ws -> ws <> [] ->
  exists s', write_all ws s = (Ok tt, s') /\ zreachable s' /\
    let now := members_of s ++ map (fun w => (u_path (fst (fst w)), snd w)) ws in
    z_disk s' = DZip now /\
    forall u r, read_mode r ->
      (forall d, stored now (u_path u) d -> fst (zip_read u r s') = Ok d) /\
      (~ is_member now (u_path u) -> fst (zip_read u r s') = Raise FileDoesNotExistError).
Proof.
  intros R F N. assert (exists s', write_all ws s = (Ok tt, s') /\ zreachable s' /\
    z_disk s' = DZip (members_of s ++ map (fun w => (u_path (fst (fst w)), snd w)) ws)) as (s' & E & R' & D).
  { revert s R. induction F as [|[[u o] d] ws [M S] F IH]; intros s R; [easy|].
    destruct (C56_write_read_partial s u o d R M S) as (s1 & E1 & R1 & D1 & _). cbn [write_all mapM_ map fst snd] in *.
    destruct ws as [|w ws].
    - exists s1. unfold write_all. cbn [mapM_ fst snd]. unfold bind. rewrite E1. auto.
    - destruct (IH ltac:(discriminate) s1 R1) as (s2 & E2 & R2 & D2). exists s2. split; [|split; [exact R2|]].
      + unfold write_all in *. cbn [mapM_ fst snd] in *. unfold bind at 1. rewrite E1. exact E2.
      + rewrite D2. unfold members_of at 1. rewrite D1. now rewrite <- app_assoc. }
  exists s'. split; [exact E|]. split; [exact R'|]. cbv zeta. split; [exact D|]. intros u r Hr.
  rewrite (read_run s' u r _ (reachable_knows _ R') Hr D). cbn [fst]. split.
  - intros d Hd. now rewrite (proj2 (lookup_stored _ _ d) Hd).
  - intros Hm. destruct (lookup_last _ _) as [x|] eqn:L; [|reflexivity]. exfalso. apply lookup_stored in L as (l1 & l2 & L & _). apply Hm. unfold is_member.
    rewrite L, map_app. apply in_or_app. right. now left.
Qed.
Print Assumptions C56_sequence_partial.
Example C56_witness : zreachable (zip_init DNone) /\ write_mode (lit "wb") /\ storable (u_path (ZU ["a"]%string)) /\
  (let ws := [(ZU ["a"], lit "wb", lit "1"); (ZU ["d"; "b"], lit "w", lit "2"); (ZU ["a"], lit "wb", lit "3")]%string in
   let s := snd (write_all ws (zip_init DNone)) in
   fst (zip_read (ZU ["a"]%string) None s) = Ok (lit "3") /\ fst (zip_read (ZU ["d"; "b"]%string) (Some (lit "rb")) s) = Ok (lit "2")).
Proof.
  split; [exists DNone, []; reflexivity|]. split; [split; reflexivity|]. split; [split; [cbn; intuition discriminate|reflexivity]|]. split; vm_compute; reflexivity.
Qed.
(** A name with a NUL is cut: the data go to another member, possibly replacing it. *)
Theorem C56_refuted : exists u v, URI (lit "zip://((memory:///file.zip))/a" ++ [0%N] ++ lit "b") cSlash [] = Ok u /\ v = ZU ["a"]%string /\
  let s := snd (zip_write v (lit "wb") (lit "1") (zip_init DNone)) in
  let s' := snd (zip_write u (lit "wb") (lit "2") s) in
  fst (zip_write u (lit "wb") (lit "2") s) = Ok tt /\
  fst (zip_read u None s') = Raise FileDoesNotExistError /\ fst (zip_read v None s) = Ok (lit "1") /\ fst (zip_read v None s') = Ok (lit "2").
Proof.
  destruct (URI (lit "zip://((memory:///file.zip))/a" ++ [0%N] ++ lit "b") cSlash []) as [u|] eqn:E; [|vm_compute in E; discriminate].
  exists u, (ZU ["a"]%string). split; [reflexivity|]. split; [reflexivity|]. vm_compute in E. injection E as <-. repeat split; vm_compute; reflexivity.
Qed.
Print Assumptions C56_refuted.
(** Two writers at the same time: in every state the one that ends second loses its data. *)
Theorem C56_two_writers_refuted s u1 u2 o1 o2 d1 d2 : zreachable s -> write_mode o1 -> write_mode o2 -> storable (u_path u1) -> storable (u_path u2) ->
  let s1 := snd (zip_open u1 (Some o1) s) in
  let s2 := snd (zip_open u2 (Some o2) s1) in
  let s3 := snd (zip_exit (u_path u2) d2 s2) in
  fst (zip_exit (u_path u2) d2 s2) = Ok tt /\
  zip_exit (u_path u1) d1 s3 = (Raise ValueError, s3) /\ z_disk s3 = DZip (members_of s ++ [(u_path u2, d2)]).
Proof.
  intros R [A1 A2] [B1 B2] [S1 S2] [T1 T2] s1 s2 s3. pose proof (reachable_knows s R) as K.
  destruct (open_w s o1 K A1 A2) as (x & dx & E1 & X). assert (Es1 : s1 = mkZ x (Some (mkZH true (base s) dx true))).
  { unfold s1, zip_open, bind. rewrite E1, A1. reflexivity. }
  assert (K1 : knows s1). { pose proof (knows_run (ZOpen u1 (Some o1)) s K) as Y. exact Y. }
  assert (B : base s1 = base s). { rewrite Es1. unfold base at 1. cbn [z_disk]. destruct X as [->|[-> X]]; [reflexivity|now rewrite X]. }
  destruct (open_w s1 o2 K1 B1 B2) as (y & dy & E2 & _). assert (Es2 : s2 = mkZ y (Some (mkZH true (base s) dy true))).
  { unfold s2, zip_open, bind. rewrite E2, B1, B. reflexivity. }
  assert (Es3 : zip_exit (u_path u2) d2 s2 = (Ok tt, fresh_h (base s ++ [(u_path u2, d2)]))).
  { rewrite Es2. now apply exit_run. }
  unfold s3. rewrite Es3. repeat split.
Qed.
Print Assumptions C56_two_writers_refuted.
(** The data are stored also when the body of the with-statement has raised; and open('a') raises UnboundLocalError,
    leaving an unreadable file where there was none. *)
Theorem C56_append_refuted u : zip_open u (Some (lit "a")) (zip_init DNone) = (Raise UnboundLocalError, zip_init DJunk) /\
  fst (zip_open u (Some (lit "r")) (zip_init DJunk)) = Raise BadZipFile.
Proof. split; reflexivity. Qed.
Print Assumptions C56_append_refuted.

(** ** C57 *)
(** For every archive of files at the top level, stored as usual, the listing is empty... *)
Theorem C57_refuted ms u : u_path u = root -> (forall m, is_member ms m -> ~ In cSlash m) ->
  fst (zip_listdir u (zip_init (DZip ms))) = Ok [].
Proof.
  intros E F. unfold zip_listdir. cbn [zip_init z_disk z_handle]. unfold bind at 1. unfold open_zip, bind at 1, close_zip, zipfile_r. cbn [zip_init z_disk z_handle].
  unfold bind, zip_isdir, zip_ispart. rewrite E. change (str_eqb root [cSlash]) with true. cbn [negb z_handle zh_members fst].
  assert (X : filter (fun x => negb (str_eqb x [])) (map (content_item root) (m_names ms)) = []); [|now rewrite X].
  unfold is_member in F. unfold m_names. induction (map fst ms) as [|m l IH]; [reflexivity|]. cbn [map filter].
  assert (C : content_item root m = []). { unfold content_item. rewrite (split_on_none cSlash m) by (apply F; now left). reflexivity. }
  rewrite C. cbn [str_eqb negb]. apply IH. intros y Hy. apply F. now right.
Qed.
Print Assumptions C57_refuted.
(** ...and nothing stored without a leading slash can be reached with an absolute path. *)
Theorem C57_unreachable_refuted s ms u r : zreachable s -> z_disk s = DZip ms -> (forall m, is_member ms m -> ~ absolute m) ->
  absolute (u_path u) -> u_path u <> root -> read_mode r ->
  fst (zip_read u r s) = Raise FileDoesNotExistError /\
  (connected s ms -> fst (zip_exists u s) = Ok false /\ fst (zip_isdir u s) = Ok false /\ fst (zip_isfile u s) = Ok false).
Proof.
  intros R D F A N Hr. assert (Nm : ~ is_member ms (u_path u)) by (intros X; now apply F in X). split.
  - rewrite (read_run s u r ms (reachable_knows s R) Hr D). cbn [fst]. destruct (lookup_last _ _) eqn:L; [|reflexivity].
    exfalso. apply lookup_stored in L as (l1 & l2 & L & _). apply Nm. unfold is_member. rewrite L, map_app. apply in_or_app. right. now left.
  - intros C. destruct (connected_handle s ms C) as (h & H & E). destruct (exists_run s h H u) as (b & -> & Hb). destruct (isdir_run s h H u) as (d & -> & Hd).
    destruct (isfile_run s h H u N) as (f & -> & Hf). rewrite E in *. cbn [fst].
    assert (Nb : ~ exists m, is_member ms m /\ below (u_path u) m). { intros (m & Hm & (x & ->)). apply (F _ Hm). destruct A as [y ->]. now eexists. }
    repeat split; f_equal; [destruct b|destruct d|destruct f]; try reflexivity; exfalso.
    + destruct (proj1 Hb eq_refl) as [X|[X|X]]; auto.
    + destruct (proj1 Hd eq_refl) as [X|X]; auto.
    + apply Nm, Hf. reflexivity.
Qed.
Print Assumptions C57_unreachable_refuted.
(** With directories, the names of the second level appear at the top. *)
Theorem C57_levels_refuted : fst (zip_listdir (ZU []) (zip_init (DZip [(lit "dir/file", []); (lit "top", [])]))) = Ok [lit "file"].
Proof. vm_compute. reflexivity. Qed.
Print Assumptions C57_levels_refuted.

(** ** C58 *)
Lemma NoDup_map_in {A B} (f : A -> B) l : NoDup l -> (forall x y, In x l -> In y l -> f x = f y -> x = y) -> NoDup (map f l).
Proof.
  induction l as [|x l IH]; intros N H; [constructor|]. inversion N; subst. cbn. constructor.
  - intros X. apply in_map_iff in X as (y & E & Hy). rewrite (H y x) in Hy; auto; [now right|now left].
  - apply IH; auto. intros a b Ha Hb. apply H; now right.
Qed.
(** From any directory and any state of the connection: no file is shown twice; shown are exactly the members below the
    directory; every directory is visited once; each visit shows the entries of its directory, sorted. *)
Theorem C58_walk_partial s ms T v cs c td fl fuel : zreachable s -> z_disk s = DZip ms -> proper ms T -> zip_at v cs c ->
  cs = [] \/ (exists m, is_member ms m /\ below (abs_path cs) m) ->
  (forall t, In t T -> length t <= fuel) -> 1 <= fuel ->
  exists w s', u_walk zip_backend fuel td fl c s = (Ok w, s') /\ z_disk s' = DZip ms /\
    NoDup (shown w) /\ (forall m, In m (shown w) <-> is_member ms m /\ (cs = [] \/ below (abs_path cs) m)) /\
    NoDup (map (fun x => u_path (fst (fst x))) w) /\
    (forall r ds fs, In (r, ds, fs) w -> StronglySorted slt ds /\ StronglySorted slt fs /\
       (forall n, In n ds -> exists m, is_member ms m /\ below (sub (u_path r) n) m) /\
       (forall n, In n fs -> is_member ms (sub (u_path r) n))).
Proof.
  intros R D Pr Z Dc L F. assert (Es : exists s1, (forall u, zip_listdir u s = zip_listdir u s1) /\ z_handle s1 <> None /\ z_disk s1 = DZip ms /\ knows s1).
  { destruct (z_handle s) as [h|] eqn:H; [exists s; repeat split; auto; [congruence|now apply reachable_knows]|]. exists (fresh_h ms).
    split; [|split; [discriminate|split; [reflexivity|now left]]]. intros u. unfold zip_listdir at 1. rewrite D, H. unfold bind at 1. unfold open_zip, bind at 1, close_zip. rewrite H. unfold zipfile_r. rewrite D. reflexivity. }
  destruct Es as (s1 & El & H1 & D1 & K1). destruct (z_handle s1) as [h|] eqn:H; [|easy].
  assert (Eh : zh_members h = ms). { unfold knows in K1. rewrite H in K1. destruct K1 as [X|[X _]]; congruence. }
  destruct Pr as [Pn Po P1 Pt]. pose proof (zip_at_good _ _ _ Z) as G. pose proof (zip_at_eq _ _ _ Z) as ->. assert (Av : auth_ok (Connector v)) by apply Z.
  assert (Hg : forall t, In t T -> t <> [] /\ good_path t). { intros t Ht. destruct (Po t Ht) as (A & B & C). split; [exact A|now split]. }
  assert (Hn : map fst (zh_members h) = map abs_path T) by (now rewrite Eh). assert (Hd : z_disk s1 <> DNone) by congruence.
  assert (Dc' : cs = [] \/ dirT T cs).
  { destruct cs as [|x cs]; [now left|]. right. destruct Dc as [Dc|Dc]; [discriminate|]. rewrite <- Eh in Dc. apply (below_dir T h Hg Hn) in Dc; auto. discriminate. }
  destruct (walk_T v T s1 h Av Hg Pt H Hd Hn td fl fuel cs [] G Dc') as (w & E & N & V & I); auto.
  { intros b Hb. specialize (L _ Hb). rewrite app_length in L. lia. }
  exists (map (as_uris v) w), s1.
  assert (Gw : forall x, In x w -> good_path (at_ x)).
  { intros x Hx. apply (in_map at_) in Hx. apply I in Hx as [->|(r & _ & b & _ & Hb)]; [exact G|]. now apply (part_good T Hg _ b). }
  assert (Sh : shown (map (as_uris v) w) = map abs_path (flat_map (fun x => map (fun n => at_ x ++ [n]) (snd x)) w)).
  { clear - Gw. unfold shown. induction w as [|x w IH]; [reflexivity|]. cbn [map flat_map]. rewrite map_app, <- IH by (intros y Hy; apply Gw; now right). f_equal.
    rewrite map_map. apply map_ext. intros n. cbn [as_uris fst snd]. pose proof (Gw x (or_introl eq_refl)) as Gx. unfold at_ in *. rewrite zip_path by auto. apply abs_sub, Gx. }
  rewrite Forall_forall in V.
  assert (Fl : forall t, In t (flat_map (fun x => map (fun n => at_ x ++ [n]) (snd x)) w) <-> In t T /\ exists b, b <> [] /\ t = cs ++ b).
  { intros t. rewrite in_flat_map. split.
    - intros (x & Hx & Ht). apply in_map_iff in Ht as (n & <- & Hn'). apply (V x Hx) in Hn'. split; [exact Hn'|].
      apply (in_map at_) in Hx. apply I in Hx as [->|(r & -> & _)]; [now exists [n]|]. exists (r ++ [n]). split; [now destruct r|now rewrite app_assoc].
    - intros (Ht & b & Nb & ->). destruct b as [|n b _] using rev_ind; [easy|]. assert (Ha : In (cs ++ b) (map at_ w)).
      { apply I. destruct b as [|y b]; [left; now rewrite app_nil_r|]. right. exists (y :: b). split; [reflexivity|]. exists [n]. split; [discriminate|]. now rewrite <- app_assoc. }
      apply in_map_iff in Ha as (x & Ex & Hx). exists x. split; [exact Hx|]. apply in_map_iff. exists n. rewrite Ex, <- app_assoc. split; [reflexivity|].
      apply (V x Hx). rewrite Ex, <- app_assoc. exact Ht. }
  assert (Ai : forall t t', In t T -> In t' T -> abs_path t = abs_path t' -> t = t').
  { intros t t' Ht Ht' X. destruct (Hg _ Ht) as [? Q1], (Hg _ Ht') as [? Q2]. apply abs_inj in X; auto; [apply Q1|apply Q2]. }
  split; [|split; [exact D1|split; [|split; [|split]]]].
  - unfold u_walk, hooked. cbn [zip_backend b_hook]. rewrite (bind_ok (ret tt) _ s tt s eq_refl). fold body.
    destruct fuel as [|fuel]; [lia|]. cbn [walk_gen zip_backend b_listdir] in E |- *. unfold bind at 1. unfold bind at 1 in E. rewrite El. exact E.
  - rewrite Sh. apply NoDup_map_in; [|intros x y Hx Hy; apply Fl in Hx as [Hx _]; apply Fl in Hy as [Hy _]; now apply Ai].
    clear - N V. induction w as [|x w IH]; [constructor|]. cbn [map flat_map] in *. inversion N as [|? ? N1 N2]; subst. apply nodup_app.
    + destruct (V x (or_introl eq_refl)) as (_ & S & _). apply slt_NoDup in S. apply FinFun.Injective_map_NoDup; [|exact S]. intros a b X. now apply app_inj_tail in X.
    + apply IH; auto. intros y Hy. apply V. now right.
    + intros t Ht X. apply in_map_iff in Ht as (n & <- & _). apply in_flat_map in X as (y & Hy & X). apply in_map_iff in X as (n' & X & _).
      apply app_inj_tail in X as [X _]. apply N1. rewrite <- X. now apply in_map.
  - intros m. rewrite Sh, in_map_iff. split.
    + intros (t & <- & Ht). apply Fl in Ht as (Ht & b & Nb & ->). split; [unfold is_member; rewrite Pn; now apply in_map|].
      destruct cs as [|x cs]; [now left|]. right. destruct (Hg _ Ht) as [Nt Gt]. apply below_abs; [apply names_no_slash, G|apply Gt|discriminate|exact Nt|]. now exists b.
    + intros [Hm X]. unfold is_member in Hm. rewrite Pn in Hm. apply in_map_iff in Hm as (t & <- & Ht). exists t. split; [reflexivity|]. apply Fl. split; [exact Ht|].
      destruct (Hg _ Ht) as [Nt Gt]. destruct cs as [|x cs]; [now exists t|]. destruct X as [X|X]; [discriminate|]. apply below_abs in X; auto; [apply names_no_slash, G|apply Gt|discriminate].
  - replace (map (fun x => u_path (fst (fst x))) (map (as_uris v) w)) with (map abs_path (map at_ w)).
    + apply NoDup_map_in; [exact N|]. intros x y Hx Hy X. apply in_map_iff in Hx as (x' & <- & Hx). apply in_map_iff in Hy as (y' & <- & Hy).
      pose proof (Gw _ Hx) as [Gx _]. pose proof (Gw _ Hy) as [Gy _].
      assert (Q : forall t, Forall name_ok t -> abs_path t = abs_path [] -> t = []).
      { intros [|a t] Ha Y; [reflexivity|]. cbn in Y. injection Y as Y. apply app_eq_nil in Y as [-> _]. inversion Ha as [|? ? Hx0 _]. now destruct (name_ne _ Hx0). }
      destruct (at_ x') eqn:E1; [symmetry; apply Q; auto|]. destruct (at_ y') eqn:E2; [apply Q; auto|]. now apply abs_inj in X.
    + rewrite !map_map. apply map_ext_in. intros x Hx. cbn [as_uris fst]. fold (at_ x). symmetry. apply zip_path. now apply Gw.
  - intros r ds fs X. apply in_map_iff in X as (x & X & Hx). injection X as <- <- <-. fold (at_ x). rewrite zip_path by now apply Gw.
    destruct (V x Hx) as (S1 & S2 & V1 & V2). split; [exact S1|]. split; [exact S2|]. pose proof (Gw x Hx) as [Gx _]. split; intros n Hn'; rewrite abs_sub by exact Gx.
    + apply V1 in Hn'. rewrite <- Eh. apply (below_dir T h Hg Hn); auto; [|now destruct (at_ x)]. destruct Hn' as (b & _ & Hb). now apply (part_good T Hg _ b).
    + apply V2 in Hn'. unfold is_member. rewrite Pn. now apply in_map.
Qed.
Print Assumptions C58_walk_partial.
(** In particular from the root. *)
Theorem C58_all_members_partial s ms T v c td fl fuel : zreachable s -> z_disk s = DZip ms -> proper ms T -> zip_at v [] c ->
  (forall t, In t T -> length t <= fuel) -> 1 <= fuel ->
  exists w s', u_walk zip_backend fuel td fl c s = (Ok w, s') /\ Permutation (shown w) (map fst ms).
Proof.
  intros R D Pr Z L F. destruct (C58_walk_partial s ms T v [] c td fl fuel R D Pr Z (or_introl eq_refl) L F) as (w & s' & E & _ & N & I & _).
  exists w, s'. split; [exact E|]. apply NoDup_Permutation; [exact N| |].
  - destruct Pr as [Pn Po P1 Pt]. rewrite Pn. apply NoDup_map_in; [exact P1|]. intros x y Hx Hy. destruct (Po _ Hx) as (A & B & _), (Po _ Hy) as (A' & B' & _). now apply abs_inj.
  - intros m. rewrite I. unfold is_member. tauto.
Qed.
Print Assumptions C58_all_members_partial.
Definition arch_tree : list (list str) := [P ["foo.txt"]; P ["dir1"; "foo.txt"]; P ["dir1"; "bar.txt"]; P ["dir2"; "sub"; "x"]]%string.
Example C58_witness : proper arch arch_tree /\ zip_at zv [] (ZU []) /\
  fst (u_walk zip_backend 3 true true (ZU []) (zip_init (DZip arch))) =
  Ok [(ZU [], [lit "dir1"; lit "dir2"], [lit "foo.txt"]); (ZU ["dir1"], [], [lit "bar.txt"; lit "foo.txt"]);
      (ZU ["dir2"], [lit "sub"], []); (ZU ["dir2"; "sub"], [], [lit "x"])]%string.
Proof.
  split; [|split; [apply (ZU_at []); apply good_nil|vm_compute; reflexivity]]. constructor.
  - reflexivity.
  - assert (Q : forall t, t <> [] -> good_path t -> t <> [] /\ Forall name_ok t /\ (forall c cs', t = c :: cs' -> forall r, c <> cDot :: r)) by (intros t A [B C]; auto).
    intros t H. cbn [arch_tree In] in H. repeat destruct H as [<-|H]; [..|destruct H]; apply Q; try discriminate; good.
  - repeat constructor; cbn; intuition discriminate.
  - intros t b H1 H2. cbn [arch_tree In] in H1. repeat destruct H1 as [<-|H1]; [..|destruct H1];
      cbn [arch_tree In] in H2; destruct H2 as [H2|[H2|[H2|[H2|[]]]]]; cbn in H2; try discriminate; injection H2; auto.
Qed.
(** A directory of the root whose name starts with a dot is shown as a file, and what is in it is not shown. *)
Theorem C58_refuted : fst (u_walk zip_backend 3 true true (ZU []) (zip_init (DZip [(lit "/.d/f", [])]))) = Ok [(ZU [], [], [lit ".d"])].
Proof. vm_compute. reflexivity. Qed.
Print Assumptions C58_refuted.
