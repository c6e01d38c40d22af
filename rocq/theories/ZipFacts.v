(** Facts about the zip backend. *)
From Coq Require Import Lia Sorted.
From Verif Require Import Str Exc Utf8 UriParse BaseUri StrFacts SpecUri Mem Generic Zip SpecZip.

(** *** Names *)
Lemma is_start_spec l1 l2 : is_start l1 l2 = true <-> exists r, l2 = l1 ++ r.
Proof.
  revert l2. induction l1 as [|x l1 IH]; intros l2; cbn [is_start].
  - split; [intros _; now exists l2|reflexivity].
  - destruct l2 as [|y l2]; [split; [discriminate|now intros [r E]]|].
    rewrite andb_true_iff, IH, str_eqb_eq. split.
    + intros [-> [r ->]]. now exists r.
    + intros [r E]. injection E as -> ->. eauto.
Qed.
Lemma split_below p m : (exists r, split_on cSlash m = split_on cSlash p ++ r /\ r <> []) <-> below p m.
Proof.
  split.
  - intros (r & E & N). exists (join_with [cSlash] r). rewrite <- (join_split cSlash m), E.
    rewrite join_with_app by (auto using split_on_nonnil). now rewrite join_split.
  - intros [r ->]. rewrite split_on_gen. exists (split_on cSlash r). split; [reflexivity|apply split_on_nonnil].
Qed.
Lemma split_inj p m : split_on cSlash p = split_on cSlash m -> p = m.
Proof. intros E. rewrite <- (join_split cSlash p), E. apply join_split. Qed.
Lemma below_longer p m : below p m -> length p < length m.
Proof. intros [r ->]. rewrite app_length. cbn. lia. Qed.
Lemma below_neq p m : below p m -> p <> m.
Proof. intros H ->. apply below_longer in H. lia. Qed.

Lemma compare_file p m : compare_path_strings p m = KFile <-> p = m.
Proof.
  unfold compare_path_strings. destruct (Nat.ltb_spec (length m) (length p)) as [L|L].
  - split; [discriminate|intros ->; lia].
  - destruct (str_eqb p m) eqn:E; [apply str_eqb_eq in E; tauto|].
    split; [|intros ->; rewrite (proj2 (str_eqb_eq m m) eq_refl) in E; discriminate].
    destruct (Nat.ltb_spec (length (split_on cSlash m)) (length (split_on cSlash p))) as [L2|L2]; [discriminate|].
    unfold compare_parts. destruct (is_start _ _) eqn:I; [|discriminate]. apply is_start_spec in I as [r I].
    destruct (Nat.ltb_spec (length (split_on cSlash p)) (length (split_on cSlash m))) as [L3|L3]; [discriminate|].
    intros _. apply split_inj. rewrite I in L3 |- *. rewrite app_length in L3. destruct r; [now rewrite app_nil_r|cbn in L3; lia].
Qed.
Lemma compare_dir p m : compare_path_strings p m = KDir <-> below p m.
Proof.
  unfold compare_path_strings. destruct (Nat.ltb_spec (length m) (length p)) as [L|L].
  - split; [discriminate|]. intros B. apply below_longer in B. lia.
  - destruct (str_eqb p m) eqn:E.
    { apply str_eqb_eq in E. split; [discriminate|]. intros B. now apply below_neq in B. }
    rewrite <- split_below.
    destruct (Nat.ltb_spec (length (split_on cSlash m)) (length (split_on cSlash p))) as [L2|L2].
    { split; [discriminate|]. intros (r & I & _). rewrite I, app_length in L2. lia. }
    unfold compare_parts. destruct (is_start _ _) eqn:I.
    + apply is_start_spec in I as [r I].
      destruct (Nat.ltb_spec (length (split_on cSlash p)) (length (split_on cSlash m))) as [L3|L3].
      * split; auto. intros _. exists r. split; auto. intros ->. rewrite I, app_nil_r in L3. lia.
      * split; [discriminate|]. intros (r' & I' & N). rewrite I', app_length in L3. destruct r'; [easy|cbn in L3; lia].
    + split; [discriminate|]. intros (r & I' & _). exfalso. assert (is_start (split_on cSlash p) (split_on cSlash m) = true); [apply is_start_spec; eauto|congruence].
Qed.

Lemma root_eqb p : str_eqb p root = true <-> p = root.
Proof. apply str_eqb_eq. Qed.
Lemma content_spec p m x : x <> [] -> (p = root -> absolute m) ->
  (content_item p m = x <-> ~ In cSlash x /\ (m = sub p x \/ below (sub p x) m)).
Proof.
  intros Nx Ab. unfold content_item, sub. fold root.
  assert (G : forall l, (exists r, split_on cSlash m = l ++ x :: r) <-> ~ In cSlash x /\ (split_on cSlash m = l ++ [x] \/ exists r, split_on cSlash m = (l ++ [x]) ++ r /\ r <> [])).
  { intros l. split.
    - intros [r E]. split.
      + pose proof (split_on_no_sep cSlash m) as F. rewrite E in F. apply Forall_app in F as [_ F]. now inversion F.
      + destruct r; [now left|]. right. eexists. rewrite <- app_assoc. split; [exact E|discriminate].
    - intros [_ [E|(r & E & _)]]; [now exists []|]. exists r. now rewrite <- app_assoc in E. }
  destruct (str_eqb p root) eqn:R.
  - apply root_eqb in R. subst p. destruct (Ab eq_refl) as [r ->].
    assert (E : split_on cSlash (cSlash :: r) = [] :: split_on cSlash r) by reflexivity.
    rewrite E in G |- *. specialize (G [[]]). pose proof (split_on_nonnil cSlash r) as NN.
    destruct (split_on cSlash r) as [|y ys] eqn:S; [easy|]. cbn [length Nat.leb andb nth].
    split.
    + intros ->. destruct (proj1 G) as [Hn H]; [now exists ys|]. split; [exact Hn|].
      assert (Ex : split_on cSlash (cSlash :: x) = [[]] ++ [x]).
      { change (split_on cSlash (cSlash :: x)) with ([] :: split_on cSlash x). now rewrite split_on_none. }
      destruct H as [H|(r' & H & N)].
      * left. apply split_inj. now rewrite E, Ex, <- H, <- S.
      * right. apply split_below. exists r'. rewrite Ex, E. auto.
    + intros [Hn H].
      assert (Ex : split_on cSlash (cSlash :: x) = [[]] ++ [x]).
      { change (split_on cSlash (cSlash :: x)) with ([] :: split_on cSlash x). now rewrite split_on_none. }
      destruct (proj2 G) as [r' H']; [|now injection H']. split; [exact Hn|]. destruct H as [H|H].
      * left. injection H as ->. rewrite split_on_none in S by auto. now injection S as <- <-.
      * right. apply split_below in H as (r' & H & N). rewrite Ex, E in H. eauto.
  - cbn [andb].
    assert (Ex : ~ In cSlash x -> split_on cSlash (p ++ cSlash :: x) = split_on cSlash p ++ [x]).
    { intros Hn. now rewrite split_on_gen, (split_on_none cSlash x). }
    specialize (G (split_on cSlash p)).
    assert (K : (exists r, split_on cSlash m = split_on cSlash p ++ x :: r) <-> ~ In cSlash x /\ (m = p ++ cSlash :: x \/ below (p ++ cSlash :: x) m)).
    { rewrite G. split; intros [Hn H]; (split; [exact Hn|]); specialize (Ex Hn).
      - destruct H as [H|H]; [left; apply split_inj; now rewrite Ex|right; apply split_below; now rewrite Ex].
      - destruct H as [->|H]; [left; exact Ex|right; apply split_below in H; now rewrite Ex in H]. }
    rewrite <- K. clear K G Ex.
    destruct (Nat.leb_spec (length (split_on cSlash m)) (length (split_on cSlash p))) as [L|L].
    { split; [intros E; now destruct Nx|]. intros [r H]. rewrite H, app_length in L. cbn in L. lia. }
    destruct (is_start _ _) eqn:I.
    + apply is_start_spec in I as [r I]. rewrite I, app_nth2, Nat.sub_diag by lia.
      rewrite I, app_length in L. destruct r as [|y r]; [cbn in L; lia|]. cbn [nth]. split.
      * intros ->. eauto.
      * intros [r' E]. apply app_inv_head in E. now injection E.
    + split; [intros E; now destruct Nx|]. intros [r H]. exfalso.
      assert (is_start (split_on cSlash p) (split_on cSlash m) = true); [apply is_start_spec; eauto|congruence].
Qed.

(** *** Tests *)
Lemma existsb_iff {A} (f : A -> bool) l : existsb f l = true <-> exists x, In x l /\ f x = true.
Proof. apply existsb_exists. Qed.
Section Ready.
Variables (s : zst) (h : zhandle).
Hypothesis H : z_handle s = Some h.
Let ms := zh_members h.
Lemma isfile_run u : u_path u <> root -> exists b, zip_isfile u s = (Ok b, s) /\ (b = true <-> is_member ms (u_path u)).
Proof.
  intros N. unfold zip_isfile, zip_ispart. fold root. destruct (str_eqb (u_path u) root) eqn:E; [now apply root_eqb in E|].
  rewrite H. eexists. split; [reflexivity|]. rewrite existsb_iff. split.
  - intros (x & Hx & K). destruct (compare_path_strings _ _) eqn:C; try discriminate. apply compare_file in C. now subst x.
  - intros I. exists (u_path u). split; [exact I|]. now rewrite (proj2 (compare_file _ _) eq_refl).
Qed.
Lemma isdir_run u : exists b, zip_isdir u s = (Ok b, s) /\ (b = true <-> u_path u = root \/ exists m, is_member ms m /\ below (u_path u) m).
Proof.
  unfold zip_isdir, zip_ispart. fold root. destruct (str_eqb (u_path u) root) eqn:E; [apply root_eqb in E; eexists; split; [reflexivity|tauto]|].
  rewrite H. eexists. split; [reflexivity|]. rewrite existsb_iff. split.
  - intros (x & Hx & K). right. exists x. split; [exact Hx|]. destruct (compare_path_strings _ _) eqn:C; try discriminate. now apply compare_dir in C.
  - intros [X|(m & I & B)]; [apply root_eqb in X; congruence|]. exists m. split; [exact I|]. now rewrite (proj2 (compare_dir _ _) B).
Qed.
Lemma exists_run u : exists b, zip_exists u s = (Ok b, s) /\
  (b = true <-> u_path u = root \/ is_member ms (u_path u) \/ exists m, is_member ms m /\ below (u_path u) m).
Proof.
  unfold zip_exists, zip_ispart. fold root. destruct (str_eqb (u_path u) root) eqn:E; [apply root_eqb in E; eexists; split; [reflexivity|tauto]|].
  rewrite H. eexists. split; [reflexivity|]. rewrite existsb_iff. split.
  - intros (x & Hx & K). right. destruct (compare_path_strings _ _) eqn:C; try discriminate.
    + right. exists x. split; [exact Hx|]. now apply compare_dir in C.
    + left. apply compare_file in C. now subst x.
  - intros [X|[I|(m & I & B)]]; [apply root_eqb in X; congruence| |].
    + exists (u_path u). split; [exact I|]. now rewrite (proj2 (compare_file _ _) eq_refl).
    + exists m. split; [exact I|]. now rewrite (proj2 (compare_dir _ _) B).
Qed.
Lemma listdir_run u : z_disk s <> DNone -> all_absolute ms -> u_path u = root \/ (exists m, is_member ms m /\ below (u_path u) m) ->
  exists l, zip_listdir u s = (Ok l, s) /\ StronglySorted slt l /\
    forall x, In x l <-> x <> [] /\ ~ In cSlash x /\ exists m, is_member ms m /\ (m = sub (u_path u) x \/ below (sub (u_path u) x) m).
Proof.
  intros D A Hd. destruct (isdir_run u) as (b & E & Hb). apply (proj2 Hb) in Hd. subst b.
  unfold zip_listdir. destruct (z_disk s) eqn:Ed; [easy| |]; rewrite H; unfold bind, ret; rewrite E; cbn [negb]; rewrite H; eexists.
  all: split; [reflexivity|]; split; [apply sort_strict, dedup_NoDup|].
  all: intros x; rewrite sort_In, dedup_In, filter_In, in_map_iff.
  all: split; [intros ((m & C & I) & Nx)|intros (Nx & Hn & m & I & C)].
  1, 3: assert (x <> []) as N by (intros ->; discriminate); split; [exact N|];
        apply content_spec in C as [C1 C2]; [|exact N|intros _; apply A, I]; split; [exact C1|]; now exists m.
  all: split; [|destruct x; [easy|reflexivity]]; exists m; split; [|exact I]; apply content_spec; auto; intros _; apply A, I.
Qed.
Lemma listdir_fails u : z_disk s <> DNone -> u_path u <> root -> (forall m, is_member ms m -> ~ below (u_path u) m) ->
  zip_listdir u s = (Raise FileDoesNotExistError, s).
Proof.
  intros D N F. destruct (isdir_run u) as (b & E & Hb). assert (b = false) as ->.
  { destruct b; [|reflexivity]. destruct (proj1 Hb eq_refl) as [X|(m & I & B)]; [easy|]. now destruct (F m I). }
  unfold zip_listdir. destruct (z_disk s); [easy| |]; rewrite H; unfold bind, ret; rewrite E; reflexivity.
Qed.
End Ready.

(** *** What a connection knows *)
Definition knows (s : zst) : Prop :=
  match z_handle s with
  | None => True
  | Some h => z_disk s = DZip (zh_members h) \/
              z_disk s = DJunk /\ zh_members h = [] /\ zh_dirty h = true /\ zh_open h = true /\ zh_write h = true
  end.
Definition quiet_zip (s : zst) : Prop := match z_handle s with Some h => zh_open h = false /\ z_disk s = DZip (zh_members h) | None => True end.
Lemma close_quiet s : knows s -> exists s', close_zip s = (Ok tt, s') /\ quiet_zip s' /\ (z_handle s' = None <-> z_handle s = None) /\
  (forall ms, z_disk s = DZip ms -> z_disk s' = DZip ms) /\ (z_disk s = DNone -> z_disk s' = DNone) /\ (z_disk s' = DNone -> z_disk s = DNone).
Proof.
  unfold knows, close_zip, quiet_zip. destruct s as [d [h|]]; cbn [z_handle z_disk]; [|intros _; eexists; split; [reflexivity|]; cbn; tauto].
  intros [E|(E & M & Di & O & Wr)].
  - destruct (zh_open h) eqn:O; eexists; (split; [reflexivity|]); cbn [z_handle z_disk zh_open zh_members].
    + subst d. destruct (zh_write h && zh_dirty h); repeat split; auto; discriminate.
    + rewrite E. repeat split; auto; discriminate.
  - rewrite O, Wr, Di. eexists; (split; [reflexivity|]); cbn. subst d. repeat split; auto; discriminate.
Qed.
Lemma quiet_knows s : quiet_zip s -> knows s.
Proof. unfold quiet_zip, knows. destruct (z_handle s); tauto. Qed.
Lemma knows_open_zip o s : knows s -> knows (snd (open_zip o s)).
Proof.
  intros K. destruct (close_quiet s K) as (s' & E & Q & _). unfold open_zip, bind. rewrite E.
  assert (KR : knows (snd (zipfile_r s'))).
  { unfold zipfile_r. destruct (z_disk s') eqn:D; cbn [snd]; try now apply quiet_knows. now left. }
  destruct o as [o|]; [|exact KR]. destruct (has_char 114 o); [exact KR|]. destruct (has_char 119 o).
  - unfold zipfile_w, zipfile_a. destruct (z_disk s') eqn:D; cbn [snd]; unfold knows; cbn; auto.
    + right. auto.
    + right. auto.
  - destruct (has_char 97 o); [|now apply quiet_knows]. cbn [snd]. unfold quiet_zip, knows in *.
    destruct (z_disk s') eqn:D; cbn; try (now rewrite D; destruct (z_handle s'); tauto).
    destruct (z_handle s') as [h|]; [|exact Logic.I]. destruct Q as [_ Q]. discriminate.
Qed.
Lemma knows_exit p d s : knows s -> knows (snd (zip_exit p d s)).
Proof.
  intros K. unfold zip_exit, bind at 1, writestr. destruct (z_handle s) as [h|] eqn:H; [|exact K].
  destruct (zh_open h && zh_write h) eqn:OW; [|exact K]. destruct (forallb scalar (cut_nul p)).
  - unfold bind at 1, close_zip. cbn [z_handle zh_open zh_write zh_dirty andb zh_members z_disk].
    apply knows_open_zip. left. reflexivity.
  - cbn [snd]. unfold knows in *. rewrite H in K. cbn. destruct K as [K|K]; [now left|right]. tauto.
Qed.
Lemma ispart_state u e s : snd (zip_ispart u e s) = s.
Proof. unfold zip_ispart. destruct (str_eqb _ _); [reflexivity|]. now destruct (z_handle s). Qed.
Lemma list_tail_state u s : snd ((let! d <- zip_isdir u;
       if negb d then raise FileDoesNotExistError
       else fun s => match z_handle s with
                     | None => (Ok [], s)
                     | Some h =>
                         (Ok (sort_strs (dedup (filter (fun x => negb (str_eqb x []))
                                (map (content_item (u_path u)) (m_names (zh_members h)))))), s)
                     end) s) = s.
Proof.
  unfold bind. pose proof (ispart_state u (fun k => match k with KDir => true | _ => false end) s) as P. fold (zip_isdir u) in P.
  destruct (zip_isdir u s) as [[b|e] s2]; cbn [snd] in P; subst s2; [|reflexivity]. destruct (negb b); [reflexivity|]. now destruct (z_handle s).
Qed.
Lemma knows_listdir u s : knows s -> knows (snd (zip_listdir u s)).
Proof.
  intros K. unfold zip_listdir. destruct (z_disk s) eqn:D; [exact K| |].
  all: unfold bind at 1; destruct (z_handle s) eqn:H.
  1, 3: cbn [ret]; rewrite list_tail_state; exact K.
  all: pose proof (knows_open_zip None s K) as K1; destruct (open_zip None s) as [[x|e] s1]; cbn [snd] in K1; [|exact K1].
  all: rewrite list_tail_state; exact K1.
Qed.
Lemma knows_run o s : knows s -> knows (zrun o s).
Proof.
  intros K. destruct o; cbn [zrun]; try (unfold zip_exists, zip_isdir, zip_isfile; now rewrite ispart_state).
  - unfold zip_open, bind. pose proof (knows_open_zip options s K) as K1. destruct (open_zip options s) as [[x|e] s1]; cbn [snd] in *; [|exact K1].
    destruct (has_char _ _); [|exact K1]. unfold zip_open_for_reading. destruct (z_handle s1); [destruct (lookup_last _ _)|]; exact K1.
  - now apply knows_exit.
  - now apply knows_listdir.
Qed.
Lemma reachable_knows s : zreachable s -> knows s.
Proof.
  intros (d & l & ->). assert (K : knows (zip_init d)) by exact Logic.I. revert K. generalize (zip_init d). clear d.
  induction l as [|o l IH]; intros s K; [exact K|]. apply IH. now apply knows_run.
Qed.

(** *** Writing and reading *)
(** The members of the archive; none when there is no archive yet. *)
Definition base (s : zst) : list member := match z_disk s with DZip ms => ms | _ => [] end.
Lemma close_base s s' : knows s -> close_zip s = (Ok tt, s') -> base s' = base s.
Proof.
  intros K E. destruct (close_quiet s K) as (s1 & E1 & _). unfold knows, close_zip in *.
  destruct (z_handle s) as [h|] eqn:H; [|now injection E as <-]. destruct K as [K|(D & M & K1 & K2 & K3)].
  - destruct (zh_open h); injection E as <-; [|reflexivity]. unfold base. cbn. rewrite K. now destruct (zh_write h && zh_dirty h).
  - rewrite K1, K2, K3 in E. injection E as <-. unfold base. cbn. now rewrite D.
Qed.
Definition fresh_h (ms : list member) : zst := mkZ (DZip ms) (Some (mkZH false ms false true)).
Lemma open_w s o : knows s -> has_char 114 o = false -> has_char 119 o = true -> exists d dirty,
  open_zip (Some o) s = (Ok tt, mkZ d (Some (mkZH true (base s) dirty true))) /\
  (d = DZip (base s) \/ d = DJunk /\ base s = []).
Proof.
  intros K R W. destruct (close_quiet s K) as (s' & E & Q & Hn & Hz & Hd1 & Hd2). pose proof (close_base s s' K E) as B.
  unfold open_zip, bind. rewrite E, R, W. unfold base in B. destruct (z_disk s') as [| |ms] eqn:D.
  - unfold zipfile_w. exists DJunk, true. rewrite B. unfold base. split; [reflexivity|]. right. auto.
  - unfold zipfile_a. rewrite D. exists DJunk, true. rewrite B. unfold base. split; [reflexivity|]. right. auto.
  - unfold zipfile_a. rewrite D. exists (DZip ms), false. rewrite B. unfold base. rewrite <- B. split; [reflexivity|]. left. reflexivity.
Qed.
Lemma cut_id n : ~ In 0%N n -> cut_nul n = n.
Proof.
  induction n as [|c n IH]; intros H; [reflexivity|]. cbn [cut_nul]. destruct (N.eqb_spec c 0) as [->|Nc]; [destruct H; now left|].
  f_equal. apply IH. intros X. apply H. now right.
Qed.
Lemma exit_run d0 ms dirty p d : ~ In 0%N p -> forallb scalar p = true ->
  zip_exit p d (mkZ d0 (Some (mkZH true ms dirty true))) = (Ok tt, fresh_h (ms ++ [(p, d)])).
Proof.
  intros N S. unfold zip_exit, writestr, bind at 1. cbn [z_handle zh_open zh_write andb zh_members z_disk]. rewrite cut_id, S by auto. reflexivity.
Qed.
Lemma write_run s u o d : knows s -> has_char 114 o = false -> has_char 119 o = true ->
  ~ In 0%N (u_path u) -> forallb scalar (u_path u) = true ->
  zip_write u o d s = (Ok tt, fresh_h (base s ++ [(u_path u, d)])).
Proof.
  intros K R W N S. destruct (open_w s o K R W) as (d0 & dirty & E & _).
  unfold zip_write, zip_open, bind. rewrite E, R. cbn [ret]. now apply exit_run.
Qed.
Lemma lookup_stored ms n d : lookup_last n ms = Some d <-> stored ms n d.
Proof.
  assert (Nn : forall ms, lookup_last n ms = None <-> ~ In n (map fst ms)).
  { clear. induction ms as [|[k v] ms IH]; cbn [lookup_last map fst]; [now split|].
    destruct (lookup_last n ms) eqn:L.
    - split; [discriminate|]. intros X. exfalso. assert (~ In n (map fst ms)) as Y by (intros Z; apply X; now right). now apply IH in Y.
    - destruct (str_eqb n k) eqn:E.
      + apply str_eqb_eq in E. subst. split; [discriminate|]. intros X. destruct X. now left.
      + split; [|reflexivity]. intros _ [X|X]; [subst; rewrite (proj2 (str_eqb_eq n n) eq_refl) in E; discriminate|]. now apply IH in X. }
  unfold stored. induction ms as [|[k v] ms IH]; cbn [lookup_last].
  - split; [discriminate|]. intros (l1 & l2 & E & _). now destruct l1.
  - destruct (lookup_last n ms) as [x|] eqn:L.
    + rewrite IH. split.
      * intros (l1 & l2 & -> & X). now exists ((k, v) :: l1), l2.
      * intros (l1 & l2 & E & X). destruct l1 as [|y l1]; cbn in E; injection E as E1 E2.
        -- exfalso. subst. apply Nn in X. congruence.
        -- now exists l1, l2.
    + apply Nn in L. split.
      * destruct (str_eqb n k) eqn:E; [|discriminate]. apply str_eqb_eq in E. subst k. intros [= <-]. now exists [], ms.
      * intros (l1 & l2 & E & X). destruct l1 as [|y l1]; cbn in E; injection E as E1 E2.
        -- subst. now rewrite (proj2 (str_eqb_eq n n) eq_refl).
        -- exfalso. subst. apply L. rewrite map_app. apply in_or_app. right. now left.
Qed.
Definition read_mode (o : option str) : Prop := match o with None => True | Some m => has_char 114 m = true end.
(** Reading: the state afterwards is the same for all purposes. *)
Lemma read_run s u o ms : knows s -> read_mode o -> z_disk s = DZip ms ->
  zip_read u o s = (match lookup_last (u_path u) ms with Some d => Ok d | None => Raise FileDoesNotExistError end, fresh_h ms).
Proof.
  intros K R D. destruct (close_quiet s K) as (s' & E & Q & Hn & Hz & _). specialize (Hz ms D).
  unfold zip_read, zip_open, bind. assert (Eo : open_zip o s = (Ok tt, fresh_h ms)).
  { unfold open_zip, bind. rewrite E. destruct o as [m|]; [cbn in R; rewrite R|]; unfold zipfile_r; now rewrite Hz. }
  rewrite Eo. assert (has_char 114 (match o with None => lit "r" | Some o => o end) = true) as ->; [now destruct o|].
  unfold zip_open_for_reading. cbn [fresh_h z_handle zh_members]. now destruct (lookup_last (u_path u) ms).
Qed.
