(** Properties C118, C119: the zip connection and containers changed by others. *)
From Coq Require Import Lia Sorted.
From Verif Require Import Str Exc Utf8 UriParse BaseUri StrFacts SpecUri SpecMem Mem Generic.
From Verif Require Import Zip SpecZip ZipFacts ZipUse SpecZipUse PropsMem PropsZip.

Definition stands (s : zst) (v : view) : Prop :=
  z_disk s = now v /\
  match z_handle s with
  | None => seen v = None
  | Some h => seen v = Some (zh_members h) /\ (zh_open h = true -> zh_write h = false)
  end.
Lemma has_char_In c s : has_char c s = true <-> In c s.
Proof.
  unfold has_char. rewrite existsb_exists. split.
  - intros (x & I & E). apply N.eqb_eq in E. now subst.
  - intros I. exists c. split; [exact I|apply N.eqb_refl].
Qed.
Lemma has_char_not c s : has_char c s = false <-> ~ In c s.
Proof. rewrite <- has_char_In. destruct (has_char c s); split; intros; try discriminate; [now destruct H|reflexivity]. Qed.
Lemma cut_name p : name_of p (cut_nul p).
Proof.
  unfold name_of. induction p as [|c p IH]; cbn [cut_nul].
  - split; [easy|now left].
  - destruct (N.eqb_spec c 0) as [->|Nc].
    + split; [easy|]. right. now exists p.
    + destruct IH as [IH1 IH2]. split; [intros [X|X]; [easy|contradiction]|].
      destruct IH2 as [E|[r E]]; [left; congruence|right; exists r; cbn; congruence].
Qed.
Lemma name_det p n n' : name_of p n -> name_of p n' -> n = n'.
Proof.
  revert n n'. induction p as [|c p IH]; intros n n' [N H] [N' H'].
  - destruct H as [<-|[r E]]; [|now destruct n]. now destruct H' as [<-|[r E]]; [|destruct n'].
  - assert (G : forall m, ~ In 0%N m -> c :: p = m \/ (exists r, c :: p = m ++ 0%N :: r) -> c = 0%N /\ m = [] \/ exists m', c <> 0%N /\ m = c :: m' /\ name_of p m').
    { clear. intros m N H. destruct m as [|x m].
      - left. destruct H as [H|[r H]]; [discriminate|]. now injection H as -> _.
      - right. exists m. assert (c = x) as -> by (destruct H as [H|[r H]]; now injection H).
        split; [intros ->; apply N; now left|]. split; [reflexivity|]. split; [intros X; apply N; now right|].
        destruct H as [H|[r H]]; injection H as H; [now left|right; now exists r]. }
    destruct (G n N H) as [[E ->]|(m & E & -> & M)], (G n' N' H') as [[E' ->]|(m' & E' & -> & M')]; try contradiction; auto.
    f_equal. now apply IH.
Qed.

(** What listdir shows, for all archives. *)
Lemma content_shows p m x : x <> [] -> (content_item p m = x <-> shows p m x).
Proof.
  intros Nx. destruct (list_eq_dec N.eq_dec p root) as [->|Np].
  - unfold shows, content_item. fold root. rewrite (proj2 (root_eqb root) eq_refl). cbn [andb].
    assert (K : (exists a r, split_on cSlash m = a :: x :: r) <-> ~ In cSlash x /\ exists a, ~ In cSlash a /\ (m = a ++ cSlash :: x \/ below (a ++ cSlash :: x) m)).
    { split.
      - intros (a & r & E). pose proof (split_on_no_sep cSlash m) as F. rewrite E in F. inversion F as [|? ? Fa F']; subst. inversion F' as [|? ? Fx _]; subst.
        split; [exact Fx|]. exists a. split; [exact Fa|]. assert (Ex : split_on cSlash (a ++ cSlash :: x) = [a; x]) by (rewrite split_on_app, split_on_none by auto; reflexivity).
        destruct r as [|y r]; [left; apply split_inj; congruence|]. right. apply split_below. exists (y :: r). rewrite Ex. now split.
      - intros (Fx & a & Fa & H). assert (Ex : split_on cSlash (a ++ cSlash :: x) = [a; x]) by (rewrite split_on_app, split_on_none by auto; reflexivity).
        destruct H as [->|H]; [rewrite Ex; eauto|]. apply split_below in H as (r & H & _). rewrite H, Ex. cbn. eauto. }
    assert (G : (x <> [] /\ ~ In cSlash x /\ exists a, (root = root /\ ~ In cSlash a \/ root <> root /\ a = root) /\ (m = a ++ cSlash :: x \/ below (a ++ cSlash :: x) m)) <->
                (exists a r, split_on cSlash m = a :: x :: r)).
    { rewrite K. split.
      - intros (_ & Fx & a & [[_ Fa]|[X _]] & H); [|easy]. eauto.
      - intros (Fx & a & Fa & H). repeat split; auto. exists a. auto. }
    rewrite G. clear G K. change (length (split_on cSlash root)) with 2.
    pose proof (split_on_nonnil cSlash m) as NN. destruct (split_on cSlash m) as [|a [|y r]]; [easy| |]; cbn [length Nat.leb nth].
    + split; [intros <-; easy|]. intros (a' & r & E). discriminate.
    + split; [intros ->; eauto|]. intros (a' & r' & E). now injection E.
  - rewrite content_spec by (auto; intros ->; easy). unfold shows, sub. assert (str_eqb p root = false) as ->.
    { destruct (str_eqb p root) eqn:E; [now apply root_eqb in E|reflexivity]. }
    split.
    + intros [Fx H]. repeat split; auto. exists p. auto.
    + intros (_ & Fx & a & [[X _]|[_ ->]] & H); [easy|]. auto.
Qed.

Lemma close_stands s v : stands s v -> exists s', close_zip s = (Ok tt, s') /\ z_disk s' = now v /\
  match z_handle s' with None => seen v = None | Some h => seen v = Some (zh_members h) /\ zh_open h = false end.
Proof.
  intros [D H]. unfold close_zip. destruct (z_handle s) as [h|] eqn:E.
  - destruct H as [S W]. destruct (zh_open h) eqn:O.
    + rewrite (W eq_refl). cbn [andb]. eexists. split; [reflexivity|]. cbn. auto.
    + eexists. split; [reflexivity|]. rewrite E. auto.
  - eexists. split; [reflexivity|]. rewrite E. auto.
Qed.
Lemma closed_stands s v : z_disk s = now v ->
  match z_handle s with None => seen v = None | Some h => seen v = Some (zh_members h) /\ zh_open h = false end -> stands s v.
Proof. intros D H. split; [exact D|]. destruct (z_handle s); [|exact H]. destruct H as [H O]. split; [exact H|congruence]. Qed.

Definition a_dirb_dec ms p : {b | b = true <-> a_dir ms p}.
Proof.
  exists (orb (str_eqb p root) (existsb (fun n => match compare_path_strings p n with KDir => true | _ => false end) (map fst ms))).
  unfold a_dir, is_member. rewrite orb_true_iff, root_eqb, existsb_exists. split; intros [H|(m & I & C)]; auto; right; exists m; (split; [exact I|]).
  - destruct (compare_path_strings p m) eqn:X; try discriminate. now apply compare_dir.
  - now rewrite (proj2 (compare_dir _ _) C).
Qed.
Lemma listed_now s h u : z_handle s = Some h -> z_disk s <> DNone -> a_dir (zh_members h) (u_path u) -> exists l,
  zip_listdir u s = (Ok l, s) /\ StronglySorted slt l /\ forall x, In x l <-> exists m, is_member (zh_members h) m /\ shows (u_path u) m x.
Proof.
  intros H D A. destruct (isdir_run s h H u) as (b & E & Hb). apply (proj2 Hb) in A. subst b.
  unfold zip_listdir. destruct (z_disk s) eqn:Ed; [easy| |]; rewrite H; unfold bind, ret; rewrite E; cbn [negb]; rewrite H; eexists.
  all: split; [reflexivity|]; split; [apply sort_strict, dedup_NoDup|].
  all: intros x; rewrite sort_In, dedup_In, filter_In, in_map_iff; unfold is_member, m_names.
  all: split; [intros ((m & C & I) & Nx)|intros (m & I & C)].
  1, 3: assert (x <> []) as N by (intros ->; discriminate); exists m; split; [exact I|]; now apply content_shows.
  all: assert (x <> []) as N by (now destruct C); split; [|destruct x; [easy|reflexivity]]; exists m; split; [|exact I]; now apply content_shows.
Qed.
Lemma listed_no s h u : z_handle s = Some h -> z_disk s <> DNone -> ~ a_dir (zh_members h) (u_path u) ->
  zip_listdir u s = (Raise FileDoesNotExistError, s).
Proof.
  intros H D A. apply (listdir_fails s h H); auto.
  - intros E. apply A. now left.
  - intros m I B. apply A. right. eauto.
Qed.
Lemma scalar_cut p : text_ok p -> forallb scalar (cut_nul p) = true.
Proof.
  unfold text_ok. induction p as [|c p IH]; [reflexivity|]. cbn [forallb cut_nul]. intros H. apply andb_true_iff in H as [H1 H2].
  destruct (N.eqb c 0); [reflexivity|]. cbn [forallb]. now rewrite H1, IH.
Qed.
Lemma exit_cut d0 ms dirty p d : text_ok p ->
  zip_exit p d (mkZ d0 (Some (mkZH true ms dirty true))) = (Ok tt, fresh_h (ms ++ [(cut_nul p, d)])).
Proof.
  intros T. unfold zip_exit, writestr, bind at 1. cbn [z_handle zh_open zh_write andb zh_members z_disk]. rewrite (scalar_cut p T). reflexivity.
Qed.

(** ** C118: one use *)
Lemma use_rule s v x : stands s v -> fit x -> exists a s' v', do_use x s = (a, s') /\ rule v x a v' /\ stands s' v'.
Proof.
  intros St F. destruct x as [u o d|u|u|u|u|d]; cbn [do_use].
  - destruct (close_stands s v St) as (s1 & C & D1 & H1). destruct v as [w sn]. cbn [now seen] in *. cbn [fit] in F.
    assert (Rd : reads o -> exists a s' v', answered (fun a => a) (zip_with u o d s) = (a, s') /\ rule (mkView w sn) (UWith u o d) a v' /\ stands s' v').
    { intros R. unfold answered, zip_with, zip_open, open_zip, bind. rewrite C.
      assert (Eo : (match o with None => zipfile_r | Some o0 => if has_char 114 o0 then zipfile_r else if has_char 119 o0 then
                     fun s => match z_disk s with DNone => zipfile_w s | _ => zipfile_a s end else if has_char 97 o0 then
                     fun s => (Raise UnboundLocalError, match z_disk s with DNone => mkZ DJunk (z_handle s) | _ => s end) else raise (OSError EINVAL) end) = zipfile_r).
      { destruct o as [m|]; [|reflexivity]. cbn in R. apply has_char_In in R. now rewrite R. }
      rewrite Eo. assert (has_char 114 (match o with None => lit "r" | Some o => o end) = true) as ->.
      { destruct o as [m|]; [|reflexivity]. now apply has_char_In. }
      unfold zipfile_r. rewrite D1. destruct w as [| |ms]; cbn [fst snd].
      - do 3 eexists. split; [reflexivity|]. split; [now apply r_read_none|]. now apply closed_stands.
      - do 3 eexists. split; [reflexivity|]. split; [now apply r_read_junk|]. now apply closed_stands.
      - unfold zip_open_for_reading. cbn [z_handle zh_members]. destruct (lookup_last (u_path u) ms) as [y|] eqn:L; cbn [fst snd ret].
        + do 3 eexists. split; [reflexivity|]. split; [eapply r_read; eauto; now apply lookup_stored|]. split; cbn; auto.
        + do 3 eexists. split; [reflexivity|]. split; [eapply r_read_no; eauto|split; cbn; auto].
          intros I. assert (exists d, stored ms (u_path u) d) as [y S]; [|apply lookup_stored in S; congruence].
          clear -I. unfold is_member, stored in *. induction ms as [|[k y] ms IH]; [easy|].
          destruct (in_dec (list_eq_dec N.eq_dec) (u_path u) (map fst ms)) as [J|J].
          * destruct (IH J) as (d & l1 & l2 & -> & X). exists d, ((k, y) :: l1), l2. auto.
          * cbn in I. destruct I as [->|I]; [|contradiction]. exists y, [], ms. auto. }
    destruct o as [m|]; [|now apply Rd]. destruct (has_char 114 m) eqn:R; [apply Rd; now apply has_char_In|]. clear Rd.
    unfold answered, zip_with, zip_open, open_zip, bind. rewrite C, R. pose proof (proj1 (has_char_not _ _) R) as NR.
    destruct (has_char 119 m) eqn:W.
    + apply has_char_In in W.
      assert (G : exists d0 dirty, (match z_disk s1 with DNone => zipfile_w s1 | _ => zipfile_a s1 end) = (Ok tt, mkZ d0 (Some (mkZH true (in_file w) dirty true)))).
      { unfold zipfile_w, zipfile_a. rewrite D1. destruct w; cbn; eauto. }
      destruct G as (d0 & dirty & ->). cbn [ret]. rewrite (exit_cut d0 (in_file w) dirty (u_path u) d F).
      do 3 eexists. split; [reflexivity|]. split; [apply r_write; [exists m; auto|apply cut_name]|]. split; cbn; auto.
    + apply has_char_not in W. destruct (has_char 97 m) eqn:A; cbn [fst snd raise].
      * do 3 eexists. split; [reflexivity|]. split; [apply r_append; exists m; repeat split; auto; now apply has_char_In|].
        rewrite D1. destruct w; apply closed_stands; cbn [now seen z_disk z_handle]; auto.
      * do 3 eexists. split; [reflexivity|]. split; [apply r_neither; exists m; repeat split; auto; now apply has_char_not|]. now apply closed_stands.
  - destruct (list_eq_dec N.eq_dec (u_path u) root) as [E|N].
    + exists (ABool true), s, v. split; [unfold zip_exists, zip_ispart; now rewrite E|]. split; [|exact St]. apply (r_test_root v u); cbn; auto.
    + destruct v as [w sn]. destruct (z_handle s) as [h|] eqn:H.
      * destruct (exists_run s h H u) as (b & E & Hb). rewrite E. exists (ABool b), s, (mkView w sn). split; [reflexivity|]. split; [|exact St].
        destruct St as [_ St]. rewrite H in St. cbn [seen] in St. destruct St as [-> _]. apply r_exists; [exact N|]. rewrite Hb. unfold a_dir. tauto.
      * exists (AFails AttributeError), s, (mkView w sn). split; [|split; [|exact St]].
        { unfold zip_exists, zip_ispart. fold root. destruct (str_eqb (u_path u) root) eqn:E; [now apply root_eqb in E|]. now rewrite H. }
        destruct St as [_ St]. rewrite H in St. cbn [seen] in St. subst sn. apply (r_test_unseen w u); cbn; auto.
  - destruct (list_eq_dec N.eq_dec (u_path u) root) as [E|N].
    + exists (ABool true), s, v. split; [unfold zip_isdir, zip_ispart; now rewrite E|]. split; [|exact St]. apply (r_test_root v u); cbn; auto.
    + destruct v as [w sn]. destruct (z_handle s) as [h|] eqn:H.
      * destruct (isdir_run s h H u) as (b & E & Hb). rewrite E. exists (ABool b), s, (mkView w sn). split; [reflexivity|]. split; [|exact St].
        destruct St as [_ St]. rewrite H in St. cbn [seen] in St. destruct St as [-> _]. apply r_isdir; [exact N|]. exact Hb.
      * exists (AFails AttributeError), s, (mkView w sn). split; [|split; [|exact St]].
        { unfold zip_isdir, zip_ispart. fold root. destruct (str_eqb (u_path u) root) eqn:E; [now apply root_eqb in E|]. now rewrite H. }
        destruct St as [_ St]. rewrite H in St. cbn [seen] in St. subst sn. apply (r_test_unseen w u); cbn; auto.
  - destruct (list_eq_dec N.eq_dec (u_path u) root) as [E|N].
    + exists (ABool true), s, v. split; [unfold zip_isfile, zip_ispart; now rewrite E|]. split; [|exact St]. apply (r_test_root v u); cbn; auto.
    + destruct v as [w sn]. destruct (z_handle s) as [h|] eqn:H.
      * destruct (isfile_run s h H u N) as (b & E & Hb). rewrite E. exists (ABool b), s, (mkView w sn). split; [reflexivity|]. split; [|exact St].
        destruct St as [_ St]. rewrite H in St. cbn [seen] in St. destruct St as [-> _]. apply r_isfile; [exact N|]. exact Hb.
      * exists (AFails AttributeError), s, (mkView w sn). split; [|split; [|exact St]].
        { unfold zip_isfile, zip_ispart. fold root. destruct (str_eqb (u_path u) root) eqn:E; [now apply root_eqb in E|]. now rewrite H. }
        destruct St as [_ St]. rewrite H in St. cbn [seen] in St. subst sn. apply (r_test_unseen w u); cbn; auto.
  - destruct v as [w sn]. destruct (z_disk s) eqn:D.
    { exists (ANames []), s, (mkView w sn). split; [unfold zip_listdir; now rewrite D|]. split; [|exact St]. destruct St as [St _]. cbn in St. rewrite D in St. subst w. apply r_list_none. }
    all: destruct (z_handle s) as [h|] eqn:H.
    1, 3: pose proof St as [W Sn]; rewrite H in Sn; cbn [now seen] in W, Sn; destruct Sn as [-> _]; rewrite D in W; assert (ND : z_disk s <> DNone) by congruence;
          destruct (a_dirb_dec (zh_members h) (u_path u)) as [b B]; destruct b;
          [destruct (listed_now s h u H ND (proj1 B eq_refl)) as (l & E & So & Hl); rewrite E; exists (ANames l), s; eexists; split; [reflexivity|]; split; [eapply r_list; eauto; [congruence|now apply B]|exact St]
          |rewrite (listed_no s h u H ND) by (intros X; apply B in X; discriminate); exists (AFails FileDoesNotExistError), s; eexists; split; [reflexivity|]; split; [eapply r_list_no; eauto; [congruence|intros X; apply B in X; discriminate]|exact St]].
    + (* no archive, not opened *)
      destruct St as [W Sn]. rewrite H in Sn. cbn [now seen] in W, Sn. subst sn. rewrite D in W. subst w.
      exists (AFails BadZipFile), s, (mkView DJunk None). split; [|split; [apply r_list_junk|split; [exact D|now rewrite H]]].
      assert (O : open_zip None s = (Raise BadZipFile, s)) by (unfold open_zip, bind, close_zip; rewrite H; unfold zipfile_r; now rewrite D).
      unfold answered, zip_listdir. rewrite D, H. unfold bind. rewrite O. reflexivity.
    + destruct St as [W Sn]. rewrite H in Sn. cbn [now seen] in W, Sn. subst sn. rewrite D in W. subst w.
      set (s1 := fresh_h ms).
      assert (E : zip_listdir u s = zip_listdir u s1).
      { unfold zip_listdir. rewrite D, H. cbn [s1 fresh_h z_disk z_handle]. assert (O : open_zip None s = (Ok tt, s1)) by (unfold open_zip, bind, close_zip; rewrite H; unfold zipfile_r; now rewrite D).
        unfold bind. rewrite O. reflexivity. }
      rewrite E. assert (ND : z_disk s1 <> DNone) by discriminate.
      destruct (a_dirb_dec ms (u_path u)) as [b B]. destruct b.
      * destruct (listed_now s1 _ u eq_refl ND (proj1 B eq_refl)) as (l & E1 & So & Hl). rewrite E1.
        exists (ANames l), s1. eexists. split; [reflexivity|]. split; [eapply (r_list _ _ ms); eauto; try discriminate; now apply B|]. split; cbn; auto.
      * rewrite (listed_no s1 _ u eq_refl ND) by (intros X; apply B in X; discriminate).
        exists (AFails FileDoesNotExistError), s1. eexists. split; [reflexivity|]. split; [eapply (r_list_no _ _ ms); eauto; try discriminate; intros X; apply B in X; discriminate|]. split; cbn; auto.
  - exists ADone. eexists. exists (mkView d (seen v)). split; [reflexivity|]. split; [constructor|]. destruct St as [_ H]. split; [reflexivity|exact H].
Qed.

(** ** C118 *)
Theorem C118_rules l d : Forall fit l -> let (al, s) := do_uses l (zip_init d) in exists v, rules (mkView d None) l al v /\ now v = z_disk s.
Proof.
  intros F. assert (St : stands (zip_init d) (mkView d None)) by (now split). revert St. generalize (zip_init d), (mkView d None).
  induction F as [|x l Fx F IH]; intros s v St; cbn [do_uses].
  - exists v. split; [constructor|]. now destruct St.
  - destruct (use_rule s v x St Fx) as (a & s1 & v1 & -> & R & St1). specialize (IH s1 v1 St1).
    destruct (do_uses l s1) as [al s2]. destruct IH as (v2 & R2 & E). exists v2. split; [econstructor; eauto|exact E].
Qed.
Print Assumptions C118_rules.

Lemma sorted_same l1 l2 : StronglySorted slt l1 -> StronglySorted slt l2 -> (forall x, In x l1 <-> In x l2) -> l1 = l2.
Proof. apply sorted_ext. Qed.
Lemma bool_same b b' P : (b = true <-> P) -> (b' = true <-> P) -> b = b'.
Proof. destruct b, b'; intuition congruence. Qed.
Lemma stored_det ms p d d' : stored ms p d -> stored ms p d' -> d = d'.
Proof. intros A B. apply lookup_stored in A, B. congruence. Qed.
Lemma stored_member ms p d : stored ms p d -> is_member ms p.
Proof. intros (l1 & l2 & -> & _). unfold is_member. rewrite map_app. apply in_or_app. right. now left. Qed.
(** The rules leave no choice. *)
Theorem C118_determined v x a v' a' v'' : rule v x a v' -> rule v x a' v'' -> a = a' /\ v' = v''.
Proof.
  assert (RW : forall o, reads o -> writes o -> False) by (intros o R (m & -> & N & _); contradiction).
  assert (RA : forall o, reads o -> appends o -> False) by (intros o R (m & -> & N & _); contradiction).
  assert (RN : forall o, reads o -> neither o -> False) by (intros o R (m & -> & N & _); contradiction).
  assert (WA : forall o, writes o -> appends o -> False) by (intros o (m & -> & N & W) (m' & E & _ & W' & _); injection E as <-; contradiction).
  assert (WN : forall o, writes o -> neither o -> False) by (intros o (m & -> & N & W) (m' & E & _ & W' & _); injection E as <-; contradiction).
  assert (AN : forall o, appends o -> neither o -> False) by (intros o (m & -> & N & W & A) (m' & E & _ & _ & A'); injection E as <-; contradiction).
  assert (Sn : forall w sn ms ms', sn = Some ms \/ sn = None /\ w = DZip ms -> sn = Some ms' \/ sn = None /\ w = DZip ms' -> ms = ms') by (intros; intuition congruence).
  intros R R'. destruct R; inversion R'; subst; cbn [In] in *;
    repeat match goal with
    | H : _ \/ _ \/ _ \/ False |- _ => destruct H as [H|[H|[H|[]]]]
    | H : False |- _ => destruct H
    end; try discriminate;
    repeat match goal with
    | H : DZip _ = DZip _ |- _ => injection H as H; subst
    | H : UExists _ = UExists _ |- _ => injection H as H; subst
    | H : UIsdir _ = UIsdir _ |- _ => injection H as H; subst
    | H : UIsfile _ = UIsfile _ |- _ => injection H as H; subst
    end;
    try (exfalso; solve [eauto 3]); try contradiction; try (split; reflexivity).
  all: try (match goal with H : stored _ _ ?x, H' : stored _ _ ?y |- _ => rewrite (stored_det _ _ _ _ H H'); split; reflexivity end).
  all: try (match goal with H : stored _ _ _ |- _ => apply stored_member in H; contradiction end).
  all: try (match goal with H : name_of ?p ?n, H' : name_of ?p ?n' |- _ => rewrite (name_det p n n' H H'); split; reflexivity end).
  all: try (match goal with H : ?b = true <-> _, H' : ?b' = true <-> _ |- _ => rewrite (bool_same b b' _ H H'); split; reflexivity end).
  all: try (match goal with H : _ \/ _ /\ _ = DZip ?a, H' : _ \/ _ /\ _ = DZip ?b |- _ => pose proof (Sn _ _ _ _ H H'); subst end).
  all: try contradiction.
  all: try (exfalso; intuition congruence).
  - match goal with H : name_of ?p ?n, H' : name_of ?p ?n' |- _ => pose proof (name_det p n n' H H'); subst end. now split.
  - rewrite (sorted_same l l0); auto. intros x. match goal with H : forall x, In x l <-> _, H' : forall x, In x l0 <-> _ |- _ => now rewrite H, H' end.
  - now split.
Qed.
Print Assumptions C118_determined.
(** An archive others replace, damage and remove between the uses of one connection. *)
Example C118_witness :
  let l := [UExists (ZU ["foo.txt"]%string); UListdir (ZU []); UIsfile (ZU ["foo.txt"]%string); UOther (DZip [(lit "/new", lit "n")]);
            UIsfile (ZU ["foo.txt"]%string); UListdir (ZU []); UWith (ZU ["new"]%string) None []; UIsfile (ZU ["foo.txt"]%string);
            UOther DJunk; UWith (ZU ["new"]%string) None []; UWith (ZU ["x"]%string) (Some (lit "wb")) (lit "1"); UListdir (ZU []); UOther DNone; UListdir (ZU []);
            UWith (ZU ["x"]%string) (Some (lit "a")) []] in
  Forall fit l /\
  do_uses l (zip_init (DZip arch)) =
    ([AFails AttributeError; ANames [lit "dir1"; lit "dir2"; lit "foo.txt"]; ABool true; ADone; ABool true; ANames [lit "dir1"; lit "dir2"; lit "foo.txt"];
      ABytes (lit "n"); ABool false; ADone; AFails BadZipFile; ADone; ANames [lit "x"]; ADone; ANames []; AFails UnboundLocalError],
     mkZ DJunk (Some (mkZH false [(lit "/x", lit "1")] false false))).
Proof. split; [repeat constructor|vm_compute; reflexivity]. Qed.

(** ** C119 *)
Lemma stands_after l d : Forall fit l -> exists v, stands (snd (do_uses l (zip_init d))) v.
Proof.
  intros F. assert (St : stands (zip_init d) (mkView d None)) by (now split). revert St. generalize (zip_init d), (mkView d None).
  induction F as [|x l Fx F IH]; intros s v St; cbn [do_uses]; [eauto|].
  destruct (use_rule s v x St Fx) as (a & s1 & v1 & -> & R & St1). specialize (IH s1 v1 St1). now destruct (do_uses l s1).
Qed.
(** Reading a member opens the file: whatever others did, it gives what is stored now. *)
Theorem C119_read l d0 u o d ms : Forall fit l -> reads o -> text_ok (u_path u) -> let s := snd (do_uses l (zip_init d0)) in z_disk s = DZip ms ->
  (forall x, fst (do_use (UWith u o d) s) = ABytes x <-> stored ms (u_path u) x) /\
  (fst (do_use (UWith u o d) s) = AFails FileDoesNotExistError <-> ~ is_member ms (u_path u)).
Proof.
  intros F R T s D. destruct (stands_after l d0 F) as [v St]. fold s in St. destruct (use_rule s v (UWith u o d) St T) as (a & s1 & v1 & E & Ru & _).
  rewrite E. cbn [fst]. destruct St as [W _]. rewrite D in W. destruct v as [w sn]. cbn [now] in W. subst w.
  assert (K : forall a' v', rule (mkView (DZip ms) sn) (UWith u o d) a' v' -> a = a') by (intros a' v' Ru'; now destruct (C118_determined _ _ _ _ _ _ Ru Ru')).
  split.
  - intros x. split.
    + intros ->. inversion Ru; subst; congruence.
    + intros S. eapply K. eapply r_read; eauto.
  - split.
    + intros ->. inversion Ru; subst; congruence.
    + intros N. eapply K. eapply r_read_no; eauto.
Qed.
Print Assumptions C119_read.
(** Until others change the file again, the tests and the listings that follow are about the file as it is. *)
Theorem C119_opened_partial l d0 u o d ms u' : Forall fit l -> text_ok (u_path u) -> (reads o \/ writes o) -> u_path u' <> root ->
  let s := snd (do_use (UWith u o d) (snd (do_uses l (zip_init d0)))) in z_disk s = DZip ms ->
  (exists b, do_use (UIsfile u') s = (ABool b, s) /\ (b = true <-> is_member ms (u_path u'))) /\
  (exists b, do_use (UIsdir u') s = (ABool b, s) /\ (b = true <-> a_dir ms (u_path u'))) /\
  (exists b, do_use (UExists u') s = (ABool b, s) /\ (b = true <-> is_member ms (u_path u') \/ a_dir ms (u_path u'))) /\
  (a_dir ms (u_path u') -> exists names, do_use (UListdir u') s = (ANames names, s) /\ StronglySorted slt names /\
     forall x, In x names <-> exists m, is_member ms m /\ shows (u_path u') m x) /\
  (~ a_dir ms (u_path u') -> do_use (UListdir u') s = (AFails FileDoesNotExistError, s)).
Proof.
  intros F T RW N s D. destruct (stands_after l d0 F) as [v St]. destruct (use_rule _ v (UWith u o d) St T) as (a & s1 & v1 & E & Ru & St1).
  assert (s1 = s) as -> by (unfold s; now rewrite E). clear E. destruct St1 as [W Sn]. rewrite D in W.
  assert (Some ms = seen v1) as S.
  { destruct v1 as [w sn]. cbn [now] in W. subst w. inversion Ru; subst; cbn [seen]; try congruence.
    all: try (match goal with H : In (UWith _ _ _) _ |- _ => cbn in H; intuition discriminate end).
    all: exfalso.
    - match goal with H : appends _ |- _ => destruct H as (m & -> & X & Y & _) end. destruct RW as [R|(m' & [= <-] & _ & R)]; contradiction.
    - match goal with H : neither _ |- _ => destruct H as (m & -> & X & Y & _) end. destruct RW as [R|(m' & [= <-] & _ & R)]; contradiction. }
  destruct (z_handle s) as [h|] eqn:H; [|congruence]. destruct Sn as [Sn _]. assert (zh_members h = ms) as M by congruence.
  assert (ND : z_disk s <> DNone) by congruence. cbn [do_use].
  destruct (isfile_run s h H u' N) as (b1 & E1 & B1), (isdir_run s h H u') as (b2 & E2 & B2), (exists_run s h H u') as (b3 & E3 & B3).
  rewrite E1, E2, E3. rewrite M in *. repeat split; try (exists b1; split; [reflexivity|exact B1]); try (exists b2; split; [reflexivity|exact B2]).
  - exists b3. split; [reflexivity|]. rewrite B3. unfold a_dir. tauto.
  - intros A. rewrite <- M in A. destruct (listed_now s h u' H ND A) as (names & E & So & Hn). rewrite E. exists names. rewrite M in Hn. auto.
  - intros A. rewrite <- M in A. now rewrite (listed_no s h u' H ND A).
Qed.
Print Assumptions C119_opened_partial.
Example C119_witness : let s := snd (do_uses [UListdir (ZU []); UOther (DZip [(lit "/a/b", lit "1")])] (zip_init (DZip arch))) in
  Forall fit [UListdir (ZU []); UOther (DZip [(lit "/a/b", lit "1")])] /\ z_disk s = DZip [(lit "/a/b", lit "1")] /\
  do_uses [UWith (ZU ["a"; "b"]%string) None []; UListdir (ZU ["a"]%string); UExists (ZU ["foo.txt"]%string)] s =
    ([ABytes (lit "1"); ANames [lit "b"]; ABool false], fresh_h [(lit "/a/b", lit "1")]).
Proof. split; [repeat constructor|]. split; vm_compute; reflexivity. Qed.

(** False of the code: once the archive has been opened, the tests and listdir answer from the members seen then,
    whatever others make of the file; only when the file is gone listdir gives the empty list. *)
Theorem C119_refuted ms w u b : u_path u <> root -> (b = true <-> is_member ms (u_path u)) ->
  fst (do_uses [UListdir (ZU []); UOther w; UIsfile u] (zip_init (DZip ms))) =
    [fst (do_use (UListdir (ZU [])) (zip_init (DZip ms))); ADone; ABool b].
Proof.
  intros N B. cbn [do_uses].
  destruct (use_rule (zip_init (DZip ms)) (mkView (DZip ms) None) (UListdir (ZU []))) as (a & s1 & v1 & E & R & St); [now split|exact Logic.I|].
  rewrite E. cbn [fst]. assert (S : seen v1 = Some ms).
  { inversion R; subst; cbn [seen]; match goal with H : _ \/ _ /\ DZip _ = DZip _ |- _ => destruct H as [H|[_ H]]; congruence | H : In (UListdir _) _ |- _ => cbn in H; intuition discriminate end. }
  set (s2 := mkZ w (z_handle s1)). change (do_use (UOther w) s1) with (ADone, s2). cbv iota.
  destruct (use_rule s2 (mkView w (Some ms)) (UIsfile u)) as (a3 & s3 & v3 & E3 & R3 & _); [|exact Logic.I|].
  { destruct St as [_ St]. split; [reflexivity|]. cbn [s2 z_handle seen]. now rewrite S in St. }
  rewrite E3. cbn [fst]. assert (a3 = ABool b) as ->; [|reflexivity].
  eapply (C118_determined _ _ a3 v3 (ABool b)); [exact R3|]. now apply r_isfile.
Qed.
Print Assumptions C119_refuted.
(** A member another connection has added is read but does not exist; the members of a removed archive do. *)
Example C119_refuted_witness :
  fst (do_uses [UListdir (ZU []); UOther (DZip (arch ++ [(lit "/new", lit "n")])); UExists (ZU ["new"]%string); UListdir (ZU []);
                UWith (ZU ["new"]%string) None []; UExists (ZU ["new"]%string)] (zip_init (DZip arch))) =
    [ANames [lit "dir1"; lit "dir2"; lit "foo.txt"]; ADone; ABool false; ANames [lit "dir1"; lit "dir2"; lit "foo.txt"]; ABytes (lit "n"); ABool true] /\
  fst (do_uses [UListdir (ZU []); UOther DNone; UExists (ZU ["foo.txt"]%string); UWith (ZU ["foo.txt"]%string) None []; UExists (ZU ["foo.txt"]%string);
                UListdir (ZU ["dir1"]%string)] (zip_init (DZip arch))) =
    [ANames [lit "dir1"; lit "dir2"; lit "foo.txt"]; ADone; ABool true; AFails (OSError ENOENT); ABool true; ANames []].
Proof. split; vm_compute; reflexivity. Qed.
