(** Theorems on the version of the package (C130-C136). *)
From Verif Require Import Str Exc Utf8 UriParse SpecUri SpecParse StrFacts UriFacts UriFacts2 ParseFacts2 Version SpecVersion VersionFacts VersionFacts2 VersionFacts3.
Require Import Lia.
Local Open Scope string_scope.
Local Open Scope list_scope.

(** ** C130: archives *)
Lemma expanded_run kw_names bdy : expanded kw_names bdy ->
  prefixb (lit "$Format") (strip_ws kw_names) = false /\ strip_p is_paren (strip_ws kw_names) = bdy.
Proof.
  intros (n & T & N & B). apply trimmed_strip in T. rewrite T. apply bared_strip in B. split; [|exact B].
  destruct (prefixb _ n) eqn:P; [|reflexivity]. apply prefixb_spec in P as [r ->]. now destruct (N r).
Qed.
Lemma archive_run names full date prefix bdy d : expanded names bdy -> dated date d ->
  git_versions_from_keywords (get_keywords names full date) prefix =
  Ok (Some match pick_ref prefix (sort_strs (tags_of bdy)) with
           | Some v => mkVers v (Some (strip_ws full)) (Some false) None (Some d)
           | None => mkVers (lit "0+unknown") (Some (strip_ws full)) (Some false) (Some (lit "no suitable tags")) None
           end).
Proof.
  intros X D. destruct (expanded_run _ _ X) as [E1 E2]. unfold git_versions_from_keywords.
  change (dget (lit "refnames") (get_keywords names full date)) with (Some names). change (dget (lit "date") (get_keywords names full date)) with (Some date).
  cbn iota. rewrite (dated_run _ _ D). cbn [rbind sure abind]. rewrite E1. fold is_paren.
  change (fun c : N => N.eqb c cLpar || N.eqb c cRpar) with is_paren. rewrite E2. fold (refs_of bdy). cbv zeta.
  change (get_item (lit "full") (get_keywords names full date)) with (@Ok str full).
  change (match map (skipn 5) (filter (prefixb (lit "tag: ")) (refs_of bdy)) with
          | [] => filter (existsb is_digit) (refs_of bdy)
          | _ => map (skipn 5) (filter (prefixb (lit "tag: ")) (refs_of bdy)) end) with (tags_of bdy).
  destruct (pick_ref prefix (sort_strs (tags_of bdy))); reflexivity.
Qed.
Theorem C130_release cfg names full date f bdy d v file m : expanded names bdy -> trimmed full f -> dated date d -> release (c_tag_prefix cfg) bdy v ->
  get_versions cfg (get_keywords names full date) file m = Ok (mkVers v (Some f) (Some false) None (Some d)).
Proof.
  intros X F D R. unfold get_versions. rewrite (archive_run _ _ _ _ _ _ X D). apply trimmed_strip in F. rewrite F.
  destruct (pick_ref _ _) as [w|] eqn:P.
  - apply picked in P. now rewrite (release_det _ _ _ _ R P).
  - destruct R as [R _]. now destruct (not_picked _ _ P v).
Qed.
Print Assumptions C130_release.
Theorem C130_none cfg names full date f bdy d file m : expanded names bdy -> trimmed full f -> dated date d -> (forall v, ~ fits (c_tag_prefix cfg) bdy v) ->
  get_versions cfg (get_keywords names full date) file m = Ok (mkVers (lit "0+unknown") (Some f) (Some false) (Some (lit "no suitable tags")) None).
Proof.
  intros X F D N. unfold get_versions. rewrite (archive_run _ _ _ _ _ _ X D). apply trimmed_strip in F. rewrite F.
  destruct (pick_ref _ _) as [w|] eqn:P; [|reflexivity]. apply picked in P as [P _]. now destruct (N w).
Qed.
Print Assumptions C130_none.
(** One of the two theorems applies to every list of names. *)
Theorem C130_either prefix bdy : (forall v, ~ fits prefix bdy v) \/ exists v, release prefix bdy v /\ forall w, release prefix bdy w -> w = v.
Proof.
  destruct (pick_ref prefix (sort_strs (tags_of bdy))) as [v|] eqn:P; [right|left; now apply not_picked].
  exists v. apply picked in P. split; [exact P|]. intros w W. exact (release_det _ _ _ _ W P).
Qed.
Print Assumptions C130_either.

Definition names1 : str := lit " (HEAD -> master, tag: 2.0rc1, tag: v1, tag: 2.0)".
Definition body1 : str := lit "HEAD -> master, tag: 2.0rc1, tag: v1, tag: 2.0".
Definition names2 : str := lit " (HEAD -> master, 2.x)".
Definition body2 : str := lit "HEAD -> master, 2.x".
Definition date1 : str := lit "2024-01-02 03:04:05 +0100".
Lemma dated1 : dated date1 (lit "2024-01-02T03:04:05+0100").
Proof.
  exists date1, date1. split; [split; [discriminate|]; split; [|now left]; intros c H; vm_compute in H; repeat (destruct H as [<-|H]; [vm_compute; intuition discriminate|]); destruct H|].
  split; [now apply trimmed_strip|]. change date1 with (lit "2024-01-02" ++ cSpace :: lit "03:04:05" ++ cSpace :: lit "+0100").
  apply (iso_two (lit "2024-01-02") (lit "03:04:05") (lit "+0100")); vm_compute; intuition discriminate.
Qed.
(** a line before it that ends in a carriage return *)
Lemma dated2 : dated (lit "gpg: x" ++ 13%N :: date1) (lit "2024-01-02T03:04:05+0100").
Proof.
  destruct dated1 as (l & w & (N & B & [<-|(a & c & K & E)]) & T & I).
  - exists date1, w. split; [split; [exact N|]; split; [exact B|]; right; exists (lit "gpg: x"), 13%N; split; [vm_compute; tauto|reflexivity]|]. now split.
  - exists l, w. split; [split; [exact N|]; split; [exact B|]; right; exists (lit "gpg: x" ++ 13%N :: a), c; split; [exact K|]; rewrite E, <- app_assoc; reflexivity|]. now split.
Qed.
Lemma expand names bdy : strip_p is_paren (strip_ws names) = bdy -> prefixb (lit "$Format") (strip_ws names) = false -> expanded names bdy.
Proof.
  intros E N. exists (strip_ws names). split; [now apply trimmed_strip|]. split; [|now apply bared_strip].
  intros r X. rewrite X, prefixb_app in N. discriminate N.
Qed.
Lemma release_by prefix bdy v : pick_ref prefix (sort_strs (tags_of bdy)) = Some v -> release prefix bdy v.
Proof. apply picked. Qed.
Example C130_witness : expanded names1 body1 /\ dated date1 (lit "2024-01-02T03:04:05+0100") /\ release [] body1 (lit "2.0") /\
  fits [] body1 (lit "2.0rc1") /\ ~ fits [] body1 (lit "v1") /\ expanded names2 body2 /\ release [] body2 (lit "2.x") /\
  forall v, ~ fits (lit "v") body2 v.
Proof.
  split; [now apply expand|]. split; [exact dated1|]. split; [now apply release_by|]. split.
  { split; [|exists 50%N, (lit ".0rc1"); split; [reflexivity|unfold digit; lia]]. apply tags_iff. vm_compute. auto. }
  split; [intros [_ (c & r & E & D)]; injection E as <- _; unfold digit in D; lia|]. split; [now apply expand|]. split; [now apply release_by|].
  now apply not_picked.
Qed.

(** ** C131: checkouts *)
Lemma ours_unexpanded prefix : git_versions_from_keywords unexpanded prefix = not_this.
Proof. reflexivity. Qed.
Theorem C131_checkout cfg st m t s file : checkout m (c_tag_prefix cfg) t -> c_style cfg = lit st -> rendered t st s ->
  get_versions cfg unexpanded (Some file) m = Ok (mkVers s (Some (t_full t)) (Some (t_dirty t)) None (Some (t_date t))).
Proof.
  intros Co St R. unfold get_versions. rewrite ours_unexpanded. unfold not_this. rewrite (pieces_run _ _ _ Co). cbn [abind]. rewrite St, (style_run _ _ _ R). reflexivity.
Qed.
Print Assumptions C131_checkout.
(** There is no other tree and no other style, except that pep440-pre needs a number after .post. *)
Theorem C131_styles cfg st m t file : checkout m (c_tag_prefix cfg) t -> c_style cfg = lit st -> In st the_styles ->
  (exists s, rendered t st s) \/ st = "pep440-pre"%string /\ odd_post t /\ get_versions cfg unexpanded (Some file) m = Raise ValueError.
Proof.
  intros Co St I. destruct (styles_all t st I) as [H|[-> O]]; [now left|right]. split; [reflexivity|]. split; [exact O|].
  unfold get_versions. rewrite ours_unexpanded. unfold not_this. rewrite (pieces_run _ _ _ Co). cbn [abind]. now rewrite St, (odd_run t O).
Qed.
Theorem C131_unknown cfg m t file : checkout m (c_tag_prefix cfg) t -> ~ In (c_style cfg) (map lit the_styles) ->
  get_versions cfg unexpanded (Some file) m = Raise ValueError.
Proof.
  intros Co St. unfold get_versions. rewrite ours_unexpanded. unfold not_this. rewrite (pieces_run _ _ _ Co). cbn [abind]. now rewrite (unstyled_run t _ St).
Qed.
Print Assumptions C131_styles.
Print Assumptions C131_unknown.
(** The style of the package *)
Theorem C131_package m t file : checkout m [] t ->
  package_version (lit "$Format:%d$") (lit "$Format:%H$") (lit "$Format:%ci$") (Some file) m =
  Ok (base t ++ opt (off_tag t) (lit ".post" ++ since t ++ opt (t_dirty t) (lit ".dev0") ++ sep t ++ lit "g" ++ t_hex t)).
Proof.
  intros Co. unfold package_version. fold unexpanded. rewrite (C131_checkout the_config "pep440-post" m t _ file Co eq_refl (re_post t)). reflexivity.
Qed.
Print Assumptions C131_package.
(** The tag is the version exactly when the files are those of the tag. *)
Theorem C131_exact m t g file : checkout m [] t -> t_tag t = Some g -> g <> [] ->
  (package_version (lit "$Format:%d$") (lit "$Format:%H$") (lit "$Format:%ci$") (Some file) m = Ok g <-> t_since t = 0%N /\ t_dirty t = false).
Proof.
  intros Co T N. rewrite (C131_package m t file Co). destruct g as [|c g]; [easy|]. unfold base, off_tag, tagged. rewrite T. cbn [negb orb]. split.
  - intros [= E]. rewrite <- (app_nil_r g) in E at 2. apply app_inv_head in E. destruct (N.eqb_spec (t_since t) 0) as [Z|Z]; [|discriminate E].
    destruct (t_dirty t); [discriminate E|now split].
  - intros [-> ->]. cbn. now rewrite app_nil_r.
Qed.
Print Assumptions C131_exact.
(** What git describes comes out again. *)
Theorem C131_describe cfg m t file : checkout m (c_tag_prefix cfg) t -> c_style cfg = lit "git-describe-long" -> (forall g, t_tag t = Some g -> g <> []) ->
  exists v, get_versions cfg unexpanded (Some file) m = Ok v /\ c_tag_prefix cfg ++ v_version v = match t_tag t with Some _ => [] | None => c_tag_prefix cfg end ++ description (c_tag_prefix cfg) t.
Proof.
  intros Co St T. eexists. split; [exact (C131_checkout cfg "git-describe-long" m t _ file Co St (re_long t))|]. cbn [v_version].
  unfold description, tagged, base. destruct (t_tag t) as [g|] eqn:E.
  - destruct g as [|c g]; [now destruct (T [] eq_refl)|]. unfold since. cbn [app]. rewrite <- !app_assoc. cbn [app]. rewrite <- !app_assoc. reflexivity.
  - reflexivity.
Qed.
Print Assumptions C131_describe.

Definition full1 : str := lit "0123456789abcdef0123456789abcdef01234567".
(** A repository: [tag] as git describes it, on a branch *)
Definition repo (describe : str) (branch : str) : machine := fun _ args =>
  let out s := Ran (s ++ [cNL]) 0 in
  if str_in (lit "--git-dir") args then out (lit ".git")
  else if str_in (lit "--tags") args then out describe
  else if str_in (lit "--abbrev-ref") args then out branch
  else if str_in (lit "--contains") args then out (lit "* (HEAD detached at 0123456)" ++ [cNL] ++ lit "  feature")
  else if str_in (lit "--count") args then out (lit "17")
  else if str_in (lit "show") args then out date1
  else out full1.

Lemma tight_by b : match b with [] => True | c :: _ => byte_space c = false end -> match rev b with [] => True | c :: _ => byte_space c = false end -> tight b.
Proof.
  intros H1 H2 c r [->| ->]; [exact H1|]. rewrite rev_app_distr in H2. exact H2.
Qed.
Lemma says_by m args b : m (lit "git") args = Ran (b ++ [cNL]) 0 -> match b with [] => True | c :: _ => byte_space c = false end ->
  match rev b with [] => True | c :: _ => byte_space c = false end -> forall out, utf8_decode b = Ok out -> says m args out.
Proof. intros E H1 H2 out D. exists b, [cNL]. split; [exact E|]. split; [now right|]. split; [now apply tight_by|exact D]. Qed.
Lemma unpadded_by s : match s with [] => True | c :: _ => is_space c = false end -> match rev s with [] => True | c :: _ => is_space c = false end -> unpadded_text s.
Proof. intros H1 H2 c r [->| ->]; [exact H1|]. rewrite rev_app_distr in H2. exact H2. Qed.
Definition tree1 : tree := mkTree full1 (Some (lit "1.2")) 3 (lit "0123456") true (Some (lit "master")) (lit "2024-01-02T03:04:05+0100").
Definition tree2 : tree := mkTree full1 None 17 (lit "0123456") false (Some (lit "feature")) (lit "2024-01-02T03:04:05+0100").
Lemma hex1 : hex_text (lit "0123456").
Proof. split; [discriminate|]. intros c H. left. unfold digit. vm_compute in H. repeat destruct H as [<-|H]; try lia; destruct H. Qed.
Ltac said b := eapply (says_by _ _ b); [vm_compute; reflexivity|vm_compute; exact I || reflexivity|vm_compute; exact I || reflexivity|vm_compute; reflexivity].
Lemma checkout1 : checkout (repo (lit "1.2-3-g0123456-dirty") (lit "master")) [] tree1.
Proof.
  constructor.
  - exists (lit ".git"). said (lit ".git").
  - intros g [= <-]. split; [vm_compute; intuition discriminate|]. split; [discriminate|]. now apply unpadded_by.
  - exact hex1.
  - said (lit "1.2-3-g0123456-dirty").
  - split; [now apply unpadded_by|]. said full1.
  - discriminate.
  - discriminate.
  - apply ob_named; [now apply unpadded_by|discriminate|]. said (lit "master").
  - exists date1, date1. split; [said date1|]. split; [now apply trimmed_strip|exact dated1].
Qed.
Lemma checkout2 : checkout (repo (lit "0123456") (lit "HEAD")) [] tree2.
Proof.
  constructor.
  - exists (lit ".git"). said (lit ".git").
  - discriminate.
  - exact hex1.
  - said (lit "0123456").
  - split; [now apply unpadded_by|]. said full1.
  - reflexivity.
  - intros _. said (lit "17").
  - apply (ob_detached _ (lit "* (HEAD detached at 0123456)") [lit "feature"]).
    + said (lit "HEAD").
    + vm_compute. intuition.
    + vm_compute. intuition discriminate.
    + intros n [<-|[]]. vm_compute. intuition discriminate.
    + said (lit "* (HEAD detached at 0123456)" ++ [cNL] ++ lit "  feature").
    + vm_compute. reflexivity.
  - exists date1, date1. split; [said date1|]. split; [now apply trimmed_strip|exact dated1].
Qed.
Example C131_witness : checkout (repo (lit "1.2-3-g0123456-dirty") (lit "master")) [] tree1 /\ checkout (repo (lit "0123456") (lit "HEAD")) [] tree2 /\
  rendered tree1 "pep440-post" (lit "1.2.post3.dev0+g0123456") /\ rendered tree1 "pep440-branch" (lit "1.2+3.g0123456.dirty") /\
  rendered tree2 "pep440" (lit "0+untagged.17.g0123456") /\ rendered tree2 "pep440-post-branch" (lit "0.post17.dev0+g0123456") /\
  package_version (lit "$Format:%d$") (lit "$Format:%H$") (lit "$Format:%ci$") (Some (lit "/x")) (repo (lit "1.2-3-g0123456-dirty") (lit "master")) = Ok (lit "1.2.post3.dev0+g0123456").
Proof.
  split; [exact checkout1|]. split; [exact checkout2|]. split; [exact (re_post tree1)|]. split; [exact (re_branch tree1)|]. split; [exact (re_pep440 tree2)|].
  split; [exact (re_post_branch tree2)|]. rewrite (C131_package _ _ _ checkout1). reflexivity.
Qed.
(** Three commits after the tag 1.2.post1rc, with the style pep440-pre *)
Definition tree_odd : tree := mkTree full1 (Some (lit "1.2.post1rc")) 3 (lit "0123456") true (Some (lit "master")) (lit "2024-01-02T03:04:05+0100").
Lemma checkout_odd : checkout (repo (lit "1.2.post1rc-3-g0123456-dirty") (lit "master")) [] tree_odd.
Proof.
  constructor.
  - exists (lit ".git"). said (lit ".git").
  - intros g [= <-]. split; [vm_compute; intuition discriminate|]. split; [discriminate|]. now apply unpadded_by.
  - exact hex1.
  - said (lit "1.2.post1rc-3-g0123456-dirty").
  - split; [now apply unpadded_by|]. said full1.
  - discriminate.
  - discriminate.
  - apply ob_named; [now apply unpadded_by|discriminate|]. said (lit "master").
  - exists date1, date1. split; [said date1|]. split; [now apply trimmed_strip|exact dated1].
Qed.
Example C131_styles_witness : odd_post tree_odd /\
  get_versions (mkCfg (lit "pep440-pre") [] [] (lit "x")) unexpanded (Some (lit "/x")) (repo (lit "1.2.post1rc-3-g0123456-dirty") (lit "master")) = Raise ValueError /\
  get_versions (mkCfg (lit "none") [] [] (lit "x")) unexpanded (Some (lit "/x")) (repo (lit "1.2.post1rc-3-g0123456-dirty") (lit "master")) = Raise ValueError.
Proof.
  assert (O : forall st, In st ["pep440-pre"%string] -> get_versions (mkCfg (lit st) [] [] (lit "x")) unexpanded (Some (lit "/x")) (repo (lit "1.2.post1rc-3-g0123456-dirty") (lit "master")) = Raise ValueError ->
    odd_post tree_odd).
  { intros st [<-|[]] E. destruct (C131_styles (mkCfg (lit "pep440-pre") [] [] (lit "x")) "pep440-pre" _ _ (lit "/x") checkout_odd eq_refl) as [[s R]|(_ & H & _)]; [do 5 right; now left| |exact H].
    rewrite (C131_checkout (mkCfg (lit "pep440-pre") [] [] (lit "x")) _ _ _ _ (lit "/x") checkout_odd eq_refl R) in E. discriminate E. }
  split; [|split]; [|vm_compute; reflexivity|].
  - apply (O "pep440-pre"%string); [now left|vm_compute; reflexivity].
  - apply (C131_unknown (mkCfg (lit "none") [] [] (lit "x")) _ tree_odd _ checkout_odd). vm_compute. intros H. repeat destruct H as [H|H]; try discriminate H. exact H.
Qed.
(** ** C132: same versions *)
Lemma post_text_inj t1 t2 : plain_tag (base t1) -> plain_tag (base t2) ->
  base t1 ++ opt (off_tag t1) (lit ".post" ++ since t1 ++ opt (t_dirty t1) (lit ".dev0") ++ sep t1 ++ lit "g" ++ t_hex t1) =
  base t2 ++ opt (off_tag t2) (lit ".post" ++ since t2 ++ opt (t_dirty t2) (lit ".dev0") ++ sep t2 ++ lit "g" ++ t_hex t2) ->
  base t1 = base t2 /\ off_tag t1 = off_tag t2 /\ (off_tag t1 = true -> t_since t1 = t_since t2 /\ t_dirty t1 = t_dirty t2 /\ t_hex t1 = t_hex t2).
Proof.
  intros [P1 N1] [P2 N2] E. assert (S1 : sep t1 = lit "+") by (unfold sep; destruct (in_dec _ _ _); [easy|reflexivity]).
  assert (S2 : sep t2 = lit "+") by (unfold sep; destruct (in_dec _ _ _); [easy|reflexivity]). rewrite S1, S2 in E.
  destruct (off_tag t1), (off_tag t2); cbn [opt] in E; rewrite ?app_nil_r in E.
  - pose proof (f_equal (split_str 0 (lit ".post")) E) as S. rewrite !split_post in S by assumption. injection S as B _. rewrite B in E.
    apply app_inv_head in E. apply app_inv_head in E. split; [exact B|]. split; [reflexivity|]. intros _.
    rewrite !(app_assoc (since _)) in E.
    assert (D : forall t, ~ In cPlus (since t ++ opt (t_dirty t) (lit ".dev0"))).
    { intros t. rewrite in_app_iff. intros [I|I]; [revert I; apply decimal_notin; unfold cPlus; lia|]. destruct (t_dirty t); [vm_compute in I; intuition discriminate|destruct I]. }
    pose proof (f_equal (cut_first cPlus) E) as C. change (lit "+" ++ lit "g" ++ t_hex t1) with (cPlus :: lit "g" ++ t_hex t1) in C.
    change (lit "+" ++ lit "g" ++ t_hex t2) with (cPlus :: lit "g" ++ t_hex t2) in C. rewrite !cut_first_app in C by apply D. injection C as C1 C2.
    assert (Sp : forall t, span is_digit (since t ++ opt (t_dirty t) (lit ".dev0")) = (since t, opt (t_dirty t) (lit ".dev0"))).
    { intros t. apply span_app; [apply decimal_digits|]. now destruct (t_dirty t). }
    pose proof (f_equal (span is_digit) C1) as X. rewrite !Sp in X. injection X as X1 X2. split; [|split; [|exact C2]].
    + apply (f_equal py_int) in X1. unfold since in X1. rewrite !py_int_decimal in X1. injection X1 as X1. lia.
    + destruct (t_dirty t1), (t_dirty t2); auto; discriminate X2.
  - now destruct (N2 _ _ (eq_sym E)).
  - now destruct (N1 _ _ E).
  - split; [exact E|]. split; [reflexivity|discriminate].
Qed.
Theorem C132_same_partial m1 t1 f1 m2 t2 f2 v : checkout m1 [] t1 -> checkout m2 [] t2 -> plain_tag (base t1) -> plain_tag (base t2) ->
  package_version (lit "$Format:%d$") (lit "$Format:%H$") (lit "$Format:%ci$") (Some f1) m1 = Ok v ->
  package_version (lit "$Format:%d$") (lit "$Format:%H$") (lit "$Format:%ci$") (Some f2) m2 = Ok v ->
  base t1 = base t2 /\ t_since t1 = t_since t2 /\ t_dirty t1 = t_dirty t2 /\ (off_tag t1 = true -> t_hex t1 = t_hex t2).
Proof.
  intros C1 C2 P1 P2 V1 V2. rewrite (C131_package _ _ _ C1) in V1. rewrite (C131_package _ _ _ C2) in V2. rewrite <- V2 in V1. injection V1 as E.
  destruct (post_text_inj t1 t2 P1 P2 E) as (B & O & R). split; [exact B|]. destruct (off_tag t1) eqn:O1.
  - destruct (R eq_refl) as (R1 & R2 & R3). auto.
  - unfold off_tag in O, O1. symmetry in O. apply orb_false_iff in O as [O D2]. apply orb_false_iff in O as [_ Z2].
    apply orb_false_iff in O1 as [O1 D1]. apply orb_false_iff in O1 as [_ Z1]. apply negb_false_iff, N.eqb_eq in Z1, Z2.
    split; [congruence|]. split; [congruence|discriminate].
Qed.
Print Assumptions C132_same_partial.
Definition tree3 : tree := mkTree full1 (Some (lit "1.2.post3+g0123456")) 0 (lit "abc") false (Some (lit "master")) (lit "2024-01-02T03:04:05+0100").
Definition tree4 : tree := mkTree full1 (Some (lit "1.2")) 3 (lit "0123456") false (Some (lit "master")) (lit "2024-01-02T03:04:05+0100").
Lemma hexabc : hex_text (lit "abc").
Proof. split; [discriminate|]. intros c H. right. vm_compute in H. repeat destruct H as [<-|H]; try lia; destruct H. Qed.
Lemma tagged_checkout d g n h dirty : utf8_decode d = Ok d -> d = description [] (mkTree full1 (Some g) n h dirty (Some (lit "master")) (lit "2024-01-02T03:04:05+0100")) ->
  ~ In cNL g -> g <> [] -> unpadded_text g -> hex_text h ->
  match d with [] => True | c :: _ => byte_space c = false end -> match rev d with [] => True | c :: _ => byte_space c = false end ->
  checkout (repo d (lit "master")) [] (mkTree full1 (Some g) n h dirty (Some (lit "master")) (lit "2024-01-02T03:04:05+0100")).
Proof.
  intros Dd Ed Ng Zg Ug Hh B1 B2. constructor.
  - exists (lit ".git"). said (lit ".git").
  - intros g' [= <-]. now repeat split.
  - exact Hh.
  - rewrite <- Ed. now apply (says_by _ _ d).
  - split; [now apply unpadded_by|]. said full1.
  - discriminate.
  - discriminate.
  - apply ob_named; [now apply unpadded_by|discriminate|]. said (lit "master").
  - exists date1, date1. split; [said date1|]. split; [now apply trimmed_strip|exact dated1].
Qed.
Theorem C132_refuted : exists m1 m2 v, checkout m1 [] tree3 /\ checkout m2 [] tree4 /\
  package_version (lit "$Format:%d$") (lit "$Format:%H$") (lit "$Format:%ci$") (Some (lit "/x")) m1 = Ok v /\
  package_version (lit "$Format:%d$") (lit "$Format:%H$") (lit "$Format:%ci$") (Some (lit "/x")) m2 = Ok v /\ t_hex tree3 <> t_hex tree4.
Proof.
  assert (C1 : checkout (repo (lit "1.2.post3+g0123456-0-gabc") (lit "master")) [] tree3).
  { apply tagged_checkout; try reflexivity; [vm_compute; intuition discriminate|discriminate|now apply unpadded_by|exact hexabc]. }
  assert (C2 : checkout (repo (lit "1.2-3-g0123456") (lit "master")) [] tree4).
  { apply tagged_checkout; try reflexivity; [vm_compute; intuition discriminate|discriminate|now apply unpadded_by|exact hex1]. }
  do 2 eexists. exists (lit "1.2.post3+g0123456"). split; [exact C1|]. split; [exact C2|].
  rewrite (C131_package _ _ (lit "/x") C1), (C131_package _ _ (lit "/x") C2). repeat split. discriminate.
Qed.
Print Assumptions C132_refuted.
Example C132_witness : plain_tag (base tree1) /\ plain_tag (base tree2) /\ off_tag tree1 = true /\ t_hex tree1 = lit "0123456".
Proof.
  assert (N : forall s, contains (lit ".post") s = false -> forall a b, s <> a ++ lit ".post" ++ b).
  { intros s C a b ->. induction a as [|c a IH]; [destruct b; discriminate C|]. cbn [app contains] in C. apply orb_false_iff in C as [_ C]. auto. }
  split; [split; [vm_compute; intuition discriminate|now apply N]|]. split; [split; [vm_compute; intuition discriminate|now apply N]|]. split; reflexivity.
Qed.

(** ** C133: without git *)
Lemma no_git_run m prefix : no_git m -> git_pieces_from_vcs m prefix = not_this.
Proof.
  unfold no_git, git_pieces_from_vcs, GITS. cbn [run_command]. destruct (m _ _) as [| |out rc]; [reflexivity|reflexivity|].
  intros [N [s D]]. rewrite D. cbn [rbind sure abind is_rc0]. apply Z.eqb_neq in N. now rewrite N.
Qed.
Lemma abs_snoc l x : abs_text (l ++ [x]) = abs_text l ++ cSlash :: x.
Proof. unfold abs_text. rewrite flat_map_app. cbn. now rewrite app_nil_r. Qed.
Ltac assoc := repeat progress (rewrite <- ?app_assoc; cbn [app]); reflexivity.
Definition root_text (l : list str) : str := match l with [] => [cSlash] | _ => abs_text l end.
Lemma abs_last l x : ~ In cSlash x -> os_basename (abs_text (l ++ [x])) = x.
Proof. intros N. rewrite abs_snoc. unfold os_basename. now rewrite cut_last_app. Qed.
Lemma abs_up l x : Forall dir_text l -> ~ In cSlash x -> os_dirname (abs_text (l ++ [x])) = root_text l.
Proof.
  intros F N. rewrite abs_snoc. unfold os_dirname. rewrite cut_last_app by exact N. destruct l as [|y l] using rev_ind; [reflexivity|]. clear IHl.
  apply Forall_app in F as [_ F]. inversion F as [|? ? [Ny Sy] _]; subst. replace (root_text (l ++ [y])) with (abs_text (l ++ [y])) by (destruct l; reflexivity).
  rewrite abs_snoc. destruct (exists_last Ny) as (r & c & ->). assert (Nc : c <> cSlash) by (intros ->; apply Sy, in_or_app; right; now left).
  replace ((abs_text l ++ cSlash :: r ++ [c]) ++ [cSlash]) with ((abs_text l ++ cSlash :: r) ++ [c] ++ [cSlash]) by assoc.
  rewrite forallb_app. cbn [forallb app]. rewrite (proj2 (N.eqb_neq cSlash c)) by auto. cbn [andb]. rewrite andb_false_r.
  replace ((abs_text l ++ cSlash :: r) ++ [c; cSlash]) with ((abs_text l ++ cSlash :: r ++ [c]) ++ [cSlash]) by assoc.
  apply rstrip_app; [reflexivity|]. replace (abs_text l ++ cSlash :: r ++ [c]) with ((abs_text l ++ cSlash :: r) ++ [c]) by assoc.
  rewrite rev_app_distr. change (N.eqb cSlash c = false). apply N.eqb_neq. auto.
Qed.
Lemma root_up l x : Forall dir_text (l ++ [x]) -> os_dirname (root_text (l ++ [x])) = root_text l.
Proof.
  intros F. apply Forall_app in F as [F1 F2]. inversion F2 as [|? ? [_ S] _]; subst. replace (root_text (l ++ [x])) with (abs_text (l ++ [x])) by (destruct l; reflexivity).
  now apply abs_up.
Qed.
Lemma root_name l x : dir_text x -> os_basename (root_text (l ++ [x])) = x.
Proof. intros [_ S]. replace (root_text (l ++ [x])) with (abs_text (l ++ [x])) by (destruct l; reflexivity). now apply abs_last. Qed.
Lemma file_root names : Forall dir_text names ->
  fold_left (fun r _ => os_dirname r) (split_on cSlash (c_source the_config)) (version_file names) = root_text names.
Proof.
  intros F. change (split_on cSlash (c_source the_config)) with (map lit ["abl"; "vpath"; "base"; "_version.py"]). unfold version_file. cbn [map fold_left].
  assert (D : forall s, In s ["abl"; "vpath"; "base"; "_version.py"] -> dir_text (lit s)).
  { intros s H. cbn in H. repeat destruct H as [<-|H]; try (split; [discriminate|vm_compute; intuition discriminate]); destruct H. }
  change (names ++ [lit "abl"; lit "vpath"; lit "base"; lit "_version.py"]) with (names ++ [lit "abl"] ++ [lit "vpath"] ++ [lit "base"] ++ [lit "_version.py"]).
  rewrite !app_assoc. assert (F1 : Forall dir_text (names ++ [lit "abl"])) by (apply Forall_app; split; [exact F|]; constructor; [apply D; cbn; auto|constructor]).
  assert (F2 : Forall dir_text ((names ++ [lit "abl"]) ++ [lit "vpath"])) by (apply Forall_app; split; [exact F1|]; constructor; [apply D; cbn; auto|constructor]).
  assert (F3 : Forall dir_text (((names ++ [lit "abl"]) ++ [lit "vpath"]) ++ [lit "base"])) by (apply Forall_app; split; [exact F2|]; constructor; [apply D; cbn; auto|constructor]).
  rewrite abs_up; [|exact F3|apply D; cbn; auto 10]. rewrite !root_up by assumption. reflexivity.
Qed.
Lemma loop_skip n prefix l x : dir_text x -> ~ begins prefix x -> Forall dir_text l -> parentdir_loop (S n) prefix (root_text (l ++ [x])) = parentdir_loop n prefix (root_text l).
Proof.
  intros D N F. cbn [parentdir_loop]. rewrite root_name by exact D. destruct (prefixb prefix x) eqn:P; [apply prefixb_spec in P; now destruct N|].
  rewrite root_up; [reflexivity|]. apply Forall_app. split; [exact F|]. now constructor.
Qed.
Lemma loop_top n : parentdir_loop n (lit "abl.vpath") [cSlash] = not_this.
Proof. induction n as [|n IH]; [reflexivity|]. exact IH. Qed.
Lemma unpacked_run names m : Forall dir_text names -> no_git m ->
  get_versions the_config unexpanded (Some (version_file names)) m =
  match parentdir_loop 3 (lit "abl.vpath") (root_text names) with
  | Raise e => Raise e
  | Ok (Some v) => Ok v
  | Ok None => Ok (mkVers (lit "0+unknown") None None (Some (lit "unable to compute version")) None)
  end.
Proof.
  intros F G. unfold get_versions. rewrite ours_unexpanded. unfold not_this. rewrite (no_git_run m _ G), (file_root names F). reflexivity.
Qed.
Theorem C133_found outer inner v m : Forall dir_text (outer ++ (lit "abl.vpath" ++ v) :: inner) -> length inner <= 2 -> Forall (fun n => ~ begins (lit "abl.vpath") n) inner -> no_git m ->
  get_versions the_config unexpanded (Some (version_file (outer ++ (lit "abl.vpath" ++ v) :: inner))) m = Ok (mkVers v None (Some false) None None).
Proof.
  intros F L N G. rewrite (unpacked_run _ _ F G).
  assert (Fd : forall n, parentdir_loop (S n) (lit "abl.vpath") (root_text (outer ++ [lit "abl.vpath" ++ v])) = Ok (Some (mkVers v None (Some false) None None))).
  { intros n. cbn [parentdir_loop]. apply Forall_app in F as [_ F]. inversion F; subst. rewrite root_name by assumption. rewrite prefixb_app, skipn_app, skipn_all, Nat.sub_diag. reflexivity. }
  replace (outer ++ (lit "abl.vpath" ++ v) :: inner) with ((outer ++ [lit "abl.vpath" ++ v]) ++ inner) in * by (rewrite <- app_assoc; reflexivity).
  destruct inner as [|x [|y [|z w]]]; [rewrite app_nil_r; now rewrite Fd| | |cbn in L; lia].
  - apply Forall_app in F as [F1 F2]. inversion F2; inversion N; subst. rewrite loop_skip by assumption. now rewrite Fd.
  - replace ((outer ++ [lit "abl.vpath" ++ v]) ++ [x; y]) with (((outer ++ [lit "abl.vpath" ++ v]) ++ [x]) ++ [y]) in * by (rewrite <- app_assoc; reflexivity).
    apply Forall_app in F as [F1 F2]. inversion F2; inversion N as [|? ? N1 N2]; inversion N2; subst. rewrite loop_skip by assumption.
    apply Forall_app in F1 as [F1 F3]. inversion F3; subst. rewrite loop_skip by assumption. now rewrite Fd.
Qed.
Print Assumptions C133_found.
Theorem C133_unknown names m : Forall dir_text names -> (forall outer n inner, names = outer ++ n :: inner -> length inner <= 2 -> ~ begins (lit "abl.vpath") n) -> no_git m ->
  get_versions the_config unexpanded (Some (version_file names)) m = Ok (mkVers (lit "0+unknown") None None (Some (lit "unable to compute version")) None).
Proof.
  intros F N G. rewrite (unpacked_run _ _ F G). assert (K : forall k l inner, names = l ++ inner -> length inner + k = 3 -> Forall dir_text l -> parentdir_loop k (lit "abl.vpath") (root_text l) = not_this).
  { induction k as [|k IH]; intros l inner E L Fl; [reflexivity|]. destruct l as [|x l] using rev_ind; [apply loop_top|]. clear IHl.
    apply Forall_app in Fl as [Fl Fx]. inversion Fx; subst. rewrite loop_skip; [|assumption| |exact Fl].
    - apply (IH l (x :: inner)); [rewrite <- app_assoc; reflexivity|cbn; lia|exact Fl].
    - apply (N l x inner); [rewrite <- app_assoc; reflexivity|lia]. }
  now rewrite (K 3 names [] (eq_sym (app_nil_r _)) eq_refl F).
Qed.
Print Assumptions C133_unknown.
Definition nogit : machine := fun _ _ => NotFound.
Lemma dirs_by l : forallb (fun n => negb (str_eqb n []) && negb (has_char cSlash n)) l = true -> Forall dir_text l.
Proof.
  intros H. rewrite forallb_forall in H. apply Forall_forall. intros n I. apply H in I. apply andb_true_iff in I as [I1 I2]. split.
  - intros ->. discriminate I1.
  - now apply has_char_false, negb_true_iff.
Qed.
Example C133_witness : no_git nogit /\ Forall dir_text (map lit ["home"; "abl.vpath1.0"; "src"]) /\ ~ begins (lit "abl.vpath") (lit "src") /\
  version_file (map lit ["home"; "abl.vpath1.0"; "src"]) = lit "/home/abl.vpath1.0/src/abl/vpath/base/_version.py" /\
  get_versions the_config unexpanded (Some (lit "/home/abl.vpath1.0/src/abl/vpath/base/_version.py")) nogit = Ok (mkVers (lit "1.0") None (Some false) None None).
Proof. split; [exact I|]. split; [now apply dirs_by|]. split; [intros [r E]; discriminate E|]. split; reflexivity. Qed.

(** ** C134: importing *)
Lemma run_some m args : readable m -> exists o rc, run_command m GITS args = Ok (o, rc).
Proof.
  intros R. unfold GITS. cbn [run_command]. destruct (m (lit "git") args) as [| |out rc] eqn:E; [eauto|eauto|]. destruct (R _ _ _ E) as [s D]. rewrite D. cbn. eauto.
Qed.
Lemma lines_some s : s <> [] -> exists l ls, splitlines s = l :: ls.
Proof.
  destruct s as [|c s]; [easy|]. intros _. cbn [splitlines]. destruct (is_break c); [eauto|]. destruct (splitlines s); eauto.
Qed.
Lemma iso_some s : s <> [] -> exists d, iso_date s = Ok d.
Proof.
  intros N. destruct (lines_some s N) as (l & ls & E). unfold iso_date, last_item. rewrite E. cbn [rev]. destruct (rev ls ++ [l]) eqn:X; [now apply app_eq_nil in X as [_ X]|].
  cbn. eauto.
Qed.
Lemma digits_some s : s <> [] -> forallb is_digit s = true -> exists z, py_int s = Ok z.
Proof.
  intros N D. assert (X : exists z, digits s z).
  { revert N D. induction s as [|c s IH] using rev_ind; intros N D; [easy|]. rewrite forallb_app in D. apply andb_true_iff in D as [D1 D2].
    cbn in D2. apply andb_true_iff in D2 as [D2 _]. apply digit_iff in D2. destruct s as [|d s]; [eexists; now apply di_one|].
    destruct IH as [z Z]; [discriminate|exact D1|]. eexists. now apply di_more with (v := z). }
  destruct X as [z Z]. exists z. apply number_iff. apply nu_bare with s; [|exact Z]. exists [], []. rewrite app_nil_r. split; [reflexivity|]. split; [easy|]. split; [easy|].
  rewrite forallb_forall in D. intros c r H. apply is_space_digit, D. destruct H as [->| ->]; [now left|apply in_or_app; right; now left].
Qed.
Lemma match_digits s a b c : describe_match s = Some (a, b, c) -> b <> [] /\ forallb is_digit b = true.
Proof.
  unfold describe_match. destruct (cut_last _ _) as [[x g]|]; [|discriminate]. destruct g as [|c0 hex]; [discriminate|].
  destruct (_ && forallb is_hex hex); [|discriminate]. destruct (cut_last cMinus x) as [[tag num]|]; [|discriminate].
  destruct (_ && forallb is_digit num) eqn:E; [|discriminate]. intros [= <- <- <-]. apply andb_true_iff in E as [E D]. apply andb_true_iff in E as [_ E].
  split; [|exact D]. intros ->. discriminate E.
Qed.
Lemma pieces_some m prefix : readable m -> tells_date m -> tells_count m -> exists o, git_pieces_from_vcs m prefix = Ok o.
Proof.
  intros R (od & w & Sd & Td & Nd) (n & Sn). unfold git_pieces_from_vcs.
  destruct (run_some m (map lit ["rev-parse"; "--git-dir"]) R) as (o1 & r1 & ->). cbn [sure abind]. destruct (negb (is_rc0 r1)); [eexists; reflexivity|].
  fold (match_args prefix). destruct (run_some m (map lit ["describe"; "--tags"; "--dirty"; "--always"; "--long"] ++ match_args prefix) R) as (o2 & r2 & ->). cbn [sure abind].
  destruct o2 as [desc|]; [|eexists; reflexivity].
  destruct (run_some m (map lit ["rev-parse"; "HEAD"]) R) as (o3 & r3 & ->). cbn [sure abind]. destruct o3 as [full|]; [|eexists; reflexivity].
  destruct (run_some m (map lit ["rev-parse"; "--abbrev-ref"; "HEAD"]) R) as (o4 & r4 & ->). cbn [sure abind].
  destruct (is_rc0 r4); [|eexists; reflexivity]. destruct o4 as [br|]; [|eexists; reflexivity].
  fold (ask_branch m (strip_ws br)). assert (A : exists b, ask_branch m (strip_ws br) = Ok b).
  { unfold ask_branch. destruct (str_eqb _ _); [|eauto]. destruct (run_some m (map lit ["branch"; "--contains"]) R) as (o5 & r5 & ->). cbn [sure abind].
    destruct (is_rc0 r5); [|eexists; reflexivity]. destruct o5; eexists; reflexivity. }
  destruct A as [b ->]. destruct b as [b|]; [|eexists; reflexivity]. cbn [abind].
  set (d := if suffixb _ _ then _ else _). set (dirty := suffixb _ _).
  assert (F : forall tag dist short, exists o,
    (alet (date, _) <- sure (run_command m GITS (map lit ["show"; "-s"; "--format=%ci"; "HEAD"])) ;
     match date with
     | None => Raise AttributeError
     | Some date => alet date <- sure (iso_date (strip_ws date)) ; Ok (Some (mkPieces (strip_ws full) short b dirty None tag dist (Some date)))
     end) = Ok o).
  { intros tag dist short. rewrite (says_run _ _ _ Sd). cbn [sure abind]. apply trimmed_strip in Td. rewrite Td. destruct (iso_some w Nd) as [x ->]. eexists. reflexivity. }
  destruct (has_char cMinus d).
  - destruct (describe_match d) as [[[tg num] hx]|] eqn:Em; [|eexists; reflexivity]. destruct (negb (prefixb prefix tg)); [eexists; reflexivity|].
    destruct (match_digits _ _ _ _ Em) as [N1 N2]. destruct (digits_some num N1 N2) as [z ->]. cbn [sure abind]. apply F.
  - rewrite (says_run _ _ _ Sn). cbn [sure abind]. rewrite py_int_decimal. cbn [sure abind]. apply F.
Qed.
Lemma render_post_some p : exists v, render p (lit "pep440-post") = Ok v.
Proof. unfold render. destruct (g_error p) as [[|c e]|]; eexists; reflexivity. Qed.
Theorem C134_import_partial names full date file m : date <> [] -> readable m -> tells_date m -> tells_count m ->
  exists v, package_version names full date file m = Ok v.
Proof.
  intros Nd R Td Tc. unfold package_version. assert (X : exists v, get_versions the_config (get_keywords names full date) file m = Ok v); [|destruct X as [v ->]; eexists; reflexivity].
  unfold get_versions. assert (K : exists o, git_versions_from_keywords (get_keywords names full date) (c_tag_prefix the_config) = Ok o).
  { unfold git_versions_from_keywords. change (dget (lit "refnames") (get_keywords names full date)) with (Some names).
    change (dget (lit "date") (get_keywords names full date)) with (Some date). cbn iota. destruct (iso_some date Nd) as [d ->]. cbn [rbind sure abind].
    destruct (prefixb _ _); [eexists; reflexivity|]. change (get_item (lit "full") (get_keywords names full date)) with (@Ok str full).
    destruct (pick_ref _ _); eexists; reflexivity. }
  destruct K as [[v|] ->]; [eauto|]. destruct file as [f|]; [|eauto]. destruct (pieces_some m (c_tag_prefix the_config) R Td Tc) as [[p|] ->]; cbn [abind].
  - change (c_style the_config) with (lit "pep440-post"). destruct (render_post_some p) as [v ->]. cbn [sure]. eauto.
  - unfold versions_from_parentdir. assert (Q : forall n r, exists o, parentdir_loop n (c_parentdir the_config) r = Ok o).
    { induction n as [|n IH]; intros r; [eexists; reflexivity|]. cbn [parentdir_loop]. destruct (prefixb _ _); [eauto|apply IH]. }
    destruct (Q 3 (fold_left (fun r _ => os_dirname r) (split_on cSlash (c_source the_config)) f)) as [o Eo]. cbn [c_parentdir the_config] in *.
    change (exists v, match parentdir_loop 3 (lit "abl.vpath") (fold_left (fun r _ => os_dirname r) (split_on cSlash (c_source the_config)) f) with Raise e => Raise e | Ok (Some v0) => Ok v0 | Ok None => Ok (mkVers (lit "0+unknown") None None (Some (lit "unable to compute version")) None) end = Ok v).
    rewrite Eo. destruct o; eauto.
Qed.
Print Assumptions C134_import_partial.
(** A branch whose name is not UTF-8: importing the package fails. *)
Theorem C134_refuted : exists m file, (exists d, says_lit m ["rev-parse"; "--git-dir"] d) /\ tells_date m /\ tells_count m /\
  (exists d, says m (map lit ["describe"; "--tags"; "--dirty"; "--always"; "--long"]) d) /\
  package_version (lit "$Format:%d$") (lit "$Format:%H$") (lit "$Format:%ci$") (Some file) m = Raise UnicodeDecodeError.
Proof.
  exists (repo (lit "1.2-3-g0123456") [233%N]), (lit "/x"). split; [exists (lit ".git"); said (lit ".git")|].
  split; [exists date1, date1; split; [said date1|split; [now apply trimmed_strip|discriminate]]|]. split; [exists 17%N; said (lit "17")|].
  split; [exists (lit "1.2-3-g0123456"); said (lit "1.2-3-g0123456")|]. vm_compute. reflexivity.
Qed.
Print Assumptions C134_refuted.
Example C134_witness : readable (repo (lit "junk-") (lit "HEAD")) /\ tells_date (repo (lit "junk-") (lit "HEAD")) /\ tells_count (repo (lit "junk-") (lit "HEAD")) /\
  package_version (lit "$Format:%d$") (lit "$Format:%H$") (lit "$Format:%ci$") (Some (lit "/x")) (repo (lit "junk-") (lit "HEAD")) = Ok (lit "unknown").
Proof.
  split.
  { intros args out rc. unfold repo. repeat (destruct (str_in _ _); [intros [= <- <-]; eexists; vm_compute; reflexivity|]). intros [= <- <-]. eexists. vm_compute. reflexivity. }
  split; [exists date1, date1; split; [said date1|split; [now apply trimmed_strip|discriminate]]|]. split; [exists 17%N; said (lit "17")|]. vm_compute. reflexivity.
Qed.

(** ** C135: the keywords in the file *)
Lemma lines_neutral l d : Forall neutral l -> fold_left (fun d line =>
    keyword_line "git_date =" "date" line (keyword_line "git_full =" "full" line (keyword_line "git_refnames =" "refnames" line d))) l d = d.
Proof.
  revert d. induction l as [|x l IH]; intros d F; [reflexivity|]. inversion F as [|? ? N F']; subst. cbn [fold_left].
  assert (K : forall st key d, In st ["git_refnames ="; "git_full ="; "git_date ="] -> keyword_line st key x d = d).
  { intros st key d' I. unfold keyword_line. destruct (prefixb (lit st) (strip_ws x)) eqn:P; [|reflexivity]. apply prefixb_spec in P as [r E].
    destruct (N (strip_ws x) st); [now apply trimmed_strip|exact I|now exists r]. }
  rewrite !K by (cbn; auto). now apply IH.
Qed.
Lemma search_skip a s : ~ In cEq a -> search_quoted (a ++ cEq :: s) = match quoted_at s with Some g => Some g | None => search_quoted s end.
Proof.
  induction a as [|c a IH]; intros N; [reflexivity|]. cbn [app search_quoted]. destruct (N.eqb_spec c cEq) as [->|]; [destruct N; now left|].
  apply IH. intros I. apply N. now right.
Qed.
Lemma blank_no_eq pad : blank pad -> ~ In cEq pad.
Proof. intros B I. apply B in I. discriminate I. Qed.
Lemma assigned_search pad name x : blank pad -> ~ In cEq (lit name) -> ~ In cNL x -> search_quoted (assigned_line pad name x) = Some x.
Proof.
  intros B Nn Nx. unfold assigned_line. replace (pad ++ lit name ++ lit " = " ++ [cQuote] ++ x ++ [cQuote; cNL]) with
    ((pad ++ lit name ++ [cSpace]) ++ cEq :: cSpace :: cQuote :: x ++ [cQuote; cNL]) by (rewrite <- !app_assoc; reflexivity).
  rewrite search_skip by (rewrite !in_app_iff; intros [I|[I|[I|[]]]]; [now apply (blank_no_eq pad)|now apply Nn|discriminate I]).
  assert (Q : quoted_at (cSpace :: cQuote :: x ++ [cQuote; cNL]) = Some x); [|now rewrite Q].
  unfold quoted_at, lstrip_p. cbn [span]. change (is_space cSpace) with true. change (is_space cQuote) with false. cbn iota. cbn [snd]. rewrite N.eqb_refl.
  replace (x ++ [cQuote; cNL]) with ((x ++ [cQuote]) ++ [cNL]) by (rewrite <- app_assoc; reflexivity). rewrite span_app.
  - cbn [fst]. rewrite cut_last_app by (intros []). reflexivity.
  - apply forallb_forall. intros c I. apply negb_true_iff, N.eqb_neq. intros ->. apply in_app_or in I as [I|[I|[]]]; [now apply Nx|discriminate I].
  - reflexivity.
Qed.
Lemma assigned_start pad name x : blank pad -> match lit name with [] => False | c :: _ => is_space c = false end ->
  strip_ws (assigned_line pad name x) = lit name ++ lit " = " ++ [cQuote] ++ x ++ [cQuote].
Proof.
  intros B H. apply trimmed_strip. exists pad, [cNL]. split; [unfold assigned_line; rewrite <- !app_assoc; reflexivity|]. split; [exact B|]. split; [intros c [<-|[]]; reflexivity|].
  intros c r [E|E].
  - destruct (lit name) as [|c0 n]; [easy|]. injection E as <- _. exact H.
  - rewrite !app_assoc in E. apply app_inj_tail in E as [_ <-]. reflexivity.
Qed.
Lemma assigned_key pad st key name x d : blank pad -> ~ In cEq (lit name) -> ~ In cNL x -> match lit name with [] => False | c :: _ => is_space c = false end ->
  keyword_line st key (assigned_line pad name x) d = if prefixb (lit st) (lit name ++ lit " = " ++ [cQuote] ++ x ++ [cQuote]) then dset (lit key) x d else d.
Proof. intros B N Nx H. unfold keyword_line. now rewrite assigned_start, assigned_search. Qed.
Theorem C135_file p1 p2 p3 x y z a b c d : blank p1 -> blank p2 -> blank p3 -> ~ In cNL x -> ~ In cNL y -> ~ In cNL z -> Forall neutral (a ++ b ++ c ++ d) ->
  git_get_keywords (a ++ assigned_line p1 "git_refnames" x :: b ++ assigned_line p2 "git_full" y :: c ++ assigned_line p3 "git_date" z :: d) = get_keywords x y z.
Proof.
  intros B1 B2 B3 X Y Z F. apply Forall_app in F as [Fa F]. apply Forall_app in F as [Fb F]. apply Forall_app in F as [Fc Fd]. unfold git_get_keywords.
  assert (E : forall n, In n ["git_refnames"; "git_full"; "git_date"] -> ~ In cEq (lit n) /\ match lit n with [] => False | c :: _ => is_space c = false end).
  { intros n H. cbn in H. repeat destruct H as [<-|H]; try (split; [vm_compute; intuition discriminate|reflexivity]); destruct H. }
  destruct (E "git_refnames") as [E1 E1']; [cbn; auto|]. destruct (E "git_full") as [E2 E2']; [cbn; auto|]. destruct (E "git_date") as [E3 E3']; [cbn; auto|].
  rewrite fold_left_app, (lines_neutral a [] Fa). cbn [fold_left]. rewrite !(assigned_key p1 _ _ _ _ _ B1 E1 X E1').
  rewrite fold_left_app. rewrite (lines_neutral b _ Fb). cbn [fold_left]. rewrite !(assigned_key p2 _ _ _ _ _ B2 E2 Y E2').
  rewrite fold_left_app. rewrite (lines_neutral c _ Fc). cbn [fold_left]. rewrite !(assigned_key p3 _ _ _ _ _ B3 E3 Z E3').
  rewrite (lines_neutral d _ Fd). reflexivity.
Qed.
Print Assumptions C135_file.
Lemma neutral_by l : forallb (fun n => negb (prefixb (lit n) (strip_ws l))) ["git_refnames ="; "git_full ="; "git_date ="] = true -> neutral l.
Proof.
  intros H w n T I [r ->]. apply trimmed_strip in T. rewrite forallb_forall in H. apply H in I. rewrite T, prefixb_app in I. discriminate I.
Qed.
Example C135_witness : neutral (lit "def get_keywords():" ++ [cNL]) /\ neutral (lit "    keywords = {""refnames"": git_refnames}" ++ [cNL]) /\
  assigned_line (lit "    ") "git_full" (lit "$Format:%H$") = lit "    git_full = ""$Format:%H$""" ++ [cNL].
Proof. split; [now apply neutral_by|]. split; [now apply neutral_by|reflexivity]. Qed.

(** ** C136: unpacked source distributions *)
(** The hyphen after the name belongs to the version. *)
Theorem C136_refuted outer v m : Forall dir_text (outer ++ [lit "abl.vpath-" ++ v]) -> no_git m ->
  package_version (lit "$Format:%d$") (lit "$Format:%H$") (lit "$Format:%ci$") (Some (version_file (outer ++ [lit "abl.vpath-" ++ v]))) m = Ok (lit "-" ++ v).
Proof.
  intros F G. unfold package_version. fold unexpanded. pose proof (C133_found outer [] (lit "-" ++ v) m F (le_S _ _ (le_S _ _ (le_n 0))) (Forall_nil _) G) as E.
  change (lit "abl.vpath" ++ lit "-" ++ v) with (lit "abl.vpath-" ++ v) in E. rewrite E. reflexivity.
Qed.
Print Assumptions C136_refuted.
(** Below git's control of another project it is that project's version. *)
Theorem C136_other_refuted : exists m t v, checkout m [] t /\ v <> lit "3.1" /\
  package_version (lit "$Format:%d$") (lit "$Format:%H$") (lit "$Format:%ci$") (Some (version_file [lit "project"; lit "abl.vpath3.1"])) m = Ok v.
Proof.
  do 2 eexists. exists (lit "1.2.post3.dev0+g0123456"). split; [exact checkout1|]. split; [discriminate|]. rewrite (C131_package _ _ _ checkout1). reflexivity.
Qed.
Print Assumptions C136_other_refuted.
Theorem C136_plain_partial outer v m : Forall dir_text (outer ++ [lit "abl.vpath" ++ v]) -> no_git m ->
  package_version (lit "$Format:%d$") (lit "$Format:%H$") (lit "$Format:%ci$") (Some (version_file (outer ++ [lit "abl.vpath" ++ v]))) m = Ok v.
Proof.
  intros F G. unfold package_version. fold unexpanded. rewrite (C133_found outer [] v m F (le_S _ _ (le_S _ _ (le_n 0))) (Forall_nil _) G). reflexivity.
Qed.
Print Assumptions C136_plain_partial.
Example C136_witness : no_git nogit /\ Forall dir_text ([lit "home"] ++ [lit "abl.vpath-" ++ lit "1.0"]) /\
  package_version (lit "$Format:%d$") (lit "$Format:%H$") (lit "$Format:%ci$") (Some (lit "/home/abl.vpath-1.0/abl/vpath/base/_version.py")) nogit = Ok (lit "-1.0").
Proof. split; [exact I|]. split; [now apply dirs_by|reflexivity]. Qed.
