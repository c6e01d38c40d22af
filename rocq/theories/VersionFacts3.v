(** Facts on Version.v: the styles; the same version. *)
From Verif Require Import Str Exc Utf8 UriParse SpecUri SpecParse StrFacts UriFacts UriFacts2 ParseFacts2 Version SpecVersion VersionFacts VersionFacts2.
Require Import Lia.
Local Open Scope string_scope.
Local Open Scope list_scope.

Lemma split_str_none s : (forall a b, s <> a ++ lit ".post" ++ b) -> split_str 0 (lit ".post") s = [s].
Proof.
  induction s as [|c s IH]; intros N; [reflexivity|]. cbn [split_str]. destruct (prefixb (lit ".post") (c :: s)) eqn:P.
  - apply prefixb_spec in P as [r E]. now destruct (N [] r).
  - rewrite IH; [reflexivity|]. intros a b E. apply (N (c :: a) b). now rewrite E.
Qed.
Lemma post_later c r b : (forall x y, c :: r <> x ++ lit ".post" ++ y) -> prefixb (lit ".post") (c :: r ++ lit ".post" ++ b) = false.
Proof.
  intros N. destruct (prefixb _ _) eqn:P; [|reflexivity]. apply prefixb_spec in P as [q E]. exfalso. cbn in E. injection E as -> E.
  destruct r as [|x1 r]; [discriminate E|]. injection E as -> E. destruct r as [|x2 r]; [discriminate E|]. injection E as -> E.
  destruct r as [|x3 r]; [discriminate E|]. injection E as -> E. destruct r as [|x4 r]; [discriminate E|]. injection E as -> E.
  now apply (N [] r).
Qed.
Lemma split_post r b : (forall x y, r <> x ++ lit ".post" ++ y) -> split_str 0 (lit ".post") (r ++ lit ".post" ++ b) = r :: split_str 0 (lit ".post") b.
Proof.
  induction r as [|c r IH]; intros N; [reflexivity|]. change ((c :: r) ++ lit ".post" ++ b) with (c :: r ++ lit ".post" ++ b).
  change (split_str 0 (lit ".post") (c :: r ++ lit ".post" ++ b)) with
    (if prefixb (lit ".post") (c :: r ++ lit ".post" ++ b) then [] :: split_str 4 (lit ".post") (r ++ lit ".post" ++ b)
     else match split_str 0 (lit ".post") (r ++ lit ".post" ++ b) with [] => [[c]] | w :: ws => (c :: w) :: ws end).
  rewrite (post_later c r b N), IH; [reflexivity|]. intros x y E. apply (N (c :: x) y). now rewrite E.
Qed.
Lemma split_str_nonnil k sep s : split_str k sep s <> [].
Proof.
  revert k. induction s as [|c s IH]; intros k; [discriminate|]. cbn [split_str]. destruct k; [|apply IH]. destruct (prefixb _ _); [discriminate|].
  now destruct (split_str 0 sep s).
Qed.
Lemma post_first s : (exists a b, s = a ++ lit ".post" ++ b) -> exists r b, s = r ++ lit ".post" ++ b /\ forall x y, r <> x ++ lit ".post" ++ y.
Proof.
  intros H. destruct H as (a & b & E). remember (length a) as n eqn:L. revert a b E L. induction n as [n IH] using lt_wf_ind. intros a b E L.
  destruct (contains (lit ".post") a) eqn:C.
  - assert (X : exists x y, a = x ++ lit ".post" ++ y).
    { clear -C. induction a as [|c a IH]; [discriminate C|]. cbn [contains] in C. apply orb_true_iff in C as [C|C].
      - apply prefixb_spec in C as [r ->]. now exists [], r.
      - destruct (IH C) as (x & y & ->). now exists (c :: x), y. }
    destruct X as (x & y & Ea). subst a. apply (IH (length x)) with x (y ++ lit ".post" ++ b); [rewrite L, !app_length; cbn; lia| |reflexivity].
    rewrite E, <- !app_assoc. reflexivity.
  - exists a, b. split; [exact E|]. intros x y ->. clear -C. induction x as [|c x IH].
    + rewrite app_nil_l in C. destruct y; discriminate C.
    + cbn [app contains] in C. apply orb_false_iff in C as [_ C]. auto.
Qed.

Lemma text_decimal n : str_of_Z (Z.of_N n) = decimal n.
Proof. unfold str_of_Z. replace (Z.of_N n <? 0)%Z with false by (symmetry; apply Z.ltb_ge; lia). now rewrite N2Z.id. Qed.
Lemma tag_run t : the_tag (pieces_of t) = if tagged t then Some (base t) else None.
Proof. unfold the_tag, tagged, base, pieces_of. cbn [g_tag]. destruct (t_tag t) as [[|c g]|]; reflexivity. Qed.
Lemma since_zero t : (Z.of_N (t_since t) =? 0)%Z = (t_since t =? 0)%N.
Proof. destruct (N.eqb_spec (t_since t) 0) as [->|N]; [reflexivity|]. apply Z.eqb_neq. lia. Qed.
Lemma moved_run t : tagged t = true -> moved_on (pieces_of t) = off_tag t.
Proof. intros T. unfold moved_on, off_tag, pieces_of. cbn [g_dist g_dirty]. now rewrite T, since_zero. Qed.
Lemma untagged_off t : tagged t = false -> off_tag t = true.
Proof. intros T. unfold off_tag. now rewrite T. Qed.
Lemma sep_run t : plus_or_dot (base t) = sep t.
Proof.
  unfold plus_or_dot, sep. destruct (in_dec N.eq_dec cPlus (base t)) as [I|I]; [now rewrite (proj2 (has_char_In _ _) I)|now rewrite (proj2 (has_char_false _ _) I)].
Qed.
Lemma untagged_base t : tagged t = false -> base t = lit "0".
Proof. unfold tagged, base. destruct (t_tag t) as [[|c g]|]; [reflexivity|discriminate|reflexivity]. Qed.
Lemma untagged_sep t : tagged t = false -> sep t = lit "+".
Proof. intros T. rewrite <- sep_run, (untagged_base t T). reflexivity. Qed.
Lemma untag_run t : untag t = if tagged t then [] else lit "untagged.".
Proof. unfold untag. now destruct (tagged t). Qed.
Lemma master_run t : not_master (pieces_of t) = off_master t.
Proof. reflexivity. Qed.

Lemma add_opt b s r : add_if b s r = r ++ opt b s.
Proof. unfold add_if, opt. destruct b; [reflexivity|now rewrite app_nil_r]. Qed.
Ltac pieces_away t := rewrite ?add_opt, ?sep_run, ?master_run; unfold dist_hex, since; cbn [pieces_of g_dist g_short g_dirty g_branch]; rewrite ?text_decimal.
Lemma pep440_run t : render_pep440 (pieces_of t) = base t ++ opt (off_tag t) (sep t ++ untag t ++ since t ++ lit ".g" ++ t_hex t ++ opt (t_dirty t) (lit ".dirty")).
Proof.
  unfold render_pep440. rewrite tag_run. destruct (tagged t) eqn:T.
  - rewrite (moved_run t T), untag_run, T. destruct (off_tag t); cbn [opt]; [|now rewrite app_nil_r]. pieces_away t. now rewrite <- !app_assoc.
  - rewrite (untagged_off t T), (untagged_base t T), (untagged_sep t T), untag_run, T. cbn [opt]. pieces_away t. now rewrite <- !app_assoc.
Qed.
Lemma branch_style_run t : render_pep440_branch (pieces_of t) =
  base t ++ opt (off_tag t) (opt (off_master t) (lit ".dev0") ++ sep t ++ untag t ++ since t ++ lit ".g" ++ t_hex t ++ opt (t_dirty t) (lit ".dirty")).
Proof.
  unfold render_pep440_branch. rewrite tag_run. destruct (tagged t) eqn:T.
  - rewrite (moved_run t T), untag_run, T. destruct (off_tag t); cbn [opt]; [|now rewrite app_nil_r]. pieces_away t. now rewrite <- !app_assoc.
  - rewrite (untagged_off t T), (untagged_base t T), (untagged_sep t T), untag_run, T. cbn [opt]. pieces_away t. now rewrite <- !app_assoc.
Qed.
Lemma post_run t : render_pep440_post (pieces_of t) =
  base t ++ opt (off_tag t) (lit ".post" ++ since t ++ opt (t_dirty t) (lit ".dev0") ++ sep t ++ lit "g" ++ t_hex t).
Proof.
  unfold render_pep440_post. rewrite tag_run. destruct (tagged t) eqn:T.
  - rewrite (moved_run t T). destruct (off_tag t); cbn [opt]; [|now rewrite app_nil_r]. pieces_away t. now rewrite <- !app_assoc.
  - rewrite (untagged_off t T), (untagged_base t T), (untagged_sep t T). cbn [opt]. pieces_away t. now rewrite <- !app_assoc.
Qed.
Lemma post_branch_run t : render_pep440_post_branch (pieces_of t) =
  base t ++ opt (off_tag t) (lit ".post" ++ since t ++ opt (off_master t) (lit ".dev0") ++ sep t ++ lit "g" ++ t_hex t ++ opt (t_dirty t) (lit ".dirty")).
Proof.
  unfold render_pep440_post_branch. rewrite tag_run. destruct (tagged t) eqn:T.
  - rewrite (moved_run t T). destruct (off_tag t); cbn [opt]; [|now rewrite app_nil_r]. pieces_away t. now rewrite <- !app_assoc.
  - rewrite (untagged_off t T), (untagged_base t T), (untagged_sep t T). cbn [opt]. pieces_away t. now rewrite <- !app_assoc.
Qed.
Lemma old_run t : render_pep440_old (pieces_of t) = base t ++ opt (off_tag t) (lit ".post" ++ since t ++ opt (t_dirty t) (lit ".dev0")).
Proof.
  unfold render_pep440_old. rewrite tag_run. destruct (tagged t) eqn:T.
  - rewrite (moved_run t T). destruct (off_tag t); cbn [opt]; [|now rewrite app_nil_r]. pieces_away t. now rewrite <- !app_assoc.
  - rewrite (untagged_off t T), (untagged_base t T). cbn [opt]. pieces_away t. now rewrite <- !app_assoc.
Qed.
Lemma describe_run t : render_git_describe (pieces_of t) =
  (if tagged t then base t ++ opt (negb (t_since t =? 0)%N) (lit "-" ++ since t ++ lit "-g" ++ t_hex t) else t_hex t) ++ opt (t_dirty t) (lit "-dirty").
Proof. unfold render_git_describe. rewrite tag_run. destruct (tagged t); pieces_away t; rewrite ?since_zero; reflexivity. Qed.
Lemma long_run t : render_git_describe_long (pieces_of t) =
  (if tagged t then base t ++ lit "-" ++ since t ++ lit "-g" ++ t_hex t else t_hex t) ++ opt (t_dirty t) (lit "-dirty").
Proof. unfold render_git_describe_long. rewrite tag_run. destruct (tagged t); pieces_away t; reflexivity. Qed.

Definition style_of (p : pieces) (st : str) : res str :=
  if str_eqb st (lit "pep440") then Ok (render_pep440 p)
  else if str_eqb st (lit "pep440-branch") then Ok (render_pep440_branch p)
  else if str_eqb st (lit "pep440-pre") then render_pep440_pre p
  else if str_eqb st (lit "pep440-post") then Ok (render_pep440_post p)
  else if str_eqb st (lit "pep440-post-branch") then Ok (render_pep440_post_branch p)
  else if str_eqb st (lit "pep440-old") then Ok (render_pep440_old p)
  else if str_eqb st (lit "git-describe") then Ok (render_git_describe p)
  else if str_eqb st (lit "git-describe-long") then Ok (render_git_describe_long p)
  else Raise ValueError.
Lemma render_ok t st s : (if str_eqb st [] || str_eqb st (lit "default") then Ok (render_pep440 (pieces_of t)) else style_of (pieces_of t) st) = Ok s ->
  render (pieces_of t) st = Ok (mkVers s (Some (t_full t)) (Some (t_dirty t)) None (Some (t_date t))).
Proof.
  intros H. unfold render. cbn [pieces_of g_error]. destruct (str_eqb st [] || str_eqb st (lit "default")).
  - injection H as <-. reflexivity.
  - fold (pieces_of t). fold (style_of (pieces_of t) st). rewrite H. reflexivity.
Qed.
Lemma pre_run t s : rendered t "pep440-pre" s -> render_pep440_pre (pieces_of t) = Ok s.
Proof.
  intros R. unfold render_pep440_pre. rewrite tag_run. cbn [pieces_of g_dist]. rewrite since_zero, text_decimal. fold (since t). inversion R; subst.
  - match goal with H : forall a b, base t <> _ |- _ => rename H into N end. match goal with H : tagged t = true -> _ |- _ => rename H into S end.
    destruct (tagged t) eqn:T.
    + rewrite (proj2 (N.eqb_neq _ _) (S eq_refl)). cbn [negb]. unfold pep440_split_post. now rewrite (split_str_none _ N).
    + now rewrite (untagged_base t T).
  - match goal with H : tagged t = true, H2 : t_since t = 0%N |- _ => rewrite H, H2 end. reflexivity.
  - match goal with H : t_since t <> 0%N |- _ => rewrite (proj2 (N.eqb_neq _ _) H) end. cbn [negb].
    match goal with H : base t = _ |- _ => rename H into E end.
    assert (T : tagged t = true). { destruct (tagged t) eqn:T; [reflexivity|]. rewrite (untagged_base t T) in E. destruct r as [|? [|]]; discriminate E. }
    rewrite T. unfold pep440_split_post. rewrite E, (split_post r b) by assumption.
    match goal with H : _ \/ number b z |- _ => destruct H as [[-> ->]|Nb] end; [reflexivity|].
    assert (X : split_str 0 (lit ".post") b = [b]).
    { apply split_str_none. intros x y Eb. assert (D : forall c, In c b -> c <> 112%N).
      { clear -Nb. intros c Ic ->. revert Ic. assert (DD : forall w v, digits w v -> ~ In 112%N w).
        { clear. induction 1 as [c D|w v c H IH D|w v c H IH D]; [intros [->|[]]; lia| |]; rewrite in_app_iff; [intros [X|[->|[]]]; [auto|lia]|intros [X|[X|[->|[]]]]; [auto|discriminate X|lia]]. }
        destruct Nb as [w v T D|w v T D|w v T D]; destruct T as (p & q & -> & P & Q & _); pose proof (DD _ _ D) as N; rewrite !in_app_iff; intros [X|[X|X]];
          try (apply P in X; discriminate X); try (apply Q in X; discriminate X); try (now apply N); destruct X as [X|X]; [discriminate X|now apply N|discriminate X|now apply N]. }
      apply (D 112%N); [|reflexivity]. rewrite Eb, !in_app_iff. right. left. right. now left. }
    rewrite X. destruct b as [|b0 b1] eqn:Eb; [apply number_iff in Nb; discriminate Nb|]. apply number_iff in Nb. rewrite Nb. reflexivity.
  - match goal with H : t_since t <> 0%N |- _ => rewrite (proj2 (N.eqb_neq _ _) H) end. cbn [negb].
    match goal with H : base t = _ |- _ => rename H into E end.
    assert (T : tagged t = true). { destruct (tagged t) eqn:T; [reflexivity|]. rewrite (untagged_base t T) in E. destruct r as [|? [|]]; discriminate E. }
    rewrite T. unfold pep440_split_post. rewrite E, (split_post r) by assumption.
    destruct (post_first (x ++ lit ".post" ++ y)) as (r1 & b1 & -> & N1); [eauto|]. rewrite (split_post r1 b1 N1).
    destruct (split_str 0 (lit ".post") b1) as [|w ws] eqn:Ew; [now apply split_str_nonnil in Ew|]. reflexivity.
Qed.
Lemma style_run t st s : rendered t st s -> render (pieces_of t) (lit st) = Ok (mkVers s (Some (t_full t)) (Some (t_dirty t)) None (Some (t_date t))).
Proof.
  intros R. apply render_ok. destruct R as [s R|s R| | | | | |N S|T S|r b z S E N Hb|r x y S E N| |].
  - change (Ok (render_pep440 (pieces_of t)) = Ok s). inversion R; subst. now rewrite pep440_run.
  - change (Ok (render_pep440 (pieces_of t)) = Ok s). inversion R; subst. now rewrite pep440_run.
  - change (Ok (render_pep440 (pieces_of t)) = Ok (base t ++ opt (off_tag t) (sep t ++ untag t ++ since t ++ lit ".g" ++ t_hex t ++ opt (t_dirty t) (lit ".dirty")))). now rewrite pep440_run.
  - cbn [style_of]. rewrite <- branch_style_run. reflexivity.
  - rewrite <- post_run. reflexivity.
  - rewrite <- post_branch_run. reflexivity.
  - rewrite <- old_run. reflexivity.
  - change (render_pep440_pre (pieces_of t) = Ok (base t ++ lit ".post0.dev" ++ since t)). apply pre_run. now apply re_pre.
  - change (render_pep440_pre (pieces_of t) = Ok (base t)). apply pre_run. now apply re_pre_tag.
  - change (render_pep440_pre (pieces_of t) = Ok (r ++ lit ".post" ++ signed (z + 1) ++ lit ".dev" ++ since t)). apply pre_run. now apply re_pre_post with b.
  - change (render_pep440_pre (pieces_of t) = Ok (r ++ lit ".post0.dev" ++ since t)). apply pre_run. now apply re_pre_posts with x y.
  - rewrite <- describe_run. reflexivity.
  - rewrite <- long_run. reflexivity.
Qed.

(** ** Every style for every tree *)
Lemma post_or_not s : (forall a b, s <> a ++ lit ".post" ++ b) \/ exists r b, s = r ++ lit ".post" ++ b /\ forall x y, r <> x ++ lit ".post" ++ y.
Proof.
  induction s as [|c s IH].
  - left. intros [|] b E; discriminate E.
  - destruct (prefixb (lit ".post") (c :: s)) eqn:P.
    + right. apply post_first. apply prefixb_spec in P as [r E]. now exists [], r.
    + destruct IH as [IH|(r & b & -> & _)].
      * left. intros [|a0 a] b E; [|injection E as -> E; now apply (IH a b)]. rewrite E in P. cbn [app] in P.
        assert (X : prefixb (lit ".post") (lit ".post" ++ b) = true) by (apply prefixb_spec; now exists b). congruence.
      * right. apply post_first. now exists (c :: r), b.
Qed.
Lemma styles_all t st : In st the_styles -> (exists s, rendered t st s) \/ st = "pep440-pre"%string /\ odd_post t.
Proof.
  intros [<-|[<-|[<-|[<-|[<-|[<-|[<-|[<-|[<-|[<-|[]]]]]]]]]]]; try (left; eexists; now constructor); [|left; eexists; apply re_default; constructor|left; eexists; apply re_empty; constructor].
  destruct (N.eq_dec (t_since t) 0) as [Z|Z].
  - destruct (tagged t) eqn:T; [left; eexists; now apply re_pre_tag|]. left. eexists. apply re_pre; [|congruence].
    rewrite (untagged_base t T). intros [|? [|]] b E; discriminate E.
  - destruct (post_or_not (base t)) as [N|(r & b & E & N)]; [left; eexists; now apply re_pre|].
    destruct b as [|b0 b]; [left; eexists; apply (re_pre_post t r [] 0); auto|].
    destruct (post_or_not (b0 :: b)) as [Nb|(x & y & Eb & _)].
    + destruct (py_int_cases (b0 :: b)) as [[z Ez]|Ez].
      * left. eexists. apply (re_pre_post t r (b0 :: b) z); auto. right. now apply number_iff.
      * right. split; [reflexivity|]. split; [exact Z|]. exists r, (b0 :: b). repeat split; auto; [discriminate|]. intros z K. apply number_iff in K. congruence.
    + left. eexists. apply (re_pre_posts t r x y); auto. now rewrite E, Eb.
Qed.
Lemma odd_run t : odd_post t -> render (pieces_of t) (lit "pep440-pre") = Raise ValueError.
Proof.
  intros (Z & r & b & E & B & Nb & Nr & Np). unfold render. cbn [pieces_of g_error]. fold (pieces_of t). fold (style_of (pieces_of t) (lit "pep440-pre")).
  change (style_of (pieces_of t) (lit "pep440-pre")) with (render_pep440_pre (pieces_of t)). change (str_eqb (lit "pep440-pre") [] || str_eqb (lit "pep440-pre") (lit "default")) with false. cbv iota.
  assert (X : render_pep440_pre (pieces_of t) = Raise ValueError); [|now rewrite X].
  unfold render_pep440_pre. rewrite tag_run. cbn [pieces_of g_dist]. rewrite since_zero. rewrite (proj2 (N.eqb_neq _ _) Z). cbn [negb].
  assert (T : tagged t = true). { destruct (tagged t) eqn:T; [reflexivity|]. rewrite (untagged_base t T) in E. destruct r as [|? [|]]; discriminate E. }
  rewrite T. unfold pep440_split_post. rewrite E, (split_post r b Nr), (split_str_none b Np). destruct b as [|b0 b]; [congruence|].
  destruct (py_int_cases (b0 :: b)) as [[z Ez]|Ez]; [apply number_iff in Ez; now destruct (Nb z)|]. now rewrite Ez.
Qed.
Lemma unstyled_run t st : ~ In st (map lit the_styles) -> render (pieces_of t) st = Raise ValueError.
Proof.
  intros N. assert (K : forall x, In x (map lit the_styles) -> str_eqb st x = false) by (intros x I; apply str_eqb_neq; now intros ->).
  unfold the_styles in K. cbn [map] in K. unfold render. cbn [pieces_of g_error]. fold (pieces_of t).
  rewrite (K []) by (do 9 right; now left). rewrite !K by (cbn [In]; tauto). reflexivity.
Qed.
