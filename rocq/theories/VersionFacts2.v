(** Facts on Version.v: what git says, and the styles. *)
From Verif Require Import Str Exc Utf8 UriParse SpecUri SpecParse StrFacts UriFacts UriFacts2 ParseFacts2 Version SpecVersion VersionFacts.
Require Import Lia.
Local Open Scope string_scope.
Local Open Scope list_scope.

Lemma tight_strip b nl : nl = [] \/ nl = [cNL] -> tight b -> strip_p byte_space (b ++ nl) = b.
Proof.
  intros Hn T. apply cut_to_strip. exists [], nl. split; [reflexivity|]. split; [reflexivity|]. split; [now destruct Hn as [->| ->]|exact T].
Qed.
Lemma says_run m args out : says m args out -> run_command m GITS args = Ok (Some out, Some 0%Z).
Proof.
  intros (b & nl & E & Hn & T & D). unfold GITS. cbn [run_command]. rewrite E, (tight_strip b nl Hn T), D. reflexivity.
Qed.

(** Ends of texts *)
Lemma unpadded_ends s x y a b : s = x :: a -> s = b ++ [y] -> is_space x = false -> is_space y = false -> unpadded_text s.
Proof.
  intros E1 E2 X Y c r [H|H]; [rewrite E1 in H; injection H as <- <-; exact X|]. rewrite E2 in H. apply app_inj_tail in H as [_ <-]. exact Y.
Qed.
Definition hexc (c : N) : Prop := digit c \/ (97 <= c <= 102)%N.
Lemma hexc_iff c : is_hex c = true <-> hexc c.
Proof. unfold is_hex, hexc, digit. rewrite orb_true_iff, digit_iff. unfold between. now rewrite andb_true_iff, !N.leb_le. Qed.
Lemma hexc_not c x : hexc c -> (x < 48 \/ 57 < x < 97 \/ 102 < x)%N -> c <> x.
Proof. unfold hexc, digit. lia. Qed.
Lemma hex_no_space c : hexc c -> is_space c = false.
Proof.
  unfold hexc, digit. intros H. unfold is_space. lia.
Qed.
Lemma hex_last h : hex_text h -> exists r c, h = r ++ [c] /\ hexc c.
Proof.
  intros [N H]. destruct (exists_last N) as (r & c & ->). exists r, c. split; [reflexivity|]. apply H, in_or_app. right. now left.
Qed.
Lemma hex_head h : hex_text h -> exists c r, h = c :: r /\ hexc c.
Proof. intros [N H]. destruct h as [|c r]; [easy|]. exists c, r. split; [reflexivity|]. apply H. now left. Qed.
Lemma hex_notin h x : hex_text h -> (x < 48 \/ 57 < x < 97 \/ 102 < x)%N -> ~ In x h.
Proof. intros [_ H] X I. exact (hexc_not x x (H x I) X eq_refl). Qed.
Lemma decimal_notin n x : (x < 48 \/ 57 < x)%N -> ~ In x (decimal n).
Proof. intros X I. apply decimal_In in I. lia. Qed.
Lemma decimal_digits n : decimal n <> [] /\ forallb is_digit (decimal n) = true.
Proof. destruct (str_of_N_spec n) as (E1 & E2 & _). split; assumption. Qed.

(** ** git describe *)
Lemma drop_nl_id s r c : s = r ++ [c] -> c <> cNL -> drop_nl s = s.
Proof. intros -> N. unfold drop_nl. rewrite rev_app_distr. cbn. now rewrite (proj2 (N.eqb_neq _ _) N). Qed.
Lemma str_neq s : s <> [] -> str_eqb s [] = false.
Proof. intros N. destruct s; [easy|reflexivity]. Qed.
Lemma match_run tag n h : tag <> [] -> ~ In cNL tag -> hex_text h ->
  describe_match (tag ++ lit "-" ++ decimal n ++ lit "-g" ++ h) = Some (tag, decimal n, h).
Proof.
  intros Nt Nn Hh. unfold describe_match. destruct (hex_last h Hh) as (r & c & Eh & Hc).
  rewrite (drop_nl_id _ (tag ++ lit "-" ++ decimal n ++ lit "-g" ++ r) c); [|rewrite Eh, <- !app_assoc; reflexivity|apply (hexc_not c); [exact Hc|unfold cNL; lia]].
  replace (tag ++ lit "-" ++ decimal n ++ lit "-g" ++ h) with ((tag ++ cMinus :: decimal n) ++ cMinus :: 103%N :: h) by (now rewrite <- app_assoc).
  rewrite cut_last_app by (intros [X|X]; [discriminate X|]; revert X; apply hex_notin; [exact Hh|unfold cMinus; lia]).
  destruct Hh as [Nh Hh]. rewrite N.eqb_refl, (str_neq h Nh). cbn [andb negb].
  assert (Fh : forallb is_hex h = true) by (apply forallb_forall; intros x Hx; apply hexc_iff; exact (Hh x Hx)). rewrite Fh. cbn iota.
  rewrite cut_last_app by (apply decimal_notin; unfold cMinus; lia).
  destruct (decimal_digits n) as [D1 D2]. rewrite (str_neq tag Nt), (str_neq _ D1), D2, (proj2 (has_char_false cNL tag) Nn). reflexivity.
Qed.
Definition core (prefix : str) (t : tree) : str :=
  match t_tag t with
  | Some g => prefix ++ g ++ lit "-" ++ decimal (t_since t) ++ lit "-g" ++ t_hex t
  | None => t_hex t
  end.
Lemma description_core prefix t : description prefix t = core prefix t ++ opt (t_dirty t) (lit "-dirty").
Proof. reflexivity. Qed.
Lemma core_last prefix t : hex_text (t_hex t) -> exists r c, core prefix t = r ++ [c] /\ hexc c.
Proof.
  intros H. destruct (hex_last _ H) as (r & c & E & Hc). unfold core. destruct (t_tag t) as [g|]; [|eauto].
  exists (prefix ++ g ++ lit "-" ++ decimal (t_since t) ++ lit "-g" ++ r), c. split; [|exact Hc]. rewrite E, <- !app_assoc. reflexivity.
Qed.
Lemma dirty_run prefix t : hex_text (t_hex t) -> suffixb (lit "-dirty") (description prefix t) = t_dirty t.
Proof.
  intros H. rewrite ?description_core. destruct (t_dirty t); cbn [opt].
  - apply suffixb_spec. eauto.
  - rewrite app_nil_r. destruct (suffixb _ _) eqn:S; [|reflexivity]. apply suffixb_spec in S as [r' E].
    destruct (core_last prefix t H) as (r & c & E' & Hc). rewrite E' in E. change (lit "-dirty") with (lit "-dirt" ++ [121%N]) in E.
    rewrite app_assoc in E. apply app_inj_tail in E as [_ ->]. now apply (hexc_not 121 121) in Hc; [|lia].
Qed.
Lemma undirty_run prefix t : hex_text (t_hex t) ->
  (if t_dirty t then firstn (length (description prefix t) - 6) (description prefix t) else description prefix t) = core prefix t.
Proof.
  intros H. rewrite ?description_core. destruct (t_dirty t); cbn [opt]; [|apply app_nil_r].
  rewrite app_length. change (length (lit "-dirty")) with 6. rewrite Nat.add_sub, firstn_app, Nat.sub_diag, firstn_all. cbn [firstn]. apply app_nil_r.
Qed.
Lemma app_head (a b : str) c r : a = c :: r -> exists r', a ++ b = c :: r'.
Proof. intros ->. cbn. eauto. Qed.
Lemma description_unpadded m prefix t : checkout m prefix t -> unpadded_text (description prefix t).
Proof.
  intros Co. pose proof (co_hex _ _ _ Co) as H.
  assert (Hd : exists x a, description prefix t = x :: a /\ is_space x = false).
  { unfold description. destruct (t_tag t) as [g|] eqn:E.
    - destruct (co_tag _ _ _ Co g E) as (_ & N & U). destruct (prefix ++ g) as [|c r] eqn:X; [easy|].
      exists c, (r ++ (lit "-" ++ decimal (t_since t) ++ lit "-g" ++ t_hex t) ++ opt (t_dirty t) (lit "-dirty")). split.
      + rewrite (app_assoc prefix g), X. cbn [app]. now rewrite <- app_assoc.
      + apply (U c r). now left.
    - destruct (hex_head _ H) as (c & r & -> & Hc). exists c, (r ++ opt (t_dirty t) (lit "-dirty")). split; [reflexivity|now apply hex_no_space]. }
  assert (Ld : exists b y, description prefix t = b ++ [y] /\ is_space y = false).
  { rewrite ?description_core. destruct (t_dirty t); cbn [opt].
    - exists (core prefix t ++ lit "-dirt"), 121%N. split; [now rewrite <- app_assoc|reflexivity].
    - rewrite app_nil_r. destruct (core_last prefix t H) as (r & c & -> & Hc). exists r, c. split; [reflexivity|now apply hex_no_space]. }
  destruct Hd as (x & a & E1 & X), Ld as (b & y & E2 & Y). exact (unpadded_ends _ _ _ _ _ E1 E2 X Y).
Qed.

(** ** Branches *)
Lemma in_str x l : str_in x l = if in_dec (list_eq_dec N.eq_dec) x l then true else false.
Proof.
  unfold str_in. destruct (in_dec (list_eq_dec N.eq_dec) x l) as [I|I].
  - apply existsb_exists. exists x. split; [exact I|]. now apply str_eqb_eq.
  - destruct (existsb (str_eqb x) l) eqn:E; [|reflexivity]. apply existsb_exists in E as (y & Iy & E). apply str_eqb_eq in E. now subst.
Qed.
Definition ask_branch (m : machine) (name : str) : attempt (option str) :=
  if str_eqb name (lit "HEAD")
  then alet (branches, rc) <- sure (run_command m GITS (map lit ["branch"; "--contains"])) ;
       match is_rc0 rc, branches with
       | true, Some branches => Ok (Some (choose_branch (map (skipn 2) (cut_branch (split_on cNL branches)))))
       | _, _ => not_this
       end
  else Ok (Some (Some name)).
Lemma branch_run m b : on_branch m b -> exists n, run_command m GITS (map lit ["rev-parse"; "--abbrev-ref"; "HEAD"]) = Ok (Some n, Some 0%Z) /\
  ask_branch m (strip_ws n) = Ok (Some b).
Proof.
  intros [n U N S|head names b' S I1 I2 I3 S2 ->].
  - exists n. split; [now apply says_run|]. rewrite (unpadded_strip n U). unfold ask_branch. destruct (str_eqb n (lit "HEAD")) eqn:E; [|reflexivity].
    now apply str_eqb_eq in E.
  - exists (lit "HEAD"). split; [now apply says_run|]. change (strip_ws (lit "HEAD")) with (lit "HEAD"). unfold ask_branch.
    rewrite (proj2 (str_eqb_eq _ _) eq_refl), (says_run _ _ _ S2). cbn [sure abind is_rc0]. change (0 =? 0)%Z with true. cbn iota. do 2 f_equal.
    rewrite split_join; [|discriminate|].
    + cbn [cut_branch]. rewrite (proj2 (has_char_In _ _) I1), map_map.
      rewrite (map_ext _ (fun x => x)), map_id by reflexivity. unfold choose_branch. rewrite in_str.
      destruct (in_dec (list_eq_dec N.eq_dec) _ _); [reflexivity|]. now destruct names.
    + intros y [<-|Hy]; [exact I2|]. apply in_map_iff in Hy as (z & <- & Hz). rewrite in_app_iff. intros [X|X]; [cbn in X; destruct X as [X|[X|[]]]; discriminate X|now apply (I3 z)].
Qed.

(** ** The pieces *)
Definition pieces_of (t : tree) : pieces :=
  mkPieces (t_full t) (t_hex t) (t_branch t) (t_dirty t) None (t_tag t) (Z.of_N (t_since t)) (Some (t_date t)).
Lemma pieces_run m prefix t : checkout m prefix t -> git_pieces_from_vcs m prefix = Ok (Some (pieces_of t)).
Proof.
  intros Co. pose proof (co_hex _ _ _ Co) as Hh. destruct (co_git _ _ _ Co) as [d Sg]. destruct (co_full _ _ _ Co) as [Uf Sf].
  destruct (branch_run m _ (co_branch _ _ _ Co)) as (n & Sb & Ab). destruct (co_date _ _ _ Co) as (o & s & So & To & Ds).
  unfold git_pieces_from_vcs. rewrite (says_run _ _ _ Sg). cbn [sure abind is_rc0 negb]. change (0 =? 0)%Z with true. cbn [negb].
  fold (match_args prefix). rewrite (says_run _ _ _ (co_describe _ _ _ Co)). cbn [sure abind].
  rewrite (says_run _ _ _ Sf). cbn [sure abind]. rewrite Sb. cbn [sure abind is_rc0]. change (0 =? 0)%Z with true. cbn iota.
  fold (ask_branch m (strip_ws n)). rewrite Ab. cbn [abind].
  rewrite (unpadded_strip _ (description_unpadded _ _ _ Co)), (unpadded_strip _ Uf), (dirty_run prefix t Hh), (undirty_run prefix t Hh).
  assert (F : forall tag dist short,
    (alet (date, _) <- sure (run_command m GITS (map lit ["show"; "-s"; "--format=%ci"; "HEAD"])) ;
     match date with
     | None => Raise AttributeError
     | Some date => alet date <- sure (iso_date (strip_ws date)) ; Ok (Some (mkPieces (t_full t) short (t_branch t) (t_dirty t) None tag dist (Some date)))
     end) = Ok (Some (mkPieces (t_full t) short (t_branch t) (t_dirty t) None tag dist (Some (t_date t))))).
  { intros tag dist short. rewrite (says_run _ _ _ So). cbn [sure abind]. apply trimmed_strip in To. rewrite To, (dated_run _ _ Ds). reflexivity. }
  unfold core, pieces_of. destruct (t_tag t) as [g|] eqn:Eg.
  - destruct (co_tag _ _ _ Co g Eg) as (Nl & Ne & _). 
    replace (prefix ++ g ++ lit "-" ++ decimal (t_since t) ++ lit "-g" ++ t_hex t) with ((prefix ++ g) ++ lit "-" ++ decimal (t_since t) ++ lit "-g" ++ t_hex t)
      by (now rewrite <- !app_assoc).
    rewrite (proj2 (has_char_In _ _)) by (rewrite !in_app_iff; right; left; now left).
    rewrite (match_run _ _ _ Ne Nl Hh), prefixb_app. cbn [negb]. rewrite py_int_decimal. cbn [sure abind]. rewrite F.
    now rewrite skipn_app, skipn_all, Nat.sub_diag.
  - rewrite (proj2 (has_char_false _ _)) by (apply hex_notin; [exact Hh|unfold cMinus; lia]).
    rewrite (says_run _ _ _ (co_count _ _ _ Co Eg)). cbn [sure abind]. rewrite py_int_decimal. cbn [sure abind]. rewrite F, <- (co_short _ _ _ Co Eg). reflexivity.
Qed.
