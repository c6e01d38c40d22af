(** Lemmas for PropsKeep.v *)
From Verif Require Import Str Exc StrFacts UriParse BaseUri SpecUri UriFacts UriFacts2 UriFacts3 UriFacts4 UriFacts5 UriFacts6 UriFacts7 NetFacts SpecKeep.
From Coq Require Import Lia.

Definition cnt (c : N) (s : str) : nat := count_occ N.eq_dec s c.
Lemma cnt_app c a b : cnt c (a ++ b) = cnt c a + cnt c b.
Proof. apply count_occ_app. Qed.
Lemma cnt_cons c x s : cnt c (x :: s) = cnt c [x] + cnt c s.
Proof. apply (cnt_app c [x] s). Qed.
Lemma cnt_not c s : ~ In c s -> cnt c s = 0.
Proof. apply count_occ_not_In. Qed.
Lemma cnt_in c s : In c s <-> cnt c s > 0.
Proof. apply count_occ_In. Qed.

(** What a path is made of *)
Definition text_path (w : str) : str :=
  let (p, r3) := re_path w in let (_, r4) := re_query r3 in
  match re_fragment r4 with Some (c :: f) => p ++ cHash :: c :: f | _ => p end.
Definition subst (w : str) : str := match find_inner w with Some (b, m, a) => b ++ inner_token ++ a | None => w end.

Lemma span_cnt p s c : cnt c (fst (span p s)) + cnt c (snd (span p s)) = cnt c s.
Proof. rewrite <- cnt_app. now rewrite span_eq. Qed.
Lemma path_cnt w c : cnt c (fst (re_path w)) <= cnt c w.
Proof. unfold re_path. pose proof (span_cnt (not_in [cQuest; cHash]) w c). lia. Qed.
Lemma text_path_cnt w c : cnt c (text_path w) <= cnt c w.
Proof.
  unfold text_path, re_path. pose proof (span_cnt (not_in [cQuest; cHash]) w c) as S.
  destruct (span _ w) as [p r3]. cbn [fst snd] in S.
  assert (Q : cnt c (snd (re_query r3)) <= cnt c r3).
  { unfold re_query. destruct r3 as [|d r]; [now cbn|]. destruct (N.eqb d cQuest); [|cbn [snd]; lia].
    pose proof (span_cnt (not_in [cHash]) r c) as S2. destruct (span _ r) as [q r']. cbn [fst snd] in *. rewrite cnt_cons. lia. }
  destruct (re_query r3) as [q r4]. cbn [snd] in Q.
  destruct (re_fragment r4) as [[|d f]|] eqn:F; try lia.
  assert (K : cnt c (cHash :: d :: f) <= cnt c r4).
  { unfold re_fragment in F. destruct r4 as [|x r]; [discriminate|]. destruct (N.eqb_spec x cHash) as [->|]; [|discriminate].
    injection F as F. pose proof (span_cnt (not_in [cNL]) r c) as S3. rewrite F in S3. rewrite (cnt_cons c cHash), (cnt_cons c cHash r). lia. }
  rewrite cnt_app. lia.
Qed.
Lemma text_path_len w : length (text_path w) <= length w.
Proof.
  unfold text_path, re_path. pose proof (f_equal (@length N) (span_eq (not_in [cQuest; cHash]) w)) as S. rewrite app_length in S.
  destruct (span _ w) as [p r3]. cbn [fst snd] in S.
  assert (Q : length (snd (re_query r3)) <= length r3).
  { unfold re_query. destruct r3 as [|d r]; [now cbn|]. destruct (N.eqb d cQuest); [|cbn [snd]; lia].
    pose proof (f_equal (@length N) (span_eq (not_in [cHash]) r)) as S2. rewrite app_length in S2. destruct (span _ r) as [q r']. cbn [fst snd length] in *. lia. }
  destruct (re_query r3) as [q r4]. cbn [snd] in Q.
  destruct (re_fragment r4) as [[|d f]|] eqn:F; try lia.
  unfold re_fragment in F. destruct r4 as [|x r]; [discriminate|]. destruct (N.eqb_spec x cHash) as [->|]; [|discriminate].
  injection F as F. pose proof (f_equal (@length N) (span_eq (not_in [cNL]) r)) as S3. rewrite app_length, F in S3.
  rewrite app_length. cbn [length] in *. lia.
Qed.
Lemma subst_cnt w c : ~ In c inner_token -> cnt c (subst w) <= cnt c w.
Proof.
  intros H. unfold subst. destruct (find_inner w) as [[[b m] a]|] eqn:E; [|lia].
  apply find_inner_sound in E as (y & -> & -> & _). rewrite !cnt_app, (cnt_not c inner_token H). lia.
Qed.
Lemma subst_par w : find_inner w <> None -> cnt cLpar (subst w) < cnt cLpar w.
Proof.
  unfold subst. destruct (find_inner w) as [[[b m] a]|] eqn:E; [|easy]. intros _.
  apply find_inner_sound in E as (y & -> & -> & _). rewrite !cnt_app. change (cnt cLpar inner_token) with 0. change (cnt cLpar (lit "((")) with 2. lia.
Qed.
Lemma find_no_group w : find_inner w = None -> ~ has_group w.
Proof.
  intros H (x & y & z & -> & Hn). revert H. induction x as [|c x IH]; cbn [app].
  - change (lit "((" ++ y ++ lit "))" ++ z) with (cLpar :: cLpar :: y ++ cRpar :: cRpar :: z). cbn [find_inner].
    change (prefixb (lit "((") (cLpar :: cLpar :: y ++ cRpar :: cRpar :: z)) with true. cbv iota. cbn [tl].
    assert (K : close_inner (y ++ cRpar :: cRpar :: z) <> None).
    { clear -Hn. induction y as [|c y IH]; [easy|]. cbn [app close_inner].
      destruct (prefixb (lit "))") (c :: y ++ cRpar :: cRpar :: z)); [easy|]. destruct (N.eqb_spec c cNL) as [->|]; [exfalso; apply Hn; now left|].
      assert (Hy : ~ In cNL y) by (intros Hy; apply Hn; now right). specialize (IH Hy).
      destruct (close_inner (y ++ cRpar :: cRpar :: z)) as [[b r]|]; easy. }
    destruct (close_inner (y ++ cRpar :: cRpar :: z)) as [[b r]|]; easy.
  - intros H. apply IH. cbn [find_inner] in H.
    destruct (if prefixb (lit "((") _ then _ else _) as [[b r]|]; [discriminate|].
    destruct (find_inner (x ++ lit "((" ++ y ++ lit "))" ++ z)) as [[[b m] r]|]; [discriminate|reflexivity].
Qed.
Lemma text_path_fixed w : text_path w = w -> path_text w.
Proof.
  intros H. pose proof (span_eq (not_in [cQuest; cHash]) w) as S. pose proof (span_fst (not_in [cQuest; cHash]) w) as F.
  pose proof (span_snd (not_in [cQuest; cHash]) w) as N0. unfold text_path, re_path in H.
  destruct (span (not_in [cQuest; cHash]) w) as [p r3]. cbn [fst snd] in S, F, N0.
  assert (A : free_of [cQuest; cHash] p).
  { intros c Hc Hp. rewrite forallb_forall in F. specialize (F c Hp). unfold not_in in F. apply negb_true_iff in F.
    assert (G : existsb (N.eqb c) [cQuest; cHash] = true) by (apply existsb_exists; exists c; split; [easy|apply N.eqb_refl]). congruence. }
  destruct r3 as [|c r]; [rewrite app_nil_r in S; subst w; now apply pt_plain|].
  cbn [re_query] in H. destruct (N.eqb_spec c cQuest) as [->|Hq].
  - exfalso. pose proof (f_equal (@length N) (span_eq (not_in [cHash]) r)) as S2. rewrite app_length in S2.
    destruct (span (not_in [cHash]) r) as [q r']. cbn [fst snd] in S2. apply (f_equal (@length N)) in H. rewrite <- S, app_length in H. cbn [length] in H.
    destruct (re_fragment r') as [[|d f]|] eqn:E; try lia. unfold re_fragment in E. destruct r' as [|x r']; [discriminate|].
    destruct (N.eqb_spec x cHash) as [->|]; [|discriminate]. injection E as E.
    pose proof (f_equal (@length N) (span_eq (not_in [cNL]) r')) as S3. rewrite app_length, E in S3. rewrite app_length in H. cbn [length] in *. lia.
  - cbn [re_fragment] in H. specialize (N0 c r eq_refl). destruct (N.eqb_spec c cHash) as [->|Hh].
    + pose proof (span_eq (not_in [cNL]) r) as S2. pose proof (span_fst (not_in [cNL]) r) as F2. destruct (span (not_in [cNL]) r) as [f r'].
      cbn [fst snd] in *. destruct f as [|d f].
      * exfalso. apply (f_equal (@length N)) in H. rewrite <- S, app_length in H. cbn [length] in H. lia.
      * rewrite <- S in H. apply app_inv_head in H. injection H as <-. rewrite <- S. apply pt_hash; auto; [discriminate|].
        intros x [<-|[]] Hx. rewrite forallb_forall in F2. specialize (F2 _ Hx). discriminate.
    + exfalso. unfold not_in in N0. cbn in N0. destruct (N.eqb_spec c cQuest); [easy|]. destruct (N.eqb_spec c cHash); [easy|]. discriminate.
Qed.
Lemma fixed_text_path w : path_text w -> text_path w = w.
Proof.
  intros [p Hp|p f Hp Hf Hn]; unfold text_path.
  - pose proof (re_path_ok p []) as R. rewrite app_nil_r in R. rewrite R; auto. exact I.
  - rewrite re_path_ok; [|auto|cbn; auto]. cbn [re_query]. change (N.eqb cHash cQuest) with false. cbv iota. cbn [re_fragment].
    change (N.eqb cHash cHash) with true. cbv iota. rewrite span_all; [|apply forallb_forall; intros x Hx; unfold not_in; cbn; destruct (N.eqb_spec x cNL); [subst; exfalso; apply (Hn cNL); [now left|easy]|easy]].
    cbn [fst]. destruct f; easy.
Qed.

Lemma ends_rest w : snd (span (not_in [cSlash; cQuest; cHash]) w) = [] \/ exists c r, snd (span (not_in [cSlash; cQuest; cHash]) w) = c :: r /\ In c [cSlash; cQuest; cHash].
Proof.
  destruct (snd (span (not_in [cSlash; cQuest; cHash]) w)) as [|c r] eqn:E; [now left|right]. exists c, r. split; auto.
  apply span_snd in E. unfold not_in in E. apply negb_false_iff, existsb_exists in E as (x & Hx & Hc). apply N.eqb_eq in Hc. now subst.
Qed.
(** What follows the two slashes *)
Definition body (iv : str) (sc : option str) (r2 : str) : res split5 :=
  let (a, rest) := span (not_in [cSlash; cQuest; cHash]) r2 in
  let (path, r3) := re_path rest in
  let (query, r4) := re_query r3 in
  let fragment := re_fragment r4 in
  let a := replace inner_token iv a in
  let '(authority, path) := if str_eqb a [cDot] then (None, a ++ path) else (Some a, path) in
  let '(path, fragment) :=
    if negb (is_http sc) && truthy fragment
    then (path ++ [cHash] ++ match fragment with Some f => f | None => [] end, Some [])
    else (path, fragment) in
  Ok (mkSplit5 sc authority path query fragment).
Definition inner_of (w : str) : str := match find_inner w with Some (_, m, _) => m | None => [] end.
Lemma urisplit_body T : urisplit T = match re_authority (snd (re_scheme (subst T))) with
  | (None, _) => Raise AttributeError
  | (Some _, _) => body (inner_of T) (fst (re_scheme (subst T))) (skipn 2 (snd (re_scheme (subst T)))) end.
Proof.
  unfold urisplit, subst, inner_of. destruct (find_inner T) as [[[b m] r]|].
  - destruct (re_scheme (b ++ inner_token ++ r)) as [sc r1]. cbn [fst snd]. unfold re_authority, body.
    destruct (prefixb (lit "//") r1).
    + destruct (span _ (skipn 2 r1)) as [a rest]. destruct (re_path rest) as [p r3]. now destruct (re_query r3) as [q r4].
    + destruct (re_path r1) as [p r3]. now destruct (re_query r3) as [q r4].
  - destruct (re_scheme T) as [sc r1]. cbn [fst snd]. unfold re_authority, body.
    destruct (prefixb (lit "//") r1).
    + destruct (span _ (skipn 2 r1)) as [a rest]. destruct (re_path rest) as [p r3]. now destruct (re_query r3) as [q r4].
    + destruct (re_path r1) as [p r3]. now destruct (re_query r3) as [q r4].
Qed.
Lemma body_path iv sc r2 s : body iv sc r2 = Ok s ->
  let a := fst (span (not_in [cSlash; cQuest; cHash]) r2) in let rest := snd (span (not_in [cSlash; cQuest; cHash]) r2) in
  exists d, (d = [] /\ replace inner_token iv a <> [cDot] \/ d = [cDot] /\ replace inner_token iv a = [cDot]) /\
    (s_path s = d ++ text_path rest \/ is_http sc = true /\ s_path s = d ++ fst (re_path rest)).
Proof.
  unfold body. destruct (span _ r2) as [a rest]. cbn [fst snd]. unfold text_path. destruct (re_path rest) as [p r3].
  destruct (re_query r3) as [q r4]. cbn [fst]. destruct (str_eqb (replace inner_token iv a) [cDot]) eqn:E.
  - apply str_eqb_eq in E. rewrite E. intros H. exists [cDot]. split; [now right|].
    destruct (is_http sc), (re_fragment r4) as [[|c f]|]; injection H as <-; cbn [s_path]; auto.
  - intros H. exists []. split.
    + left. split; auto. intros K. rewrite K in E. discriminate.
    + destruct (is_http sc), (re_fragment r4) as [[|c f]|]; injection H as <-; cbn [s_path]; auto.
Qed.
(** The shape of a text that can be split *)
Lemma urisplit_shape T s : urisplit T = Ok s -> exists pre a rest d, subst T = pre ++ lit "//" ++ a ++ rest /\
  (rest = [] \/ exists c r, rest = c :: r /\ In c [cSlash; cQuest; cHash]) /\
  (s_path s = d ++ text_path rest \/ s_path s = d ++ fst (re_path rest)) /\ (d = [] \/ d = [cDot]).
Proof.
  rewrite urisplit_body. set (t := subst T).
  assert (R : exists pre, t = pre ++ snd (re_scheme t)).
  { unfold re_scheme. pose proof (span_eq (not_in [cColon; cSlash; cQuest; cHash]) t) as S.
    destruct (span _ t) as [[|y w] [|c r]]; try (now exists []). destruct (N.eqb c cColon); [|now exists []].
    cbn [fst snd] in *. exists ((y :: w) ++ [c]). now rewrite <- app_assoc. }
  destruct (re_scheme t) as [sc r1]. cbn [fst snd] in *. destruct R as [pre ->].
  unfold re_authority. destruct (prefixb (lit "//") r1) eqn:P; [|discriminate].
  apply prefixb_spec in P as [r2 ->]. change (skipn 2 (lit "//" ++ r2)) with r2.
  pose proof (ends_rest r2) as K. pose proof (span_eq (not_in [cSlash; cQuest; cHash]) r2) as E.
  intros H. assert (H' : body (inner_of T) sc r2 = Ok s) by (destruct (span (not_in [cSlash; cQuest; cHash]) r2); exact H).
  apply body_path in H'. destruct H' as (d & D & Q).
  destruct (span (not_in [cSlash; cQuest; cHash]) r2) as [a rest]. cbn [fst snd] in *. subst r2.
  exists pre, a, rest, d. repeat split; auto; tauto.
Qed.
Lemma subst_pre pre w : ~ In cLpar pre -> subst (pre ++ w) = pre ++ subst w /\ inner_of (pre ++ w) = inner_of w.
Proof.
  intros H. unfold subst, inner_of. rewrite find_inner_pre by auto. destruct (find_inner w) as [[[b m] r]|]; auto.
  now rewrite <- app_assoc.
Qed.
Lemma urisplit_at sch w : sch <> [] -> avoids [cColon; cSlash; cQuest; cHash; cLpar] sch ->
  urisplit (sch ++ lit "://" ++ w) = body (inner_of w) (Some sch) (subst w).
Proof.
  intros Hs Ha. rewrite urisplit_body. assert (L : ~ In cLpar (sch ++ lit "://")).
  { rewrite in_app_iff. intros [H|H]; [revert H; apply Ha; cbn; tauto|]. cbn in H. intuition discriminate. }
  rewrite app_assoc. destruct (subst_pre _ w L) as [-> ->]. rewrite <- app_assoc. change (lit "://" ++ subst w) with (cColon :: lit "//" ++ subst w).
  rewrite re_scheme_ok; [|auto|eapply avoids_incl; [|exact Ha]; incl_tac]. cbn [fst snd]. unfold re_authority. rewrite prefixb_app.
  change (skipn 2 (lit "//" ++ subst w)) with (subst w). now destruct (span _ (subst w)).
Qed.
Lemma file_ok : lit "file" <> [] /\ avoids [cColon; cSlash; cQuest; cHash; cLpar] (lit "file").
Proof. split; [discriminate|]. intros c Hc1 Hc2. cbn in Hc1, Hc2. intuition (subst; discriminate). Qed.
Lemma memory_ok : lit "memory" <> [] /\ avoids [cColon; cSlash; cQuest; cHash; cLpar] (lit "memory").
Proof. split; [discriminate|]. intros c Hc1 Hc2. cbn in Hc1, Hc2. intuition (subst; discriminate). Qed.

(** The path of a URI object *)
Definition shown (P : str) : str := if prefixb (lit "/.") P then tl P else P.
Lemma mk_path cls t ex u : mk_uri cls t cSlash ex = Ok u -> exists s, urisplit (clean_uri t) = Ok s /\ u_path u = shown (s_path s).
Proof.
  unfold mk_uri. destruct (bad_init_kw ex); [discriminate|]. unfold uri_parse. destruct (urisplit (clean_uri t)) as [s|e]; [|discriminate].
  cbn [rbind]. destruct (match s_authority s with Some _ => _ | None => _ end) as [vp au].
  destruct (match au with Some (c :: w) => _ | _ => _ end) as [[[[us pw] ho] po]|e]; [|discriminate]. cbn [rbind].
  destruct (match s_query s with Some (c :: w) => _ | _ => _ end) as [q|e]; [|discriminate]. cbn [rbind].
  destruct (take_cred _ _ ex _) as [us' ex1]. destruct (take_cred _ _ ex1 _) as [pw' ex2]. intros [= <-]. exists s. split; auto.
  unfold u_path. cbn [u_cls u_sep]. now destruct cls.
Qed.
Lemma shown_cnt c P : cnt c (shown P) <= cnt c P.
Proof.
  unfold shown. destruct (prefixb (lit "/.") P); [|lia]. destruct P as [|x P]; [cbn; lia|]. cbn [tl]. rewrite (cnt_cons c x P). lia.
Qed.
Lemma text_path_head w : (w = [] \/ exists c r, w = c :: r /\ In c [cSlash; cQuest; cHash]) ->
  (text_path w = [] \/ exists c r, text_path w = c :: r /\ In c [cSlash; cHash]) /\ (fst (re_path w) = [] \/ exists c r, fst (re_path w) = c :: r /\ In c [cSlash; cHash]).
Proof.
  intros [->|(c & r & -> & H)]; [cbn; auto|]. unfold text_path, re_path. cbn [span]. destruct H as [<-|[<-|[<-|[]]]].
  - change (not_in [cQuest; cHash] cSlash) with true. cbv iota. destruct (span (not_in [cQuest; cHash]) r) as [p r3]. cbn [fst].
    destruct (re_query r3) as [q r4]. split.
    + right. destruct (re_fragment r4) as [[|x f]|]; do 2 eexists; (split; [reflexivity|now left]).
    + right. do 2 eexists. split; [reflexivity|now left].
  - change (not_in [cQuest; cHash] cQuest) with false. cbv iota. split; [|now left]. destruct (re_query (cQuest :: r)) as [q r4].
    destruct (re_fragment r4) as [[|x f]|]; auto. right. do 2 eexists. split; [reflexivity|cbn; auto].
  - change (not_in [cQuest; cHash] cHash) with false. cbv iota. split; [|now left]. destruct (re_query (cHash :: r)) as [q r4].
    destruct (re_fragment r4) as [[|x f]|]; auto. right. do 2 eexists. split; [reflexivity|cbn; auto].
Qed.
Lemma path_head T s : urisplit T = Ok s -> shown (s_path s) = [] \/ exists c r, shown (s_path s) = c :: r /\ In c [cSlash; cDot; cHash].
Proof.
  intros H. apply urisplit_shape in H as (pre & a & rest & d & _ & R & Q & D). destruct (text_path_head rest R) as [H1 H2].
  assert (K : s_path s = [] \/ exists c r, s_path s = c :: r /\ In c [cSlash; cDot; cHash]).
  { destruct D as [->| ->].
    - cbn [app] in Q. destruct Q as [-> | ->]; [destruct H1 as [->|(c & r & -> & K)]|destruct H2 as [->|(c & r & -> & K)]]; auto;
        right; exists c, r; (split; [reflexivity|cbn in *; tauto]).
    - right. destruct Q as [-> | ->]; do 2 eexists; (split; [reflexivity|cbn; auto]). }
  unfold shown. destruct (prefixb (lit "/.") (s_path s)) eqn:P; auto. apply prefixb_spec in P as [x ->]. right. exists cDot, x. cbn. auto.
Qed.
Lemma path_slashes T s : urisplit T = Ok s -> cnt cSlash (s_path s) + 2 <= cnt cSlash T.
Proof.
  intros H. apply urisplit_shape in H as (pre & a & rest & d & E & _ & Q & D).
  assert (L : cnt cSlash (subst T) <= cnt cSlash T) by (apply subst_cnt; cbn; intuition discriminate).
  rewrite E, !cnt_app in L. change (cnt cSlash (lit "//")) with 2 in L.
  assert (cnt cSlash d = 0) by (now destruct D as [->| ->]).
  pose proof (text_path_cnt rest cSlash). pose proof (path_cnt rest cSlash).
  destruct Q as [->| ->]; rewrite cnt_app; lia.
Qed.
Lemma path_chars T s c : urisplit T = Ok s -> ~ In c inner_token -> c <> cDot -> cnt c (s_path s) <= cnt c T.
Proof.
  intros H Hc Hd. apply urisplit_shape in H as (pre & a & rest & d & E & _ & Q & D).
  pose proof (subst_cnt T c Hc) as L. rewrite E, !cnt_app in L.
  assert (cnt c d = 0) by (destruct D as [->| ->]; [easy|]; apply cnt_not; intros [X|[]]; congruence).
  pose proof (text_path_cnt rest c). pose proof (path_cnt rest c).
  destruct Q as [->| ->]; rewrite cnt_app; lia.
Qed.

Lemma replaced_free a b s : a <> b -> ~ In a (replace_char a b s).
Proof.
  intros H. unfold replace_char. rewrite in_map_iff. intros (x & E & _). destruct (N.eqb_spec x a); congruence.
Qed.
Lemma clean_no_back t : ~ In cBack (clean_uri t).
Proof.
  unfold clean_uri. set (t1 := if prefixb (lit "file://") t then skipn 7 t else t).
  assert (H : ~ In cBack (normalize_uri t1 cBack)).
  { unfold normalize_uri. change (N.eqb cBack cSlash) with false. cbv iota.
    pose proof (replaced_free cBack cSlash t1 ltac:(discriminate)) as R. destruct (replace_char cBack cSlash t1) as [|a [|c r]]; auto.
    destruct (N.eqb c cColon); auto. intros K. cbn [app In] in K. destruct K as [K|[K|K]]; [discriminate| |]; apply R; cbn; auto. }
  set (n := normalize_uri t1 cBack) in *.
  set (k := if negb (contains (lit "://") n) && _ then lit "./" ++ n else n).
  assert (K : ~ In cBack k).
  { unfold k. destruct (_ && _); auto. rewrite in_app_iff. intros [K|K]; auto. cbn in K. intuition discriminate. }
  destruct (negb (contains (lit "://") k)); auto. rewrite in_app_iff. intros [K'|K']; auto. cbn in K'. intuition discriminate.
Qed.

(** What URI() makes of a text that is taken as it is *)
Lemma clean_alone p : free_of [cBack] p -> (forall x y, p <> x ++ lit "://" ++ y) -> (forall c r, p <> c :: cColon :: r) ->
  clean_uri p = lit "file://" ++ (if prefixb [cSlash] p || prefixb [cDot] p then p else lit "./" ++ p).
Proof.
  intros Hb Hu Hd. unfold clean_uri.
  assert (F : prefixb (lit "file://") p = false).
  { destruct (prefixb (lit "file://") p) eqn:E; auto. apply prefixb_spec in E as [r ->].
    exfalso. now apply (Hu (lit "file") r). }
  rewrite F.
  assert (NN : normalize_uri p cBack = p).
  { unfold normalize_uri. change (N.eqb cBack cSlash) with false. cbv iota. rewrite replace_char_id by (apply Hb; now left).
    destruct p as [|x [|y p]]; auto. destruct (N.eqb_spec y cColon); auto. subst y. now destruct (Hd x p). }
  rewrite NN. assert (C : contains (lit "://") p = false) by (now apply contains_no).
  rewrite C. cbn [negb andb]. destruct (prefixb [cSlash] p || prefixb [cDot] p) eqn:E; cbn [negb].
  - now rewrite C.
  - assert (C2 : contains (lit "://") (lit "./" ++ p) = false).
    { cbn [app lit]. cbn. exact C. }
    rewrite C2. reflexivity.
Qed.

(** The text of which the path is [q] times the same text: nothing was rewritten on the way.  [q] is empty or "./". *)
Lemma taken_as_is p q T s : (q = [] \/ q = lit "./") -> T = clean_uri p -> urisplit T = Ok s -> shown (s_path s) = q ++ p ->
  free_of [cBack] p /\ (forall x y, p <> x ++ lit "://" ++ y) /\ (forall c r, p <> c :: cColon :: r).
Proof.
  intros Hq HT HS HP.
  assert (Back : ~ In cBack p).
  { intros H. assert (I1 : In cBack (q ++ p)) by (apply in_app_iff; auto). rewrite <- HP in I1. apply cnt_in in I1.
    pose proof (shown_cnt cBack (s_path s)). pose proof (path_chars T s cBack HS ltac:(cbn; intuition discriminate) ltac:(discriminate)).
    apply (clean_no_back p). rewrite <- HT. apply cnt_in. lia. }
  assert (Sl : cnt cSlash q + cnt cSlash p + 2 <= cnt cSlash T).
  { pose proof (shown_cnt cSlash (s_path s)) as L. rewrite HP, cnt_app in L. pose proof (path_slashes T s HS). lia. }
  assert (File : prefixb (lit "file://") p = false).
  { destruct (prefixb (lit "file://") p) eqn:E; auto. apply prefixb_spec in E as [r ->]. exfalso.
    destruct Hq as [->| ->].
    - destruct (path_head T s HS) as [K|(c & x & K & Hc)]; rewrite HP in K; [discriminate|]. cbn in K. injection K as <- _. cbn in Hc. intuition discriminate.
    - clear -HT Sl Back. rewrite cnt_app in Sl. change (cnt cSlash (lit "./")) with 1 in Sl. change (cnt cSlash (lit "file://")) with 2 in Sl.
      assert (L : cnt cSlash T <= cnt cSlash r + 4); [|lia]. subst T. unfold clean_uri. rewrite prefixb_app. change (skipn 7 (lit "file://" ++ r)) with r.
      assert (Nn : cnt cSlash (normalize_uri r cBack) <= cnt cSlash r + 1).
      { unfold normalize_uri. change (N.eqb cBack cSlash) with false. cbv iota. rewrite replace_char_id by (intros H; apply Back; apply in_app_iff; auto).
        destruct r as [|a [|c r]]; try lia. destruct (N.eqb_spec c cColon) as [->|]; [|lia]. cbn [app].
        rewrite (cnt_cons cSlash cSlash (a :: r)), (cnt_cons cSlash a r), (cnt_cons cSlash a (cColon :: r)), (cnt_cons cSlash cColon r). change (cnt cSlash [cSlash]) with 1. change (cnt cSlash [cColon]) with 0. lia. }
      set (n := normalize_uri r cBack) in *. destruct (contains (lit "://") n) eqn:Cn; cbn [negb andb]; [rewrite Cn; cbn [negb]; lia|].
      destruct (prefixb [cSlash] n || prefixb [cDot] n) eqn:Pn; cbn [negb].
      + rewrite Cn. cbn [negb]. rewrite cnt_app. change (cnt cSlash (lit "file://")) with 2. lia.
      + assert (Sn : cnt cSlash n <= cnt cSlash r).
        { unfold n, normalize_uri in *. change (N.eqb cBack cSlash) with false in *. cbv iota in *.
          rewrite replace_char_id in * by (intros H; apply Back; apply in_app_iff; auto).
          destruct r as [|a [|c r]]; try lia. destruct (N.eqb_spec c cColon) as [->|]; [discriminate|lia]. }
        destruct (negb (contains (lit "://") (lit "./" ++ n))); rewrite ?cnt_app; change (cnt cSlash (lit "file://")) with 2; change (cnt cSlash (lit "./")) with 1; lia. }
  assert (Drive : forall c r, p <> c :: cColon :: r).
  { intros c r ->.
    assert (Cn : normalize_uri (c :: cColon :: r) cBack = [cSlash; c] ++ r).
    { unfold normalize_uri. change (N.eqb cBack cSlash) with false. cbv iota. rewrite replace_char_id by exact Back. reflexivity. }
    assert (HT2 : T = if contains (lit "://") ([cSlash; c] ++ r) then [cSlash; c] ++ r else lit "file://" ++ [cSlash; c] ++ r).
    { rewrite HT. unfold clean_uri. rewrite File, Cn. destruct (contains (lit "://") ([cSlash; c] ++ r)) eqn:E; cbn [negb andb].
      - now rewrite E.
      - change (prefixb [cSlash] ([cSlash; c] ++ r)) with true. cbn [orb negb]. now rewrite E. }
    destruct (contains (lit "://") ([cSlash; c] ++ r)).
    - rewrite HT2 in Sl. cbn [app] in Sl. rewrite (cnt_cons cSlash cSlash (c :: r)), (cnt_cons cSlash c r), (cnt_cons cSlash c (cColon :: r)), (cnt_cons cSlash cColon r) in Sl.
      change (cnt cSlash [cSlash]) with 1 in Sl. change (cnt cSlash [cColon]) with 0 in Sl. lia.
    - change (lit "file://" ++ [cSlash; c] ++ r) with (lit "file" ++ lit "://" ++ (cSlash :: c :: r)) in HT2.
      rewrite HT2 in HS. rewrite (urisplit_at (lit "file") _ (proj1 file_ok) (proj2 file_ok)) in HS. apply body_path in HS as (d & D & [Q|[Q _]]); [|discriminate].
      set (rest := snd (span (not_in [cSlash; cQuest; cHash]) (subst (cSlash :: c :: r)))) in *.
      pose proof (shown_cnt cColon (s_path s)) as L. rewrite HP, Q, !cnt_app in L.
      assert (cnt cColon d = 0) by (now destruct D as [[-> _]|[-> _]]). pose proof (text_path_cnt rest cColon).
      pose proof (span_cnt (not_in [cSlash; cQuest; cHash]) (subst (cSlash :: c :: r)) cColon) as L2. fold rest in L2.
      pose proof (subst_cnt (cSlash :: c :: r) cColon ltac:(cbn; intuition discriminate)) as L3.
      rewrite (cnt_cons cColon cSlash (c :: r)), (cnt_cons cColon c r) in L3. rewrite (cnt_cons cColon c (cColon :: r)), (cnt_cons cColon cColon r) in L.
      change (cnt cColon [cSlash]) with 0 in L3. change (cnt cColon [cColon]) with 1 in L. lia. }
  split; [intros c [<-|[]]; exact Back|]. split; [|exact Drive].
  apply contains_no. destruct (contains (lit "://") p) eqn:C; auto. exfalso.
  assert (HT2 : T = p); [|rewrite HT2 in Sl; lia].
  rewrite HT. unfold clean_uri. rewrite File.
  assert (NN : normalize_uri p cBack = p).
  { unfold normalize_uri. change (N.eqb cBack cSlash) with false. cbv iota. rewrite replace_char_id by exact Back.
    destruct p as [|x [|y p]]; auto. destruct (N.eqb_spec y cColon); auto. subst y. now destruct (Drive x p). }
  rewrite NN, C. cbn [negb andb]. now rewrite C.
Qed.

Lemma subst_head c w : c <> cLpar -> exists w', subst (c :: w) = c :: w' /\ w' = subst w.
Proof. intros H. exists (subst w). split; auto. apply (subst_pre [c] w). intros [K|[]]; auto. Qed.
Lemma span_slash w : span (not_in [cSlash; cQuest; cHash]) (cSlash :: w) = ([], cSlash :: w).
Proof. reflexivity. Qed.
Lemma text_path_slash w : exists x, text_path (cSlash :: w) = cSlash :: x.
Proof.
  unfold text_path, re_path. cbn [span]. change (not_in [cQuest; cHash] cSlash) with true. cbv iota.
  destruct (span (not_in [cQuest; cHash]) w) as [p r3]. destruct (re_query r3) as [q r4]. destruct (re_fragment r4) as [[|x f]|]; eauto.
  eexists. cbn [app]. reflexivity.
Qed.
Lemma no_group_of w : text_path (subst w) = w -> ~ has_group w /\ subst w = w.
Proof.
  intros H. assert (F : find_inner w = None).
  { destruct (find_inner w) eqn:E; auto. exfalso. assert (K : find_inner w <> None) by congruence. apply subst_par in K.
    pose proof (text_path_cnt (subst w) cLpar) as L. rewrite H in L. lia. }
  split; [now apply find_no_group|]. unfold subst. now rewrite F.
Qed.
Lemma kept_forward p T s : T = clean_uri p -> urisplit T = Ok s -> shown (s_path s) = p -> left_alone p /\ kept_start p.
Proof.
  intros HT HS HP. destruct (taken_as_is p [] T s (or_introl eq_refl) HT HS HP) as (Hb & Hu & Hd).
  pose proof (path_head T s HS) as Hh. rewrite HP in Hh. rewrite (clean_alone p Hb Hu Hd) in HT.
  destruct (prefixb [cSlash] p) eqn:P1.
  { apply prefixb_spec in P1 as [r Hr]. cbn [orb app] in *.
    change (lit "file://" ++ p) with (lit "file" ++ lit "://" ++ p) in HT. rewrite HT, (urisplit_at _ _ (proj1 file_ok) (proj2 file_ok)) in HS.
    apply body_path in HS as (d & D & [Q|[Q _]]); [|discriminate].
    assert (Sp : span (not_in [cSlash; cQuest; cHash]) (subst p) = ([], subst p)).
    { rewrite Hr. destruct (subst_head cSlash r ltac:(discriminate)) as (w' & -> & _). reflexivity. }
    rewrite Sp in D, Q. cbn [fst snd] in *. destruct D as [[-> _]|[_ D]]; [|discriminate]. cbn [app] in Q. rewrite Q in HP. unfold shown in HP.
    destruct (prefixb (lit "/.") (text_path (subst p))) eqn:Pd.
    - exfalso. apply prefixb_spec in Pd as [x Pd]. rewrite Pd, Hr in HP. discriminate.
    - destruct (no_group_of p HP) as [G S]. rewrite S in HP. split.
      + constructor; auto. now apply text_path_fixed.
      + apply (ks_root p r); auto. intros x E. rewrite S, HP, E, prefixb_app in Pd. discriminate. }
  destruct (prefixb [cDot] p) eqn:P2; cbn [orb] in HT.
  { apply prefixb_spec in P2 as [r Hr]. change (lit "file://" ++ p) with (lit "file" ++ lit "://" ++ p) in HT.
    rewrite HT, (urisplit_at _ _ (proj1 file_ok) (proj2 file_ok)) in HS. apply body_path in HS as (d & D & [Q|[Q _]]); [|discriminate].
    pose proof (ends_rest (subst p)) as R. pose proof (span_eq (not_in [cSlash; cQuest; cHash]) (subst p)) as E.
    destruct (span (not_in [cSlash; cQuest; cHash]) (subst p)) as [a rest]. cbn [fst snd] in *.
    assert (Cp : cnt cSlash (subst p) <= cnt cSlash p) by (apply subst_cnt; cbn; intuition discriminate).
    destruct D as [[-> D]|[-> D]]; cbn [app] in Q; rewrite Q in HP.
    - exfalso. pose proof (text_path_cnt rest cSlash) as L. rewrite <- E, cnt_app in Cp. unfold shown in HP.
      destruct (prefixb (lit "/.") (text_path rest)) eqn:Pd.
      + apply prefixb_spec in Pd as [x Pd]. rewrite Pd in HP, L. change (tl (lit "/." ++ x)) with (cDot :: x) in HP. change (lit "/." ++ x) with (cSlash :: cDot :: x) in L.
        rewrite HP, (cnt_cons cSlash cSlash p) in L. change (cnt cSlash [cSlash]) with 1 in L. lia.
      + destruct (proj1 (text_path_head rest R)) as [K|(c & x & K & Hc)]; rewrite HP, Hr in K; [discriminate|]. injection K as <- _. cbn in Hc. intuition discriminate.
    - change (shown (cDot :: text_path rest)) with (cDot :: text_path rest) in HP.
      assert (F : find_inner p = None).
      { destruct (find_inner p) eqn:Ef; auto. exfalso. assert (K : find_inner p <> None) by congruence. apply subst_par in K.
        pose proof (text_path_cnt rest cLpar) as L. rewrite <- E, cnt_app in K. rewrite <- HP in K. rewrite (cnt_cons cLpar cDot) in K. change (cnt cLpar [cDot]) with 0 in K. lia. }
      assert (S : subst p = p) by (unfold subst; now rewrite F). rewrite S in E.
      assert (A : a = [cDot] /\ text_path rest = rest).
      { pose proof (text_path_len rest) as L. pose proof (f_equal (@length N) HP) as L1. pose proof (f_equal (@length N) E) as L2. rewrite app_length in L2. cbn [length] in L1.
        destruct a as [|c [|c2 a]]; [destruct rest as [|c rest]; [now rewrite Hr in E|] | |cbn [length] in L2; lia].
        - exfalso. cbn [app] in E. rewrite Hr in E. injection E as -> _. destruct R as [R|(c' & x & R & Hc)]; [discriminate|]. injection R as <- _. cbn in Hc. intuition discriminate.
        - cbn [app] in E. assert (c = cDot) by (rewrite Hr in E; now injection E). subst c. split; auto. rewrite <- E in HP. now injection HP. }
      destruct A as [-> A]. cbn [app] in E. pose proof (text_path_fixed rest A) as Tr. split.
      + constructor; auto.
        * rewrite <- E. apply path_text_cons; auto. cbn. intuition discriminate.
        * now apply find_no_group.
      + destruct R as [-> |(c & x & -> & Hc)]; [now apply ks_here|]. apply (ks_dot p c x); auto. destruct Hc as [<-|[<-|[<-|[]]]]; auto. exfalso.
        inversion Tr as [q Hq Eq|q f Hq Hf Hn Eq].
        * apply (Hq cQuest); cbn; auto. 
        * destruct q as [|c q]; cbn in Eq; [discriminate|]. injection Eq as -> _. apply (Hq cQuest); cbn; auto. }
  exfalso. cbn [app] in HT. change (lit "file://" ++ lit "./" ++ p) with (lit "file" ++ lit "://" ++ (lit "./" ++ p)) in HT.
  rewrite HT, (urisplit_at _ _ (proj1 file_ok) (proj2 file_ok)) in HS. apply body_path in HS as (d & D & [Q|[Q _]]); [|discriminate].
  destruct (subst_pre (lit "./") p) as [S _]; [cbn; intuition discriminate|]. rewrite S in D, Q.
  change (span (not_in [cSlash; cQuest; cHash]) (lit "./" ++ subst p)) with ([cDot], cSlash :: subst p) in D, Q. cbn [fst snd] in *.
  destruct (text_path_slash (subst p)) as [x X]. rewrite X in Q. destruct D as [[_ D]|[-> D]]; [apply D; now destruct (inner_of (lit "./" ++ p))|].
  rewrite Q in HP. change (shown ([cDot] ++ cSlash :: x)) with (cDot :: cSlash :: x) in HP. rewrite <- HP in P2. discriminate.
Qed.

Lemma path_text_less c p : ~ In c [cQuest; cHash] -> path_text (c :: p) -> path_text p.
Proof.
  intros Hc T. inversion T as [q Hq E|q f Hq Hf Hn E].
  - constructor. intros x Hx Hp. apply (Hq x Hx). now right.
  - destruct q as [|y q]; cbn in E; injection E as E0 E; [subst; exfalso; apply Hc; cbn; auto|].
    rewrite <- E. apply pt_hash; auto. intros x Hx Hq'. apply (Hq x Hx). now right.
Qed.
Lemma path_text_tail p : path_text (cSlash :: p) -> path_text p.
Proof. apply path_text_less. cbn. intuition discriminate. Qed.
Lemma group_more c w : has_group w -> has_group (c :: w).
Proof. intros (x & y & z & -> & H). now exists (c :: x), y, z. Qed.
Lemma relative_forward p T s : T = clean_uri p -> urisplit T = Ok s -> shown (s_path s) = lit "./" ++ p ->
  left_alone p /\ (forall r, p <> cSlash :: r) /\ forall r, p <> cDot :: r.
Proof.
  intros HT HS HP. destruct (taken_as_is p (lit "./") T s (or_intror eq_refl) HT HS HP) as (Hb & Hu & Hd).
  rewrite (clean_alone p Hb Hu Hd) in HT. pose proof (path_slashes T s HS) as L. pose proof (shown_cnt cSlash (s_path s)) as L1.
  rewrite HP, cnt_app in L1. change (cnt cSlash (lit "./")) with 1 in L1.
  destruct (prefixb [cSlash] p || prefixb [cDot] p) eqn:E.
  { exfalso. rewrite HT, cnt_app in L. change (cnt cSlash (lit "file://")) with 2 in L. lia. }
  change (lit "file://" ++ lit "./" ++ p) with (lit "file" ++ lit "://" ++ (lit "./" ++ p)) in HT.
  rewrite HT, (urisplit_at _ _ (proj1 file_ok) (proj2 file_ok)) in HS. apply body_path in HS as (d & D & [Q|[Q _]]); [|discriminate].
  destruct (subst_pre (lit "./") p) as [S _]; [cbn; intuition discriminate|]. rewrite S in D, Q.
  change (span (not_in [cSlash; cQuest; cHash]) (lit "./" ++ subst p)) with ([cDot], cSlash :: subst p) in D, Q. cbn [fst snd] in *.
  destruct D as [[_ D]|[-> D]]; [exfalso; apply D; now destruct (inner_of (lit "./" ++ p))|]. rewrite Q in HP.
  change (shown ([cDot] ++ text_path (cSlash :: subst p))) with (cDot :: text_path (cSlash :: subst p)) in HP.
  change (lit "./" ++ p) with (cDot :: cSlash :: p) in HP. injection HP as HP.
  destruct (subst_head cSlash p ltac:(discriminate)) as (w' & E1 & ->). rewrite <- E1 in HP. destruct (no_group_of _ HP) as [G S2]. rewrite S2 in HP.
  apply text_path_fixed in HP. apply orb_false_iff in E as [P1 P2]. split; [constructor; auto|split].
  - now apply path_text_tail.
  - intros K. apply G. now apply group_more.
  - intros r ->. discriminate.
  - intros r ->. discriminate.
Qed.

(** The other direction *)
Lemma body_text iv sc w a a' rest : span (not_in [cSlash; cQuest; cHash]) w = (a, rest) -> replace inner_token iv a = a' -> path_text rest -> is_http sc = false ->
  exists f, body iv sc w = Ok (mkSplit5 sc (if str_eqb a' [cDot] then None else Some a') ((if str_eqb a' [cDot] then a' else []) ++ rest) None f).
Proof.
  intros Sp Ra Ht Hh. unfold body. rewrite Sp.
  assert (K : exists p r3, re_path rest = (p, r3) /\ re_query r3 = (None, r3) /\ rest = p ++ match re_fragment r3 with Some (c :: f) => cHash :: c :: f | _ => [] end).
  { destruct Ht as [p Hp|p f Hp Hf Hn].
    - exists p, []. pose proof (re_path_ok p []) as R. rewrite app_nil_r in R. rewrite R; auto; [|exact I]. cbn. now rewrite app_nil_r.
    - exists p, (cHash :: f). rewrite re_path_ok; [|auto|cbn; auto]. split; auto. split; auto. cbn [re_fragment]. change (N.eqb cHash cHash) with true. cbv iota.
      rewrite span_all; [|apply forallb_forall; intros x Hx; unfold not_in; cbn; destruct (N.eqb_spec x cNL); [subst; exfalso; apply (Hn cNL); [now left|easy]|easy]].
      cbn [fst]. destruct f; easy. }
  destruct K as (p & r3 & -> & -> & Er). rewrite Ra, Hh. cbn [negb andb].
  destruct (str_eqb a' [cDot]), (re_fragment r3) as [[|c f]|]; cbn [truthy]; eexists; rewrite Er; rewrite ?app_nil_r, <- ?app_assoc; reflexivity.
Qed.
Lemma parse_text sch a rest : sch <> [] -> avoids [cColon; cSlash; cQuest; cHash; cLpar] sch -> is_http (Some sch) = false ->
  a = [] \/ a = [cDot] -> heads [cSlash; cHash] rest -> path_text rest -> ~ has_group rest ->
  exists P, uri_parse (sch ++ lit "://" ++ a ++ rest) = Ok P /\ p_path P = a ++ rest /\ p_query P = [].
Proof.
  intros Hs1 Hs2 Hh Ha He Ht Hg.
  assert (G : ~ has_group (a ++ rest)) by (intros G; apply Hg; apply (group_drop a); auto; destruct Ha as [->| ->]; cbn; intuition discriminate).
  assert (S : subst (a ++ rest) = a ++ rest /\ inner_of (a ++ rest) = []) by (unfold subst, inner_of; now rewrite no_group_find).
  destruct S as [S1 S2].
  assert (Sp : span (not_in [cSlash; cQuest; cHash]) (a ++ rest) = (a, rest)).
  { apply span_app; [now destruct Ha as [->| ->]|]. apply heads_stops. destruct rest as [|c r]; [exact I|]. cbn in *. intuition. }
  unfold uri_parse. rewrite urisplit_at, S1, S2 by auto.
  destruct (body_text [] (Some sch) (a ++ rest) a a rest Sp) as [f ->]; auto.
  { apply replace_id; [discriminate|]. now destruct Ha as [->| ->]. }
  destruct Ha as [->| ->]; cbn [str_eqb rbind s_authority s_query s_scheme s_path s_fragment].
  - eexists. split; [reflexivity|]. auto.
  - eexists. split; [reflexivity|]. auto.
Qed.
Lemma URI_of p t ex P : kw_ok ex -> scheme_re p = None -> clean_uri p = t -> uri_parse t = Ok P ->
  exists u, URI p cSlash ex = Ok u /\ u_path u = shown (p_path P).
Proof.
  intros Hk Hs Hc Hp. unfold URI. rewrite Hs. eexists. split; [eapply mk_uri_of; eauto|].
  unfold u_path. rewrite made_cls, made_sep. change (class_of_scheme (Some (lit "file"))) with ULocal. cbv iota.
  change (N.eqb cSlash cSlash) with true. cbv iota. unfold base_path. now rewrite made_p.
Qed.
Lemma kept_back p ex : kw_ok ex -> left_alone p -> kept_start p -> exists u, URI p cSlash ex = Ok u /\ u_path u = p.
Proof.
  intros Hk [Ht Hb Hg Hu Hd] St. pose proof (clean_alone p Hb Hu Hd) as C.
  destruct St as [r Hr Hn|Hr|c r Hr Hc].
  - assert (P1 : prefixb [cSlash] p = true) by (now rewrite Hr). rewrite P1 in C. cbn [orb] in C.
    destruct (parse_text (lit "file") [] p (proj1 file_ok) (proj2 file_ok) eq_refl (or_introl eq_refl)) as (P & E & Ep & _); auto; [rewrite Hr; cbn; auto|].
    destruct (URI_of p _ ex P Hk (no_scheme_re p Hu) C E) as (u & U & Up). exists u. split; auto. rewrite Up, Ep. cbn [app]. unfold shown.
    destruct (prefixb (lit "/.") p) eqn:D; auto. apply prefixb_spec in D as [x D]. now destruct (Hn x).
  - assert (P1 : prefixb [cSlash] p || prefixb [cDot] p = true) by (now rewrite Hr). rewrite P1 in C.
    destruct (parse_text (lit "file") [cDot] [] (proj1 file_ok) (proj2 file_ok) eq_refl (or_intror eq_refl)) as (P & E & Ep & _); try exact I.
    { constructor. intros x _ []. } { intros (x & y & z & K & _). destruct x; discriminate. }
    rewrite app_nil_r in E, Ep. rewrite <- Hr in E at 1. destruct (URI_of p _ ex P Hk (no_scheme_re p Hu) C E) as (u & U & Up). exists u. split; auto.
    rewrite Up, Ep, Hr. reflexivity.
  - assert (P1 : prefixb [cSlash] p || prefixb [cDot] p = true) by (rewrite Hr; apply orb_true_r). rewrite P1 in C.
    destruct (parse_text (lit "file") [cDot] (c :: r) (proj1 file_ok) (proj2 file_ok) eq_refl (or_intror eq_refl)) as (P & E & Ep & _).
    { cbn. destruct Hc; subst; auto. }
    { rewrite Hr in Ht. inversion Ht as [q Hq Eq|q f Hq Hf Hn Eq]; [constructor; intros x Hx Hi; apply (Hq x Hx); now right|].
      destruct q as [|y q]; [discriminate|]. cbn in Eq. injection Eq as _ Eq. rewrite <- Eq. apply pt_hash; auto. intros x Hx Hi. apply (Hq x Hx). now right. }
    { intros K. apply Hg. rewrite Hr. now apply group_more. }
    change ([cDot] ++ c :: r) with (cDot :: c :: r) in E, Ep. rewrite <- Hr in E at 1. destruct (URI_of p _ ex P Hk (no_scheme_re p Hu) C E) as (u & U & Up). exists u. split; auto.
    rewrite Up, Ep, Hr. reflexivity.
Qed.
Lemma relative_back p ex : kw_ok ex -> left_alone p -> (forall r, p <> cSlash :: r) -> (forall r, p <> cDot :: r) ->
  exists u, URI p cSlash ex = Ok u /\ u_path u = lit "./" ++ p.
Proof.
  intros Hk [Ht Hb Hg Hu Hd] H1 H2. pose proof (clean_alone p Hb Hu Hd) as C.
  assert (P1 : prefixb [cSlash] p || prefixb [cDot] p = false).
  { destruct p as [|c p]; [reflexivity|]. cbn [prefixb]. destruct (N.eqb_spec cSlash c); [subst; now destruct (H1 p)|].
    destruct (N.eqb_spec cDot c); [subst; now destruct (H2 p)|]. reflexivity. }
  rewrite P1 in C.
  destruct (parse_text (lit "file") [cDot] (cSlash :: p) (proj1 file_ok) (proj2 file_ok) eq_refl (or_intror eq_refl)) as (P & E & Ep & _).
  { cbn. auto. } { apply path_text_cons; auto. cbn. intuition discriminate. } { intros K. apply Hg. apply (group_drop [cSlash]); auto. cbn. intuition discriminate. }
  destruct (URI_of p _ ex P Hk (no_scheme_re p Hu) C E) as (u & U & Up). exists u. split; auto. rewrite Up, Ep. reflexivity.
Qed.

(** Names below a directory of a memory file system *)
Definition mem_dir (t P : str) : uri := made UMemory t cSlash (parse_of (lit "memory") NoAuth P [] None) [].
Lemma mem_dir_div t P P' n : rstrip_p is_slash P = P' ->
  u_div (mem_dir t P) n = rlet r <- mk_uri UMemory (lit "memory" ++ lit "://" ++ P' ++ cSlash :: n) cSlash []; Ok (u_set_query r []).
Proof.
  intros R. unfold u_div, u_join, mem_dir. rewrite made_sep. change (N.eqb cSlash cSlash) with true. cbn [rev app map].
  unfold u_scheme. rewrite made_p, made_cls. cbn [parse_of p_scheme p_query p_path]. rewrite R.
  change (as_list_netloc _) with (@nil N). cbn [join_with uri_from_parts app rbind].
  change (u_all_extras _) with (@nil (str * str)). reflexivity.
Qed.
Lemma clean_memory x : clean_uri (lit "memory" ++ lit "://" ++ x) = lit "memory" ++ lit "://" ++ replace_char cBack cSlash x.
Proof.
  unfold clean_uri. change (prefixb (lit "file://") (lit "memory" ++ lit "://" ++ x)) with false. cbv iota.
  change (normalize_uri (lit "memory" ++ lit "://" ++ x) cBack) with (lit "memory" ++ lit "://" ++ replace_char cBack cSlash x).
  rewrite contains_scheme. reflexivity.
Qed.
Lemma replaced_app a b x y : replace_char a b (x ++ y) = replace_char a b x ++ replace_char a b y.
Proof. apply map_app. Qed.
(** The texts that are the path of the memory URI made of them *)
Definition path_as_is (X : str) : Prop := path_text X /\ ~ In cBack X /\ ~ has_group X /\ forall x, X <> lit "/." ++ x.
Lemma mem_forward X y v : X = cSlash :: y -> mk_uri UMemory (lit "memory" ++ lit "://" ++ X) cSlash [] = Ok v -> u_path v = X -> path_as_is X.
Proof.
  intros HX M. apply mk_path in M as (s & S & ->). intros HP.
  assert (Back : ~ In cBack X).
  { intros I1. rewrite <- HP in I1. apply cnt_in in I1.
    pose proof (shown_cnt cBack (s_path s)). pose proof (path_chars _ s cBack S ltac:(cbn; intuition discriminate) ltac:(discriminate)).
    eapply clean_no_back. apply cnt_in. eapply Nat.lt_le_trans; [exact I1|]. etransitivity; eauto. }
  rewrite clean_memory, replace_char_id in S by exact Back. rewrite (urisplit_at _ _ (proj1 memory_ok) (proj2 memory_ok)) in S.
  apply body_path in S as (d & D & [Q|[Q _]]); [|discriminate].
  assert (Sp : span (not_in [cSlash; cQuest; cHash]) (subst X) = ([], subst X)).
  { rewrite HX. destruct (subst_head cSlash y ltac:(discriminate)) as (w' & -> & _). reflexivity. }
  rewrite Sp in D, Q. cbn [fst snd] in *. destruct D as [[-> _]|[_ D]]; [|discriminate]. cbn [app] in Q. rewrite Q in HP. unfold shown in HP.
  destruct (prefixb (lit "/.") (text_path (subst X))) eqn:Pd.
  { exfalso. apply prefixb_spec in Pd as [x Pd]. rewrite Pd, HX in HP. discriminate. }
  destruct (no_group_of X HP) as [G S2]. rewrite S2 in HP, Pd. rewrite HP in Pd. apply text_path_fixed in HP.
  repeat split; auto. intros x E. rewrite E, prefixb_app in Pd. discriminate.
Qed.
Lemma mem_back X y : X = cSlash :: y -> path_as_is X -> exists v, mk_uri UMemory (lit "memory" ++ lit "://" ++ X) cSlash [] = Ok v /\ u_path v = X.
Proof.
  intros HX (Ht & Hb & Hg & Hd).
  destruct (parse_text (lit "memory") [] X (proj1 memory_ok) (proj2 memory_ok) eq_refl (or_introl eq_refl)) as (Q & E & Eq & _); auto.
  { rewrite HX. cbn. auto. }
  cbn [app] in E, Eq. rewrite (mk_uri_of UMemory _ (lit "memory" ++ lit "://" ++ X) Q cSlash []).
  - eexists. split; [reflexivity|]. unfold u_path. rewrite made_cls. unfold base_path. rewrite made_p, Eq.
    destruct (prefixb (lit "/.") X) eqn:D; auto. exfalso. apply prefixb_spec in D as [x D]. now destruct (Hd x).
  - constructor; [constructor|]. intros k _ [].
  - now rewrite clean_memory, replace_char_id.
  - exact E.
Qed.
Lemma path_text_app P x : free_of [cQuest; cHash] P -> path_text (P ++ x) <-> path_text x.
Proof.
  intros H. induction P as [|c P IH]; [easy|]. assert (Hc : ~ In c [cQuest; cHash]) by (intros K; apply (H c K); now left).
  assert (HP : free_of [cQuest; cHash] P) by (intros z Hz K; apply (H z Hz); now right). cbn [app]. rewrite <- (IH HP). split.
  - now apply path_text_less.
  - intros T. now apply path_text_cons.
Qed.
Lemma group_app P w : has_group w -> has_group (P ++ w).
Proof. intros (x & y & z & -> & H). exists (P ++ x), y, z. now rewrite <- app_assoc. Qed.
Lemma group_after P n : (forall x y, P <> x ++ lit "((" ++ y) -> has_group (P ++ cSlash :: n) -> has_group n.
Proof.
  intros HP (x & y & z & E & Hn). revert P HP E. induction x as [|c x IH]; intros P HP E.
  - exfalso. destruct P as [|a [|b P]]; [discriminate|discriminate|]. cbn in E. injection E as -> -> _. now apply (HP [] P).
  - destruct P as [|a P].
    + cbn in E. injection E as _ E. exists x, y, z. auto.
    + cbn [app] in E. injection E as _ E. apply (IH P); auto. intros x' y' ->. now apply (HP (a :: x') y').
Qed.
Lemma as_is_app P n : free_of [cQuest; cHash; cBack] P -> (P = [] \/ exists x, P = cSlash :: x) -> (forall x y, P <> x ++ lit "((" ++ y) -> (forall x, P <> lit "/." ++ x) ->
  path_as_is (P ++ cSlash :: n) <-> inner_name n /\ (P = [] -> forall x, n <> cDot :: x).
Proof.
  intros Hf Hs Hg Hd.
  assert (Hf' : free_of [cQuest; cHash] P) by (intros z Hz; apply Hf; cbn in *; tauto).
  unfold path_as_is. rewrite (path_text_app P _ Hf'). split.
  - intros (Ht & Hb & Hn & Hdd). split; [constructor|].
    + intros c [<-|[]] K. apply Hb. apply in_app_iff. cbn. auto.
    + now apply path_text_tail.
    + intros K. apply Hn. apply group_app, group_more, K.
    + intros -> x ->. now apply (Hdd x).
  - intros [[Hb Ht Hn] Hdot]. repeat split.
    + apply path_text_cons; auto. cbn. intuition discriminate.
    + rewrite in_app_iff. intros [H|[H|H]]; [revert H; apply Hf; cbn; auto|discriminate|revert H; apply Hb; now left].
    + intros K. apply Hn. eapply group_after; eauto.
    + intros x D. destruct Hs as [Hs|[w Hs]]; rewrite Hs in D; cbn in D.
      * injection D as D. now apply (Hdot Hs x).
      * destruct w as [|c w]; cbn in D; [discriminate|]. injection D as -> D. now apply (Hd w).
Qed.
Lemma name_iff t P P' n : rstrip_p is_slash P = P' -> free_of [cQuest; cHash; cBack] P' -> (P' = [] \/ exists x, P' = cSlash :: x) ->
  (forall x y, P' <> x ++ lit "((" ++ y) -> (forall x, P' <> lit "/." ++ x) ->
  (exists r, u_div (mem_dir t P) n = Ok r /\ u_path r = P' ++ cSlash :: n) <-> inner_name n /\ (P' = [] -> forall x, n <> cDot :: x).
Proof.
  intros R Hf Hs Hg Hd. rewrite <- (as_is_app P' n Hf Hs Hg Hd), (mem_dir_div t P P' n R).
  assert (HX : exists y, P' ++ cSlash :: n = cSlash :: y) by (destruct Hs as [Hs|[x Hs]]; rewrite Hs; cbn [app]; eauto). destruct HX as [y HX].
  split.
  - intros (r & H & HP). destruct (mk_uri UMemory _ cSlash []) as [v|e] eqn:M; [|discriminate]. cbn [rbind] in H. injection H as <-. now apply (mem_forward _ y v).
  - intros H. destruct (mem_back _ y HX H) as (v & -> & E). cbn [rbind]. eexists. split; [reflexivity|]. exact E.
Qed.
Lemma suffix_iff t P x : t = lit "memory" ++ lit "://" ++ P -> (exists y, P = cSlash :: y) ->
  (exists r, u_add (mem_dir t P) x = Ok r /\ u_path r = P ++ x) <-> path_as_is (P ++ x).
Proof.
  intros Ht [y HP]. assert (HX : P ++ x = cSlash :: y ++ x) by (now rewrite HP).
  assert (A : u_add (mem_dir t P) x = rlet r <- mk_uri UMemory (lit "memory" ++ lit "://" ++ P ++ x) cSlash []; Ok (u_set_query r [])).
  { unfold u_add, mem_dir. rewrite made_sep, made_cls, made_uri, made_p. cbn [parse_of p_query]. rewrite Ht, <- !app_assoc. reflexivity. }
  rewrite A. split.
  - intros (r & H & E). destruct (mk_uri UMemory _ cSlash []) as [v|e] eqn:M; [|discriminate]. cbn [rbind] in H. injection H as <-. now apply (mem_forward _ _ v HX).
  - intros H. destruct (mem_back _ _ HX H) as (v & -> & E). cbn [rbind]. eexists. split; [reflexivity|]. exact E.
Qed.
(** The URI of a directory *)
Lemma dir_uri P u : free_of [cQuest; cHash; cBack] P -> (forall x y, P <> x ++ lit "((" ++ y) -> (exists x, P = cSlash :: x) -> URI (lit "memory://" ++ P) cSlash [] = Ok u ->
  u = mem_dir (lit "memory" ++ lit "://" ++ P) P.
Proof.
  intros Hf Hg [x Hx]. change (lit "memory://" ++ P) with (lit "memory" ++ lit "://" ++ P). unfold URI.
  assert (S : scheme_re (lit "memory" ++ lit "://" ++ P) = Some (lit "memory")) by reflexivity. rewrite S.
  change (class_of_scheme (Some (lit "memory"))) with UMemory.
  assert (Pa : uri_parse (lit "memory" ++ lit "://" ++ P) = Ok (parse_of (lit "memory") NoAuth P [] None)).
  { pose proof (parse_nohost (lit "memory") P None (proj1 memory_ok) (proj2 memory_ok) eq_refl) as K. cbn [ftext] in K. rewrite app_nil_r in K. apply K; auto.
    - rewrite Hx. cbn. auto.
    - intros z Hz. apply Hf. cbn in *. tauto.
    - intros (a & b & c & E & _). now apply (Hg a (b ++ lit "))" ++ c)). }
  rewrite (mk_uri_made UMemory _ cSlash [] (parse_of (lit "memory") NoAuth P [] None) eq_refl); [intros [= <-]; reflexivity| |exact Pa].
  rewrite clean_memory, replace_char_id; auto. apply Hf. cbn. auto.
Qed.

(** Names below a local directory *)
Definition loc_dir (t P : str) (ex : dict str) : uri := made ULocal t cSlash (parse_of (lit "file") NoAuth P [] None) ex.
Lemma made_extras cls t sep sch P ex : u_extras (made cls t sep (parse_of sch NoAuth P [] None) ex) = ex.
Proof. reflexivity. Qed.
Lemma loc_dir_div t P P' ex n : rstrip_p is_slash P = P' ->
  u_div (loc_dir t P ex) n = rlet r <- mk_uri ULocal (lit "file" ++ lit "://" ++ P' ++ cSlash :: n) cSlash (dupdate ex []); Ok (u_set_query r []).
Proof.
  intros R. unfold u_div, u_join, loc_dir. rewrite made_sep. change (N.eqb cSlash cSlash) with true. cbn [rev app map].
  unfold u_scheme. rewrite made_p, made_cls. cbn [parse_of p_scheme p_query p_path]. rewrite R.
  change (as_list_netloc _) with (@nil N). cbn [join_with uri_from_parts app rbind].
  change (u_all_extras _) with (dupdate ex []). reflexivity.
Qed.
Lemma mk_file X y ex : X = cSlash :: y -> mk_uri ULocal (lit "file" ++ lit "://" ++ X) cSlash ex = match mk_uri ULocal X cSlash ex with Ok u => Ok u | Raise e => Raise e end.
Proof.
  intros HX. assert (C : clean_uri (lit "file" ++ lit "://" ++ X) = clean_uri X).
  { unfold clean_uri. change (prefixb (lit "file://") (lit "file" ++ lit "://" ++ X)) with true. cbv iota.
    change (skipn 7 (lit "file" ++ lit "://" ++ X)) with X. assert (F : prefixb (lit "file://") X = false) by (now rewrite HX). now rewrite F. }
  unfold mk_uri. rewrite C. destruct (bad_init_kw ex); auto. destruct (uri_parse (clean_uri X)) as [p|e]; auto. cbn [rbind].
  destruct (take_cred _ _ ex _) as [us ex1]. now destruct (take_cred _ _ ex1 _) as [pw ex2].
Qed.
Lemma URI_slash X y ex : X = cSlash :: y -> URI X cSlash ex = mk_uri ULocal X cSlash ex.
Proof. intros ->. reflexivity. Qed.
Lemma last_slash P n x y : (forall r, P <> r ++ [cSlash]) -> free_of [cSlash] n -> P ++ cSlash :: n = x ++ lit "://" ++ y -> exists z, P = x ++ lit "://" ++ z.
Proof.
  intros He Hn E. revert P He E. induction x as [|c x IH]; intros P He E.
  - destruct P as [|a [|b [|d P]]]; cbn in E.
    + discriminate. + injection E as -> E. exfalso. apply (Hn cSlash); [now left|]. rewrite E. now left.
    + injection E as -> -> E. exfalso. apply (He [cColon]). reflexivity.
    + injection E as -> -> -> E. now exists P.
  - destruct P as [|a P]; cbn [app] in E.
    + injection E as _ E. exfalso. apply (Hn cSlash); [now left|]. rewrite E. apply in_app_iff. right. cbn. auto.
    + injection E as -> E. destruct (IH P) as [z ->]; auto; [|now exists z]. intros r ->. now apply (He (c :: r)).
Qed.
Lemma local_as_is P n : free_of [cQuest; cHash; cBack] P -> (P = [] \/ local_dir P) -> free_of [cSlash] n ->
  left_alone (P ++ cSlash :: n) /\ kept_start (P ++ cSlash :: n) <-> inner_name n /\ (P = [] -> forall x, n <> cDot :: x /\ n <> cColon :: x).
Proof.
  intros Hf Hs Hn.
  assert (Hs2 : P = [] \/ exists x, P = cSlash :: x) by (destruct Hs as [Hs|[[_ _ (c & r & -> & _) _] _ _]]; eauto).
  assert (Hg : forall x y, P <> x ++ lit "((" ++ y) by (destruct Hs as [->|[[_ H _ _] _ _]]; [intros x y; destruct x; discriminate|exact H]).
  assert (Hd : forall x, P <> lit "/." ++ x).
  { intros x. destruct Hs as [->|[[_ _ (c & r & -> & Hc) _] _ _]]; [discriminate|]. intros E. cbn in E. injection E as E _. auto. }
  pose proof (as_is_app P n Hf Hs2 Hg Hd) as [F B]. split.
  - intros [[Ht Hb Hgr Hu Hdr] St]. destruct F as [H1 H2].
    { repeat split; auto; [intros K; apply (Hb cBack); cbn; auto|]. intros x E. destruct St as [r Er Hnd|Er|c r Er _].
      - now apply (Hnd x). - rewrite E in Er. discriminate. - rewrite E in Er. discriminate. }
    split; auto. intros Hp x. split; [now apply H2|]. intros ->. rewrite Hp in Hdr. now apply (Hdr cSlash x).
  - intros [H1 H2]. destruct B as (Ht & Hb & Hgr & Hdd); [split; auto; intros Hp x; now apply H2|].
    split.
    + constructor; auto.
      * intros c [<-|[]]. exact Hb.
      * intros x y E. destruct Hs as [->|[[_ _ _ He] Hu _]].
        -- cbn in E. destruct x as [|c x]; [discriminate|]. cbn [app] in E. injection E as _ E. apply (Hn cSlash); [now left|]. rewrite E. apply in_app_iff. right. cbn. auto.
        -- destruct (last_slash P n x y He Hn E) as [z Ez]. now apply (Hu x z).
      * intros c r E. destruct Hs as [->|[[_ _ (c' & r' & -> & _) _] _ Hdr]].
        -- cbn in E. injection E as _ E. destruct (H2 eq_refl r) as [_ K]. now apply K.
        -- cbn in E. injection E as <- E _. apply (Hdr r'). now rewrite E.
    + destruct Hs2 as [->|[x ->]]; (eapply ks_root; [reflexivity|exact Hdd]).
Qed.
Lemma local_iff t P P' ex n : kw_ok ex -> rstrip_p is_slash P = P' -> free_of [cQuest; cHash; cBack] P' -> (P' = [] \/ local_dir P') -> free_of [cSlash] n ->
  (exists r, u_div (loc_dir t P ex) n = Ok r /\ u_path r = P' ++ cSlash :: n) <-> inner_name n /\ (P' = [] -> forall x, n <> cDot :: x /\ n <> cColon :: x).
Proof.
  intros Hk R Hf Hs Hn. rewrite <- (local_as_is P' n Hf Hs Hn), (loc_dir_div t P P' ex n R).
  assert (HX : exists y, P' ++ cSlash :: n = cSlash :: y) by (destruct Hs as [->|[[_ _ (c & r & -> & _) _] _ _]]; cbn [app]; eauto). destruct HX as [y HX].
  rewrite (mk_file _ y _ HX), <- (URI_slash _ y _ HX).
  assert (Hk' : kw_ok (dupdate ex [])) by exact Hk.
  split.
  - intros (r & H & HP). destruct (URI _ cSlash _) as [v|e] eqn:M; [|discriminate]. cbn [rbind] in H. injection H as <-. change (u_path (u_set_query v [])) with (u_path v) in HP.
    apply mk_path in M as (s & S & E). rewrite E in HP. now apply (kept_forward _ _ s eq_refl S).
  - intros [H1 H2]. destruct (kept_back _ (dupdate ex []) Hk' H1 H2) as (v & -> & E). cbn [rbind]. eexists. split; [reflexivity|]. exact E.
Qed.
Lemma loc_uri P u ex : kw_ok ex -> P = [cSlash] \/ local_dir P -> URI P cSlash ex = Ok u -> u = loc_dir (lit "file" ++ lit "://" ++ P) P ex.
Proof.
  intros Hk Hs. assert (Hx : exists x, P = cSlash :: x) by (destruct Hs as [->|[[_ _ (c & r & -> & _) _] _ _]]; eauto). destruct Hx as [x Hx].
  assert (L : free_of [cQuest; cHash; cBack] P /\ (forall x y, P <> x ++ lit "((" ++ y) /\ (forall x y, P <> x ++ lit "://" ++ y) /\ forall c r, P <> c :: cColon :: r).
  { destruct Hs as [->|[[H1 H2 (c & r & E & _) _] H3 H4]].
    - split; [intros c H1 H2; cbn in H1, H2; intuition (subst; discriminate)|]. split; [now apply contains_no|]. split; [now apply contains_no|discriminate].
    - split; [auto|split; [auto|split; [auto|]]]. intros a b E2. rewrite Hx in E2. injection E2 as <- ->. now apply (H4 b). }
  destruct L as (Hf & Hg & Hu & Hd).
  assert (C : clean_uri P = lit "file" ++ lit "://" ++ P).
  { rewrite (clean_alone P); auto; [now rewrite Hx|]. intros z Hz. apply Hf. cbn in *. tauto. }
  rewrite (URI_slash P x ex Hx).
  assert (Pa : uri_parse (lit "file" ++ lit "://" ++ P) = Ok (parse_of (lit "file") NoAuth P [] None)).
  { pose proof (parse_nohost (lit "file") P None (proj1 file_ok) (proj2 file_ok) eq_refl) as K. cbn [ftext] in K. rewrite app_nil_r in K. apply K; auto.
    - rewrite Hx. cbn. auto.
    - intros z Hz. apply Hf. cbn in *. tauto.
    - intros (a & b & c & E & _). now apply (Hg a (b ++ lit "))" ++ c)). }
  rewrite (mk_uri_of ULocal P _ _ cSlash ex Hk C Pa). intros [= <-]. reflexivity.
Qed.
