(** The functions of the parser are the rules of SpecParse.v: texts, urisplit. *)
From Verif Require Import Str Exc Utf8 UriParse BaseUri SpecUri SpecParse StrFacts UriFacts UriFacts2.

Lemma run_span l t w r : run_of l t w r <-> span (not_in l) t = (w, r).
Proof.
  split.
  - intros (-> & F & R). apply span_app; [apply avoids_forallb; exact F|]. destruct R as [->|(c & r' & -> & I)]; [exact I|].
    cbn [stops]. destruct (not_in l c) eqn:E; [|reflexivity]. exfalso. now apply not_in_spec in E.
  - intros E. pose proof (span_eq (not_in l) t) as A. pose proof (span_fst (not_in l) t) as F. pose proof (span_snd (not_in l) t) as S.
    rewrite E in A, F, S. cbn [fst snd] in *. split; [auto|]. split.
    + intros c I J. rewrite forallb_forall in F. specialize (F c J). now apply not_in_spec in F.
    + destruct r as [|c r']; [now left|]. right. exists c, r'. split; [reflexivity|]. specialize (S c r' eq_refl). unfold not_in in S.
      apply negb_false_iff in S. apply existsb_exists in S as (x & I & E'). apply N.eqb_eq in E'. now subst.
Qed.

Lemma scheme_re_iff t s r : scheme_part t s r <-> re_scheme t = (s, r).
Proof.
  assert (X : forall w r0, w <> [] -> free_of [cColon; cSlash; cQuest; cHash] w -> t = w ++ cColon :: r0 -> re_scheme t = (Some w, r0)).
  { intros w r0 N F ->. now apply re_scheme_ok. }
  split.
  - intros [w r0 N F E|N]; [now apply X|]. unfold re_scheme. destruct (span _ t) as [w r0] eqn:E. apply run_span in E as (Et & F & R).
    destruct w as [|c w]; [reflexivity|]. destruct r0 as [|d r0]; [reflexivity|]. destruct (N.eqb_spec d cColon) as [->|]; [|reflexivity].
    exfalso. now apply (N (c :: w) r0).
  - unfold re_scheme. destruct (span _ t) as [w r0] eqn:E. intros H. pose proof E as E'. apply run_span in E as (Et & F & R).
    assert (None : (forall w' r', w' <> [] -> free_of [cColon; cSlash; cQuest; cHash] w' -> t = w' ++ cColon :: r' -> w = w' /\ r0 = cColon :: r')).
    { intros w' r' N F' E2. assert (Y : run_of [cColon; cSlash; cQuest; cHash] t w' (cColon :: r')).
      { split; [exact E2|]. split; [exact F'|]. right. exists cColon, r'. split; [reflexivity|now left]. }
      apply run_span in Y. rewrite Y in E'. injection E' as <- <-. auto. }
    destruct w as [|c w].
    { injection H as <- <-. apply sc_none. intros w' r' N F' E2. destruct (None w' r' N F' E2) as [<- _]. now apply N. }
    destruct r0 as [|d r0]; [injection H as <- <-; apply sc_none; intros w' r' N F' E2; now destruct (None w' r' N F' E2)|].
    destruct (N.eqb_spec d cColon) as [->|Nd]; injection H as <- <-.
    + apply sc_some with (w := c :: w) (r := r0); [discriminate|exact F|exact Et].
    + apply sc_none. intros w' r' N F' E2. destruct (None w' r' N F' E2) as [_ X2]. injection X2 as -> _. now apply Nd.
Qed.
Lemma auth_re_iff t a r : auth_part t a r <-> re_authority t = (a, r).
Proof.
  unfold re_authority. split.
  - intros [t' w r0 -> R|N].
    + rewrite prefixb_app. change (skipn 2 (lit "//" ++ t')) with t'. apply run_span in R. now rewrite R.
    + destruct (prefixb (lit "//") t) eqn:E; [|reflexivity]. apply prefixb_spec in E as [r0 E]. now apply N in E.
  - destruct (prefixb (lit "//") t) eqn:E.
    + apply prefixb_spec in E as [t' ->]. change (skipn 2 (lit "//" ++ t')) with t'. destruct (span _ t') as [w r0] eqn:Es. intros H. injection H as <- <-.
      apply run_span in Es. now apply au_some with t'.
    + intros H. injection H as <- <-. apply au_none. intros r0 E0. subst t. now rewrite prefixb_app in E.
Qed.
Lemma path_re_iff t p r : run_of [cQuest; cHash] t p r <-> re_path t = (p, r).
Proof. apply run_span. Qed.
Lemma query_re_iff t q r : query_part t q r <-> re_query t = (q, r).
Proof.
  unfold re_query. split.
  - intros [t' w r0 -> R|N].
    + rewrite N.eqb_refl. apply run_span in R. now rewrite R.
    + destruct t as [|c t]; [reflexivity|]. destruct (N.eqb_spec c cQuest) as [->|]; [|reflexivity]. exfalso. now apply (N t).
  - destruct t as [|c t]; [intros H; injection H as <- <-; apply qu_none; intros r0; discriminate|].
    destruct (N.eqb_spec c cQuest) as [->|Nc].
    + destruct (span _ t) as [w r0] eqn:Es. intros H. injection H as <- <-. apply run_span in Es. now apply qu_some with t.
    + intros H. injection H as <- <-. apply qu_none. intros r0 E. injection E as -> _. now apply Nc.
Qed.
Lemma frag_re_iff t f : frag_part t f <-> re_fragment t = f.
Proof.
  unfold re_fragment. split.
  - intros [t' w r0 -> R|N].
    + rewrite N.eqb_refl. apply run_span in R. now rewrite R.
    + destruct t as [|c t]; [reflexivity|]. destruct (N.eqb_spec c cHash) as [->|]; [|reflexivity]. exfalso. now apply (N t).
  - destruct t as [|c t]; [intros <-; apply fr_none; intros r0; discriminate|].
    destruct (N.eqb_spec c cHash) as [->|Nc].
    + intros <-. destruct (span _ t) as [w r0] eqn:Es. apply run_span in Es. now apply fr_some with t r0.
    + intros <-. apply fr_none. intros r0 E. injection E as -> _. now apply Nc.
Qed.

(** ((...)) *)
Lemma close_iff s v a : close_inner s = Some (v, a) <-> s = v ++ lit "))" ++ a /\ ~ In cNL v /\ no_part (lit "))") (v ++ [cRpar]).
Proof.
  split; [|intros (-> & N & P); apply close_inner_ok; auto; now apply contains_no].
  revert v a. induction s as [|c s IH]; intros v a H; [discriminate H|]. cbn [close_inner] in H.
  destruct (prefixb (lit "))") (c :: s)) eqn:E.
  { apply prefixb_spec in E as [r E]. injection H as <- <-. rewrite E. cbn in E. injection E as -> ->. split; [reflexivity|]. split; [easy|].
    intros x y F. destruct x as [|? [|? x]]; discriminate F. }
  destruct (N.eqb_spec c cNL) as [->|Nc]; [discriminate H|]. destruct (close_inner s) as [[b r]|]; [|discriminate H]. injection H as <- <-.
  destruct (IH b r eq_refl) as (-> & N & P). split; [reflexivity|]. split; [cbn; intuition congruence|].
  intros x y F. destruct x as [|x0 x]; [|cbn in F; injection F as _ F; now apply (P x y)].
  assert (Y : prefixb (lit "))") (c :: b ++ lit "))" ++ r) = true); [|congruence]. apply prefixb_spec.
  destruct b as [|b0 b]; cbn in F; injection F; intros; subst; eexists; reflexivity.
Qed.
Lemma close_none s : close_inner s = None -> forall y z, s = y ++ lit "))" ++ z -> In cNL y.
Proof.
  induction s as [|c s IH]; intros H y z E; [destruct y; discriminate E|]. cbn [close_inner] in H.
  destruct (prefixb (lit "))") (c :: s)) eqn:Ep; [discriminate H|]. destruct (N.eqb_spec c cNL) as [->|Nc].
  - destruct y as [|y0 y]; [rewrite E in Ep; cbn [app] in Ep; now rewrite prefixb_app in Ep|]. injection E as <- _. now left.
  - destruct (close_inner s) as [[b r]|]; [discriminate H|]. destruct y as [|y0 y]; [rewrite E in Ep; cbn [app] in Ep; now rewrite prefixb_app in Ep|].
    injection E as -> E. right. now apply (IH eq_refl y z).
Qed.
Lemma find_some s b m a : find_inner s = Some (b, m, a) -> exists v, m = lit "((" ++ v ++ lit "))" /\ first_group s b v a.
Proof.
  revert b m a. induction s as [|c s IH]; intros b m a H; [discriminate H|]. cbn [find_inner] in H.
  destruct (if prefixb (lit "((") (c :: s) then close_inner (tl s) else None) as [[v r]|] eqn:E.
  - injection H as <- <- <-. destruct (prefixb (lit "((") (c :: s)) eqn:Ep; [|discriminate E]. apply prefixb_spec in Ep as [t Et]. cbn in Et. injection Et as -> ->.
    cbn [tl] in E. apply close_iff in E as (-> & N & P). exists v. split; [reflexivity|]. split; [reflexivity|]. split; [exact N|]. split; [exact P|]. intros. cbn. lia.
  - destruct (find_inner s) as [[[x y] z]|] eqn:Ef; [|discriminate H]. injection H as <- <- <-. destruct (IH x y z eq_refl) as (v & -> & Es & N & P & L).
    exists v. split; [reflexivity|]. split; [cbn [app]; now rewrite <- Es|]. split; [exact N|]. split; [exact P|]. intros x' y' z' E' N'. destruct x' as [|x0 x'].
    + exfalso. cbn in E'. injection E' as -> Es'. rewrite Es' in E. cbn [tl] in E.
      change (prefixb (lit "((") (40%N :: 40%N :: y' ++ 41%N :: 41%N :: z')) with (prefixb (lit "((") (lit "((" ++ y' ++ lit "))" ++ z')) in E. rewrite prefixb_app in E.
      now apply N', (close_none _ E y' z').
    + cbn [length]. apply le_n_S. injection E' as _ E'. now apply (L x' y' z').
Qed.
Lemma find_none s : find_inner s = None -> ~ has_group s.
Proof.
  induction s as [|c s IH]; intros H (x & y & z & E & N); [destruct x; discriminate E|]. cbn [find_inner] in H.
  destruct x as [|x0 x].
  - cbn in E. injection E as -> Es. rewrite Es in H. cbn [tl] in H.
    change (prefixb (lit "((") (40%N :: 40%N :: y ++ 41%N :: 41%N :: z)) with (prefixb (lit "((") (lit "((" ++ y ++ lit "))" ++ z)) in H. rewrite prefixb_app in H.
    destruct (close_inner (y ++ 41%N :: 41%N :: z)) as [[b r]|] eqn:C; [discriminate H|]. now apply N, (close_none _ C y z).
  - destruct (if prefixb (lit "((") (c :: s) then close_inner (tl s) else None) as [[v r]|]; [discriminate H|].
    destruct (find_inner s) as [[[? ?] ?]|]; [discriminate H|]. apply (IH eq_refl). injection E as _ E. now exists x, y, z.
Qed.
Lemma group_unique t b v a b' v' a' : first_group t b v a -> first_group t b' v' a' -> b = b' /\ v = v' /\ a = a'.
Proof.
  intros (E & N & P & L) (E' & N' & P' & L').
  assert (Len : length b = length b') by (pose proof (L b' v' a' E' N'); pose proof (L' b v a E N); lia).
  assert (X : b = b' /\ lit "((" ++ v ++ lit "))" ++ a = lit "((" ++ v' ++ lit "))" ++ a').
  { rewrite E' in E. clear -E Len. revert b' E Len. induction b as [|c b IH]; intros [|c' b'] E Len; try discriminate Len; [now split|].
    cbn in E. injection E as -> E. injection Len as Len. destruct (IH b' E Len) as [-> X]. now split. }
  destruct X as [-> X]. split; [reflexivity|]. cbn in X. injection X as X.
  assert (C : close_inner (v ++ lit "))" ++ a) = Some (v, a)) by (now apply close_iff).
  assert (C' : close_inner (v' ++ lit "))" ++ a') = Some (v', a')) by (now apply close_iff). cbn in C, C'. rewrite X in C. rewrite C in C'. injection C' as -> ->. auto.
Qed.
Lemma marked_iff t m t1 : marked t m t1 <-> (m, t1) = match find_inner t with Some (b, m, a) => (m, b ++ inner_token ++ a) | None => ([], t) end.
Proof.
  destruct (find_inner t) as [[[b m'] a]|] eqn:E.
  - apply find_some in E as (v & -> & G). split.
    + intros [b' v' a' G'|N].
      * destruct (group_unique _ _ _ _ _ _ _ G G') as (-> & -> & ->). reflexivity.
      * exfalso. apply N. destruct G as (-> & Nl & _). now exists b, v, a.
    + intros H. injection H as -> ->. now apply mk_group.
  - pose proof (find_none _ E) as N. split.
    + intros [b' v' a' (-> & Nl & _)|_]; [|reflexivity]. exfalso. apply N. now exists b', v', a'.
    + intros H. injection H as -> ->. now apply mk_plain.
Qed.

(** replace *)
Lemma first_occ old s : contains old s = true -> exists x y, s = x ++ old ++ y /\ forall x' y', s = x' ++ old ++ y' -> (length x <= length x')%nat.
Proof.
  induction s as [|c s IH]; intros H.
  - cbn in H. rewrite orb_false_r in H. apply prefixb_spec in H as [r E]. exists [], r. split; [exact E|]. intros; cbn; lia.
  - cbn [contains] in H. destruct (prefixb old (c :: s)) eqn:Ep.
    + apply prefixb_spec in Ep as [r E]. exists [], r. split; [exact E|]. intros; cbn; lia.
    + destruct (IH H) as (x & y & -> & L). exists (c :: x), y. split; [reflexivity|]. intros [|x0 x'] y' E.
      * exfalso. cbn [app] in E. rewrite E in Ep. now rewrite prefixb_app in Ep.
      * cbn [length]. apply le_n_S. injection E as _ E. now apply (L x' y').
Qed.
Lemma replace_first old new x y : old <> [] -> (forall x' y', x ++ old ++ y = x' ++ old ++ y' -> (length x <= length x')%nat) ->
  replace old new (x ++ old ++ y) = x ++ new ++ replace old new y.
Proof.
  intros No. induction x as [|c x IH]; intros L; [exact (replace_head old new y No)|].
  change ((c :: x) ++ old ++ y) with (c :: (x ++ old ++ y)). unfold replace at 1. cbn [replace_go]. destruct (prefixb old (c :: x ++ old ++ y)) eqn:E.
  - exfalso. apply prefixb_spec in E as [r E]. specialize (L [] r). cbn [app length] in L. apply L in E. lia.
  - cbn [app]. f_equal. apply IH. intros x' y' E'. assert (Z : (length (c :: x) <= length (c :: x'))%nat); [|cbn in Z; lia].
    apply (L (c :: x') y'). cbn. now rewrite E'.
Qed.
Lemma swapped_iff old new s s' : old <> [] -> swapped old new s s' <-> replace old new s = s'.
Proof.
  intros No. split.
  - induction 1 as [s N|x y y' L S IH]; [apply replace_id; auto; now apply contains_no|]. rewrite <- IH. now apply replace_first.
  - intros <-. remember (length s) as n eqn:En. revert s En. induction n as [n IH] using lt_wf_ind. intros s ->.
    destruct (contains old s) eqn:E.
    + apply first_occ in E as (x & y & -> & L). rewrite replace_first by auto. apply sw_first; [exact L|]. apply (IH (length y)); [|reflexivity].
      rewrite !app_length. destruct old; [now contradict No|cbn; lia].
    + rewrite replace_id by auto. apply sw_none. exact (proj2 (contains_no old s) E).
Qed.

Lemma web_iff s : web s <-> is_http s = true.
Proof.
  unfold web, is_http. destruct s as [s|]; [|split; [intros []|]; discriminate]. rewrite orb_true_iff, !str_eqb_eq. split; intros [H|H]; [left|right|left|right]; congruence.
Qed.
Lemma hashed_iff s p f p' f' : hashed s p f p' f' <->
  (p', f') = if negb (is_http s) && truthy f then (p ++ [cHash] ++ match f with Some f => f | None => [] end, Some []) else (p, f).
Proof.
  split.
  - intros [f0 W| | |f0 W N].
    + apply web_iff in W. now rewrite W.
    + now rewrite andb_false_r.
    + now rewrite andb_false_r.
    + destruct (is_http s) eqn:E; [now apply web_iff in E|]. destruct f0; [now contradict N|reflexivity].
  - destruct (is_http s) eqn:E.
    + intros H. injection H as -> ->. apply ha_web. now apply web_iff.
    + destruct f as [[|c f]|]; cbn; intros H; injection H as -> ->; [apply ha_empty| |apply ha_none]. apply ha_path; [|discriminate]. intros W. apply web_iff in W. congruence.
Qed.

Lemma parts_iff t s a p q f : parts t s a p q f <->
  (s, a, p, q, f) = let (s, r1) := re_scheme t in let (a, r2) := re_authority r1 in let (p, r3) := re_path r2 in let (q, r4) := re_query r3 in (s, a, p, q, re_fragment r4).
Proof.
  split.
  - intros (r1 & r2 & r3 & r4 & H1 & H2 & H3 & H4 & H5). apply scheme_re_iff in H1. apply auth_re_iff in H2. apply path_re_iff in H3. apply query_re_iff in H4. apply frag_re_iff in H5.
    now rewrite H1, H2, H3, H4, H5.
  - destruct (re_scheme t) as [s' r1] eqn:H1. destruct (re_authority r1) as [a' r2] eqn:H2. destruct (re_path r2) as [p' r3] eqn:H3. destruct (re_query r3) as [q' r4] eqn:H4.
    intros H. injection H as -> -> -> -> ->. exists r1, r2, r3, r4. split; [now apply scheme_re_iff|]. split; [now apply auth_re_iff|]. split; [now apply path_re_iff|].
    split; [now apply query_re_iff|now apply frag_re_iff].
Qed.

Definition split_body (inner_value uri : str) : res split5 :=
  let (scheme, r1) := re_scheme uri in
  let (authority, r2) := re_authority r1 in
  let (path, r3) := re_path r2 in
  let (query, r4) := re_query r3 in
  let fragment := re_fragment r4 in
  match authority with
  | None => Raise AttributeError
  | Some a =>
      let a := replace inner_token inner_value a in
      let '(authority, path) := if str_eqb a [cDot] then (None, a ++ path) else (Some a, path) in
      let '(path, fragment) :=
        if negb (is_http scheme) && truthy fragment
        then (path ++ [cHash] ++ match fragment with Some f => f | None => [] end, Some [])
        else (path, fragment) in
      Ok (mkSplit5 scheme authority path query fragment)
  end.
Lemma split_marked t m t1 : marked t m t1 -> urisplit t = split_body m t1.
Proof.
  intros M. apply marked_iff in M. unfold urisplit. destruct (find_inner t) as [[[b m'] a]|]; injection M as -> ->; reflexivity.
Qed.
Lemma marked_ex t : exists m t1, marked t m t1.
Proof. destruct (match find_inner t with Some (b, m, a) => (m, b ++ inner_token ++ a) | None => ([], t) end) as [m t1] eqn:M. exists m, t1. now apply marked_iff. Qed.
Theorem takes_apart_iff t r : takes_apart t r <-> urisplit t = r.
Proof.
  assert (Nt : inner_token <> []) by discriminate. split.
  - intros [m t1 s p q f M P|m t1 s a p q f p' f' M P S H|m t1 s a a' p q f p' f' M P S Na H]; rewrite (split_marked _ _ _ M); unfold split_body; apply parts_iff in P;
      destruct (re_scheme t1) as [s0 r1]; destruct (re_authority r1) as [a0 r2]; destruct (re_path r2) as [p0 r3]; destruct (re_query r3) as [q0 r4];
      injection P as <- <- <- <- ->; [reflexivity| |].
    + apply swapped_iff in S; [|exact Nt]. change reserved with inner_token in S. rewrite S. change (str_eqb [cDot] [cDot]) with true. cbv iota.
      apply hashed_iff in H. destruct (negb (is_http s) && truthy (re_fragment r4)); injection H as -> ->; reflexivity.
    + apply swapped_iff in S; [|exact Nt]. change reserved with inner_token in S. rewrite S. rewrite (proj2 (str_eqb_neq a' [cDot]) Na).
      apply hashed_iff in H. destruct (negb (is_http s) && truthy (re_fragment r4)); injection H as -> ->; reflexivity.
  - destruct (marked_ex t) as (m & t1 & M). rewrite (split_marked _ _ _ M). unfold split_body.
    assert (P := fun s a p q f => proj2 (parts_iff t1 s a p q f)).
    destruct (re_scheme t1) as [s0 r1]; destruct (re_authority r1) as [a0 r2]; destruct (re_path r2) as [p0 r3]; destruct (re_query r3) as [q0 r4].
    specialize (P _ _ _ _ _ eq_refl). destruct a0 as [a0|]; [|intros <-; now apply ta_none with m t1 s0 p0 q0 (re_fragment r4)].
    assert (S := proj2 (swapped_iff reserved m a0 (replace inner_token m a0) Nt) eq_refl).
    destruct (str_eqb (replace inner_token m a0) [cDot]) eqn:Ed.
    + apply str_eqb_eq in Ed. rewrite Ed in *. assert (H := fun p' f' => proj2 (hashed_iff s0 (cDot :: p0) (re_fragment r4) p' f')).
      destruct (negb (is_http s0) && truthy (re_fragment r4)); intros <-; apply ta_dot with m t1 a0 p0 (re_fragment r4); auto.
    + apply str_eqb_neq in Ed. assert (H := fun p' f' => proj2 (hashed_iff s0 p0 (re_fragment r4) p' f')).
      destruct (negb (is_http s0) && truthy (re_fragment r4)); intros <-; apply ta_auth with m t1 a0 p0 (re_fragment r4); auto.
Qed.
