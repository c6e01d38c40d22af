(** Facts about urisplit and UriParse. *)
From Verif Require Import Str Exc Utf8 UriParse BaseUri StrFacts Utf8Facts.
From Coq Require Import ZifyBool ZifyNat ZifyN.
Local Open Scope N_scope.

(** ** Parsing of the components *)

Lemma not_in_spec l c : not_in l c = true <-> ~ In c l.
Proof.
  unfold not_in. rewrite negb_true_iff, <- not_true_iff_false, existsb_exists. split; intros H.
  - intros Hc. apply H. exists c. split; auto. apply N.eqb_refl.
  - intros (x & Hx & E). apply N.eqb_eq in E. now subst.
Qed.
Definition avoids (l : list N) (s : str) : Prop := forall c, In c l -> ~ In c s.
Lemma avoids_forallb l s : avoids l s -> forallb (not_in l) s = true.
Proof.
  intros H. apply forallb_forall. intros x Hx. apply not_in_spec. intros Hl. exact (H x Hl Hx).
Qed.
Lemma avoids_app l s t : avoids l (s ++ t) <-> avoids l s /\ avoids l t.
Proof.
  unfold avoids. split.
  - intros H. split; intros c Hc Hin; apply (H c Hc), in_app_iff; auto.
  - intros [H1 H2] c Hc Hin. apply in_app_iff in Hin as [?|?]; [eapply H1|eapply H2]; eauto.
Qed.
Lemma avoids_nil l : avoids l [].
Proof. intros c _ []. Qed.
Lemma avoids_cons l x s : avoids l (x :: s) <-> ~ In x l /\ avoids l s.
Proof.
  unfold avoids. split.
  - intros H. split; [intros Hx; apply (H x Hx); now left|intros c Hc Hin; apply (H c Hc); now right].
  - intros [H1 H2] c Hc [->|Hin]; eauto. exact (H2 c Hc Hin).
Qed.
Lemma avoids_incl l l' s : incl l' l -> avoids l s -> avoids l' s.
Proof. intros Hi H c Hc. apply H. auto. Qed.

(** Rest after path: begins with one of the given characters, or is empty. *)
Definition heads (l : list N) (s : str) : Prop :=
  match s with [] => True | c :: _ => In c l end.
Lemma heads_stops l s : heads l s -> stops (not_in l) s.
Proof.
  destruct s as [|c s]; simpl; auto. intros H.
  destruct (not_in l c) eqn:E; auto. apply not_in_spec in E. easy.
Qed.

Lemma re_scheme_ok (s r : str) :
  s <> [] -> avoids [cColon; cSlash; cQuest; cHash] s ->
  re_scheme (s ++ cColon :: r) = (Some s, r).
Proof.
  intros Hn Ha. unfold re_scheme. rewrite span_app.
  - destruct s as [|x s]; [easy|]. now rewrite N.eqb_refl.
  - now apply avoids_forallb.
  - reflexivity.
Qed.
Lemma re_authority_ok (a r : str) :
  avoids [cSlash; cQuest; cHash] a -> heads [cSlash; cQuest; cHash] r ->
  re_authority (lit "//" ++ a ++ r) = (Some a, r).
Proof.
  intros Ha Hr. unfold re_authority. rewrite prefixb_app.
  change (skipn 2 (lit "//" ++ a ++ r)) with (a ++ r).
  rewrite span_app; auto using avoids_forallb, heads_stops.
Qed.
Lemma re_path_ok (p r : str) :
  avoids [cQuest; cHash] p -> heads [cQuest; cHash] r -> re_path (p ++ r) = (p, r).
Proof. intros Hp Hr. apply span_app; auto using avoids_forallb, heads_stops. Qed.

Definition qtext (q : option str) : str := match q with Some q => cQuest :: q | None => [] end.
Definition ftext (f : option str) : str := match f with Some f => cHash :: f | None => [] end.
Definition ook (l : list N) (o : option str) : Prop :=
  match o with Some s => avoids l s | None => True end.

Lemma re_query_ok q f :
  ook [cHash] q -> re_query (qtext q ++ ftext f) = (q, ftext f).
Proof.
  intros H. destruct q as [q|]; simpl qtext.
  - cbn [app re_query]. rewrite N.eqb_refl.
    rewrite span_app; auto using avoids_forallb.
    destruct f; simpl; auto.
  - destruct f; reflexivity.
Qed.
Lemma re_fragment_ok f : ook [cNL] f -> re_fragment (ftext f) = f.
Proof.
  intros H. destruct f as [f|]; [|reflexivity]. cbn [ftext re_fragment]. rewrite N.eqb_refl.
  rewrite span_all by (now apply avoids_forallb). reflexivity.
Qed.
Lemma heads_qf q f l : In cQuest l -> In cHash l -> heads l (qtext q ++ ftext f).
Proof. destruct q, f; simpl; auto. Qed.

(** ** The inner part *)

Lemma find_inner_none s : contains (lit "((") s = false -> find_inner s = None.
Proof.
  induction s as [|c s IH]; [reflexivity|]. intros H. cbn [contains] in H.
  apply orb_false_iff in H as [H1 H2].
  cbn [find_inner]. rewrite H1, IH by auto. reflexivity.
Qed.
Lemma close_inner_ok v r :
  ~ In cNL v -> contains (lit "))") (v ++ [cRpar]) = false ->
  close_inner (v ++ lit "))" ++ r) = Some (v, r).
Proof.
  induction v as [|c v IH]; intros Hn Hc; [reflexivity|].
  assert (E : prefixb (lit "))") ((c :: v) ++ lit "))" ++ r) = false).
  { destruct (prefixb (lit "))") ((c :: v) ++ lit "))" ++ r)) eqn:E; auto.
    exfalso. apply contains_false with (a := []) (b := match v with [] => [] | _ :: t => t ++ [cRpar] end) in Hc.
    apply Hc. change (lit "))") with [cRpar; cRpar] in E. cbn [app prefixb] in E.
    apply andb_true_iff in E as [E1 E2]. apply N.eqb_eq in E1. subst c.
    destruct v as [|d v]; [reflexivity|]. cbn [app] in E2. rewrite andb_true_r in E2.
    apply N.eqb_eq in E2. subst d. reflexivity. }
  change ((c :: v) ++ lit "))" ++ r) with (c :: (v ++ lit "))" ++ r)) in *.
  cbn [close_inner]. rewrite E.
  destruct (N.eqb_spec c cNL) as [->|]; [exfalso; apply Hn; now left|].
  rewrite IH; auto.
  - intros H. apply Hn. now right.
  - change ((c :: v) ++ [cRpar]) with (c :: (v ++ [cRpar])) in Hc. cbn [contains] in Hc.
    now apply orb_false_iff in Hc.
Qed.
Lemma find_inner_some pre v r :
  ~ In cLpar pre -> ~ In cNL v -> contains (lit "))") (v ++ [cRpar]) = false ->
  find_inner (pre ++ lit "((" ++ v ++ lit "))" ++ r) = Some (pre, lit "((" ++ v ++ lit "))", r).
Proof.
  intros Hp Hn Hc. induction pre as [|c pre IH].
  - cbn [app]. change (lit "((" ++ v ++ lit "))" ++ r) with (cLpar :: cLpar :: (v ++ lit "))" ++ r)).
    cbn [find_inner tl].
    change (prefixb (lit "((") (cLpar :: cLpar :: (v ++ lit "))" ++ r))) with true.
    cbv iota. now rewrite close_inner_ok.
  - change ((c :: pre) ++ lit "((" ++ v ++ lit "))" ++ r)
      with (c :: (pre ++ lit "((" ++ v ++ lit "))" ++ r)).
    cbn [find_inner].
    assert (E : prefixb (lit "((") (c :: (pre ++ lit "((" ++ v ++ lit "))" ++ r)) = false).
    { change (lit "((") with [cLpar; cLpar] at 1. cbn [prefixb].
      destruct (N.eqb_spec cLpar c) as [E|]; auto. exfalso. apply Hp. now left. }
    rewrite E, IH by (intros H; apply Hp; now right). reflexivity.
Qed.

Lemma token_replace_all a : replace inner_token a inner_token = a.
Proof.
  rewrite <- (app_nil_r inner_token) at 2. rewrite replace_head by discriminate.
  change (replace inner_token a []) with (@nil N). now rewrite app_nil_r.
Qed.

(** ** urisplit on assembled text *)

(** The result of the '#' rule: outside http the fragment belongs to the path. *)
Definition path_with_fragment (scheme path : str) (f : option str) : str * option str :=
  match f with
  | Some (c :: t) => if is_http (Some scheme) then (path, f) else (path ++ [cHash] ++ c :: t, Some [])
  | _ => (path, f)
  end.

Lemma urisplit_assembled (a sch path : str) (q f : option str) (inner : bool) :
  sch <> [] -> avoids [cColon; cSlash; cQuest; cHash] sch ->
  (if inner then
     find_inner (sch ++ lit "://" ++ a ++ path ++ qtext q ++ ftext f)
     = Some (sch ++ lit "://", a, path ++ qtext q ++ ftext f)
   else find_inner (sch ++ lit "://" ++ a ++ path ++ qtext q ++ ftext f) = None
        /\ avoids [cSlash; cQuest; cHash] a /\ contains inner_token a = false) ->
  a <> [cDot] ->
  heads [cSlash] path -> avoids [cQuest; cHash] path ->
  ook [cHash] q -> ook [cNL] f ->
  urisplit (sch ++ lit "://" ++ a ++ path ++ qtext q ++ ftext f)
  = Ok (mkSplit5 (Some sch) (Some a) (fst (path_with_fragment sch path f)) q
                 (snd (path_with_fragment sch path f))).
Proof.
  intros Hs Hsa Hi Hd Hph Hpa Hq Hf.
  assert (Key : forall iv t,
     avoids [cSlash; cQuest; cHash] t -> replace inner_token iv t = a ->
     (let (scheme, r1) := re_scheme (sch ++ lit "://" ++ t ++ path ++ qtext q ++ ftext f) in
      let (authority, r2) := re_authority r1 in
      let (path0, r3) := re_path r2 in
      let (query, r4) := re_query r3 in
      let fragment := re_fragment r4 in
      match authority with
      | None => Raise AttributeError
      | Some a0 =>
        let a0 := replace inner_token iv a0 in
        let '(authority, path0) := if str_eqb a0 [cDot] then (None, a0 ++ path0) else (Some a0, path0) in
        let '(path0, fragment) :=
          if negb (is_http scheme) && truthy fragment
          then (path0 ++ [cHash] ++ match fragment with Some f => f | None => [] end, Some [])
          else (path0, fragment) in
        Ok (mkSplit5 scheme authority path0 query fragment)
      end) = Ok (mkSplit5 (Some sch) (Some a) (fst (path_with_fragment sch path f)) q
                 (snd (path_with_fragment sch path f)))).
  { intros iv t Ht Hr.
    change (lit "://") with (cColon :: lit "//"). cbn [app].
    rewrite re_scheme_ok by auto. cbv iota beta.
    rewrite re_authority_ok; auto.
    2:{ destruct path as [|c p]; [apply heads_qf; simpl; auto|]. simpl in *. intuition. }
    rewrite re_path_ok by (auto using heads_qf; apply heads_qf; simpl; auto).
    rewrite re_query_ok by auto. rewrite re_fragment_ok by auto. rewrite Hr. cbv zeta.
    replace (str_eqb a [cDot]) with false by (symmetry; now apply str_eqb_neq).
    unfold path_with_fragment.
    destruct f as [[|c f]|]; cbn [truthy]; rewrite ?andb_false_r, ?andb_true_r; cbn [fst snd]; auto.
    destruct (is_http (Some sch)); reflexivity. }
  unfold urisplit. destruct inner.
  - rewrite Hi.
    replace ((sch ++ lit "://") ++ inner_token ++ path ++ qtext q ++ ftext f)
      with (sch ++ lit "://" ++ inner_token ++ path ++ qtext q ++ ftext f) by (now rewrite <- app_assoc).
    cbv zeta. apply Key.
    + intros c Hc Hin. revert Hc Hin. unfold inner_token. cbn. intuition (subst; discriminate).
    + apply token_replace_all.
  - destruct Hi as (Hi & Ha & Ht). rewrite Hi. cbv zeta. apply Key; auto.
    apply replace_id; auto. discriminate.
Qed.
