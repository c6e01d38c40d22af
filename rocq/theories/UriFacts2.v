(** Parsing and printing of the URIs of the grammar. *)
From Verif Require Import Str Exc Utf8 UriParse BaseUri StrFacts Utf8Facts UriFacts SpecUri.
From Coq Require Import ZifyBool ZifyNat ZifyN.
Local Open Scope N_scope.
Ltac Zify.zify_post_hook ::= Z.div_mod_to_equations.

(** ** Decimal numbers *)

Lemma int_digits_app acc b s t :
  forallb is_digit s = true ->
  int_digits acc b (s ++ t)
  = match s with
    | [] => int_digits acc b t
    | _ => int_digits (fold_left (fun a c => 10 * a + Z.of_N (c - 48))%Z s acc) true t
    end.
Proof.
  revert acc b; induction s as [|c s IH]; intros acc b H; [reflexivity|].
  cbn [forallb] in H. apply andb_true_iff in H as [Hc H].
  cbn [app int_digits fold_left]. rewrite Hc, IH by auto. destruct s; reflexivity.
Qed.
Lemma dec_digits_spec fuel : forall n acc,
  (n < 2 ^ N.of_nat fuel) ->
  exists ds, dec_digits fuel n acc = ds ++ acc /\ forallb is_digit ds = true
             /\ (fuel <> O -> ds <> [])
             /\ (forall a, fold_left (fun a c => 10 * a + Z.of_N (c - 48))%Z ds a
                           = (a * 10 ^ Z.of_nat (length ds) + Z.of_N n)%Z).
Proof.
  induction fuel as [|f IH]; intros n acc Hn.
  - exists []. cbn in Hn. repeat split; auto; try easy. intros a. cbn. lia.
  - cbn [dec_digits]. destruct (n <? 10) eqn:E.
    + exists [48 + n mod 10]. repeat split; try easy.
      * cbn [forallb]. unfold is_digit, between. lia.
      * intros a. cbn [fold_left length]. change (Z.of_nat 1) with 1%Z. lia.
    + destruct (IH (n / 10) (48 + n mod 10 :: acc)) as (ds & E1 & E2 & E3 & E4).
      { rewrite Nat2N.inj_succ, N.pow_succ_r' in Hn. lia. }
      exists (ds ++ [48 + n mod 10]). rewrite E1. repeat split.
      * now rewrite <- app_assoc.
      * rewrite forallb_app, E2. cbn [forallb]. unfold is_digit, between. lia.
      * intros _. destruct ds; discriminate.
      * intros a. rewrite fold_left_app, E4. cbn [fold_left].
        rewrite app_length, Nat2Z.inj_add. cbn [length].
        rewrite Z.pow_add_r by lia. change (10 ^ Z.of_nat 1)%Z with 10%Z. lia.
Qed.
Lemma str_of_N_spec n :
  forallb is_digit (str_of_N n) = true /\ str_of_N n <> [] /\
  int_digits 0 false (str_of_N n) = Some (Z.of_N n).
Proof.
  unfold str_of_N.
  destruct (dec_digits_spec (S (N.to_nat (N.log2 n))) n []) as (ds & E1 & E2 & E3 & E4).
  { destruct n as [|p]; [reflexivity|].
    rewrite Nat2N.inj_succ, N2Nat.id. apply N.log2_spec. reflexivity. }
  rewrite E1, app_nil_r. repeat split; auto.
  rewrite <- (app_nil_r ds) at 1. rewrite int_digits_app by auto.
  specialize (E3 ltac:(discriminate)). destruct ds; [easy|].
  rewrite E4. cbn [int_digits]. now rewrite Z.mul_0_l, Z.add_0_l.
Qed.
Lemma digit_range c : is_digit c = true -> 48 <= c <= 57.
Proof. unfold is_digit, between. lia. Qed.
Lemma decimal_In n c : In c (decimal n) -> 48 <= c <= 57.
Proof.
  intros H. destruct (str_of_N_spec n) as (E & _ & _). rewrite forallb_forall in E.
  apply digit_range, E. exact H.
Qed.
Lemma is_space_digit c : is_digit c = true -> is_space c = false.
Proof. intros H. apply digit_range in H. unfold is_space. lia. Qed.
Lemma py_int_decimal n : py_int (decimal n) = Ok (Z.of_N n).
Proof.
  destruct (str_of_N_spec n) as (E1 & E2 & E3). unfold decimal, py_int, strip_ws.
  rewrite strip_id.
  - destruct (str_of_N n) as [|c s] eqn:E; [easy|].
    assert (Hc : is_digit c = true) by (cbn [forallb] in E1; now apply andb_true_iff in E1).
    apply digit_range in Hc.
    replace (c =? cPlus) with false by (unfold cPlus; lia).
    replace (c =? cMinus) with false by (unfold cMinus; lia). now rewrite E3.
  - destruct (str_of_N n) as [|c s]; simpl; auto. apply is_space_digit. cbn [forallb] in E1. now apply andb_true_iff in E1.
  - destruct (rev (str_of_N n)) as [|c s] eqn:E; simpl; auto. apply is_space_digit.
    rewrite forallb_forall in E1. apply E1. apply in_rev. rewrite E. now left.
Qed.

(** ** Characters *)

Lemma free_avoids l s : free_of l s <-> avoids l s.
Proof. reflexivity. Qed.
Lemma contains_no p s : (forall x y, s <> x ++ p ++ y) <-> contains p s = false.
Proof. symmetry. apply contains_false. Qed.
Lemma double_char_app c d s t :
  c <> d ->
  contains [c; c] (s ++ d :: t) = contains [c; c] s || contains [c; c] t.
Proof.
  intros Hcd. induction s as [|x s IH].
  - cbn [app contains prefixb]. destruct (N.eqb_spec c d); [easy|].
    cbn [andb orb]. reflexivity.
  - cbn [app]. cbn [contains]. rewrite IH, orb_assoc. f_equal. f_equal.
    cbn [prefixb]. destruct s as [|y s]; cbn [app prefixb]; auto.
    destruct (N.eqb_spec c d); [easy|]. now rewrite andb_false_l.
Qed.
Lemma double_char_cons c x s : c <> x -> contains [c; c] (x :: s) = contains [c; c] s.
Proof. intros H. exact (double_char_app c x [] s H). Qed.
Lemma contains_lpar_none s : ~ In cLpar s -> contains (lit "((") s = false.
Proof. intros H. apply contains_not_char with (c := cLpar); auto. now left. Qed.

Lemma scheme_avoids s : (forall c, In c s -> scheme_letter c) -> forall l,
  (forall c, In c l -> ~ scheme_letter c) -> avoids l s.
Proof. intros H l Hl c Hc Hin. exact (Hl c Hc (H c Hin)). Qed.
Ltac scheme_chars H :=
  apply (scheme_avoids _ H); intros ? ?; cbn [In app meta] in *; unfold scheme_letter;
  unfold cColon, cSlash, cQuest, cHash, cBack, cAt, cLpar, cPlus, cMinus, cNL, cRpar in *; lia.

(** ** The parse of the authority *)

Definition auth_port (a : auth) : Z := match a with Host _ _ _ (Some n) => Z.of_N n | _ => 0%Z end.
Definition auth_user (a : auth) : option str := match a with Host u _ _ _ => u | _ => Some [] end.
Definition auth_pass (a : auth) : option str := match a with Host _ p _ _ => p | _ => Some [] end.
Definition auth_host (a : auth) : option str := match a with Host _ _ h _ => Some h | _ => Some [] end.
Definition auth_vpath (a : auth) : str := match a with Connector v => v | _ => [] end.
Definition auth_netloc (a : auth) : str :=
  match a with
  | Host _ _ h (Some n) => h ++ cColon :: decimal n
  | Host _ _ h None => h
  | _ => []
  end.
Definition auth_attr (a : auth) : option str :=
  match a with Host _ _ _ _ => Some (auth_text a) | _ => Some [] end.

(** The attributes of the parse of a URI of the grammar. *)
Definition parse_of (sch : str) (a : auth) (path : str) (q : dict str) (frag : option str) : parsed :=
  mkParsed (Some sch) (auth_attr a) path q frag (auth_vpath a)
           (auth_user a) (auth_pass a) (auth_host a) (auth_port a) (auth_netloc a).

Lemma word_free s l : word s -> incl l ([cSlash; cColon; cAt; cLpar] ++ meta) -> avoids l s.
Proof. intros [_ H] Hi. eapply avoids_incl; eauto. Qed.
Ltac incl_tac := intros ?x ?Hx; cbn [In app meta] in *; intuition (subst; auto).

Lemma split_authority_join user pass host port :
  (match user with Some u => u <> [] /\ avoids [cColon; cAt] u | None => True end) ->
  (match pass with Some p => p <> [] /\ avoids [cAt] p | None => True end) ->
  (pass <> None -> user <> None) ->
  host <> [] -> avoids [cColon; cAt] host ->
  (match port with Some p => avoids [cAt] p | None => True end) ->
  split_authority
    ((match user with
       | Some u => u ++ (match pass with Some p => cColon :: p | None => [] end) ++ [cAt]
       | None => []
       end) ++ host ++ (match port with Some n => cColon :: n | None => [] end))
  = (user, pass, Some host, port).
Proof.
  intros Hu Hp Hup Hh Hha Hpo. unfold split_authority.
  assert (HH : cut_first cColon (host ++ match port with Some n => cColon :: n | None => [] end)
               = match port with Some n => Some (host, n) | None => None end).
  { destruct port as [n|].
    - apply cut_first_app. apply Hha. now left.
    - rewrite app_nil_r. apply cut_first_none. apply Hha. now left. }
  assert (HN : ~ In cAt (host ++ match port with Some n => cColon :: n | None => [] end)).
  { rewrite in_app_iff. intros [H|H]; [revert H; apply Hha; cbn; auto|].
    destruct port as [n|]; [|easy]. destruct H as [H|H]; [discriminate H|].
    revert H. apply Hpo. now left. }
  destruct user as [u|].
  - destruct Hu as [Hu Hua].
    rewrite <- !app_assoc.
    assert (HC : cut_first cAt (u ++ (match pass with Some p => cColon :: p | None => [] end) ++ [cAt]
                   ++ host ++ match port with Some n => cColon :: n | None => [] end)
                 = Some (u ++ match pass with Some p => cColon :: p | None => [] end,
                         host ++ match port with Some n => cColon :: n | None => [] end)).
    { rewrite app_assoc. apply cut_first_app. rewrite in_app_iff. intros [H|H].
      - revert H. apply Hua. cbn; auto.
      - destruct pass as [p|]; [|easy]. destruct H as [H|H]; [discriminate|].
        revert H. apply Hp. now left. }
    rewrite HC.
    assert (HD : cut_first cColon (u ++ match pass with Some p => cColon :: p | None => [] end)
                 = match pass with Some p => Some (u, p) | None => None end).
    { destruct pass as [p|].
      - apply cut_first_app. apply Hua. now left.
      - rewrite app_nil_r. apply cut_first_none. apply Hua. now left. }
    rewrite HD, HH. destruct pass, port; rewrite ?app_nil_r; destruct host; easy.
  - destruct pass as [p|]; [exfalso; apply Hup; easy|]. cbn [app].
    destruct (cut_first cAt _) as [[x y]|] eqn:E.
    + apply cut_first_some in E as [E _]. exfalso. apply HN. rewrite E.
      rewrite in_app_iff. right. now left.
    + rewrite HH. destruct port; rewrite ?app_nil_r; destruct host; easy.
Qed.

Definition qenc (q : dict str) (e : option str) : Prop :=
  match q with
  | [] => e = None
  | _ => match urlencode q with Ok t => e = Some t | Raise _ => False end
  end.

(** ** Queries *)

Lemma quoted_avoids s : forallb quoted_char s = true ->
  avoids [cHash; cQuest; cSlash; cBack; cAmp; cEq; cLpar; cRpar; cNL; cColon; cAt; cSpace] s.
Proof.
  intros H c Hc Hin. rewrite forallb_forall in H. specialize (H c Hin).
  unfold quoted_char, always_safe, between in H. cbn [In] in Hc.
  unfold cHash, cQuest, cSlash, cBack, cAmp, cEq, cLpar, cRpar, cNL, cColon, cAt, cSpace,
    cUnder, cDot, cMinus, cPlus, cPct in *. lia.
Qed.
Lemma quoted_strip s : forallb quoted_char s = true -> strip_ws s = s.
Proof.
  intros H. assert (A : forall c, In c s -> is_space c = false).
  { intros c Hc. rewrite forallb_forall in H. specialize (H c Hc).
    unfold quoted_char, always_safe, between in H. unfold is_space.
    unfold cUnder, cDot, cMinus, cPlus, cPct in *. lia. }
  apply strip_id.
  - destruct s; simpl; auto. apply A. now left.
  - destruct (rev s) as [|c r] eqn:E; simpl; auto. apply A. apply in_rev. rewrite E. now left.
Qed.
Lemma plain_quoted s : plain s -> forallb quoted_char s = true.
Proof.
  unfold plain. rewrite !forallb_forall. intros H c Hc. unfold quoted_char. now rewrite H.
Qed.

(** One encoded item. *)
Lemma urlencode_items_ok q :
  (forall k v, In (k, v) q -> plain k) -> (forall k v, In (k, v) q -> text_ok v) ->
  exists l, urlencode_items q = Ok l /\ length l = length q /\
    Forall2 (fun kv i => exists qv, quote_plus (snd kv) = Ok qv /\ i = fst kv ++ [cEq] ++ qv) q l.
Proof.
  induction q as [|[k v] q IH]; intros Hk Hv.
  - exists []. repeat split. constructor.
  - destruct IH as (l & E & El & F).
    { intros k' v' H. apply (Hk k' v'). now right. }
    { intros k' v' H. apply (Hv k' v'). now right. }
    assert (Ek : quote_plus k = Ok k) by (apply quote_plus_safe, (Hk k v); now left).
    assert (Ev : exists qv, quote_plus v = Ok qv).
    { destruct (utf8_encode_scalar v) as [b Eb]; [apply (Hv k v); now left|].
      unfold quote_plus. rewrite Eb. cbn. eauto. }
    destruct Ev as [qv Ev]. exists ((k ++ [cEq] ++ qv) :: l).
    cbn [urlencode_items]. rewrite Ek, Ev. cbn [rbind]. rewrite E. cbn [rbind].
    repeat split; cbn [length]; auto. constructor; auto. exists qv. auto.
Qed.

Lemma parse_items_ok q l r :
  (forall k v, In (k, v) q -> plain k) -> NoDup (map fst q) ->
  (forall k, In k (map fst q) -> ~ In k (map fst r)) ->
  Forall2 (fun kv i => exists qv, quote_plus (snd kv) = Ok qv /\ i = fst kv ++ [cEq] ++ qv) q l ->
  parse_query_items l r = Ok (r ++ q).
Proof.
  intros Hk Hn Hr F. revert r Hr. induction F as [|[k v] i q l (qv & Ev & ->) F IH]; intros r Hr.
  - cbn. now rewrite app_nil_r.
  - cbn [fst snd] in *. cbn [parse_query_items].
    assert (Pk : plain k) by (apply (Hk k v); now left).
    pose proof (plain_quoted _ Pk) as Qk. pose proof (quote_plus_chars _ _ Ev) as Qv.
    cbn [app]. rewrite split_on_app by (apply (quoted_avoids _ Qk); cbn; tauto).
    rewrite split_on_none by (apply (quoted_avoids _ Qv); cbn; tauto).
    rewrite !quoted_strip by auto. rewrite (unquote_quote_plus _ _ Ev).
    inversion Hn; subst. rewrite dset_new.
    + rewrite IH; auto.
      * now rewrite <- app_assoc.
      * intros k' v' H. apply (Hk k' v'). now right.
      * intros k' H. rewrite map_app, in_app_iff. intros [H'|[<-|[]]]; auto.
        apply (Hr k'); auto. now right.
    + unfold dhas. destruct (dget k r) eqn:E; auto.
      apply dget_In in E. apply (in_map fst) in E. exfalso. apply (Hr k); auto. now left.
Qed.

Lemma query_roundtrip q :
  q <> [] -> (forall k v, In (k, v) q -> plain k) -> (forall k v, In (k, v) q -> text_ok v) ->
  NoDup (map fst q) ->
  exists t, urlencode q = Ok t /\ parse_query_string t = Ok q /\ t <> [] /\
            avoids [cHash; cQuest; cSlash; cBack; cLpar; cNL; cColon] t.
Proof.
  intros Hq Hk Hv Hn.
  destruct (urlencode_items_ok q Hk Hv) as (l & E & El & F).
  exists (join_with [cAmp] l). unfold urlencode. rewrite E. cbn [rbind].
  assert (Hl : l <> []) by (destruct q, l; cbn in *; try easy; congruence).
  assert (Hi : forall i, In i l -> avoids [cHash; cQuest; cSlash; cBack; cLpar; cNL; cColon; cAmp] i).
  { intros i Hin. clear E El Hl Hq Hn. induction F as [|[k v] i' q l (qv & Ev & ->) F IH]; [easy|].
    destruct Hin as [<-|Hin].
    - cbn [fst snd].
      pose proof (plain_quoted _ (Hk k v (or_introl eq_refl))) as Qk.
      pose proof (quote_plus_chars _ _ Ev) as Qv.
      apply avoids_app. split; [|apply avoids_app; split].
      + eapply avoids_incl; [|apply quoted_avoids; eauto]. incl_tac.
      + intros c Hc [<-|[]]. cbn in Hc. intuition discriminate.
      + eapply avoids_incl; [|apply quoted_avoids; eauto]. incl_tac.
    - apply IH; auto.
      + intros k' v' H. apply (Hk k' v'). now right.
      + intros k' v' H. apply (Hv k' v'). now right. }
  repeat split; auto.
  - unfold parse_query_string. rewrite split_join; auto.
    + rewrite (parse_items_ok q l []); auto.
    + apply Forall_forall. intros i Hin. apply (Hi i Hin). cbn; tauto.
  - destruct F as [|kv i q l (qv & Ev & ->) F]; [easy|].
    destruct l; cbn [join_with]; destruct (fst kv); discriminate.
  - intros c Hc Hin. apply join_with_In in Hin as [->|(w & Hw & Hin)].
    + cbn in Hc. intuition discriminate.
    + revert Hin. apply (Hi w Hw). cbn in *. tauto.
Qed.

(** ** The whole text *)

Definition gtext (sch : str) (a : auth) (path : str) (e f : option str) : str :=
  sch ++ lit "://" ++ auth_text a ++ path ++ qtext e ++ ftext f.

Lemma auth_text_host_avoids user pass host port l :
  opt_word user -> opt_word pass -> word host ->
  incl l ([cSlash; cLpar] ++ meta) ->
  avoids l (auth_text (Host user pass host port)).
Proof.
  intros Hu Hp Hh Hl. assert (I : incl l ([cSlash; cColon; cAt; cLpar] ++ meta)).
  { intros x Hx. apply Hl in Hx. cbn [In app meta] in *. tauto. }
  assert (S : forall c d, In c l -> d = cColon \/ d = cAt \/ 48 <= d <= 57 -> d <> c).
  { intros c d Hc Hd. apply Hl in Hc. cbn [In app meta] in Hc.
    unfold cSlash, cLpar, cQuest, cHash, cBack, cColon, cAt in *. lia. }
  cbn [auth_text]. apply avoids_app. split; [|apply avoids_app; split].
  - destruct user as [u|]; [|apply avoids_nil]. apply avoids_app; split; [now apply word_free|].
    apply avoids_app; split.
    + destruct pass as [p|]; [|apply avoids_nil]. apply avoids_cons. split.
      * intros H. apply (S cColon cColon); auto.
      * now apply word_free.
    + apply avoids_cons. split; [|apply avoids_nil]. intros H. apply (S cAt cAt); auto.
  - now apply word_free.
  - destruct port as [n|]; [|apply avoids_nil]. apply avoids_cons. split.
    + intros H. apply (S cColon cColon); auto.
    + intros c Hc Hin. apply decimal_In in Hin. apply (S c c); auto.
Qed.

Lemma auth_not_dot a : auth_ok a -> auth_text a <> [cDot].
Proof.
  intros H. destruct H as [|v Hv Hf Hc|user pass host port Hu Hp Hup Hh Hpo Hd Hr].
  - discriminate.
  - destruct v; discriminate.
  - cbn [auth_text]. intros E. apply Hd.
    destruct user as [u|].
    + exfalso. destruct Hu as [Hu _], Hh as [Hh _]. destruct u as [|x u]; [easy|].
      apply (f_equal (@length N)) in E. rewrite !app_length in E. cbn in E. lia.
    + destruct pass as [p|]; [exfalso; now apply Hup|]. cbn [app] in E.
      destruct port as [n|].
      * exfalso. destruct Hh as [Hh _]. destruct host as [|x h]; [easy|].
        apply (f_equal (@length N)) in E. rewrite !app_length in E. cbn in E. lia.
      * rewrite app_nil_r in E. now rewrite E.
Qed.

Lemma auth_ok_last a : auth_ok a ->
  (exists v, a = Connector v) \/ (avoids ([cSlash; cLpar] ++ meta) (auth_text a)).
Proof.
  intros H. destruct H as [|v Hv Hf Hc|user pass host port Hu Hp Hup Hh Hpo Hd Hr].
  - right. apply avoids_nil.
  - left. eauto.
  - right. apply auth_text_host_avoids; auto. apply incl_refl.
Qed.

(** No doubled parenthesis anywhere when each part has none. *)
Lemma no_par_text (sch t path : str) e f :
  ~ In cLpar sch -> ~ In cLpar t ->
  contains (lit "((") path = false -> heads [cSlash] path ->
  ook [cLpar] e -> match f with Some f => contains (lit "((") f = false | None => True end ->
  contains (lit "((") (sch ++ lit "://" ++ t ++ path ++ qtext e ++ ftext f) = false.
Proof.
  intros Hs Ht Hp Hh He Hf. change (lit "((") with [cLpar; cLpar] in *.
  assert (HF : contains [cLpar; cLpar] (ftext f) = false).
  { destruct f as [f|]; [|reflexivity]. cbn [ftext]. rewrite double_char_cons by discriminate. exact Hf. }
  assert (HQ : contains [cLpar; cLpar] (qtext e ++ ftext f) = false).
  { destruct e as [e|]; [|exact HF]. cbn [qtext app]. rewrite double_char_cons by discriminate.
    assert (contains [cLpar; cLpar] e = false) by (apply contains_not_char with (c := cLpar); [now left|]; apply He; now left).
    destruct f as [f|]; cbn [ftext].
    - rewrite double_char_app by discriminate. now rewrite H.
    - now rewrite app_nil_r. }
  assert (HP : contains [cLpar; cLpar] (path ++ qtext e ++ ftext f) = false).
  { destruct e as [e|]; cbn [qtext app] in *.
    - rewrite double_char_app by discriminate. rewrite Hp.
      rewrite double_char_cons in HQ by discriminate. exact HQ.
    - destruct f as [f|]; cbn [ftext] in *.
      + rewrite double_char_app by discriminate. rewrite Hp.
        rewrite double_char_cons in HF by discriminate. exact HF.
      + now rewrite app_nil_r. }
  change (lit "://") with [cColon; cSlash; cSlash]. cbn [app].
  rewrite double_char_app by discriminate.
  rewrite !double_char_cons by discriminate.
  replace (contains [cLpar; cLpar] sch) with false by (symmetry; apply contains_not_char with (c := cLpar); auto; now left).
  assert (HT : contains [cLpar; cLpar] t = false) by (apply contains_not_char with (c := cLpar); auto; now left).
  cbn [orb]. destruct path as [|c p].
  - cbn [app] in *. destruct e as [e|]; cbn [qtext app] in *.
    + rewrite double_char_app by discriminate. rewrite HT.
      rewrite double_char_cons in HQ by discriminate. exact HQ.
    + destruct f as [f|]; cbn [ftext] in *.
      * rewrite double_char_app by discriminate. rewrite HT.
        rewrite double_char_cons in HF by discriminate. exact HF.
      * now rewrite app_nil_r.
  - cbn in Hh. destruct Hh as [<-|[]]. cbn [app] in *.
    rewrite double_char_app by discriminate. rewrite HT.
    rewrite double_char_cons in HP by discriminate. exact HP.
Qed.

Lemma ook_incl l l' o : incl l' l -> ook l o -> ook l' o.
Proof. destruct o; simpl; auto. apply avoids_incl. Qed.

Definition frag_ok (f : option str) : Prop :=
  match f with Some f => f <> [] /\ ~ In cNL f /\ contains (lit "((") f = false | None => True end.

Lemma parse_grammar (sch : str) a path (q : dict str) e f :
  sch <> [] -> avoids [cColon; cSlash; cQuest; cHash; cLpar] sch -> is_http (Some sch) = false ->
  auth_ok a -> heads [cSlash] path -> avoids [cQuest; cHash] path ->
  (contains (lit "((") path = false \/ exists v, a = Connector v) ->
  (q = [] /\ e = None \/
   q <> [] /\ exists t, e = Some t /\ parse_query_string t = Ok q /\ t <> [] /\ avoids [cHash; cLpar] t) ->
  frag_ok f ->
  uri_parse (gtext sch a path e f)
  = Ok (parse_of sch a (path ++ ftext f) q (match f with Some _ => Some [] | None => None end)).
Proof.
  intros Hs Hsa Hh Ha Hph Hpa Hpp Hq Hf.
  assert (Hsa' : avoids [cColon; cSlash; cQuest; cHash] sch).
  { eapply avoids_incl; [|exact Hsa]. incl_tac. }
  assert (He : ook [cHash; cLpar] e).
  { destruct Hq as [[_ ->]|(_ & t & -> & _ & _ & Ht)]; [exact I|exact Ht]. }
  assert (He1 : ook [cHash] e) by (eapply ook_incl; [|exact He]; incl_tac).
  assert (He2 : ook [cLpar] e) by (eapply ook_incl; [|exact He]; incl_tac).
  assert (Hf1 : ook [cNL] f).
  { destruct f as [f|]; cbn in *; auto. intros c [<-|[]]. apply Hf. }
  unfold uri_parse, gtext.
  assert (US : urisplit (sch ++ lit "://" ++ auth_text a ++ path ++ qtext e ++ ftext f)
    = Ok (mkSplit5 (Some sch) (Some (auth_text a)) (fst (path_with_fragment sch path f)) e
                   (snd (path_with_fragment sch path f)))).
  { destruct (auth_ok_last a Ha) as [[v ->]|Hav].
    - inversion Ha; subst. apply (urisplit_assembled _ _ _ _ _ true); auto.
      + cbn [auth_text].
        replace (sch ++ lit "://" ++ (lit "((" ++ v ++ lit "))") ++ path ++ qtext e ++ ftext f)
          with ((sch ++ lit "://") ++ lit "((" ++ v ++ lit "))" ++ path ++ qtext e ++ ftext f)
          by (now rewrite <- !app_assoc).
        apply find_inner_some.
        * rewrite in_app_iff. intros [H|H]; [revert H; apply Hsa; cbn; tauto|].
          cbn in H. intuition discriminate.
        * apply H1. cbn; tauto.
        * now apply contains_no.
      + now apply auth_not_dot.
    - apply (urisplit_assembled _ _ _ _ _ false); auto.
      + split; [|split].
        * apply find_inner_none. apply no_par_text; auto.
          -- apply Hsa. cbn; tauto.
          -- apply Hav. cbn; tauto.
          -- destruct Hpp as [|[v ->]]; auto. exfalso. apply (Hav cLpar); cbn; tauto.
          -- destruct f as [f|]; auto. apply Hf.
        * eapply avoids_incl; [|exact Hav]. incl_tac.
        * inversion Ha; subst; [reflexivity| |].
          -- exfalso. apply (Hav cLpar); cbn; tauto.
          -- now apply contains_no.
      + now apply auth_not_dot. }
  rewrite US. cbn [rbind s_scheme s_authority s_path s_query s_fragment].
  assert (HP : path_with_fragment sch path f
               = (path ++ ftext f, match f with Some _ => Some [] | None => None end)).
  { destruct f as [[|c f]|]; cbn [path_with_fragment ftext].
    - destruct Hf as [Hf _]. easy.
    - now rewrite Hh.
    - now rewrite app_nil_r. }
  rewrite HP. cbn [fst snd].
  assert (HQ : match e with Some (c :: w) => parse_query_string (c :: w) | _ => Ok [] end = Ok q).
  { destruct Hq as [[-> ->]|(_ & t & -> & Ht & Hn & _)]; [reflexivity|]. now destruct t. }
  inversion Ha; subst.
  - cbn [auth_text]. change (contains (lit "((") []) with false. cbv iota beta. cbn [rbind].
    rewrite HQ. reflexivity.
  - cbn [auth_text]. change (contains (lit "((") (lit "((" ++ v ++ lit "))")) with true. cbv iota beta. cbn [rbind].
    rewrite HQ. cbn [rbind]. unfold parse_of. cbn [auth_attr auth_vpath auth_user auth_pass auth_host auth_port auth_netloc].
    f_equal. f_equal. unfold slice_2_m2. change (skipn 2 (lit "((" ++ v ++ lit "))")) with (v ++ lit "))").
    rewrite app_length. change (length (lit "((")) with 2%nat. rewrite app_length.
    change (length (lit "))")) with 2%nat.
    replace (2 + (length v + 2) - 2 - 2)%nat with (length v + 0)%nat by lia.
    rewrite firstn_app_2. cbn. apply app_nil_r.
  - assert (HNP : contains (lit "((") (auth_text (Host user pass host port)) = false).
    { apply contains_lpar_none. apply (auth_text_host_avoids user pass host port [cLpar]); auto; [incl_tac|now left]. }
    rewrite HNP. cbv iota beta.
    assert (HNE : auth_text (Host user pass host port) <> []).
    { cbn [auth_text]. destruct H2 as [Hne _]. intros E. apply app_eq_nil in E as [_ E].
      apply app_eq_nil in E as [E _]. easy. }
    assert (HSA : split_authority (auth_text (Host user pass host port))
                  = (user, pass, Some host, match port with Some n => Some (decimal n) | None => None end)).
    { pose proof (split_authority_join user pass host
                   (match port with Some n => Some (decimal n) | None => None end)) as SA.
      assert (ET : auth_text (Host user pass host port) =
        ((match user with
       | Some u => u ++ (match pass with Some p => cColon :: p | None => [] end) ++ [cAt]
       | None => []
       end) ++ host ++ (match (match port with Some n => Some (decimal n) | None => None end) with Some n => cColon :: n | None => [] end))).
      { cbn [auth_text]. destruct port; reflexivity. }
      rewrite ET. apply SA; auto.
      - destruct user as [u|]; auto. split; [apply H|]. apply word_free; auto. incl_tac.
      - destruct pass as [p|]; auto. split; [apply H0|]. apply word_free; auto. incl_tac.
      - apply H2.
      - apply word_free; auto. incl_tac.
      - destruct port as [n|]; auto. intros c [<-|[]] Hin. apply decimal_In in Hin. unfold cAt in Hin. lia. }
    destruct (auth_text (Host user pass host port)) as [|c w] eqn:ET; [easy|].
    rewrite HSA. cbv iota beta.
    assert (HPo : match match port with Some n => Some (decimal n) | None => None end with
                  | Some (d :: t) => py_int (d :: t) | _ => Ok 0%Z end = Ok (auth_port (Host user pass host port))).
    { destruct port as [n|]; [|reflexivity]. destruct (decimal n) as [|d t] eqn:D.
      - exfalso. destruct (str_of_N_spec n) as (_ & Hne & _). now apply Hne.
      - rewrite <- D. apply py_int_decimal. }
    rewrite HPo. cbn [rbind]. rewrite HQ. cbn [rbind]. unfold parse_of.
    f_equal. cbn [auth_vpath auth_user auth_pass auth_host]. unfold auth_attr. rewrite ET. f_equal.
    destruct H2 as [Hne _]. destruct host as [|x h]; [easy|]. unfold auth_netloc, auth_port.
    destruct port as [n|]; [|reflexivity].
    destruct (Z.eqb_spec (Z.of_N n) 0); [exfalso; apply H3; f_equal; lia|].
    cbn [app]. f_equal. f_equal. unfold str_of_Z. replace (Z.of_N n <? 0)%Z with false by lia.
    now rewrite N2Z.id.
Qed.
