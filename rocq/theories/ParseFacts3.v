(** The functions of the parser are the rules of SpecParse.v: queries, UriParse as a whole. *)
From Verif Require Import Str Exc Utf8 UriParse BaseUri SpecUri SpecParse StrFacts UriFacts UriFacts2 ParseFacts ParseFacts2 SpecUnquote UnquoteFacts.

Lemma item_iff i k v : item i k v <-> exists a b, split_on cEq i = [a; b] /\ k = strip_ws a /\ v = unquote_plus (strip_ws b).
Proof.
  split.
  - intros [a b a' b' w Fa Fb Ta Tb U]. apply unquoted_iff in U. rewrite free1 in Fa, Fb. apply trimmed_strip in Ta, Tb. exists a, b. rewrite split_on_app by auto. rewrite split_on_none by auto. subst. auto.
  - intros (a & b & E & -> & ->). pose proof (join_split cEq i) as J. pose proof (split_on_no_sep cEq i) as N. rewrite E in J, N. cbn in J. rewrite <- J.
    inversion N as [|? ? Na Nb]; subst. inversion Nb; subst. eapply it; [now apply free1|now apply free1|now apply trimmed_strip|now apply trimmed_strip|now apply unquoted_iff].
Qed.
Lemma items_iff l : forall d r, items l d r <-> parse_query_items l d = r.
Proof.
  induction l as [|i l IH]; intros d r; cbn [parse_query_items].
  - split; [intros H; now inversion H|intros <-; constructor].
  - split.
    + intros H. inversion H as [|i0 l0 k v d0 r0 I Is|i0 l0 d0 N]; subst.
      * apply item_iff in I as (a & b & E & -> & ->). rewrite E. now apply IH.
      * destruct (split_on cEq i) as [|a [|b [|]]] eqn:E; auto. exfalso. apply (N (strip_ws a) (unquote_plus (strip_ws b))). apply item_iff. eauto.
    + assert (Bad : (forall a b, split_on cEq i <> [a; b]) -> items (i :: l) d (Raise ValueError)).
      { intros N. apply its_bad. intros k v I. apply item_iff in I as (a & b & E & _). now apply (N a b). }
      destruct (split_on cEq i) as [|a [|b [|]]] eqn:E; intros H; try (rewrite <- H; apply Bad; intros; discriminate).
      apply its_item with (strip_ws a) (unquote_plus (strip_ws b)); [apply item_iff; eauto|now apply IH].
Qed.
Lemma amps_iff q l : between_amps q l <-> split_on cAmp q = l.
Proof.
  split.
  - intros (N & -> & F). apply split_join; auto. apply Forall_forall. intros i I. apply free1. now apply F.
  - intros <-. split; [apply split_on_nonnil|]. split; [now rewrite join_split|]. intros i I. apply free1. pose proof (split_on_no_sep cAmp q) as N.
    rewrite Forall_forall in N. now apply N.
Qed.
Definition query_dict (q : option str) : res (dict str) := match q with Some (c :: w) => parse_query_string (c :: w) | _ => Ok [] end.
Lemma query_iff q r : query_of q r <-> query_dict q = r.
Proof.
  unfold query_dict. split.
  - intros [q0 [->| ->]|q0 l r0 N A I]; auto. destruct q0 as [|c w]; [now contradict N|]. apply amps_iff in A. apply items_iff in I. unfold parse_query_string. now rewrite A.
  - intros <-. destruct q as [[|c w]|]; [apply qo_none; now right| |apply qo_none; now left].
    apply qo_text with (split_on cAmp (c :: w)); [discriminate|now apply amps_iff|now apply items_iff].
Qed.

Lemma middle_iff a v : middle a v <-> slice_2_m2 a = v.
Proof.
  unfold slice_2_m2. split.
  - intros [(b & c & y & z & ->)|[L ->]].
    + cbn [skipn length]. rewrite app_length. cbn [length].
      replace (S (S (length v + 2)) - 2 - 2)%nat with (length v) by lia. rewrite firstn_app, Nat.sub_diag, firstn_all. cbn. apply app_nil_r.
    + replace (length a - 2 - 2)%nat with 0%nat by lia. reflexivity.
  - intros <-. destruct (lt_dec (length a) 4) as [L|L].
    + right. split; [exact L|]. replace (length a - 2 - 2)%nat with 0%nat by lia. reflexivity.
    + left. destruct a as [|b [|c a]]; [cbn in L; lia|cbn in L; lia|]. cbn [skipn length] in *.
      replace (S (S (length a)) - 2 - 2)%nat with (length a - 2)%nat by lia.
      exists b, c. pose proof (firstn_skipn (length a - 2) a) as E. pose proof (skipn_length (length a - 2) a) as K.
      destruct (skipn (length a - 2) a) as [|y [|z [|]]]; cbn in K; try lia. exists y, z. now rewrite E.
Qed.
Definition connector_text (a : option str) : str * option str :=
  match a with
  | Some a => if contains (lit "((") a then (slice_2_m2 a, Some []) else ([], Some a)
  | None => ([], None)
  end.
Lemma connector_iff a v a' : connector a v a' <-> connector_text a = (v, a').
Proof.
  unfold connector_text. split.
  - intros [w v0 -> N M|N].
    + destruct (contains (lit "((") w) eqn:E; [apply middle_iff in M; now rewrite M|]. exfalso. apply N. exact (proj2 (contains_no _ _) E).
    + destruct a as [w|]; [|reflexivity]. specialize (N w eq_refl). now rewrite (proj1 (contains_no _ _) N).
  - destruct a as [w|]; [|intros H; injection H as <- <-; apply cn_none; intros w' E'; discriminate E'].
    destruct (contains (lit "((") w) eqn:E; intros H; injection H as <- <-.
    + apply cn_some with w; [reflexivity| |now apply middle_iff]. intros N. apply contains_no in N. congruence.
    + apply cn_none. intros w0 E0. injection E0 as <-. exact (proj2 (contains_no _ _) E).
Qed.
Definition netloc_text (ho : option str) (port : Z) : str :=
  match ho with
  | Some (c :: w) => if (port =? 0)%Z then c :: w else (c :: w) ++ [cColon] ++ str_of_Z port
  | _ => []
  end.
Lemma netloc_iff h z n : netloc_of h z n <-> netloc_text h z = n.
Proof.
  unfold netloc_text. split.
  - intros [h0 z0 [->| ->]|h0 N|h0 z0 N Z]; auto; destruct h0; try (now contradict N); [reflexivity|]. now rewrite (proj2 (Z.eqb_neq _ _) Z).
  - intros <-. destruct h as [[|c w]|]; [apply ne_none; now right| |apply ne_none; now left]. destruct (Z.eqb_spec z 0) as [->|Z]; [now apply ne_host|now apply ne_port].
Qed.

Lemma uri_parse_steps t : uri_parse t =
  match urisplit t with
  | Raise e => Raise e
  | Ok s => let (v, a) := connector_text (s_authority s) in
      match person_text a with
      | Raise e => Raise e
      | Ok (u, p, h, z) => match query_dict (s_query s) with
          | Raise e => Raise e
          | Ok q => Ok (mkParsed (s_scheme s) a (s_path s) q (s_fragment s) v u p h z (netloc_text h z))
          end
      end
  end.
Proof.
  unfold uri_parse. destruct (urisplit t) as [s|e]; [|reflexivity]. cbn [rbind]. unfold connector_text.
  destruct (s_authority s) as [a|]; [destruct (contains (lit "((") a)|].
  all: unfold person_text, query_dict, netloc_text; cbn [rbind].
  all: try (destruct a as [|c w]; cbn [rbind]).
  all: try (destruct (split_authority (c :: w)) as [[[us pw] ho] po]; destruct (match po with Some (d :: t0) => py_int (d :: t0) | _ => Ok 0%Z end) as [z|e0]; cbn [rbind]; [|reflexivity]).
  all: destruct (s_query s) as [[|c' w']|]; cbn [rbind]; try reflexivity.
  all: try (destruct (parse_query_string (c' :: w')); reflexivity).
Qed.
Theorem understood_iff t r : understood t r <-> uri_parse t = r.
Proof.
  rewrite uri_parse_steps. split.
  - intros [e T|s v a e T C P|s v a [[[u p] h] z] e T C P Q|s v a u p h z q n T C P Q N]; apply takes_apart_iff in T; rewrite T; auto;
      apply connector_iff in C; rewrite C; apply persons_iff in P; rewrite P; auto; apply query_iff in Q; rewrite Q; auto.
    apply netloc_iff in N. now rewrite N.
  - intros <-. destruct (urisplit t) as [s|e] eqn:T; apply takes_apart_iff in T; [|now apply un_split].
    destruct (connector_text (s_authority s)) as [v a] eqn:C. apply connector_iff in C.
    destruct (person_text a) as [[[[u p] h] z]|e] eqn:P; apply persons_iff in P; [|now apply un_auth with s v a].
    destruct (query_dict (s_query s)) as [q|e] eqn:Q; apply query_iff in Q; [|now apply un_query with s v a (u, p, h, z)].
    apply un_all; auto. now apply netloc_iff.
Qed.
