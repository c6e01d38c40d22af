(** Which dictionaries a query string gives back. *)
From Verif Require Import Str Exc Utf8 UriParse BaseUri StrFacts Utf8Facts UriFacts SpecUri UriFacts2.
From Coq Require Import Permutation ZifyBool ZifyNat ZifyN.
Local Open Scope N_scope.

(** How much room a text takes: its characters, those that are not blanks twice. *)
Fixpoint room (s : str) : nat :=
  match s with [] => 0%nat | c :: s' => ((if N.eqb c cSpace then 1 else 2) + room s')%nat end.
Lemma room_app a b : room (a ++ b) = (room a + room b)%nat.
Proof. induction a as [|c a IH]; cbn [app room]; lia. Qed.
Lemma room_hex n : n < 16 -> N.eqb (hexdig n) cSpace = false.
Proof. intros H. apply hexdig_range in H. unfold cSpace. lia. Qed.
Lemma room_byte b : b < 256 -> (room [b] <= room (quote_byte b))%nat.
Proof.
  intros H. unfold quote_byte. destruct (always_safe b); [lia|]. cbn [room].
  destruct (N.eqb b cSpace) eqn:E; cbn [room]; [cbn; lia|].
  rewrite (room_hex (b / 16)), (room_hex (b mod 16)); try (pose proof (N.div_lt_upper_bound b 16 16); pose proof (N.mod_lt b 16); lia).
Qed.
Lemma room_unsafe b : b < 256 -> always_safe b = false -> (room [b] < room (quote_byte b))%nat.
Proof.
  intros H U. unfold quote_byte. rewrite U. cbn [room].
  destruct (N.eqb b cSpace) eqn:E; cbn [room]; [cbn; lia|].
  rewrite (room_hex (b / 16)), (room_hex (b mod 16)); try (pose proof (N.div_lt_upper_bound b 16 16); pose proof (N.mod_lt b 16); lia).
Qed.
Lemma room_some b : (1 <= room (quote_byte b))%nat.
Proof. unfold quote_byte. destruct (always_safe b), (N.eqb b cSpace); cbn [room]; repeat destruct (N.eqb _ _); lia. Qed.
Lemma room_char c : scalar c = true ->
  (room [c] <= room (flat_map quote_byte (enc1 c)) /\ (always_safe c = false -> room [c] < room (flat_map quote_byte (enc1 c))))%nat.
Proof.
  intros Hs. destruct (c <? 128) eqn:E1.
  - unfold enc1. rewrite E1. cbn [flat_map]. rewrite app_nil_r. split.
    + apply room_byte. lia.
    + apply room_unsafe. lia.
  - assert (H : (room [c] < room (flat_map quote_byte (enc1 c)))%nat); [|lia].
    cbn [room]. replace (N.eqb c cSpace) with false by (unfold cSpace; lia).
    assert (Q : forall b, 128 <= b < 256 -> (3 <= room (quote_byte b))%nat).
    { intros b Hb. unfold quote_byte. replace (always_safe b) with false by (unfold always_safe, between, cUnder, cDot, cMinus; lia).
      replace (N.eqb b cSpace) with false by (unfold cSpace; lia).
      cbn [room]. repeat destruct (N.eqb _ _); lia. }
    pose proof (enc1_bytes c Hs) as B. unfold enc1 in *. rewrite E1 in *.
    destruct (c <? 2048); [|destruct (c <? 65536)]; cbn [flat_map]; rewrite !room_app.
    all: match goal with |- context [room (quote_byte (?n + ?a / ?m))] =>
      assert (3 <= room (quote_byte (n + a / m)))%nat; [apply Q; apply Forall_inv in B; generalize dependent (a / m); intros; lia|lia] end.
Qed.
Lemma room_quote k qk : quote_plus k = Ok qk -> (room k <= room qk /\ (~ plain k -> room k < room qk))%nat.
Proof.
  unfold quote_plus, utf8_encode, plain. destruct (forallb scalar k) eqn:S; [|discriminate]. cbn [rbind].
  intros H; injection H as <-. induction k as [|c k IH]; cbn [forallb flat_map] in *.
  - cbn. split; [lia|]. intros H. now destruct H.
  - apply andb_true_iff in S as [Sc S]. destruct (IH S) as [L M]. destruct (room_char c Sc) as [Lc Mc].
    rewrite flat_map_app, room_app. change (c :: k) with ([c] ++ k). rewrite room_app. split; [lia|].
    intros N. destruct (always_safe c) eqn:A; [|specialize (Mc eq_refl); lia].
    assert (~ forallb always_safe k = true) by (intros Hk; apply N; now rewrite Hk). specialize (M H). lia.
Qed.

(** ** Writing *)
Lemma quote_iff s : (exists q, quote_plus s = Ok q) <-> text_ok s.
Proof.
  unfold quote_plus, utf8_encode, text_ok. destruct (forallb scalar s); cbn [rbind]; split; eauto; try easy. intros [q H]. discriminate.
Qed.
Lemma quote_fails s e : quote_plus s = Raise e -> e = UnicodeEncodeError /\ ~ text_ok s.
Proof.
  unfold quote_plus, utf8_encode, text_ok. destruct (forallb scalar s); cbn [rbind]; intros H; [discriminate|]. now injection H as <-.
Qed.
Definition enc_item (kv : str * str) (i : str) : Prop :=
  exists qk qv, quote_plus (fst kv) = Ok qk /\ quote_plus (snd kv) = Ok qv /\ i = qk ++ [cEq] ++ qv.
Definition encodable (q : dict str) : Prop := forall k v, In (k, v) q -> text_ok k /\ text_ok v.
Lemma enc_items q : encodable q -> exists l, urlencode_items q = Ok l /\ Forall2 enc_item q l.
Proof.
  induction q as [|[k v] q IH]; intros H.
  - exists []. split; [reflexivity|constructor].
  - destruct IH as (l & E & F); [intros k' v' I; apply H; now right|].
    destruct (H k v (or_introl eq_refl)) as [Tk Tv]. apply quote_iff in Tk as [qk Ek]. apply quote_iff in Tv as [qv Ev].
    exists ((qk ++ [cEq] ++ qv) :: l). cbn [urlencode_items]. rewrite Ek, Ev. cbn [rbind]. rewrite E. split; [reflexivity|].
    constructor; auto. exists qk, qv. auto.
Qed.
Lemma enc_fails q : (exists e, urlencode q = Raise e) <-> ~ encodable q.
Proof.
  split.
  - intros [e H] En. destruct (enc_items q En) as (l & E & _). unfold urlencode in H. rewrite E in H. discriminate.
  - intros H. destruct (urlencode q) as [t|e] eqn:E; [|eauto]. exfalso. apply H. clear H. unfold urlencode in E.
    destruct (urlencode_items q) as [l|] eqn:U; [|discriminate]. clear E t. revert l U.
    induction q as [|[k v] q IH]; intros l U k' v' I; [destruct I|]. cbn [urlencode_items] in U.
    destruct (quote_plus k) as [qk|] eqn:Ek; [|discriminate]. cbn [rbind] in U.
    destruct (quote_plus v) as [qv|] eqn:Ev; [|discriminate]. cbn [rbind] in U.
    destruct (urlencode_items q) as [l'|] eqn:U'; [|discriminate].
    destruct I as [I|I]; [injection I as -> ->; split; apply quote_iff; eauto|]. exact (IH l' eq_refl k' v' I).
Qed.
Lemma enc_error q e : urlencode q = Raise e -> e = UnicodeEncodeError.
Proof.
  unfold urlencode. destruct (urlencode_items q) as [l|e'] eqn:U; [discriminate|]. cbn [rbind]. intros H; injection H as <-. revert e' U.
  induction q as [|[k v] q IH]; intros e' U; [discriminate|]. cbn [urlencode_items] in U.
  destruct (quote_plus k) as [qk|] eqn:Ek; [|cbn [rbind] in U; injection U as <-; eapply quote_fails; eauto]. cbn [rbind] in U.
  destruct (quote_plus v) as [qv|] eqn:Ev; [|cbn [rbind] in U; injection U as <-; eapply quote_fails; eauto]. cbn [rbind] in U.
  destruct (urlencode_items q) as [l'|] eqn:U'; [discriminate|]. cbn [rbind] in U. injection U as <-. exact (IH _ eq_refl).
Qed.

(** ** Reading back *)
Definition read_item (kv kv' : str * str) : Prop := quote_plus (fst kv) = Ok (fst kv') /\ snd kv' = snd kv.
Lemma read_items q l r : NoDup (map fst q) ->
  (forall k qk, In k (map fst q) -> quote_plus k = Ok qk -> ~ In qk (map fst r)) ->
  Forall2 enc_item q l -> exists r', parse_query_items l r = Ok (r ++ r') /\ Forall2 read_item q r'.
Proof.
  intros Hn Hr F. revert r Hr. induction F as [|[k v] i q l (qk & qv & Ek & Ev & ->) F IH]; intros r Hr.
  - exists []. cbn. rewrite app_nil_r. split; [reflexivity|constructor].
  - cbn [fst snd] in *. cbn [parse_query_items map] in *.
    pose proof (quote_plus_chars _ _ Ek) as Qk. pose proof (quote_plus_chars _ _ Ev) as Qv.
    cbn [app]. rewrite split_on_app by (apply (quoted_avoids _ Qk); cbn; tauto).
    rewrite split_on_none by (apply (quoted_avoids _ Qv); cbn; tauto).
    rewrite !quoted_strip by auto. rewrite (unquote_quote_plus _ _ Ev).
    inversion Hn; subst. rewrite dset_new.
    + destruct (IH H2 (r ++ [(qk, v)])) as (r' & E & F').
      * intros k' qk' I E'. rewrite map_app, in_app_iff. intros [H'|[<-|[]]].
        -- exact (Hr k' qk' (or_intror I) E' H').
        -- apply H1. apply unquote_quote_plus in Ek, E'. cbn [fst] in *. congruence.
      * exists ((qk, v) :: r'). rewrite E, <- app_assoc. split; [reflexivity|]. constructor; auto. split; auto.
    + unfold dhas. destruct (dget qk r) eqn:E; auto.
      apply dget_In in E. apply (in_map fst) in E. exfalso. apply (Hr k qk); auto. now left.
Qed.
Lemma read_back q : q <> [] -> NoDup (map fst q) -> encodable q ->
  exists t r, urlencode q = Ok t /\ parse_query_string t = Ok r /\ Forall2 read_item q r.
Proof.
  intros Hq Hn He. destruct (enc_items q He) as (l & E & F). exists (join_with [cAmp] l).
  destruct (read_items q l [] Hn) as (r & R & G); [intros k qk _ _ []|exact F|]. exists r.
  unfold urlencode. rewrite E. split; [reflexivity|]. split; [|exact G].
  unfold parse_query_string. rewrite split_join; [exact R|destruct F; easy|].
  apply Forall_forall. intros i I Ha. clear R G E Hq Hn He. induction F as [|[k v] j q l (qk & qv & Ek & Ev & ->) F IH]; [destruct I|].
  destruct I as [<-|I]; [|exact (IH I)].
  pose proof (quote_plus_chars _ _ Ek) as Qk. pose proof (quote_plus_chars _ _ Ev) as Qv.
  rewrite !in_app_iff in Ha. destruct Ha as [Ha|[[Ha|[]]|Ha]]; [|discriminate|].
  - apply (quoted_avoids _ Qk cAmp); [cbn; tauto|exact Ha].
  - apply (quoted_avoids _ Qv cAmp); [cbn; tauto|exact Ha].
Qed.
Lemma read_empty t : urlencode [] = Ok t -> parse_query_string t = Raise ValueError.
Proof. intros H. injection H as <-. reflexivity. Qed.

(** ** Which come back *)
Lemma dget_some {V} k (d : dict V) : (exists v, dget k d = Some v) <-> In k (map fst d).
Proof.
  induction d as [|[k' v'] d IH]; cbn [dget map fst In]; [split; [intros [v H]; discriminate|tauto]|].
  destruct (str_eqb k k') eqn:E.
  - apply str_eqb_eq in E. subst. split; eauto.
  - rewrite IH. split; [tauto|]. intros [->|H]; auto. rewrite str_eqb_refl in E. discriminate.
Qed.
Lemma read_nodup q r : NoDup (map fst q) -> Forall2 read_item q r -> NoDup (map fst r).
Proof.
  intros Hn F. induction F as [|[k v] [k' v'] q r (Ek & Ev) F IH]; [constructor|]. cbn [fst snd map] in *.
  inversion Hn; subst. constructor; auto. intros I. apply H1. clear - Ek F I.
  induction F as [|[a b] [a' b'] q r (Ea & Eb) F IH]; [destruct I|]. cbn [map fst snd In] in *.
  destruct I as [->|I]; [left|right; auto]. apply unquote_quote_plus in Ea, Ek. congruence.
Qed.
Fixpoint total (l : list str) : nat := match l with [] => 0%nat | k :: l' => (room k + total l')%nat end.
Lemma total_perm l l' : Permutation l l' -> total l = total l'.
Proof. induction 1; cbn [total]; lia. Qed.
Lemma read_total q r : Forall2 read_item q r ->
  (total (map fst q) <= total (map fst r) /\ (total (map fst q) = total (map fst r) -> forall k v, In (k, v) q -> plain k))%nat.
Proof.
  induction 1 as [|[k v] [k' v'] q r (Ek & Ev) F IH]; cbn [map total fst snd] in *; [split; [lia|intros _ k v []]|].
  destruct IH as [L M]. destruct (room_quote _ _ Ek) as [Lk Mk]. split; [lia|]. intros E a b [I|I].
  - injection I as -> ->. unfold plain in *. destruct (forallb always_safe a); auto. assert (room a < room k')%nat by (apply Mk; discriminate). lia.
  - apply (M ltac:(lia) a b I).
Qed.
Lemma back_iff q : NoDup (map fst q) ->
  ((exists t r, urlencode q = Ok t /\ parse_query_string t = Ok r /\ forall k, dget k r = dget k q) <->
   q <> [] /\ forall k v, In (k, v) q -> plain k /\ text_ok v).
Proof.
  intros Hn. split.
  - intros (t & r & E & R & D).
    assert (Hq : q <> []) by (intros ->; rewrite (read_empty t E) in R; discriminate). split; [exact Hq|].
    assert (He : encodable q).
    { intros k v I. destruct (forallb scalar k) eqn:Sk, (forallb scalar v) eqn:Sv; [split; assumption|..]; exfalso.
      all: assert (N : ~ encodable q) by (intros H; destruct (H k v I) as [A B]; unfold text_ok in *; congruence).
      all: apply enc_fails in N as [e N]; congruence. }
    destruct (read_back q Hq Hn He) as (t' & r' & E' & R' & F). rewrite E in E'. injection E' as <-. rewrite R in R'. injection R' as <-.
    assert (P : Permutation (map fst q) (map fst r)).
    { apply NoDup_Permutation; [exact Hn|eapply read_nodup; eauto|]. intros k. rewrite <- !dget_some, D. reflexivity. }
    intros k v I. split; [|apply (He k v I)]. destruct (read_total q r F) as [_ M]. apply (M (total_perm _ _ P) k v I).
  - intros [Hq H]. destruct (query_roundtrip q Hq (fun k v I => proj1 (H k v I)) (fun k v I => proj2 (H k v I)) Hn) as (t & E & R & _).
    exists t, q. auto.
Qed.
