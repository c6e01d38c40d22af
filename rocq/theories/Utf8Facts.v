(** Round trips of the UTF-8 and percent encodings. *)
From Verif Require Import Str Exc Utf8 StrFacts.
From Coq Require Import ZifyBool ZifyNat ZifyN.
Local Open Scope N_scope.
Ltac Zify.zify_post_hook ::= Z.div_mod_to_equations.

Lemma enc1_dec c rest :
  scalar c = true ->
  exists b0 r0, enc1 c ++ rest = b0 :: r0 /\ dec_step b0 r0 = Good c rest.
Proof.
  unfold scalar, enc1. intros H.
  destruct (c <? 128) eqn:E1; [|destruct (c <? 2048) eqn:E2; [|destruct (c <? 65536) eqn:E3]];
    cbn [app]; eexists _, _; (split; [reflexivity|]); unfold dec_step, between, cont.
  - now rewrite E1.
  - replace (192 + c / 64 <? 128) with false by lia.
    replace ((194 <=? 192 + c / 64) && (192 + c / 64 <=? 223)) with true by lia.
    replace ((128 <=? 128 + c mod 64) && (128 + c mod 64 <=? 191)) with true by lia.
    f_equal. lia.
  - replace (224 + c / 4096 <? 128) with false by lia.
    replace ((194 <=? 224 + c / 4096) && (224 + c / 4096 <=? 223)) with false by lia.
    replace ((224 <=? 224 + c / 4096) && (224 + c / 4096 <=? 239)) with true by lia.
    assert (A : ((if 224 + c / 4096 =? 224 then 160 else 128) <=? 128 + (c / 64) mod 64)
                && (128 + (c / 64) mod 64 <=? (if 224 + c / 4096 =? 237 then 159 else 191)) = true).
    { destruct (224 + c / 4096 =? 224) eqn:F1; destruct (224 + c / 4096 =? 237) eqn:F2; lia. }
    cbv zeta. rewrite A.
    replace ((128 <=? 128 + c mod 64) && (128 + c mod 64 <=? 191)) with true by lia.
    f_equal. lia.
  - replace (240 + c / 262144 <? 128) with false by lia.
    replace ((194 <=? 240 + c / 262144) && (240 + c / 262144 <=? 223)) with false by lia.
    replace ((224 <=? 240 + c / 262144) && (240 + c / 262144 <=? 239)) with false by lia.
    replace ((240 <=? 240 + c / 262144) && (240 + c / 262144 <=? 244)) with true by lia.
    assert (A : ((if 240 + c / 262144 =? 240 then 144 else 128) <=? 128 + (c / 4096) mod 64)
                && (128 + (c / 4096) mod 64 <=? (if 240 + c / 262144 =? 244 then 143 else 191)) = true).
    { destruct (240 + c / 262144 =? 240) eqn:F1; destruct (240 + c / 262144 =? 244) eqn:F2; lia. }
    cbv zeta. rewrite A.
    replace ((128 <=? 128 + (c / 64) mod 64) && (128 + (c / 64) mod 64 <=? 191)) with true by lia.
    replace ((128 <=? 128 + c mod 64) && (128 + c mod 64 <=? 191)) with true by lia.
    f_equal. lia.
Qed.

Lemma enc1_length c : (1 <= length (enc1 c))%nat.
Proof.
  unfold enc1. destruct (c <? 128); [|destruct (c <? 2048); [|destruct (c <? 65536)]]; simpl; lia.
Qed.
Lemma enc1_bytes c : scalar c = true -> Forall (fun b => b < 256) (enc1 c).
Proof.
  unfold scalar, enc1. intros H.
  destruct (c <? 128) eqn:E1; [|destruct (c <? 2048) eqn:E2; [|destruct (c <? 65536) eqn:E3]];
    repeat constructor; lia.
Qed.

Lemma decode_fuel_enc s fuel :
  forallb scalar s = true -> (length (flat_map enc1 s) <= fuel)%nat ->
  decode_fuel fuel (flat_map enc1 s) = Ok s.
Proof.
  revert fuel; induction s as [|c s IH]; intros fuel H Hf; cbn [flat_map] in *.
  - destruct fuel; reflexivity.
  - simpl in H. apply andb_true_iff in H as [Hc H].
    destruct (enc1_dec c (flat_map enc1 s) Hc) as (b0 & r0 & E & D).
    rewrite app_length in Hf. pose proof (enc1_length c).
    rewrite E. destruct fuel as [|fuel]; [lia|]. cbn [decode_fuel]. rewrite D.
    rewrite IH by (auto; lia). reflexivity.
Qed.
Theorem utf8_roundtrip s b : utf8_encode s = Ok b -> utf8_decode b = Ok s.
Proof.
  unfold utf8_encode, utf8_decode. destruct (forallb scalar s) eqn:E; [|discriminate].
  intros H; injection H as <-. now apply decode_fuel_enc.
Qed.
Lemma decode_replace_enc s fuel :
  forallb scalar s = true -> (length (flat_map enc1 s) <= fuel)%nat ->
  decode_replace_fuel fuel (flat_map enc1 s) = s.
Proof.
  revert fuel; induction s as [|c s IH]; intros fuel H Hf; cbn [flat_map] in *.
  - destruct fuel; reflexivity.
  - simpl in H. apply andb_true_iff in H as [Hc H].
    destruct (enc1_dec c (flat_map enc1 s) Hc) as (b0 & r0 & E & D).
    rewrite app_length in Hf. pose proof (enc1_length c).
    rewrite E. destruct fuel as [|fuel]; [lia|]. cbn [decode_replace_fuel]. rewrite D.
    f_equal. apply IH; auto; lia.
Qed.
Lemma utf8_replace_roundtrip s b : utf8_encode s = Ok b -> utf8_decode_replace b = s.
Proof.
  unfold utf8_encode, utf8_decode_replace. destruct (forallb scalar s) eqn:E; [|discriminate].
  intros H; injection H as <-. now apply decode_replace_enc.
Qed.
Lemma utf8_encode_bytes s b : utf8_encode s = Ok b -> Forall (fun x => x < 256) b.
Proof.
  unfold utf8_encode. destruct (forallb scalar s) eqn:E; [|discriminate].
  intros H; injection H as <-. induction s as [|c s IH]; simpl; [constructor|].
  simpl in E. apply andb_true_iff in E as [Ec E]. apply Forall_app. split; auto.
  now apply enc1_bytes.
Qed.
Lemma utf8_encode_scalar s : forallb scalar s = true -> exists b, utf8_encode s = Ok b.
Proof. unfold utf8_encode. intros ->. eauto. Qed.

(** ** Percent encoding *)

Lemma hexval_hexdig n : n < 16 -> hexval (hexdig n) = Some n.
Proof.
  intros H. unfold hexval, hexdig, between.
  destruct (n <? 10) eqn:E.
  - replace ((48 <=? 48 + n) && (48 + n <=? 57)) with true by lia. f_equal. lia.
  - replace ((48 <=? 55 + n) && (55 + n <=? 57)) with false by lia.
    replace ((65 <=? 55 + n) && (55 + n <=? 70)) with true by lia. f_equal. lia.
Qed.
Lemma hexdig_range n : n < 16 -> 48 <= hexdig n <= 57 \/ 65 <= hexdig n <= 70.
Proof. intros H. unfold hexdig. destruct (n <? 10) eqn:E; lia. Qed.

(** The characters [quote_plus] produces. *)
Definition quoted_char (c : N) : bool := always_safe c || (c =? cPlus) || (c =? cPct).
Lemma quote_byte_chars b : b < 256 -> forallb quoted_char (quote_byte b) = true.
Proof.
  intros H. unfold quote_byte. destruct (always_safe b) eqn:E1.
  - simpl. unfold quoted_char. now rewrite E1.
  - destruct (b =? cSpace); [reflexivity|]. cbn [forallb].
    pose proof (hexdig_range (b / 16) ltac:(lia)). pose proof (hexdig_range (b mod 16) ltac:(lia)).
    unfold quoted_char, always_safe, between. unfold cPlus, cPct, cUnder, cDot, cMinus. lia.
Qed.
Lemma quote_plus_chars s q : quote_plus s = Ok q -> forallb quoted_char q = true.
Proof.
  unfold quote_plus. destruct (utf8_encode s) as [b|] eqn:E; [|discriminate].
  apply utf8_encode_bytes in E. cbn. intros H; injection H as <-.
  induction E as [|x b Hx Hb IH]; [reflexivity|]. cbn [flat_map]. rewrite forallb_app.
  now rewrite quote_byte_chars, IH.
Qed.

Definition unplus (s : str) := replace_char cPlus cSpace s.
Lemma unquote_quote_byte b s buf :
  b < 256 -> unquote_go buf (unplus (quote_byte b) ++ s) = unquote_go (b :: buf) s.
Proof.
  intros H. unfold quote_byte. destruct (always_safe b) eqn:E1.
  - unfold always_safe, between in E1. unfold cUnder, cDot, cMinus in E1.
    unfold unplus. cbn. replace (b =? cPlus) with false by (unfold cPlus; lia).
    cbn [app unquote_go].
    replace (128 <=? b) with false by lia. replace (b =? cPct) with false by (unfold cPct; lia).
    destruct s; reflexivity.
  - destruct (b =? cSpace) eqn:E2.
    + apply N.eqb_eq in E2. subst. reflexivity.
    + unfold unplus.
      pose proof (hexdig_range (b / 16) ltac:(lia)) as R1.
      pose proof (hexdig_range (b mod 16) ltac:(lia)) as R2.
      rewrite replace_char_id.
      2:{ cbn [In]. unfold cPct, cPlus. lia. }
      cbn [app unquote_go].
      change (128 <=? cPct) with false. change (cPct =? cPct) with true.
      cbv iota. rewrite !hexval_hexdig by lia. f_equal. f_equal. lia.
Qed.
Lemma unquote_quote_bytes b : forall buf,
  Forall (fun x => x < 256) b ->
  unquote_go buf (unplus (flat_map quote_byte b)) = utf8_decode_replace (rev buf ++ b).
Proof.
  induction b as [|x b IH]; intros buf H.
  - cbn. now rewrite app_nil_r.
  - inversion H; subst. cbn [flat_map]. unfold unplus. rewrite replace_char_app.
    fold (unplus (quote_byte x)). fold (unplus (flat_map quote_byte b)).
    rewrite unquote_quote_byte by auto. rewrite IH by auto. cbn [rev]. now rewrite <- app_assoc.
Qed.
Theorem unquote_quote_plus s q : quote_plus s = Ok q -> unquote_plus q = s.
Proof.
  unfold quote_plus. destruct (utf8_encode s) as [b|] eqn:E; [|discriminate].
  cbn. intros H; injection H as <-. unfold unquote_plus, unquote.
  change (replace_char cPlus cSpace (flat_map quote_byte b)) with (unplus (flat_map quote_byte b)).
  rewrite unquote_quote_bytes by (eapply utf8_encode_bytes; eauto).
  cbn [rev app]. now apply utf8_replace_roundtrip.
Qed.

(** Characters that are safe are their own encoding. *)
Lemma quote_plus_safe s : forallb always_safe s = true -> quote_plus s = Ok s.
Proof.
  intros H. unfold quote_plus.
  assert (E : utf8_encode s = Ok s).
  { unfold utf8_encode.
    assert (S : forallb scalar s = true).
    { rewrite forallb_forall in *. intros c Hc. specialize (H c Hc).
      unfold always_safe, between, scalar in *. unfold cUnder, cDot, cMinus in H. lia. }
    rewrite S. f_equal. clear S. induction s as [|c s IH]; [reflexivity|]. cbn [flat_map].
    cbn [forallb] in H. apply andb_true_iff in H as [Hc H]. rewrite IH by auto.
    unfold enc1. unfold always_safe, between in Hc. unfold cUnder, cDot, cMinus in Hc.
    replace (c <? 128) with true by lia. reflexivity. }
  rewrite E. cbn. f_equal. clear E. induction s as [|c s IH]; [reflexivity|]. cbn [flat_map].
  cbn [forallb] in H. apply andb_true_iff in H as [Hc H]. rewrite IH by auto.
  unfold quote_byte. now rewrite Hc.
Qed.
