(** unquote_plus is the rule of SpecUnquote.v *)
From Verif Require Import Str Exc Utf8 StrFacts Utf8Facts SpecUri SpecUnquote HandleFacts.
From Coq Require Import ZifyBool ZifyNat ZifyN.
Local Open Scope N_scope.
Ltac Zify.zify_post_hook ::= Z.div_mod_to_equations.

(** ** Characters *)
Lemma utf8_enc c e : utf8_of c e <-> scalar c = true /\ e = enc1 c.
Proof.
  split.
  - intros H. unfold scalar, enc1. destruct H as [L|a b L Hb E|a b d L N Hb Hd E|a b d f L Hb Hd Hf E].
    + replace (c <? 128) with true by lia. split; [lia|reflexivity].
    + replace (c <? 128) with false by lia. replace (c <? 2048) with true by lia. split; [lia|]. repeat f_equal; lia.
    + replace (c <? 128) with false by lia. replace (c <? 2048) with false by lia. replace (c <? 65536) with true by lia. split; [lia|]. repeat f_equal; lia.
    + replace (c <? 128) with false by lia. replace (c <? 2048) with false by lia. replace (c <? 65536) with false by lia. split; [lia|]. repeat f_equal; lia.
  - intros [S ->]. unfold scalar, enc1 in *.
    destruct (c <? 128) eqn:E1; [|destruct (c <? 2048) eqn:E2; [|destruct (c <? 65536) eqn:E3]].
    + apply u8_1. lia.
    + apply u8_2; lia.
    + apply u8_3; lia.
    + apply u8_4; lia.
Qed.
(** How characters begin *)
Definition begins (p : list N) : Prop :=
  match p with
  | [] => True
  | b0 :: p1 =>
      b0 < 128 /\ p1 = [] \/
      194 <= b0 <= 223 /\ match p1 with [] => True | [b1] => 128 <= b1 <= 191 | _ => False end \/
      224 <= b0 <= 239 /\ match p1 with
        | [] => True
        | b1 :: p2 => 128 <= b1 <= 191 /\ (b0 = 224 -> 160 <= b1) /\ (b0 = 237 -> b1 <= 159) /\
            match p2 with [] => True | [b2] => 128 <= b2 <= 191 | _ => False end
        end \/
      240 <= b0 <= 244 /\ match p1 with
        | [] => True
        | b1 :: p2 => 128 <= b1 <= 191 /\ (b0 = 240 -> 144 <= b1) /\ (b0 = 244 -> b1 <= 143) /\
            match p2 with
            | [] => True
            | b2 :: p3 => 128 <= b2 <= 191 /\ match p3 with [] => True | [b3] => 128 <= b3 <= 191 | _ => False end
            end
        end
  end.
Lemma begins_full c e : utf8_of c e -> begins e.
Proof.
  intros [L|a b L Hb E|a b d L N Hb Hd E|a b d f L Hb Hd Hf E]; cbn [begins].
  - left. auto.
  - right. left. lia.
  - right. right. left. lia.
  - right. right. right. lia.
Qed.
Lemma begins_prefix p s : begins (p ++ s) -> begins p.
Proof.
  destruct p as [|b0 p]; [exact (fun _ => I)|]. cbn [app begins].
  intros [[L H]|[[L H]|[[L H]|[L H]]]].
  - left. destruct p; [auto|discriminate].
  - right. left. split; [exact L|]. destruct p as [|b1 [|b2 p]]; cbn [app] in H; auto. now destruct s.
  - right. right. left. split; [exact L|]. destruct p as [|b1 p]; cbn [app] in H; auto. destruct H as (H1 & H2 & H3 & H).
    repeat (split; [assumption|]). destruct p as [|b2 [|b3 p]]; cbn [app] in H; auto. now destruct s.
  - right. right. right. split; [exact L|]. destruct p as [|b1 p]; cbn [app] in H; auto. destruct H as (H1 & H2 & H3 & H).
    repeat (split; [assumption|]). destruct p as [|b2 p]; cbn [app] in H; auto. destruct H as [H4 H]. split; [assumption|].
    destruct p as [|b3 [|b4 p]]; cbn [app] in H; auto. now destruct s.
Qed.
Lemma begun_begins p : begun p -> begins p.
Proof. intros (c & e & s & U & ->). apply begins_full in U. now apply begins_prefix in U. Qed.
Lemma begins_begun p : begins p -> begun p.
Proof.
  destruct p as [|b0 p1]; cbn [begins]; [intros _; exists 0, [0], [0]; split; [apply u8_1; lia|reflexivity]|].
  intros [[L ->]|[[L H]|[[L H]|[L H]]]].
  - exists b0, [b0], []. split; [now apply u8_1|reflexivity].
  - destruct p1 as [|b1 [|b2 p]]; [| |easy].
    + exists (64 * (b0 - 192)), [192 + (b0 - 192); 128 + 0], [128 + 0]. split; [apply u8_2; lia|]. cbn [app]. f_equal; lia.
    + exists (64 * (b0 - 192) + (b1 - 128)), [192 + (b0 - 192); 128 + (b1 - 128)], []. split; [apply u8_2; lia|]. cbn [app]. repeat (f_equal; try lia).
  - destruct p1 as [|b1 p2].
    + exists (4096 * (b0 - 224) + 64 * (if b0 =? 224 then 32 else 0) + 0), [224 + (b0 - 224); 128 + (if b0 =? 224 then 32 else 0); 128 + 0], [128 + (if b0 =? 224 then 32 else 0); 128 + 0].
      split; [apply u8_3; destruct (b0 =? 224) eqn:Z; lia|]. cbn [app]. f_equal. lia.
    + destruct H as (H1 & H2 & H3 & H). destruct p2 as [|b2 [|b3 p]]; [| |easy].
      * exists (4096 * (b0 - 224) + 64 * (b1 - 128) + 0), [224 + (b0 - 224); 128 + (b1 - 128); 128 + 0], [128 + 0]. split; [apply u8_3; lia|]. cbn [app]. repeat (f_equal; try lia).
      * exists (4096 * (b0 - 224) + 64 * (b1 - 128) + (b2 - 128)), [224 + (b0 - 224); 128 + (b1 - 128); 128 + (b2 - 128)], []. split; [apply u8_3; lia|]. cbn [app]. repeat (f_equal; try lia).
  - destruct p1 as [|b1 p2].
    + exists (262144 * (b0 - 240) + 4096 * (if b0 =? 240 then 16 else 0) + 64 * 0 + 0),
        [240 + (b0 - 240); 128 + (if b0 =? 240 then 16 else 0); 128 + 0; 128 + 0], [128 + (if b0 =? 240 then 16 else 0); 128 + 0; 128 + 0].
      split; [apply u8_4; destruct (b0 =? 240) eqn:Z; lia|]. cbn [app]. f_equal. lia.
    + destruct H as (H1 & H2 & H3 & H). destruct p2 as [|b2 p3].
      * exists (262144 * (b0 - 240) + 4096 * (b1 - 128) + 64 * 0 + 0), [240 + (b0 - 240); 128 + (b1 - 128); 128 + 0; 128 + 0], [128 + 0; 128 + 0].
        split; [apply u8_4; lia|]. cbn [app]. repeat (f_equal; try lia).
      * destruct H as [H4 H]. destruct p3 as [|b3 [|b4 p]]; [| |easy].
        -- exists (262144 * (b0 - 240) + 4096 * (b1 - 128) + 64 * (b2 - 128) + 0), [240 + (b0 - 240); 128 + (b1 - 128); 128 + (b2 - 128); 128 + 0], [128 + 0].
           split; [apply u8_4; lia|]. cbn [app]. repeat (f_equal; try lia).
        -- exists (262144 * (b0 - 240) + 4096 * (b1 - 128) + 64 * (b2 - 128) + (b3 - 128)), [240 + (b0 - 240); 128 + (b1 - 128); 128 + (b2 - 128); 128 + (b3 - 128)], [].
           split; [apply u8_4; lia|]. cbn [app]. repeat (f_equal; try lia).
Qed.

(** ** Broken bytes *)
Definition most (l p : list N) : Prop := forall p' rest', l = p' ++ rest' -> begins p' -> (length p' <= length p)%nat.
Lemma most_1 b0 r0 : (forall b1 r1, r0 = b1 :: r1 -> ~ begins [b0; b1]) -> most (b0 :: r0) [b0].
Proof.
  intros H p' rest' E B. destruct p' as [|x [|y p']]; cbn; try lia. injection E as -> E. exfalso. apply (H y (p' ++ rest') E).
  apply (begins_prefix [x; y] p'). exact B.
Qed.
Lemma most_2 b0 b1 r1 : (forall b2 r2, r1 = b2 :: r2 -> ~ begins [b0; b1; b2]) -> most (b0 :: b1 :: r1) [b0; b1].
Proof.
  intros H p' rest' E B. destruct p' as [|x [|y [|z p']]]; cbn; try lia. injection E as -> -> E. exfalso. apply (H z (p' ++ rest') E).
  apply (begins_prefix [x; y; z] p'). exact B.
Qed.
Lemma most_3 b0 b1 b2 r2 : (forall b3 r3, r2 = b3 :: r3 -> ~ begins [b0; b1; b2; b3]) -> most (b0 :: b1 :: b2 :: r2) [b0; b1; b2].
Proof.
  intros H p' rest' E B. destruct p' as [|x [|y [|z [|w p']]]]; cbn; try lia. injection E as -> -> -> E. exfalso. apply (H w (p' ++ rest') E).
  apply (begins_prefix [x; y; z; w] p'). exact B.
Qed.
Definition shape (b0 : N) (r0 rest : list N) : Prop :=
  exists p, b0 :: r0 = p ++ rest /\ p <> [] /\ (length p = 1%nat \/ begins p) /\ most (b0 :: r0) p.
Lemma shape_1 b0 r0 : (forall b1 r1, r0 = b1 :: r1 -> ~ begins [b0; b1]) -> shape b0 r0 r0.
Proof. intros H. exists [b0]. split; [reflexivity|]. split; [discriminate|]. split; [now left|]. now apply most_1. Qed.
Lemma shape_2 b0 b1 r1 : begins [b0; b1] -> (forall b2 r2, r1 = b2 :: r2 -> ~ begins [b0; b1; b2]) -> shape b0 (b1 :: r1) r1.
Proof. intros B H. exists [b0; b1]. split; [reflexivity|]. split; [discriminate|]. split; [now right|]. now apply most_2. Qed.
Lemma shape_3 b0 b1 b2 r2 : begins [b0; b1; b2] -> (forall b3 r3, r2 = b3 :: r3 -> ~ begins [b0; b1; b2; b3]) -> shape b0 (b1 :: b2 :: r2) r2.
Proof. intros B H. exists [b0; b1; b2]. split; [reflexivity|]. split; [discriminate|]. split; [now right|]. now apply most_3. Qed.
Lemma bad_shape b0 r0 rest : dec_step b0 r0 = Bad rest -> shape b0 r0 rest.
Proof.
  unfold dec_step. intros H.
  destruct (b0 <? 128) eqn:E0; [discriminate|].
  destruct (between 194 b0 223) eqn:E1.
  { destruct r0 as [|b1 r1].
    - injection H as <-. apply shape_1. intros; discriminate.
    - destruct (cont b1) eqn:C1; [discriminate|]. injection H as <-. apply shape_1. intros b r E. injection E as <- _.
      cbn [begins]. unfold between, cont in *. intuition lia. }
  destruct (between 224 b0 239) eqn:E2.
  { cbv zeta in H. destruct r0 as [|b1 r1]; [injection H as <-; apply shape_1; intros; discriminate|].
    destruct (between _ b1 _) eqn:B1 in H.
    - assert (B : 128 <= b1 <= 191 /\ (b0 = 224 -> 160 <= b1) /\ (b0 = 237 -> b1 <= 159)).
      { unfold between in *. destruct (b0 =? 224) eqn:?, (b0 =? 237) eqn:?; lia. }
      assert (B' : begins [b0; b1]) by (cbn [begins]; unfold between in *; right; right; left; intuition lia).
      destruct r1 as [|b2 r2]; [injection H as <-; apply shape_2; [exact B'|intros; discriminate]|].
      destruct (cont b2) eqn:C2; [discriminate|]. injection H as <-. apply shape_2; [exact B'|]. intros b r E. injection E as <- _.
      cbn [begins]. unfold between, cont in *. intuition (try discriminate; lia).
    - injection H as <-. apply shape_1. intros b r E. injection E as <- _. cbn [begins]. unfold between in *.
      destruct (b0 =? 224) eqn:?, (b0 =? 237) eqn:?; intuition lia. }
  destruct (between 240 b0 244) eqn:E3.
  { cbv zeta in H. destruct r0 as [|b1 r1]; [injection H as <-; apply shape_1; intros; discriminate|].
    destruct (between _ b1 _) eqn:B1 in H.
    - assert (B : 128 <= b1 <= 191 /\ (b0 = 240 -> 144 <= b1) /\ (b0 = 244 -> b1 <= 143)).
      { unfold between in *. destruct (b0 =? 240) eqn:?, (b0 =? 244) eqn:?; lia. }
      assert (B' : begins [b0; b1]) by (cbn [begins]; unfold between in *; right; right; right; intuition lia).
      destruct r1 as [|b2 r2]; [injection H as <-; apply shape_2; [exact B'|intros; discriminate]|].
      destruct (cont b2) eqn:C2.
      + assert (B2 : begins [b0; b1; b2]) by (cbn [begins]; unfold between, cont in *; right; right; right; intuition lia).
        destruct r2 as [|b3 r3]; [injection H as <-; apply shape_3; [exact B2|intros; discriminate]|].
        destruct (cont b3) eqn:C3; [discriminate|]. injection H as <-. apply shape_3; [exact B2|]. intros b r E. injection E as <- _.
        cbn [begins]. unfold between, cont in *. intuition (try discriminate; lia).
      + injection H as <-. apply shape_2; [exact B'|]. intros b r E. injection E as <- _.
        cbn [begins]. unfold between, cont in *. intuition (try discriminate; lia).
    - injection H as <-. apply shape_1. intros b r E. injection E as <- _. cbn [begins]. unfold between in *.
      destruct (b0 =? 240) eqn:?, (b0 =? 244) eqn:?; intuition lia. }
  injection H as <-. apply shape_1. intros b r E. cbn [begins]. unfold between in *. intuition (try discriminate; lia).
Qed.
Lemma bad_broken b0 r0 rest : dec_step b0 r0 = Bad rest -> exists p, b0 :: r0 = p ++ rest /\ broken p rest.
Proof.
  intros H. destruct (bad_shape _ _ _ H) as (p & E & Hp & Hl & Hm). exists p. split; [exact E|]. constructor; auto.
  - intros c e s U E'. apply utf8_enc in U as [S ->]. destruct (enc1_dec c s S) as (x & y & E2 & D). rewrite <- E, E2 in E'.
    injection E' as -> ->. rewrite H in D. discriminate.
  - destruct Hl as [Hl|Hl]; [now left|right; now apply begins_begun].
  - intros p' rest' E' B. apply begun_begins in B. apply (Hm p' rest'); [now rewrite E|exact B].
Qed.
Lemma broken_bad p rest : broken p rest -> exists b0 r0, p ++ rest = b0 :: r0 /\ dec_step b0 r0 = Bad rest.
Proof.
  intros [Hp Hn Hl Hm]. destruct p as [|b0 p]; [easy|]. exists b0, (p ++ rest). split; [reflexivity|].
  destruct (dec_step b0 (p ++ rest)) as [c r|r] eqn:D.
  - exfalso. apply dec_step_enc in D as [E S]. apply (Hn c (enc1 c) r); [now apply utf8_enc|exact E].
  - f_equal. destruct (bad_broken _ _ _ D) as (p' & E & [Hp' Hn' Hl' Hm']).
    assert (L : length p' = length (b0 :: p)).
    { apply Nat.le_antisymm.
      - destruct Hl' as [Hl'|Hl']; [cbn [length] in *; lia|]. apply (Hm p' r); auto.
      - destruct Hl as [Hl|Hl]; [rewrite Hl; destruct p'; cbn in *; [easy|lia]|]. apply (Hm' (b0 :: p) rest); auto. }
    change (b0 :: p ++ rest) with ((b0 :: p) ++ rest) in E. apply app_eq_app in E as [l [[E1 E2]|[E1 E2]]].
    + rewrite E1, app_length in L. destruct l; [now rewrite E2|cbn in L; lia].
    + rewrite E1, app_length in L. destruct l; [now rewrite E2|cbn in L; lia].
Qed.

(** ** Bytes *)
Lemma utf8_nonempty c e : utf8_of c e -> e <> [].
Proof. intros []; discriminate. Qed.
Lemma decoded_runs b t : decoded b t -> forall fuel, (length b <= fuel)%nat -> decode_replace_fuel fuel b = t.
Proof.
  induction 1 as [|c e rest t U D IH|p rest t B D IH]; intros fuel F.
  - now destruct fuel.
  - pose proof (utf8_nonempty _ _ U) as Ne. apply utf8_enc in U as [Sc ->]. destruct (enc1_dec c rest Sc) as (b0 & r0 & E & St).
    rewrite app_length in F. assert (L : length (enc1 c ++ rest) = S (length r0)) by (now rewrite E). rewrite app_length in L.
    pose proof (enc1_length c). rewrite E. destruct fuel as [|fuel]; [lia|]. cbn [decode_replace_fuel]. rewrite St. f_equal. apply IH. lia.
  - destruct (broken_bad p rest B) as (b0 & r0 & E & St). destruct B as [Hp _ _ _].
    rewrite app_length in F. assert (1 <= length p)%nat by (destruct p; cbn; [easy|lia]).
    rewrite E. destruct fuel as [|fuel]; [lia|]. cbn [decode_replace_fuel]. rewrite St. f_equal. apply IH. lia.
Qed.
Lemma decoded_total n : forall b, (length b <= n)%nat -> exists t, decoded b t.
Proof.
  induction n as [|n IH]; intros b L; (destruct b as [|b0 r0]; [exists []; constructor|]); cbn [length] in L; [lia|].
  destruct (dec_step b0 r0) as [c rest|rest] eqn:St.
  - apply dec_step_enc in St as [E Sc]. assert (length rest <= n)%nat.
    { apply (f_equal (@length N)) in E. rewrite app_length in E. cbn [length] in E. pose proof (enc1_length c). lia. }
    destruct (IH rest H) as [t D]. exists (c :: t). rewrite E. apply de_char; [now apply utf8_enc|exact D].
  - destruct (bad_broken b0 r0 rest St) as (p & E & B). assert (length rest <= n)%nat.
    { apply (f_equal (@length N)) in E. rewrite app_length in E. destruct B as [Hp _ _ _]. destruct p; cbn [length] in E; [easy|lia]. }
    destruct (IH rest H) as [t D]. exists (65533 :: t). rewrite E. now apply de_bad.
Qed.
Lemma decoded_iff b t : decoded b t <-> utf8_decode_replace b = t.
Proof.
  split; [intros D; exact (decoded_runs b t D _ (le_n _))|]. intros <-. destruct (decoded_total _ b (le_n _)) as [t D].
  pose proof (decoded_runs b t D _ (le_n _)) as E. unfold utf8_decode_replace. now rewrite E.
Qed.

(** ** Percent signs *)
Lemma hex_iff c v : hex_digit c v <-> hexval c = Some v.
Proof.
  unfold hexval, between. split.
  - intros [L E|L E|L E];
      (destruct ((48 <=? c) && (c <=? 57)) eqn:E1; [f_equal; lia|]; destruct ((65 <=? c) && (c <=? 70)) eqn:E2; [f_equal; lia|];
       destruct ((97 <=? c) && (c <=? 102)) eqn:E3; [f_equal; lia|lia]).
  - destruct ((48 <=? c) && (c <=? 57)) eqn:E1; [intros H; injection H as <-; apply hx_num; lia|].
    destruct ((65 <=? c) && (c <=? 70)) eqn:E2; [intros H; injection H as <-; apply hx_upper; lia|].
    destruct ((97 <=? c) && (c <=? 102)) eqn:E3; [intros H; injection H as <-; apply hx_lower; lia|]. discriminate.
Qed.
Lemma hex_small c v : hex_digit c v -> c < 128 /\ c <> cPlus /\ c <> cPct.
Proof. unfold cPlus, cPct. intros []; lia. Qed.
Lemma hex_space : hexval cSpace = None. Proof. reflexivity. Qed.
Lemma unplus_hex c : hexval (if c =? cPlus then cSpace else c) = hexval c.
Proof. destruct (c =? cPlus) eqn:E; [|reflexivity]. apply N.eqb_eq in E. now subst. Qed.
Lemma unplus_cons c s : unplus (c :: s) = (if c =? cPlus then cSpace else c) :: unplus s.
Proof. reflexivity. Qed.
(** one step of the loop on a character that is not part of a hexadecimal number *)
Lemma go_char c s buf : c < 128 -> c <> cPlus -> (c = cPct -> ~ two_hex s) -> unquote_go buf (unplus (c :: s)) = unquote_go (c :: buf) (unplus s).
Proof.
  intros L P H. rewrite unplus_cons. replace (c =? cPlus) with false by (symmetry; now apply N.eqb_neq).
  cbn [unquote_go]. replace (128 <=? c) with false by lia. destruct (c =? cPct) eqn:E; [|now destruct s].
  apply N.eqb_eq in E. specialize (H E). destruct s as [|h [|l r]]; [reflexivity|rewrite !unplus_cons; reflexivity|].
  rewrite !unplus_cons, !unplus_hex. destruct (hexval h) as [x|] eqn:Hh, (hexval l) as [y|] eqn:Hl; try reflexivity.
  exfalso. apply H. exists h, l, x, y, r. repeat split; now apply hex_iff.
Qed.
Lemma go_plus s buf : unquote_go buf (unplus (cPlus :: s)) = unquote_go (cSpace :: buf) (unplus s).
Proof. rewrite unplus_cons. cbn [N.eqb]. change (cPlus =? cPlus) with true. cbv iota. cbn [unquote_go]. change (128 <=? cSpace) with false. change (cSpace =? cPct) with false. cbv iota. now destruct s. Qed.
Lemma go_pct h l x y s buf : hex_digit h x -> hex_digit l y -> unquote_go buf (unplus (cPct :: h :: l :: s)) = unquote_go (16 * x + y :: buf) (unplus s).
Proof.
  intros Hh Hl. rewrite !unplus_cons. apply hex_iff in Hh, Hl.
  change (if cPct =? cPlus then cSpace else cPct) with cPct. cbn [unquote_go]. change (128 <=? cPct) with false. change (cPct =? cPct) with true. cbv iota.
  rewrite !unplus_hex, Hh, Hl. reflexivity.
Qed.
Lemma go_wide c s buf : 128 <= c -> unquote_go buf (unplus (c :: s)) = utf8_decode_replace (rev buf) ++ c :: unquote_go [] (unplus s).
Proof.
  intros L. rewrite unplus_cons. replace (c =? cPlus) with false by (unfold cPlus; lia). cbn [unquote_go]. replace (128 <=? c) with true by lia. now destruct s.
Qed.
(** what a run may be followed by *)
Definition open_end (rest : str) : Prop := match rest with [] => True | c :: _ => 128 <= c end.
Lemma two_hex_more s rest : open_end rest -> two_hex (s ++ rest) -> two_hex s.
Proof.
  intros O (h & l & x & y & r & E & Hh & Hl). apply hex_small in Hh as Lh, Hl as Ll.
  destruct s as [|a [|b s]]; cbn [app] in E.
  - subst. cbn in O. lia.
  - injection E as -> E. subst. cbn in O. lia.
  - injection E as -> -> _. now exists h, l, x, y, s.
Qed.
Lemma bytes_go s b : bytes_of s b -> forall rest buf, open_end rest -> unquote_go buf (unplus (s ++ rest)) = unquote_go (rev b ++ buf) (unplus rest).
Proof.
  induction 1 as [|h l x y s b Hh Hl B IH|s b B IH|c s b L P H B IH]; intros rest buf O; cbn [app rev].
  - reflexivity.
  - rewrite (go_pct h l x y) by auto. rewrite IH by auto. now rewrite <- app_assoc.
  - rewrite go_plus, IH by auto. now rewrite <- app_assoc.
  - rewrite go_char; auto.
    + rewrite IH by auto. now rewrite <- app_assoc.
    + intros E T. apply (H E). now apply (two_hex_more s rest).
Qed.
Lemma unquoted_go s t : unquoted s t -> unquote_plus s = t.
Proof.
  unfold unquote_plus, unquote. change (replace_char cPlus cSpace) with unplus.
  induction 1 as [s b t B D|run c s b t t' L B D U IH].
  - rewrite <- (app_nil_r s). rewrite (bytes_go s b B [] [] I). cbn [unplus replace_char map unquote_go]. rewrite app_nil_r, rev_involutive. now apply decoded_iff.
  - rewrite (bytes_go run b B (c :: s) [] L). rewrite go_wide, app_nil_r, rev_involutive by exact L. apply decoded_iff in D. now rewrite D, IH.
Qed.
Lemma hex_dec s : two_hex s \/ ~ two_hex s.
Proof.
  destruct s as [|h [|l r]]; [right; intros (? & ? & ? & ? & ? & E & _); discriminate..|].
  destruct (hexval h) as [x|] eqn:Hh; [destruct (hexval l) as [y|] eqn:Hl|].
  - left. exists h, l, x, y, r. repeat split; now apply hex_iff.
  - right. intros (h' & l' & x' & y' & r' & E & A & B). injection E as <- <- <-. apply hex_iff in B. congruence.
  - right. intros (h' & l' & x' & y' & r' & E & A & B). injection E as <- <- <-. apply hex_iff in A. congruence.
Qed.
Lemma bytes_total n : forall s, (length s <= n)%nat -> Forall (fun c => c < 128) s -> exists b, bytes_of s b.
Proof.
  induction n as [|n IH]; intros s L F; (destruct s as [|c s]; [exists []; constructor|]); cbn [length] in L; [lia|].
  inversion F as [|? ? Hc Fs]; subst.
  destruct (N.eq_dec c cPlus) as [->|P]; [destruct (IH s) as [b B]; [lia|exact Fs|]; exists (cSpace :: b); now apply bo_plus|].
  destruct (N.eq_dec c cPct) as [->|Q].
  - destruct (hex_dec s) as [(h & l & x & y & r & -> & Hh & Hl)|T].
    + cbn [length] in L. inversion Fs as [|? ? _ Fs']; subst. inversion Fs'; subst. destruct (IH r) as [b B]; [lia|assumption|].
      exists (16 * x + y :: b). now apply bo_pct.
    + destruct (IH s) as [b B]; [lia|exact Fs|]. exists (cPct :: b). apply bo_char; auto.
  - destruct (IH s) as [b B]; [lia|exact Fs|]. exists (c :: b). apply bo_char; auto.
Qed.
Lemma wide_split s : Forall (fun c => c < 128) s \/ exists run c r, s = run ++ c :: r /\ Forall (fun c => c < 128) run /\ 128 <= c.
Proof.
  induction s as [|a s IH]; [left; constructor|]. destruct (N.lt_ge_cases a 128) as [L|L].
  - destruct IH as [F|(run & c & r & -> & F & Hc)]; [left; now constructor|]. right. exists (a :: run), c, r. split; [reflexivity|]. split; [now constructor|exact Hc].
  - right. exists [], a, s. split; [reflexivity|]. split; [constructor|exact L].
Qed.
Lemma unquoted_total n : forall s, (length s <= n)%nat -> exists t, unquoted s t.
Proof.
  induction n as [|n IH]; intros s L.
  - destruct s; [|cbn in L; lia]. exists []. eapply uq_ascii; constructor.
  - destruct (wide_split s) as [F|(run & c & r & -> & F & Hc)].
    + destruct (bytes_total _ s (le_n _) F) as [b B]. destruct (decoded_total _ b (le_n _)) as [t D]. exists t. eapply uq_ascii; eauto.
    + destruct (bytes_total _ run (le_n _) F) as [b B]. destruct (decoded_total _ b (le_n _)) as [t D].
      rewrite app_length in L. cbn [length] in L. destruct (IH r) as [t' U]; [lia|]. exists (t ++ c :: t'). eapply uq_wide; eauto.
Qed.
Lemma unquoted_iff s t : unquoted s t <-> unquote_plus s = t.
Proof.
  split; [apply unquoted_go|]. intros <-. destruct (unquoted_total _ s (le_n _)) as [t U]. pose proof (unquoted_go s t U) as ->. exact U.
Qed.

(** ** Quoting *)
Lemma safe_iff c : always_safe c = true <-> unreserved c.
Proof. unfold always_safe, unreserved, between. lia. Qed.
Lemma capital_iff v c : v < 16 -> capital v c <-> hexdig v = c.
Proof.
  intros L. unfold hexdig. split.
  - intros [H ->|H ->]; destruct (v <? 10) eqn:E; lia.
  - destruct (v <? 10) eqn:E; intros <-; [apply ca_num|apply ca_letter]; lia.
Qed.
Lemma capital_small v c : capital v c -> v < 16.
Proof. intros []; lia. Qed.
Lemma byte_iff b t : b < 256 -> byte_text b t <-> quote_byte b = t.
Proof.
  intros L. unfold quote_byte. split.
  - intros [S|E|x y h l U Sp E Hx Hy].
    + apply safe_iff in S. now rewrite S.
    + subst. reflexivity.
    + destruct (always_safe b) eqn:A; [now apply safe_iff in A|]. destruct (b =? cSpace) eqn:Q; [now apply N.eqb_eq in Q|].
      pose proof (capital_small _ _ Hx). pose proof (capital_small _ _ Hy). apply capital_iff in Hx, Hy; auto.
      replace (b / 16) with x by lia. replace (b mod 16) with y by lia. now subst.
  - destruct (always_safe b) eqn:A; [intros <-; apply by_safe; now apply safe_iff|].
    destruct (b =? cSpace) eqn:Q; [intros <-; apply by_space; now apply N.eqb_eq|]. intros <-.
    apply by_hex with (b / 16) (b mod 16).
    + intros U. apply safe_iff in U. congruence.
    + now apply N.eqb_neq.
    + lia.
    + apply capital_iff; [lia|reflexivity].
    + apply capital_iff; [lia|reflexivity].
Qed.
Lemma bytes_text_iff bs : forall t, Forall (fun b => b < 256) bs -> bytes_text bs t <-> flat_map quote_byte bs = t.
Proof.
  induction bs as [|b bs IH]; intros t F; cbn [flat_map].
  - split; [now inversion 1|intros <-; constructor].
  - inversion F; subst. split.
    + inversion 1; subst. f_equal; [now apply byte_iff|now apply IH].
    + intros <-. constructor; [now apply byte_iff|now apply IH].
Qed.
Lemma quoted_iff s : forall t, quoted s t <-> quote_plus s = Ok t.
Proof.
  unfold quote_plus, utf8_encode. induction s as [|c s IH]; intros t.
  - cbn. split; [now inversion 1|intros H; injection H as <-; constructor].
  - cbn [forallb flat_map]. split.
    + inversion 1 as [|? e t0 ? t1 U B Q]; subst. apply utf8_enc in U as [Sc ->]. apply IH in Q. rewrite Sc. cbn [andb].
      destruct (forallb scalar s); [|discriminate]. cbn [rbind] in *. injection Q as <-. rewrite flat_map_app. do 2 f_equal.
      apply bytes_text_iff; [now apply enc1_bytes|assumption].
    + destruct (scalar c) eqn:Sc; [|discriminate]. cbn [andb]. destruct (forallb scalar s) eqn:Ss; [|discriminate]. cbn [rbind] in *. intros H.
      injection H as <-. rewrite flat_map_app. apply qd_char with (enc1 c); [now apply utf8_enc|apply bytes_text_iff; [now apply enc1_bytes|reflexivity]|now apply IH].
Qed.
Lemma pairs_iff q : forall l, Forall2 pair_text q l <-> urlencode_items q = Ok l.
Proof.
  induction q as [|[k v] q IH]; intros l; cbn [urlencode_items].
  - split; [now inversion 1|intros H; injection H as <-; constructor].
  - split.
    + inversion 1 as [|? ? ? ? (a & b & Ka & Kb & ->) F]; subst. cbn [fst snd] in *. apply quoted_iff in Ka, Kb. apply IH in F. now rewrite Ka, Kb, F.
    + destruct (quote_plus k) as [a|] eqn:Ka; [|discriminate]. destruct (quote_plus v) as [b|] eqn:Kb; [|discriminate]. cbn [rbind].
      destruct (urlencode_items q) as [l'|] eqn:El; [|discriminate]. cbn [rbind]. intros H. injection H as <-. constructor; [|now apply IH].
      exists a, b. cbn [fst snd]. repeat split; now apply quoted_iff.
Qed.
Lemma query_text_iff q t : query_text q t <-> urlencode q = Ok t.
Proof.
  unfold query_text, urlencode. split.
  - intros (l & F & ->). apply pairs_iff in F. now rewrite F.
  - destruct (urlencode_items q) as [l|] eqn:E; [|discriminate]. cbn [rbind]. intros H. injection H as <-. exists l. split; [now apply pairs_iff|reflexivity].
Qed.
