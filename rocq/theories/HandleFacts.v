(** Lemmas about calls on handles. *)
From Verif Require Import Str Exc Utf8 UriParse BaseUri Mem SpecUri SpecMem SpecHandle StrFacts Utf8Facts MemOps
  MemFacts MemFacts2 MemFacts3 MemFacts4 MemFacts5 MemFacts6 MemFacts7 MemFacts10 MemFacts11.
From Coq Require Import ZifyBool ZifyNat ZifyN.

(** ** The decoder is strict *)
Section D.
Local Open Scope N_scope.
Ltac Zify.zify_post_hook ::= Z.div_mod_to_equations.
Lemma dec_step_enc b0 r0 c rest : dec_step b0 r0 = Good c rest -> b0 :: r0 = enc1 c ++ rest /\ scalar c = true.
Proof.
  unfold dec_step. intros H.
  destruct (b0 <? 128) eqn:E0.
  { injection H as <- <-. unfold enc1, scalar. rewrite E0. split; auto. lia. }
  destruct (between 194 b0 223) eqn:E1.
  { destruct r0 as [|b1 r1]; [discriminate|]. destruct (cont b1) eqn:C1; [|discriminate]. injection H as <- <-.
    unfold between, cont in *. unfold enc1, scalar.
    replace (_ <? 128) with false by lia. replace (_ <? 2048) with true by lia.
    split; [|lia]. cbn [app]. f_equal; [lia|]. f_equal. lia. }
  destruct (between 224 b0 239) eqn:E2.
  { cbv zeta in H. destruct r0 as [|b1 r1]; [discriminate|].
    destruct (between _ b1 _) eqn:B1 in H; [|discriminate].
    destruct r1 as [|b2 r2]; [discriminate|]. destruct (cont b2) eqn:C2; [|discriminate]. injection H as <- <-.
    unfold between, cont in *.
    assert (B : 128 <= b1 <= 191 /\ (b0 = 224 -> 160 <= b1) /\ (b0 = 237 -> b1 <= 159)) by (destruct (b0 =? 224) eqn:?, (b0 =? 237) eqn:?; lia).
    clear B1. unfold enc1, scalar.
    replace (_ <? 128) with false by lia. replace (_ <? 2048) with false by lia. replace (_ <? 65536) with true by lia.
    split; [|lia]. cbn [app]. f_equal; [lia|]. f_equal; [lia|]. f_equal. lia. }
  destruct (between 240 b0 244) eqn:E3; [|discriminate].
  { cbv zeta in H. destruct r0 as [|b1 r1]; [discriminate|].
    destruct (between _ b1 _) eqn:B1 in H; [|discriminate].
    destruct r1 as [|b2 r2]; [discriminate|]. destruct (cont b2) eqn:C2; [|discriminate].
    destruct r2 as [|b3 r3]; [discriminate|]. destruct (cont b3) eqn:C3; [|discriminate]. injection H as <- <-.
    unfold between, cont in *.
    assert (B : 128 <= b1 <= 191 /\ (b0 = 240 -> 144 <= b1) /\ (b0 = 244 -> b1 <= 143)) by (destruct (b0 =? 240) eqn:?, (b0 =? 244) eqn:?; lia).
    clear B1. unfold enc1, scalar.
    replace (_ <? 128) with false by lia. replace (_ <? 2048) with false by lia. replace (_ <? 65536) with false by lia.
    split; [|lia]. cbn [app]. f_equal; [lia|]. f_equal; [lia|]. f_equal; [lia|]. f_equal. lia. }
Qed.
Lemma decode_fuel_strict fuel : forall b t, decode_fuel fuel b = Ok t -> forallb scalar t = true /\ flat_map enc1 t = b.
Proof.
  induction fuel as [|fuel IH]; intros b t H; destruct b as [|b0 r0]; cbn [decode_fuel] in H; try discriminate; try (injection H as <-; auto).
  destruct (dec_step b0 r0) as [c rest|] eqn:E; [|discriminate].
  destruct (decode_fuel fuel rest) as [t'|] eqn:E'; [|discriminate]. cbn in H. injection H as <-.
  apply IH in E' as [A B]. apply dec_step_enc in E as [C D]. cbn [forallb flat_map]. rewrite D, A, B, <- C. auto.
Qed.
Lemma utf8_strict b t : utf8_decode b = Ok t -> utf8_encode t = Ok b.
Proof. intros H. apply decode_fuel_strict in H as [A B]. unfold utf8_encode. now rewrite A, B. Qed.
Lemma decode_fuel_error fuel : forall b, (length b <= fuel)%nat -> (exists t, decode_fuel fuel b = Ok t) \/ decode_fuel fuel b = Raise UnicodeDecodeError.
Proof.
  induction fuel as [|fuel IH]; intros b H; destruct b as [|b0 r0]; cbn [decode_fuel length] in *; eauto; [lia|].
  destruct (dec_step b0 r0) as [c rest|] eqn:E; auto. apply dec_step_enc in E as [C D].
  assert (L : (length rest <= fuel)%nat).
  { apply (f_equal (@length N)) in C. rewrite app_length in C. cbn [length] in C. pose proof (enc1_length c). lia. }
  destruct (IH rest L) as [[t ->]| ->]; cbn; eauto.
Qed.
Lemma utf8_error b : (forall t, utf8_encode t <> Ok b) -> utf8_decode b = Raise UnicodeDecodeError.
Proof.
  intros H. destruct (decode_fuel_error (length b) b (le_n _)) as [[t E]|E]; auto.
  exfalso. apply (H t), utf8_strict. exact E.
Qed.
End D.

(** ** The pieces *)
Lemma nth_firstn {A} (l : list A) n i : nth_error (firstn n l) i = if Nat.ltb i n then nth_error l i else None.
Proof.
  revert n i; induction l as [|a l IH]; intros n i.
  - rewrite firstn_nil. destruct i; cbn [nth_error]; now destruct (Nat.ltb _ _).
  - destruct n as [|n], i as [|i]; cbn [firstn nth_error]; auto. rewrite IH. reflexivity.
Qed.
Lemma nth_skipn {A} (l : list A) n i : nth_error (skipn n l) i = nth_error l (n + i).
Proof. revert l; induction n as [|n IH]; intros [|a l]; cbn; auto. now destruct i. Qed.
Lemma nth_repeat {A} (a : A) n i : i < n -> nth_error (repeat a n) i = Some a.
Proof. revert i; induction n as [|n IH]; intros [|i] H; cbn; auto; try lia. apply IH. lia. Qed.

Lemma bio_read_part c p z : part c p (if (z <? 0)%Z then None else Some (Z.to_nat z)) (fst (bio_read c p z)) /\
  snd (bio_read c p z) = p + length (fst (bio_read c p z)).
Proof.
  unfold bio_read, part. cbn [fst snd]. split; auto. destruct (z <? 0)%Z.
  - split; [intros i _; apply nth_skipn|apply skipn_length].
  - rewrite firstn_length, skipn_length. split; auto. intros i H. rewrite nth_firstn, nth_skipn.
    replace (Nat.ltb i (Z.to_nat z)) with true; auto. symmetry. apply Nat.ltb_lt. lia.
Qed.
Lemma firstn_part c n : part c 0 (Some n) (firstn n c).
Proof.
  unfold part. rewrite firstn_length, Nat.sub_0_r. split; auto. intros i H. rewrite nth_firstn.
  replace (Nat.ltb i n) with true; auto. symmetry. apply Nat.ltb_lt. lia.
Qed.
Lemma bio_write_written c p d : written c p d (fst (bio_write c p d)) /\ snd (bio_write c p d) = p + length d.
Proof.
  unfold bio_write, written. destruct d as [|a d]; [cbn; auto|]. set (d' := a :: d). cbn [fst snd]. split; auto. right.
  assert (N : d' <> []) by discriminate. split; auto. clearbody d'. clear a d.
  set (m := c ++ repeat 0%N (p - length c)).
  assert (L : length m = Nat.max (length c) p) by (unfold m; rewrite app_length, repeat_length; lia).
  assert (F : length (firstn p m) = p) by (rewrite firstn_length; lia).
  assert (X : forall i, nth_error (firstn p m ++ d' ++ skipn (p + length d') m) i =
    if Nat.ltb i p then nth_error m i else if Nat.ltb i (p + length d') then nth_error d' (i - p) else nth_error m i).
  { intros i. destruct (Nat.ltb_spec i p) as [H|H].
    - rewrite nth_error_app1 by lia. rewrite nth_firstn. now apply Nat.ltb_lt in H as ->.
    - rewrite nth_error_app2 by lia. rewrite F. destruct (Nat.ltb_spec i (p + length d')) as [K|K].
      + now rewrite nth_error_app1 by lia.
      + rewrite nth_error_app2 by lia. rewrite nth_skipn. f_equal. lia. }
  split; [|split; [|split]].
  - rewrite !app_length, F, skipn_length. lia.
  - intros i H. rewrite X. replace (Nat.ltb (p + i) p) with false by (symmetry; apply Nat.ltb_ge; lia).
    replace (Nat.ltb (p + i) (p + length d')) with true by (symmetry; apply Nat.ltb_lt; lia). f_equal. lia.
  - intros i H [K|K]; rewrite X.
    + apply Nat.ltb_lt in K as ->. unfold m. now rewrite nth_error_app1.
    + replace (Nat.ltb i p) with false by (symmetry; apply Nat.ltb_ge; lia).
      apply Nat.ltb_ge in K as ->. unfold m. now rewrite nth_error_app1.
  - intros i H K. rewrite X. replace (Nat.ltb i p) with true by (symmetry; now apply Nat.ltb_lt).
    unfold m. rewrite nth_error_app2 by lia. apply nth_repeat. lia.
Qed.
Lemma bio_seek_target c p to w :
  match bio_seek c p to w with
  | Ok g => exists z, g = Z.to_nat z /\ target (length c) p to w (Some z)
  | Raise e => e = ValueError /\ target (length c) p to w None
  end.
Proof.
  unfold bio_seek, target. destruct (Z.eqb_spec w 0) as [->|N0]; [|destruct (Z.eqb_spec w 1) as [->|N1]; [|destruct (Z.eqb_spec w 2) as [->|N2]]].
  - destruct (Z.ltb_spec to 0); destruct (Z.leb_spec 0 to); try lia; eauto.
  - eauto.
  - eauto.
  - split; auto. destruct w as [|[x|[x|x|]|]|x]; auto; try congruence.
Qed.
Lemma line_of_spec b : exists left, b = line_of b ++ left /\
  ((exists l, line_of b = l ++ [10%N] /\ ~ In 10%N l) \/ left = [] /\ ~ In 10%N (line_of b)).
Proof.
  induction b as [|c b IH]; cbn [line_of].
  - exists []. cbn. auto.
  - destruct (N.eqb_spec c cNL) as [->|N].
    + exists b. split; auto. left. exists []. auto.
    + destruct IH as (left & E & K). exists left. split; [cbn; now f_equal|].
      assert (N' : c <> 10%N) by exact N.
      destruct K as [(l & L & NI)|[E' NI]].
      * left. exists (c :: l). rewrite L. split; auto. cbn. intuition.
      * right. split; auto. cbn. intuition.
Qed.
Lemma decode_shown hd out : shown (h_binary hd) out (match proxy_decode hd out with Ok v => RVal v | Raise e => RErr e end).
Proof.
  unfold proxy_decode. destruct (h_binary hd) eqn:B.
  - now apply sh_bytes.
  - destruct (utf8_decode out) as [t|e] eqn:E; cbn [rbind].
    + apply sh_text; auto. now apply utf8_strict.
    + assert (N : forall t, utf8_encode t <> Ok out) by (intros t K; apply utf8_roundtrip in K; congruence).
      assert (E' := utf8_error _ N). rewrite E in E'. injection E' as ->. now apply sh_bad.
Qed.

(** ** One call *)
Definition ofl (f : file) : ofile := mkO (f_data f) (f_pos f) (f_mtime f).
Definition same_meta (f f' : file) : Prop := f_path f' = f_path f /\ f_mode f' = f_mode f /\ f_lock f' = f_lock f.

Lemma do_hop_acts h o s f : m_heap s (h_node h) = NFile f ->
  exists v s' f', do_hop h o s = (v, s') /\ file_upd s s' (h_node h) f f' /\ same_meta f f' /\
    acts (h_readable h) (h_binary h) (m_now s) o (ofl f) v (ofl f').
Proof.
  intros E. assert (Same : file_upd s s (h_node h) f f) by now apply file_upd_refl.
  assert (Sm : same_meta f f) by (repeat split).
  destruct o as [z| |x|to w| |z|]; cbn [do_hop]; unfold answer.
  - unfold h_read. destruct (h_readable h) eqn:R; cbn [negb].
    + destruct (run_read s _ f E z) as (s' & Rn & U). unfold bind, lift. rewrite Rn. cbn [fst snd].
      destruct (bio_read_part (f_data f) (f_pos f) z) as [P Q].
      do 3 eexists. split; [reflexivity|]. split; [exact U|]. split; [repeat split|]. unfold ofl; cbn [fset f_data f_pos f_mtime]. rewrite Q.
      apply ac_read; auto. apply decode_shown.
    + cbn. do 3 eexists. split; [reflexivity|]. split; [exact Same|]. split; [exact Sm|]. now apply ac_unreadable.
  - destruct (run_readline s _ f E) as (s' & Rn & U). unfold h_readline, bind, lift. rewrite Rn. cbn [fst snd].
    destruct (line_of_spec (skipn (f_pos f) (f_data f))) as (left & K1 & K2).
    do 3 eexists. split; [reflexivity|]. split; [exact U|]. split; [repeat split|].
    eapply ac_readline; eauto. apply decode_shown.
  - unfold h_write, bind, lift. destruct (proxy_encode h x) as [y|e] eqn:P.
    + destruct y as [t|d].
      * cbn. do 3 eexists. split; [reflexivity|]. split; [exact Same|]. split; [exact Sm|]. apply ac_unstorable.
        unfold proxy_encode in P. destruct x as [t'|]; [|discriminate]. destruct (h_binary h) eqn:B.
        -- now apply us_binary.
        -- destruct (utf8_encode t'); discriminate.
      * destruct (run_write s _ f E d) as (s' & Rn & U). rewrite Rn. cbn [fst snd].
        destruct (bio_write_written (f_data f) (f_pos f) d) as [W Q].
        do 3 eexists. split; [reflexivity|]. split; [exact U|]. split; [repeat split|]. unfold ofl; cbn [fset f_data f_pos f_mtime]. rewrite Q.
        eapply ac_write; eauto. unfold proxy_encode in P. destruct x as [t'|].
        -- destruct (h_binary h) eqn:B; [discriminate|]. destruct (utf8_encode t') eqn:T; [|discriminate]. cbn in P. injection P as ->.
           now apply st_text.
        -- injection P as ->. constructor.
    + cbn. do 3 eexists. split; [reflexivity|]. split; [exact Same|]. split; [exact Sm|]. apply ac_unstorable.
      unfold proxy_encode in P. destruct x as [t'|]; [|discriminate]. destruct (h_binary h) eqn:B; [discriminate|].
      destruct (utf8_encode t') eqn:T; [discriminate|]. cbn in P. injection P as <-.
      unfold utf8_encode in T. destruct (forallb scalar t') eqn:F; [discriminate|]. injection T as <-.
      apply us_surrogate; auto. intros d. unfold utf8_encode. rewrite F. discriminate.
  - assert (K := run_seek s _ f E to w). assert (T := bio_seek_target (f_data f) (f_pos f) to w). unfold h_seek.
    destruct (bio_seek (f_data f) (f_pos f) to w) as [g|e].
    + destruct K as (s' & Rn & U), T as (z & -> & T). rewrite Rn. cbn [fst snd].
      do 3 eexists. split; [reflexivity|]. split; [exact U|]. split; [repeat split|]. now apply ac_seek.
    + destruct T as [-> T]. rewrite K. cbn [fst snd].
      do 3 eexists. split; [reflexivity|]. split; [exact Same|]. split; [exact Sm|]. now apply ac_badseek.
  - unfold h_tell, file_tell, bind. rewrite (run_get s _ f E). cbn.
    do 3 eexists. split; [reflexivity|]. split; [exact Same|]. split; [exact Sm|]. apply ac_tell.
  - assert (K := run_truncate s _ f E z). cbv zeta in K. unfold h_truncate.
    destruct (Z.ltb_spec match z with Some z => z | None => Z.of_nat (f_pos f) end 0) as [L|L].
    + rewrite K. cbn [fst snd]. destruct z as [z|]; [|lia].
      do 3 eexists. split; [reflexivity|]. split; [exact Same|]. split; [exact Sm|]. now apply ac_badtruncate.
    + destruct K as (s' & Rn & U). rewrite Rn. cbn [fst snd].
      do 3 eexists. split; [reflexivity|]. split; [exact U|]. split; [repeat split|]. apply ac_truncate; [now apply Z2Nat.id|apply firstn_part].
  - destruct (run_close s _ f E) as (s' & Rn & U). unfold h_close. rewrite Rn. cbn [fst snd].
    do 3 eexists. split; [reflexivity|]. split; [exact U|]. split; [repeat split|]. apply ac_close.
Qed.
Lemma same_meta_trans f g k : same_meta f g -> same_meta g k -> same_meta f k.
Proof. unfold same_meta. intuition congruence. Qed.
Lemma do_hops_acts h os : forall s f, m_heap s (h_node h) = NFile f ->
  exists vs s' f', do_hops h os s = (vs, s') /\ file_upd s s' (h_node h) f f' /\ same_meta f f' /\
    acts_all (h_readable h) (h_binary h) (m_now s) os (ofl f) vs (ofl f').
Proof.
  induction os as [|o os IH]; intros s f E.
  - exists [], s, f. split; auto. split; [now apply file_upd_refl|]. split; [repeat split|constructor].
  - cbn [do_hops]. destruct (do_hop_acts h o s f E) as (v & s1 & f1 & D & U & M1 & A). rewrite D.
    destruct (IH s1 f1 (fu_new _ _ _ _ _ U)) as (vs & s2 & f2 & D2 & U2 & M2 & A2). rewrite D2.
    exists (v :: vs), s2, f2. split; auto. split; [eapply file_upd_trans; eauto|]. split; [eapply same_meta_trans; eauto|].
    econstructor; eauto. replace (m_now s) with (m_now s1); auto.
    assert (K := fu_rest _ _ _ _ _ U). unfold same_rest in K. intuition congruence.
Qed.

(** The answers are determined by the specification. *)
Lemma nth_ext_eq {A} (l l' : list A) : (forall i, nth_error l i = nth_error l' i) -> l = l'.
Proof.
  revert l'; induction l as [|a l IH]; intros [|b l'] H; auto.
  - specialize (H 0). discriminate.
  - specialize (H 0). discriminate.
  - f_equal; [specialize (H 0); cbn in H; congruence|]. apply IH. intros i. apply (H (S i)).
Qed.
Lemma len_ext_eq {A} (l l' : list A) : length l = length l' -> (forall i, i < length l -> nth_error l i = nth_error l' i) -> l = l'.
Proof.
  intros L H. apply nth_ext_eq. intros i. destruct (Nat.lt_ge_cases i (length l)) as [K|K]; auto.
  rewrite (proj2 (nth_error_None _ _) K). symmetry. apply nth_error_None. lia.
Qed.
Lemma part_det c p n o o' : part c p n o -> part c p n o' -> o = o'.
Proof. intros [A B] [A' B']. apply len_ext_eq; [congruence|]. intros i H. rewrite A, A'; auto. congruence. Qed.
Lemma written_det c p d o o' : written c p d o -> written c p d o' -> o = o'.
Proof.
  intros [[E ->]|(N & L & A & B & C)] [[E' ->]|(N' & L' & A' & B' & C')]; auto; try contradiction.
  apply len_ext_eq; [congruence|]. intros i H.
  destruct (Nat.lt_ge_cases i p) as [K|K].
  - destruct (Nat.lt_ge_cases i (length c)); [rewrite B, B'|rewrite C, C']; auto.
  - destruct (Nat.lt_ge_cases i (p + length d)) as [J|J].
    + replace i with (p + (i - p)) by lia. rewrite A, A'; auto; lia.
    + rewrite B, B'; auto; lia.
Qed.
Lemma shown_det b o v v' : shown b o v -> shown b o v' -> v = v'.
Proof.
  intros H H'; inversion H; inversion H'; subst; auto; try congruence.
  f_equal. f_equal. apply utf8_roundtrip in H1, H4. congruence.
Qed.
Lemma stored_det b x d d' : stored b x d -> stored b x d' -> d = d'.
Proof. intros H H'; inversion H; subst; inversion H'; subst; congruence. Qed.
Lemma stored_unstorable b x d e : stored b x d -> unstorable b x e -> False.
Proof. intros H H'; inversion H; subst; inversion H'; subst; congruence. Qed.
Lemma line_det (l o r o' r' : list N) : l = o ++ r -> l = o' ++ r' ->
  ((exists b, o = b ++ [10%N] /\ ~ In 10%N b) \/ r = [] /\ ~ In 10%N o) ->
  ((exists b, o' = b ++ [10%N] /\ ~ In 10%N b) \/ r' = [] /\ ~ In 10%N o') -> o = o'.
Proof.
  intros E E' H H'. assert (X : o ++ r = o' ++ r') by congruence. clear E E' l.
  revert o' X H H'; induction o as [|a o IH]; intros o' X H H'.
  - destruct H as [(b & B & _)|[-> _]]; [now destruct b|]. cbn in X. now destruct o'.
  - destruct o' as [|a' o'].
    + destruct H' as [(b & B & _)|[-> _]]; [now destruct b|]. discriminate.
    + injection X as <- X. f_equal. destruct (N.eq_dec a 10) as [->|N].
      * assert (o = []). { destruct H as [(b & B & NI)|[-> NI]]; [|cbn in NI; tauto]. destruct b as [|x b]; [now injection B|]. injection B as <- B. cbn in NI. tauto. }
        assert (o' = []). { destruct H' as [(b & B & NI)|[-> NI]]; [|cbn in NI; tauto]. destruct b as [|x b]; [now injection B|]. injection B as <- B. cbn in NI. tauto. }
        congruence.
      * apply IH; auto.
        -- destruct H as [(b & B & NI)|[-> NI]]; [|right; cbn in NI; tauto]. left. destruct b as [|x b]; [injection B as -> _; tauto|].
           injection B as <- ->. exists b. cbn in NI. tauto.
        -- destruct H' as [(b & B & NI)|[-> NI]]; [|right; cbn in NI; tauto]. left. destruct b as [|x b]; [injection B as -> _; tauto|].
           injection B as <- ->. exists b. cbn in NI. tauto.
Qed.
Lemma acts_det r b now c o v o1 v' o2 : acts r b now c o v o1 -> acts r b now c o v' o2 -> v = v' /\ o1 = o2.
Proof.
  intros H H'; inversion H; subst; inversion H'; subst; auto; try congruence.
  - assert (out = out0) by (eapply part_det; eauto). subst. split; auto. eapply shown_det; eauto.
  - assert (out = out0) by (eapply line_det; eauto). subst. split; auto. eapply shown_det; eauto.
  - assert (d = d0) by (eapply stored_det; eauto). subst. assert (c' = c'0) by (eapply written_det; eauto). subst. auto.
  - exfalso. eapply stored_unstorable; eauto.
  - exfalso. eapply stored_unstorable; eauto.
  - split; auto. f_equal. match goal with A : unstorable _ _ _, B : unstorable _ _ _ |- _ => inversion A; subst; inversion B; subst; congruence end.
  - match goal with A : target _ _ _ _ _, B : target _ _ _ _ _ |- _ => unfold target in A, B; rewrite <- B in A; injection A as ->; auto end.
  - assert (n = n0) by lia. subst. assert (c' = c'0) by (eapply part_det; eauto). subst. auto.
  - lia.
  - lia.
Qed.
Lemma acts_all_det r b now cs : forall o vs o1 vs' o2, acts_all r b now cs o vs o1 -> acts_all r b now cs o vs' o2 -> vs = vs' /\ o1 = o2.
Proof.
  induction cs as [|c cs IH]; intros o vs o1 vs' o2 H H'; inversion H; subst; inversion H'; subst; auto.
  match goal with A : acts _ _ _ _ _ _ _, B : acts _ _ _ _ _ _ _ |- _ => destruct (acts_det _ _ _ _ _ _ _ _ _ A B) as [-> ->] end.
  match goal with A : acts_all _ _ _ _ _ _ _, B : acts_all _ _ _ _ _ _ _ |- _ => destruct (IH _ _ _ _ _ A B) as [-> ->] end. auto.
Qed.

(** ** Opening *)

(** Opening leaves every other file object as it is. *)
Definition others_kept (s s1 : mst) (i : nat) : Prop := forall j f, j <> i -> m_heap s j = NFile f -> m_heap s1 j = NFile f.

Lemma seek_others i a w s r s1 : file_seek i a w s = (r, s1) -> forall j, j <> i -> m_heap s1 j = m_heap s j.
Proof.
  unfold file_seek, get_file, bind, get_node_obj, lift, set_file, upd. intros H j N.
  destruct (m_heap s i) as [f| |]; cbn in H; try (injection H as <- <-; reflexivity).
  destruct (bio_seek (f_data f) (f_pos f) a w); injection H as <- <-; auto. cbn. unfold heap_set. now apply Nat.eqb_neq in N as ->.
Qed.
Lemma lookup_node_state u b s r s1 : lookup_node u b s = (r, s1) -> s1 = s.
Proof.
  unfold lookup_node, lookup, bind, lift. destruct (get_node_for_path _ _ _ _) as [[i|]|e]; cbn; intros H; now injection H.
Qed.
Lemma open_others s u m hd s1 : wf s -> mem_open u m s = (Ok hd, s1) -> others_kept s s1 (h_node hd).
Proof.
  intros W H j f N E.
  assert (R : forall b, open_for_read u b s = (Ok hd, s1) -> m_heap s1 j = NFile f).
  { intros b K. unfold open_for_read, bind in K. destruct (lookup_node u true s) as [[i|] s0] eqn:L; [|discriminate].
    apply lookup_node_state in L. subst. destruct (file_seek i 0 0 s) as [[[]|] s2] eqn:F; [|discriminate].
    cbn in K. injection K as <- <-. cbn in N. now rewrite (seek_others _ _ _ _ _ _ F). }
  assert (A : forall b, open_for_append u b s = (Ok hd, s1) -> m_heap s1 j = NFile f).
  { intros b K. unfold open_for_append, bind in K. destruct (lookup_node u true s) as [[i|] s0] eqn:L; [|discriminate].
    apply lookup_node_state in L. subst. destruct (get_file i s) as [[g|] s2] eqn:G; [|discriminate].
    assert (s2 = s) by (unfold get_file, bind, get_node_obj in G; destruct (m_heap s i); now inversion G). subst.
    destruct (file_seek i _ 0 s) as [[[]|] s2] eqn:F; [|discriminate].
    cbn in K. injection K as <- <-. cbn in N. now rewrite (seek_others _ _ _ _ _ _ F). }
  assert (Wr : forall b, open_for_write u b s = (Ok hd, s1) -> m_heap s1 j = NFile f).
  { intros b K. unfold open_for_write, bind, lift, parent_node, bind, lift in K.
    destruct (mem_path u) as [p|]; [|discriminate].
    destruct (get_node (m_heap s) true (removelast (steps_of p)) true) as [o|]; [|discriminate].
    destruct (need o) as [nd|]; [|discriminate]. unfold node_has, bind, get_node_obj in K.
    destruct (m_heap s nd) as [|es mt mo|] eqn:D; try discriminate. cbn [ret] in K.
    destruct (dhas _ es).
    - destruct (child _ _ _ _ _ _) as [o'|]; [|discriminate].
      destruct (match o' with Some c => is_dir (m_heap s c) | None => false end); [discriminate|].
      destruct (need o') as [c|]; [|discriminate]. unfold file_reset, bind, get_file, bind, get_node_obj in K.
      destruct (m_heap s c) as [g| |] eqn:Ec; try discriminate. cbn in K. injection K as <- <-. cbn in N |- *.
      unfold heap_set. now apply Nat.eqb_neq in N as ->.
    - cbn [get] in K. unfold alloc, create_child, bind, get_node_obj in K. cbn [m_heap] in K.
      assert (B : j < m_next s) by (eapply file_alloc; eauto).
      unfold heap_set in K at 1. destruct (Nat.eqb nd (m_next s)) eqn:Q; [discriminate|]. rewrite D in K. cbn in K.
      injection K as <- <-. cbn in N |- *. unfold heap_set.
      destruct (Nat.eqb_spec j nd) as [->|]; [congruence|]. apply Nat.eqb_neq in N as ->. exact E. }
  unfold mem_open in H. destruct (match m with Some o => has_char 114 o | None => true end); [eauto|].
  destruct m as [o|]; [|discriminate]. destruct (has_char 119 o); [eauto|]. destruct (has_char 97 o); [eauto|discriminate].
Qed.

Lemma open_inv s u m hd s1 : wf s -> ~ addr u [] -> mem_open u m s = (Ok hd, s1) ->
  exists q f, opened s s1 u hd q f /\ starts m (m_now s) (view s q) (ofl f) (f_mode f) /\
    h_readable hd = match m with None => true | Some o => has_char 114 o end /\
    h_binary hd = match m with None => false | Some o => has_char 98 o end /\
    put_at (view s) (view s1) q (EFile (f_data f) (f_mtime f) (f_mode f)).
Proof.
  intros W NR H.
  assert (RA : forall b, (exists q d mt mo, denotes (view s) u (Found q) /\ view s q = Some (EFile d mt mo)) \/
     (forall x s', open_for_read u b s = (Ok x, s') -> False) /\ (forall x s', open_for_append u b s = (Ok x, s') -> False)).
  { intros b. destruct (addr_or u) as [[cs A]|A].
    2: { right. apply addr_none in A. unfold open_for_read, open_for_append, bind, lookup_node, lookup, bind, get_node_for_path. rewrite A. split; discriminate. }
    destruct (leads_total (m_heap s) cs) as [o O]. destruct (outcome_cases o) as [[q ->]|F].
    - destruct (leads_real _ _ W _ _ O) as [(d & mt & mo & K)|K].
      + left. exists q, d, mt, mo. split; auto. now exists cs.
      + right. split.
        * rewrite (open_read_dir s W u b q); auto; [discriminate|now exists cs].
        * intros x s'. destruct (run_lookup_found s W u cs q A O) as (i & P & L & B & _).
          destruct (tree_dir _ _ _ P K) as (es & mt & mo & E).
          unfold open_for_append, bind. rewrite L. unfold get_file, bind, get_node_obj. rewrite E. discriminate.
    - right. destruct (open_read_fail s W u b cs o A O F) as [-> ->]. split; discriminate. }
  unfold mem_open in H. destruct (match m with Some o => has_char 114 o | None => true end) eqn:M.
  - destruct (RA (match m with Some o => has_char 98 o | None => false end)) as [(q & d & mt & mo & D & E)|[F _]]; [|now apply F in H].
    destruct (open_read s W u (match m with Some o => has_char 98 o | None => false end) q d mt mo D E) as (s' & hd' & f & R & Eh & Op & F1 & F2 & F3 & F4 & T).
    rewrite R in H. injection H as <- <-. exists q, f. split; auto. split; [|split; [now rewrite Eh|split; [now rewrite Eh|]]].
    + unfold ofl. rewrite E, F1, F2, F3, F4. constructor. now destruct m.
    + rewrite F1, F3, F4. split; [now rewrite T|auto].
  - destruct m as [o|]; [|discriminate]. destruct (has_char 119 o) eqn:M2; [|destruct (has_char 97 o) eqn:M3; [|discriminate]].
    + destruct (open_write_inv s u _ hd s1 W NR H) as (q & Wr).
      destruct (open_writable s u (has_char 98 o) q W Wr) as (s' & hd' & f & R & Eh & Op & F1 & F2 & F3 & F4 & T).
      rewrite R in H. injection H as <- <-. exists q, f. split; auto. split; [|split; [now rewrite Eh|split; [now rewrite Eh|]]].
      * unfold ofl. rewrite F1, F2, F3, F4. eapply so_write; eauto.
        destruct Wr as [p Pl|q D K]; auto. left. now inversion Pl.
      * now rewrite F1, F3, F4.
    + destruct (RA (has_char 98 o)) as [(q & d & mt & mo & D & E)|[_ F]]; [|now apply F in H].
      destruct (open_append s W u (has_char 98 o) q d mt mo D E) as (s' & hd' & f & R & Eh & Op & F1 & F2 & F3 & F4 & T).
      rewrite R in H. injection H as <- <-. exists q, f. split; auto. split; [|split; [now rewrite Eh|split; [now rewrite Eh|]]].
      * unfold ofl. rewrite E, F1, F2, F3, F4. eapply so_append; eauto. intros Nd. now apply file_len_pos.
      * rewrite F1, F3, F4. split; [now rewrite T|auto].
Qed.

(** Opening leaves everything in its place, and the file object is new or was there. *)
Lemma phys_mono h h' : (forall i es mt mo, h i = NDir es mt mo -> exists es' mt' mo', h' i = NDir es' mt' mo' /\
    forall n j, dget n es = Some j -> dget n es' = Some j) ->
  forall p i j, phys h i p = Some j -> phys h' i p = Some j.
Proof.
  intros H. induction p as [|n p IH]; intros i j; cbn; auto.
  destruct (h i) as [|es mt mo|] eqn:E; try discriminate. destruct (H _ _ _ _ E) as (es' & mt' & mo' & -> & M).
  destruct (dget n es) as [k|] eqn:G; [|discriminate]. rewrite (M _ _ G). apply IH.
Qed.
Lemma phys_mono_lt h h' next : wfh h next -> (forall i es mt mo, i < next -> h i = NDir es mt mo -> exists es' mt' mo', h' i = NDir es' mt' mo' /\
    forall n j, dget n es = Some j -> dget n es' = Some j) ->
  forall p i j, i < next -> phys h i p = Some j -> phys h' i p = Some j.
Proof.
  intros W H. induction p as [|n p IH]; intros i j B; cbn; auto.
  destruct (h i) as [|es mt mo|] eqn:E; try discriminate. destruct (H _ _ _ _ B E) as (es' & mt' & mo' & -> & M).
  destruct (dget n es) as [k|] eqn:G; [|discriminate]. rewrite (M _ _ G). apply IH.
  apply dget_In in G. apply (wf_child _ _ W _ _ _ _ _ _ B E) in G. lia.
Qed.
Lemma seek_phys i a w s r s1 : file_seek i a w s = (r, s1) -> forall q, phys (m_heap s1) root_id q = phys (m_heap s) root_id q.
Proof.
  unfold file_seek, get_file, bind, get_node_obj, lift, set_file, upd. intros H q.
  destruct (m_heap s i) as [f| |] eqn:E; cbn in H; try (injection H as <- <-; reflexivity).
  destruct (bio_seek (f_data f) (f_pos f) a w); injection H as <- <-; auto. cbn. apply phys_set. now rewrite E.
Qed.
Lemma open_phys s u m hd s1 : wf s -> mem_open u m s = (Ok hd, s1) ->
  (forall q j, phys (m_heap s) root_id q = Some j -> phys (m_heap s1) root_id q = Some j) /\
  (m_next s <= h_node hd \/ forall q, phys (m_heap s1) root_id q = phys (m_heap s) root_id q).
Proof.
  intros W H. set (P := (forall q j, phys (m_heap s) root_id q = Some j -> phys (m_heap s1) root_id q = Some j) /\
    (m_next s <= h_node hd \/ forall q, phys (m_heap s1) root_id q = phys (m_heap s) root_id q)).
  assert (Eq : (forall q, phys (m_heap s1) root_id q = phys (m_heap s) root_id q) -> P).
  { intros E. split; auto. intros q j K. now rewrite E. }
  assert (R : forall b, open_for_read u b s = (Ok hd, s1) -> P).
  { intros b K. unfold open_for_read, bind in K. destruct (lookup_node u true s) as [[i|] s0] eqn:L; [|discriminate].
    apply lookup_node_state in L. subst. destruct (file_seek i 0 0 s) as [[[]|] s2] eqn:F; [|discriminate].
    cbn in K. injection K as <- <-. apply Eq. eapply seek_phys; eauto. }
  assert (A : forall b, open_for_append u b s = (Ok hd, s1) -> P).
  { intros b K. unfold open_for_append, bind in K. destruct (lookup_node u true s) as [[i|] s0] eqn:L; [|discriminate].
    apply lookup_node_state in L. subst. destruct (get_file i s) as [[g|] s2] eqn:G; [|discriminate].
    assert (s2 = s) by (unfold get_file, bind, get_node_obj in G; destruct (m_heap s i); now inversion G). subst.
    destruct (file_seek i _ 0 s) as [[[]|] s2] eqn:F; [|discriminate].
    cbn in K. injection K as <- <-. apply Eq. eapply seek_phys; eauto. }
  assert (Wr : forall b, open_for_write u b s = (Ok hd, s1) -> P).
  { intros b K. unfold open_for_write, bind, lift, parent_node, bind, lift in K.
    destruct (mem_path u) as [p|]; [|discriminate].
    destruct (get_node (m_heap s) true (removelast (steps_of p)) true) as [o|]; [|discriminate].
    destruct (need o) as [nd|]; [|discriminate]. unfold node_has, bind, get_node_obj in K.
    destruct (m_heap s nd) as [|es mt mo|] eqn:D; try discriminate. cbn [ret] in K.
    destruct (dhas _ es) eqn:Hs.
    - destruct (child _ _ _ _ _ _) as [o'|]; [|discriminate].
      destruct (match o' with Some c => is_dir (m_heap s c) | None => false end); [discriminate|].
      destruct (need o') as [c|]; [|discriminate]. unfold file_reset, bind, get_file, bind, get_node_obj in K.
      destruct (m_heap s c) as [g| |] eqn:Ec; try discriminate. cbn in K. injection K as <- <-. cbn.
      apply Eq. cbn. intros q. apply phys_set. now rewrite Ec.
    - cbn [get] in K. unfold alloc, create_child, bind, get_node_obj in K. cbn [m_heap] in K.
      unfold heap_set in K at 1. destruct (Nat.eqb nd (m_next s)) eqn:Q; [discriminate|]. rewrite D in K. cbn in K.
      injection K as <- <-. split; [|left; cbn; lia]. intros q j. apply (phys_mono_lt _ _ _ W); [|apply W]. intros i es' mt' mo' B Ei. cbn.
      unfold heap_set. destruct (Nat.eqb_spec i nd) as [->|].
      + rewrite Ei in D. injection D as -> -> ->. do 3 eexists. split; [reflexivity|]. intros n k G. rewrite dget_dset.
        destruct (str_eqb _ _) eqn:S; auto. apply str_eqb_eq in S. subst. unfold dhas in Hs. rewrite G in Hs. discriminate.
      + destruct (Nat.eqb_spec i (m_next s)); [lia|]. rewrite Ei. eauto 6. }
  unfold mem_open in H. destruct (match m with Some o => has_char 114 o | None => true end); [eauto|].
  destruct m as [o|]; [|discriminate]. destruct (has_char 119 o); [eauto|]. destruct (has_char 97 o); [eauto|discriminate].
Qed.

(** ** Calls on two handles in turn *)
Lemma rest_now s s' : same_rest s s' -> m_now s' = m_now s. Proof. now intros (A & _). Qed.
Lemma both_acts h1 h2 os : h_node h1 <> h_node h2 -> forall s f1 f2 q1 q2, wf s ->
  m_heap s (h_node h1) = NFile f1 -> m_heap s (h_node h2) = NFile f2 ->
  phys (m_heap s) root_id q1 = Some (h_node h1) -> phys (m_heap s) root_id q2 = Some (h_node h2) ->
  exists vs s' f1' f2', do_both h1 h2 os s = (vs, s') /\
    m_heap s' (h_node h1) = NFile f1' /\ m_heap s' (h_node h2) = NFile f2' /\ same_meta f1 f1' /\ same_meta f2 f2' /\
    acts_all (h_readable h1) (h_binary h1) (m_now s) (only true os) (ofl f1) (only true vs) (ofl f1') /\
    acts_all (h_readable h2) (h_binary h2) (m_now s) (only false os) (ofl f2) (only false vs) (ofl f2') /\
    view s' q1 = Some (EFile (f_data f1') (f_mtime f1') (f_mode f1')) /\
    view s' q2 = Some (EFile (f_data f2') (f_mtime f2') (f_mode f2')) /\
    (forall q, q <> q1 -> q <> q2 -> view s' q = view s q).
Proof.
  intros N. induction os as [|[b o] os IH]; intros s f1 f2 q1 q2 W E1 E2 P1 P2.
  - exists [], s, f1, f2. split; auto. do 2 (split; auto). do 2 (split; [repeat split|]). do 2 (split; [constructor|]).
    unfold view, tree_of. rewrite P1, P2. cbn. rewrite E1, E2. auto.
  - cbn [do_both]. destruct b.
    + destruct (do_hop_acts h1 o s f1 E1) as (v & s1 & f1' & D & U & M1 & A). rewrite D.
      destruct (IH s1 f1' f2 q1 q2) as (vs & s' & g1 & g2 & X1 & X2 & X3 & X4 & X5 & X6 & X7 & X8 & X9 & X10).
      * eapply file_upd_wf; eauto.
      * apply U.
      * rewrite (fu_else _ _ _ _ _ U) by auto. exact E2.
      * now rewrite (file_upd_phys _ _ _ _ _ _ U).
      * now rewrite (file_upd_phys _ _ _ _ _ _ U).
      * rewrite X1. rewrite (rest_now _ _ (fu_rest _ _ _ _ _ U)) in X6, X7.
        exists ((true, v) :: vs), s', g1, g2. repeat (split; [first [assumption|reflexivity|eapply same_meta_trans; eassumption|econstructor; eassumption]|]).
        intros q Q1 Q2. rewrite X10 by auto. now apply (file_upd_put _ _ _ _ _ _ W U P1).
    + destruct (do_hop_acts h2 o s f2 E2) as (v & s1 & f2' & D & U & M1 & A). rewrite D.
      destruct (IH s1 f1 f2' q1 q2) as (vs & s' & g1 & g2 & X1 & X2 & X3 & X4 & X5 & X6 & X7 & X8 & X9 & X10).
      * eapply file_upd_wf; eauto.
      * rewrite (fu_else _ _ _ _ _ U) by auto. exact E1.
      * apply U.
      * now rewrite (file_upd_phys _ _ _ _ _ _ U).
      * now rewrite (file_upd_phys _ _ _ _ _ _ U).
      * rewrite X1. rewrite (rest_now _ _ (fu_rest _ _ _ _ _ U)) in X6, X7.
        exists ((false, v) :: vs), s', g1, g2. repeat (split; [first [assumption|reflexivity|eapply same_meta_trans; eassumption|econstructor; eassumption]|]).
        intros q Q1 Q2. rewrite X10 by auto. now apply (file_upd_put _ _ _ _ _ _ W U P2).
Qed.

(** ** Removing an open file *)
Lemma ddel_less k k' (d : dict nat) v : NoDup (map fst d) -> dget k' (ddel k d) = Some v -> dget k' d = Some v.
Proof.
  intros N H. apply dget_In in H. apply ddel_incl in H. now apply dget_In_NoDup.
Qed.
Lemma del_entry parent name s r s1 : wf s -> del_child parent name s = (r, s1) ->
  (forall i f, m_heap s i = NFile f -> m_heap s1 i = NFile f) /\
  (forall p j, phys (m_heap s1) root_id p = Some j -> phys (m_heap s) root_id p = Some j) /\ same_rest s s1.
Proof.
  unfold del_child, bind, get_node_obj. intros W H.
  destruct (m_heap s parent) as [|es mt mo|] eqn:E; [injection H as <- <-; split; [|split]; auto; apply same_rest_refl| |injection H as <- <-; split; [|split]; auto; apply same_rest_refl].
  destruct (dhas name es); injection H as <- <-; [|split; [|split]; auto; apply same_rest_refl].
  split; [|split].
  - intros i f Ei. cbn. unfold heap_set. destruct (Nat.eqb_spec i parent) as [->|]; [congruence|auto].
  - intros p j. cbn. assert (B : root_id < m_next s) by apply W. revert B. generalize root_id. induction p as [|n p IH]; intros i B; cbn; auto.
    unfold heap_set at 1. destruct (Nat.eqb_spec i parent) as [->|N].
    + rewrite E. destruct (dget n (ddel name es)) as [k|] eqn:G; [|discriminate].
      apply ddel_less in G; [|apply (wf_names _ _ W _ _ _ _ B E)]. rewrite G. apply IH.
      apply dget_In in G. apply (wf_child _ _ W _ _ _ _ _ _ B E) in G. lia.
    + destruct (m_heap s i) as [|es' mt' mo'|] eqn:E'; try discriminate. destruct (dget n es') as [k|] eqn:G; [|discriminate].
      apply IH. apply dget_In in G. apply (wf_child _ _ W _ _ _ _ _ _ B E') in G. lia.
  - repeat split.
Qed.
Lemma removefile_entry u s r s1 : wf s -> mem_removefile u s = (r, s1) ->
  (forall i f, m_heap s i = NFile f -> m_heap s1 i = NFile f) /\
  (forall p j, phys (m_heap s1) root_id p = Some j -> phys (m_heap s) root_id p = Some j) /\ same_rest s s1.
Proof.
  unfold mem_removefile, bind, lift. intros W H.
  destruct (mem_path u) as [p|]; [|injection H as <- <-; split; [|split]; auto; apply same_rest_refl].
  destruct (get_node_prev _ _ _ _) as [[prev c]|]; [|injection H as <- <-; split; [|split]; auto; apply same_rest_refl].
  cbn [fst] in H. destruct prev as [i|]; [|injection H as <- <-; split; [|split]; auto; apply same_rest_refl].
  eapply del_entry; eauto.
Qed.

Lemma denotes_found_det s u p q : wf s -> denotes (view s) u (Found p) -> denotes (view s) u (Found q) -> p = q.
Proof.
  intros W (cs & A & L) (cs' & A' & L'). rewrite (addr_inj _ _ _ A' A) in L'.
  assert (X := leads_det _ _ W _ _ _ L L'). now injection X.
Qed.
