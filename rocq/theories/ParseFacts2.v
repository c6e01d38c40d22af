(** The functions of the parser are the rules of SpecParse.v: numbers, queries, UriParse. *)
From Verif Require Import Str Exc Utf8 UriParse BaseUri SpecUri SpecParse StrFacts UriFacts UriFacts2 ParseFacts.

Lemma blank_forallb s : blank s <-> forallb is_space s = true.
Proof. unfold blank. now rewrite forallb_forall. Qed.
Lemma trimmed_strip s w : trimmed s w <-> strip_ws s = w.
Proof.
  unfold strip_ws, strip_p. split.
  - intros (a & b & -> & Ba & Bb & Ed). apply blank_forallb in Ba, Bb. destruct w as [|c w].
    + cbn [app]. unfold lstrip_p at 1. rewrite span_all by (rewrite forallb_app, Ba, Bb; reflexivity). reflexivity.
    + unfold lstrip_p at 1. rewrite span_app; [|exact Ba|cbn; apply (Ed c w); now left]. cbn [snd]. apply rstrip_app; [exact Bb|].
      destruct (exists_last (l := c :: w)) as (r & x & E); [discriminate|]. rewrite E, rev_app_distr. cbn. apply (Ed x r). now right.
  - intros <-. set (l := lstrip_p is_space s). destruct (rstrip_decomp is_space l) as (t & El & Bt & St).
    set (w := rstrip_p is_space l) in *. exists (fst (span is_space s)), t. split; [rewrite <- El; symmetry; apply span_eq|].
    split; [apply blank_forallb, span_fst|]. split; [now apply blank_forallb|]. intros c r [E|E].
    + assert (X : l = c :: r ++ t) by (rewrite El, E; reflexivity). exact (span_snd _ _ _ _ X).
    + rewrite E, rev_app_distr in St. exact St.
Qed.
Lemma trimmed_ex s : exists w, trimmed s w.
Proof. exists (strip_ws s). now apply trimmed_strip. Qed.
Lemma trimmed_det s w w' : trimmed s w -> trimmed s w' -> w = w'.
Proof. rewrite !trimmed_strip. congruence. Qed.

(** digits *)
Lemma digit_iff c : is_digit c = true <-> (48 <= c <= 57)%N.
Proof. unfold is_digit, between. rewrite andb_true_iff, !N.leb_le. reflexivity. Qed.
Lemma digit_not_under c : is_digit c = true -> N.eqb c cUnder = false.
Proof. intros H. apply digit_iff in H. apply N.eqb_neq. unfold cUnder. lia. Qed.
Lemma digit_val c : is_digit c = true -> Z.of_N (c - 48) = (Z.of_N c - 48)%Z.
Proof. intros D. apply digit_iff in D. lia. Qed.
Lemma digits_run s v : digits s v -> forall t, int_digits 0 false (s ++ t) = int_digits v true t.
Proof.
  induction 1 as [c D|s v c H IH D|s v c H IH D]; intros t; apply digit_iff in D.
  - cbn [app int_digits]. rewrite D, digit_val by auto. f_equal.
  - rewrite <- app_assoc, IH. cbn [app int_digits]. now rewrite D, digit_val by auto.
  - rewrite <- app_assoc, IH. cbn [app int_digits]. change (is_digit cUnder) with false. rewrite N.eqb_refl. cbn [andb]. now rewrite D, digit_val by auto.
Qed.
Definition so_far (p : str) (acc : Z) (b : bool) : Prop :=
  if b then digits p acc else (p = [] /\ acc = 0%Z) \/ exists p', p = p' ++ [cUnder] /\ digits p' acc.
Lemma digits_back s : forall p acc b z, so_far p acc b -> int_digits acc b s = Some z -> digits (p ++ s) z.
Proof.
  induction s as [|c s IH]; intros p acc b z F H; cbn [int_digits] in H.
  - destruct b; [|discriminate H]. injection H as <-. now rewrite app_nil_r.
  - destruct (is_digit c) eqn:D.
    + rewrite digit_val in H by auto. pose proof (proj1 (digit_iff c) D) as D'.
      replace (p ++ c :: s) with ((p ++ [c]) ++ s) by now rewrite <- app_assoc. apply IH with (2 := H). cbn. destruct b; cbn in F.
      * now apply di_more.
      * destruct F as [[-> ->]|(p' & -> & F)]; [now apply di_one|]. rewrite <- app_assoc. now apply di_under.
    + destruct (N.eqb_spec c cUnder) as [->|Nc]; [|discriminate H]. destruct b; [|discriminate H]. cbn [andb] in H.
      replace (p ++ cUnder :: s) with ((p ++ [cUnder]) ++ s) by now rewrite <- app_assoc. apply IH with (2 := H). cbn in *. right. eauto.
Qed.
Lemma digits_iff s z : digits s z <-> int_digits 0 false s = Some z.
Proof.
  split; [intros H; rewrite <- (app_nil_r s), (digits_run s z H); reflexivity|]. intros H. apply (digits_back s [] 0%Z false z); [now left|exact H].
Qed.
Lemma digits_head s z : digits s z -> exists c r, s = c :: r /\ is_digit c = true.
Proof.
  induction 1 as [c D|s v c H (x & r & -> & X) D|s v c H (x & r & -> & X) D]; [exists c, []; split; auto; now apply digit_iff|cbn; eauto|cbn; eauto].
Qed.
Lemma number_iff s z : number s z <-> py_int s = Ok z.
Proof.
  unfold py_int. split.
  - intros [w z0 T D|w z0 T D|w z0 T D]; apply trimmed_strip in T; rewrite T.
    + destruct (digits_head _ _ D) as (c & r & -> & Dc). destruct (N.eqb_spec c cPlus) as [->|]; [discriminate Dc|]. destruct (N.eqb_spec c cMinus) as [->|]; [discriminate Dc|].
      apply digits_iff in D. now rewrite D.
    + rewrite N.eqb_refl. apply digits_iff in D. now rewrite D.
    + change (cMinus =? cPlus)%N with false. rewrite N.eqb_refl. apply digits_iff in D. now rewrite D.
  - destruct (trimmed_ex s) as [w T]. pose proof (proj1 (trimmed_strip s w) T) as E. rewrite E. destruct w as [|c t]; [discriminate|].
    destruct (N.eqb_spec c cPlus) as [->|]; [|destruct (N.eqb_spec c cMinus) as [->|]].
    + destruct (int_digits 0 false t) eqn:D; [|discriminate]. intros H. injection H as <-. apply nu_plus with t; auto. now apply digits_iff.
    + destruct (int_digits 0 false t) eqn:D; [|discriminate]. intros H. injection H as <-. apply nu_minus with t; auto. now apply digits_iff.
    + destruct (int_digits 0 false (c :: t)) eqn:D; [|discriminate]. intros H. injection H as <-. apply nu_bare with (c :: t); auto. now apply digits_iff.
Qed.
Lemma signed_iff z : signed z = str_of_Z z.
Proof. reflexivity. Qed.
Lemma py_int_cases s : (exists z, py_int s = Ok z) \/ py_int s = Raise ValueError.
Proof. unfold py_int. destruct (match strip_ws s with [] => None | _ => _ end); eauto. Qed.
Definition port_text (p : str) : res Z := match p with [] => Ok 0%Z | d :: t => py_int (d :: t) end.
Lemma port_iff p r : port_of p r <-> port_text p = r.
Proof.
  unfold port_text. split.
  - intros [->|z N H|N H]; [reflexivity| |]; destruct p as [|d t]; try (now contradict N); [now apply number_iff|].
    destruct (py_int_cases (d :: t)) as [[z E]|E]; [|exact E]. exfalso. apply (H z). now apply number_iff.
  - intros <-. destruct p as [|d t]; [now apply po_none|]. destruct (py_int_cases (d :: t)) as [[z E]|E]; rewrite E.
    + apply po_num; [discriminate|now apply number_iff].
    + apply po_bad; [discriminate|]. intros z H. apply number_iff in H. congruence.
Qed.

(** authority *)
Definition auth_split (a : str) : option str * option str * str :=
  match cut_first cAt a with
  | Some (u, h) => match cut_first cColon u with Some (x, y) => (Some x, Some y, h) | None => (Some u, None, h) end
  | None => (None, None, a)
  end.
Lemma free1 c s : free_of [c] s <-> ~ In c s.
Proof. unfold free_of. split; [intros H; apply H; now left|intros H d [<-|[]]; exact H]. Qed.
Lemma free2 c d s : free_of [c; d] s <-> ~ In c s /\ ~ In d s.
Proof. unfold free_of. split; [intros H; split; apply H; cbn; auto|intros [H1 H2] e [<-|[<-|[]]]; auto]. Qed.
Lemma creds_iff a u p h : creds a u p h <-> auth_split a = (u, p, h).
Proof.
  unfold auth_split. split.
  - intros [u0 p0 h0 -> F1 F2|u0 h0 -> F|F].
    + rewrite free2 in F1. rewrite free1 in F2. destruct F1 as [F1 F3].
      replace (u0 ++ cColon :: p0 ++ cAt :: h0) with ((u0 ++ cColon :: p0) ++ cAt :: h0) by now rewrite <- app_assoc.
      rewrite cut_first_app; [now rewrite cut_first_app|]. rewrite in_app_iff. cbn. unfold cColon, cAt in *. intuition discriminate.
    + rewrite free2 in F. destruct F as [F1 F2]. rewrite cut_first_app by auto. now rewrite (proj2 (cut_first_none _ _) F1).
    + rewrite free1 in F. now rewrite (proj2 (cut_first_none _ _) F).
  - destruct (cut_first cAt a) as [[ui h0]|] eqn:E.
    + apply cut_first_some in E as [-> N]. destruct (cut_first cColon ui) as [[x y]|] eqn:Ec.
      * apply cut_first_some in Ec as [-> Nc]. intros H. injection H as <- <- <-. rewrite in_app_iff in N. cbn in N.
        apply cr_both; [now rewrite <- app_assoc|apply free2; tauto|apply free1; tauto].
      * apply cut_first_none in Ec. intros H. injection H as <- <- <-. apply cr_user; auto. now apply free2.
    + apply cut_first_none in E. intros H. injection H as <- <- <-. apply cr_none. now apply free1.
Qed.
Definition site_split (h : str) : str * str := match cut_first cColon h with Some (a, b) => (a, b) | None => (h, []) end.
Lemma site_iff h x p : site h x p <-> site_split h = (x, p).
Proof.
  unfold site_split. split.
  - intros [x0 p0 -> F|F]; rewrite free1 in F; [now rewrite cut_first_app|now rewrite (proj2 (cut_first_none _ _) F)].
  - destruct (cut_first cColon h) as [[a b]|] eqn:E; intros H; injection H as <- <-.
    + apply cut_first_some in E as [-> N]. apply si_port; auto. now apply free1.
    + apply cut_first_none in E. apply si_host. now apply free1.
Qed.
Definition person_text (a : option str) : res (option str * option str * option str * Z) :=
  match a with
  | Some (c :: w) =>
      let '(us, pw, ho, po) := split_authority (c :: w) in
      rlet port <- (match po with
                    | Some (d :: t) => py_int (d :: t)
                    | _ => Ok 0%Z
                    end);
      Ok (us, pw, ho, port)
  | _ => Ok (Some [], Some [], Some [], 0%Z)
  end.
Lemma person_split w : w <> [] -> person_text (Some w) = let '(u, p, hp) := auth_split w in let (h, pt) := site_split hp in
  match port_text pt with Ok z => Ok (u, p, or_none h, z) | Raise e => Raise e end.
Proof.
  intros N. destruct w as [|c w]; [now contradict N|]. unfold person_text, split_authority, auth_split, site_split.
  destruct (cut_first cAt (c :: w)) as [[u h]|]; [destruct (cut_first cColon u) as [[x y]|]|].
  all: match goal with |- context[cut_first cColon ?h0] => destruct (cut_first cColon h0) as [[a b]|] end; [destruct b as [|d t]|].
  all: try reflexivity.
  all: unfold port_text; destruct (py_int (d :: t)); reflexivity.
Qed.
Lemma persons_iff a r : persons a r <-> person_text a = r.
Proof.
  split.
  - intros [[->| ->]|w u p hp h pt r0 -> N C S P]; [reflexivity|reflexivity|]. rewrite person_split by auto.
    apply creds_iff in C. apply site_iff in S. apply port_iff in P. now rewrite C, S, P.
  - intros <-. destruct a as [[|c w]|]; [apply pe_none; now right| |apply pe_none; now left]. rewrite person_split by discriminate.
    destruct (auth_split (c :: w)) as [[u p] hp] eqn:C. destruct (site_split hp) as [h pt] eqn:S.
    apply pe_some with (c :: w) hp pt; auto; [discriminate|now apply creds_iff|now apply site_iff|now apply port_iff].
Qed.
