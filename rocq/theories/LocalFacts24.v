(** How deep a walk of a local tree can go when links are followed: the operating system gives up after 40 links. *)
From Coq Require Import Lia.
From Verif Require Import Str Exc Utf8 UriParse BaseUri StrFacts UriFacts SpecUri UriFacts2 UriFacts3 UriFacts4 UriFacts5 UriFacts6.
From Verif Require Import Mem SpecMem MemFacts MemUri GenFacts1 GenFacts4.
From Verif Require Import Generic SpecGen.
From Verif Require Import Misc Posix Local SpecLocal SpecLinks LocalFacts1 LocalFacts3 LocalFacts6 LocalFacts7 LocalFacts18 LocalFacts19 LocalFacts20.

Section S.
Variable x : pst.
Hypothesis So : sound x.
Local Notation T := (p_tree x).
Variables (cs : list str) (follow : bool) (ignore : list str).
Local Notation enters := (enters x follow ignore cs).
Hypothesis G0 : plain_path cs.
Hypothesis H : forall r q n, enters r q -> pget (q ++ [n]) T <> None -> plain_path ((cs ++ r) ++ [n]).
Local Notation N := (length T).

Lemma short q : pget q T <> None -> (length q < N)%nat.
Proof. intros Hq. now apply (deep x So q []). Qed.
Lemma link_step b q n tg rest : is_dir_at x q -> plain_name n -> pget (q ++ [n]) T = Some (PLink tg) -> tg <> [] ->
  pwalk T true (S b) q (n :: rest) = pwalk T true b (if prefixb [cSlash] tg then [] else q) (split_on cSlash tg ++ rest).
Proof.
  intros (mo & mt & D) P E Nt. destruct (plain_step n P) as [S1 S2]. cbn [pwalk]. rewrite D, S1, S2, E. destruct rest; cbn [negb]; now destruct tg.
Qed.
Lemma bounded r q : enters r q -> exists b, (forall rest, rest <> [] -> pwalk T true pbudget [] ((cs ++ r) ++ rest) = pwalk T true b q rest) /\
  (length r + b * N <= pbudget * N + length q)%nat.
Proof.
  induction 1 as [q D|r q n q' V IH Nn Ni D F].
  - destruct D as (mo & mt & D). rewrite plook_abs in D by (auto; apply G0). apply walk_on in D as (b & Lb & _ & K).
    exists b. split; [intros; rewrite app_nil_r; now apply K|]. cbn [length]. pose proof (Nat.mul_le_mono_r b pbudget N Lb). lia.
  - destruct IH as (b & K & L). pose proof (H r q n V Nn) as Pn. pose proof (pp_names _ Pn) as Pl.
    assert (Nm : plain_name n) by (apply Forall_app in Pl as [_ Z]; now inversion Z).
    destruct (enters_through x cs follow ignore G0 H r q V) as [Pr Dr]. pose proof (through_dir x So _ _ Pr Dr) as Dq.
    assert (Lq : (length q < N)%nat) by (apply short; destruct Dq as (? & ? & Z); congruence).
    destruct D as (mo & mt & D). rewrite plook_abs in D by auto. rewrite K in D by easy.
    assert (Re : forall rest, (cs ++ r ++ [n]) ++ rest = (cs ++ r) ++ n :: rest) by (intros; now rewrite <- !app_assoc).
    destruct (pget (q ++ [n]) T) as [e|] eqn:En; [|easy]. destruct (is_plink e) eqn:El.
    + destruct e as [| |tg]; try discriminate.
      assert (Z : exists b', b = S b' /\ tg <> []).
      { destruct Dq as (mo' & mt' & Dq). destruct (plain_step n Nm) as [S1 S2]. destruct b as [|b']; cbn [pwalk] in D; rewrite Dq, S1, S2, En in D; [discriminate|].
        exists b'. split; auto. now destruct tg. }
      destruct Z as (b' & -> & Nt). rewrite link_step with (tg := tg) in D by auto. rewrite app_nil_r in D.
      apply walk_on in D as (b2 & Lb & _ & K2). exists b2. split.
      * intros rest Nr. rewrite Re, K by easy. rewrite link_step with (tg := tg) by auto. now apply K2.
      * rewrite app_length. cbn [length]. pose proof (Nat.mul_le_mono_r b2 b' N Lb). cbn [Nat.mul] in L. lia.
    + rewrite (walk_enter x) in D by eauto. rewrite (walk_here x) with (e := e) in D by auto. injection D as <- ->.
      exists b. split.
      * intros rest Nr. rewrite Re, K by easy. rewrite (walk_enter x) by eauto. reflexivity.
      * rewrite !app_length. cbn [length]. lia.
Qed.
Lemma enters_bound r q : enters r q -> (length r < 41 * N)%nat.
Proof.
  intros V. destruct (bounded r q V) as (b & _ & L). destruct (enters_through x cs follow ignore G0 H r q V) as [Pr Dr].
  assert (Lq : (length q < N)%nat) by (apply short; destruct (through_dir x So _ _ Pr Dr) as (? & ? & Z); congruence).
  unfold pbudget in L. lia.
Qed.
End S.
