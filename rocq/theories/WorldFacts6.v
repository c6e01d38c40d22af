(** WorldFacts1.v in the terms of SpecWorld.v. *)
From Coq Require Import Lia Sorted.
From Verif Require Import Str Exc UriParse BaseUri StrFacts SpecUri Mem Generic SpecGen World SpecWorld.
From Verif Require Import UriFacts2 MemFacts5 GenFacts1 LocalFacts1 WorldFacts1.

Lemma keptb_spec ignore T z : forall p, keptb ignore T p z = true <-> forall a n b, z = a ++ n :: b -> T (p ++ a ++ [n]) = Some None -> ~ In n ignore.
Proof.
  induction z as [|m z IH]; intros p; cbn [keptb]; [split; auto; intros _ a n b X; now destruct a|].
  rewrite andb_true_iff, IH. assert (X : negb (f_isdir (T (p ++ [m])) && str_in m ignore) = true <-> (T (p ++ [m]) = Some None -> ~ In m ignore)).
  { rewrite <- str_in_In. destruct (T (p ++ [m])) as [[d|]|]; cbn [f_isdir andb negb]; try (split; [intros _ Y; discriminate|reflexivity]).
    destruct (str_in m ignore); cbn; split.
    - discriminate.
    - intros Y. now destruct (Y eq_refl).
    - intros _ _ Y. discriminate.
    - reflexivity. }
  rewrite X. split.
  - intros [A1 A2] [|c a] n b Y; injection Y as <- Y; [exact A1|]. intros Z. apply (A2 a n b Y). now rewrite <- !app_assoc.
  - intros H. split; [now apply (H [] m z)|]. intros a n b -> Z. apply (H (m :: a) n b eq_refl). now rewrite <- !app_assoc in *.
Qed.

Section Contract.
Context {S E : Type}.
Variables (w : backend S) (us ud : list str -> uri) (good : list str -> Prop) (isd isl : E -> bool) (ndir : E) (nfile : option E -> list N -> E).
Variable K : ftree -> (list str -> option E) -> S -> Prop.
Hypothesis C : contract w us ud good isd isl ndir nfile K.
Variable new : option (list N) -> E.
Hypothesis New : new None = ndir /\ forall d, new (Some d) = nfile None d.

Lemma dirE_at (D : list str -> option E) p : dirE isd (D p) = true <-> dir_at isd D p.
Proof. unfold dir_at, dirE. destruct (D p) as [e|]; split; try easy; [intros H; now exists e|intros (? & H & <-); now injection H as ->|intros (? & H & _); discriminate]. Qed.
Lemma lands_spec T D s name ct cd : K T D s -> lands isd isl D name ct cd ->
  askable isd isl D ct /\ cd = if dirE isd (D ct) then ct ++ [name] else ct.
Proof.
  intros k [(e & E1 & E2)|e E1 E2 E3|d n b -> Dd Dn].
  - split; [left; exists e; split; auto; now apply (c_isd _ _ _ _ _ _ _ _ _ C)|]. rewrite E1. cbn [dirE]. now rewrite E2.
  - split; [left; now exists e|]. rewrite E1. cbn [dirE]. now rewrite E2.
  - split; [right; exists d, n, b; split; auto; split; auto; now apply dirE_at|].
    change (n :: b) with ([n] ++ b). rewrite app_assoc, (goneD _ _ _ _ _ _ _ _ _ C T D s); auto.
Qed.
Section Tree.
Variables (T : ftree) (D : list str -> option E) (s : S) (fuel : nat) (name : str) (ct d : list str) (n : str) (b : list str).
Local Notation cd := (d ++ n :: b).
Hypothesis Sch : opt_eqb (u_scheme (us [])) (u_scheme (ud ct)) = false.
Hypothesis Nm : u_last (us []) = name.
Hypothesis k : K T D s.
Hypothesis Gt : good ct.
Hypothesis La : lands isd isl D name ct cd.
Hypothesis Gd : forall r, T r <> None -> good (cd ++ r).
Lemma gen_copy_tree ignore fl : T [] = Some None -> (forall r, T r = Some None -> Forall unpadded r) ->
  dir_at isd D d -> D (d ++ [n]) = None -> (forall r, T r <> None -> (length r < fuel)%nat) -> (length (n :: b) < fuel)%nat ->
  exists D' s', u_copy w fuel true ignore fl (us []) (ud ct) s = (Ok tt, s') /\ K T D' s' /\ transferred D D' new T ignore d (n :: b).
Proof.
  intros Tr Pad Dd Dn Hf Hb. destruct (lands_spec T D s name ct cd k La) as [A Ec]. rewrite <- Nm in Ec.
  assert (Fu : (1 < fuel)%nat) by (cbn [length] in Hb; lia).
  destruct (copy_tree_ok w us ud good isd isl ndir nfile K C ignore T cd fuel fl Gd Fu Pad D s ct d (n :: b)) as (D' & s' & R & k' & A1 & A2 & A3); auto.
  { easy. } { now apply dirE_at. } { intros n' b' X. now injection X as <- _. }
  exists D', s'. split; auto. split; auto. destruct New as [N1 N2]. split; [|split; [|split]].
  - intros r c Hr Hk. rewrite A1. unfold image. assert (Hk' : keptb ignore T [] r = true) by (apply keptb_spec; exact Hk). rewrite Hk'. cbn [app]. rewrite Hr.
    destruct c; cbn [look_of]; now rewrite ?N1, ?N2.
  - intros r Hr. rewrite A1. unfold image. destruct (keptb ignore T [] r) eqn:Ek; auto. cbn [app]. destruct Hr as [Hr|Hr]; [now rewrite Hr|].
    exfalso. apply Hr. unfold kept. now apply (keptb_spec ignore T r []).
  - intros b1 b2 X Y Z. rewrite N1. now apply (A2 b1 b2).
  - exact A3.
Qed.
Lemma gen_move_tree (R : removal w us K) : T [] = Some None -> (forall r, T r = Some None -> Forall unpadded r) ->
  dir_at isd D d -> D (d ++ [n]) = None -> (forall r, T r <> None -> (length r < fuel)%nat) -> (length (n :: b) < fuel)%nat ->
  exists T' D' s', fs_move w fuel (us []) (ud ct) s = (Ok tt, s') /\ K T' D' s' /\ (forall r, T' r = None) /\ transferred D D' new T [] d (n :: b).
Proof.
  intros Tr Pad Dd Dn Hf Hb. destruct (lands_spec T D s name ct cd k La) as [A Ec]. rewrite <- Nm in Ec.
  assert (Fu : (1 < fuel)%nat) by (cbn [length] in Hb; lia).
  destruct (move_tree_ok w us ud good isd isl ndir nfile K C R T D s fuel cd ct d (n :: b) Gd Fu Pad) as (T' & D' & s' & X & k' & A0 & A1 & A2 & A3); auto.
  { easy. } { now apply dirE_at. } { intros n' b' X. now injection X as <- _. }
  exists T', D', s'. split; auto. split; auto. split; auto. destruct New as [N1 N2]. split; [|split; [|split]].
  - intros r c Hr Hk. rewrite A1, Hr. destruct c; cbn [look_of]; now rewrite ?N1, ?N2.
  - intros r [Hr|Hr]; [now rewrite A1, Hr|]. exfalso. apply Hr. intros a m z _ _ [].
  - intros b1 b2 Y Z W. rewrite N1. now apply (A2 b1 b2).
  - exact A3.
Qed.
End Tree.
Section File.
Variables (T : ftree) (D : list str -> option E) (s : S) (fuel : nat) (name : str) (ct p : list str) (n : str) (data : list N).
Local Notation cd := (p ++ [n]).
Hypothesis Sch : opt_eqb (u_scheme (us [])) (u_scheme (ud ct)) = false.
Hypothesis Nm : u_last (us []) = name.
Hypothesis k : K T D s.
Hypothesis Gt : good ct.
Hypothesis La : lands isd isl D name ct cd.
Hypothesis Gd : good cd.
Hypothesis Tr : T [] = Some (Some data).
Hypothesis Dp : dir_at isd D p.
Hypothesis Nd : forall e, D cd = Some e -> isd e = false /\ isl e = false.
Lemma file_good r : T r <> None -> good (cd ++ r).
Proof.
  intros H. destruct r as [|m r]; [now rewrite app_nil_r|]. exfalso. apply H. change (m :: r) with ([] ++ m :: r).
  apply (goneT _ _ _ _ _ _ _ _ _ C T D s); auto; [now rewrite Tr|easy].
Qed.
Lemma nd1 : dirE isd (D cd) = false.
Proof. unfold dirE. destruct (D cd) eqn:Ed; auto. now apply Nd. Qed.
Lemma nl1 : linkE isl (D cd) = false.
Proof. unfold linkE. destruct (D cd) eqn:Ed; auto. now apply Nd. Qed.
Lemma gen_copy_file ignore fl :
  exists s', u_copy w fuel false ignore fl (us []) (ud ct) s = (Ok tt, s') /\ K T (put D cd (nfile (D cd) data)) s'.
Proof.
  destruct (lands_spec T D s name ct cd k La) as [A Ec]. rewrite <- Nm in Ec.
  apply (copy_file_ok w us ud good isd isl ndir nfile K C ignore T cd fuel fl file_good D s ct data p n); auto; [now apply dirE_at|apply nd1|apply nl1].
Qed.
Lemma gen_move_file (R : removal w us K) : (0 < fuel)%nat ->
  exists T' s', fs_move w fuel (us []) (ud ct) s = (Ok tt, s') /\ K T' (put D cd (nfile (D cd) data)) s' /\ (forall r, T' r = None).
Proof.
  intros Fu. destruct (lands_spec T D s name ct cd k La) as [A Ec]. rewrite <- Nm in Ec.
  apply (move_file_ok w us ud good isd isl ndir nfile K C R T D s fuel cd ct data p n file_good); auto; [now apply dirE_at|apply nd1|apply nl1].
Qed.
End File.
End Contract.
