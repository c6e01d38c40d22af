(** The contract of WorldFacts1.v for two connections, from a contract for each. *)
From Coq Require Import Lia Sorted.
From Verif Require Import Str Exc UriParse BaseUri StrFacts SpecUri Mem Generic SpecGen World.
From Verif Require Import MemFacts5 GenFacts1 LocalFacts1 WorldFacts1.

Local Notation joined := (join_with [cSlash]).

Section Sides.
Context {S : Type}.
Record source (b : backend S) (rd : uri -> M S (list N)) (us : list str -> uri) (K : ftree -> S -> Prop) : Prop := {
  s_up : forall T s r n, K T s -> T (r ++ [n]) <> None -> T r = Some None;
  s_name : forall T s r, K T s -> T r <> None -> Forall name_ok r;
  s_div : forall T s r n, K T s -> T (r ++ [n]) <> None -> u_div (us r) n = Ok (us (r ++ [n]));
  s_path : forall T s r, K T s -> T r <> None -> skipn (length (u_path (us [])) + 1) (u_path (us r)) = joined r;
  s_hook : forall T s r n, K T s -> T r <> None -> b_hook b (us r) n s = (Ok tt, s);
  s_exists : forall T s r, K T s -> T r <> None -> b_exists b (us r) s = (Ok true, s);
  s_isdir : forall T s r, K T s -> T r <> None -> b_isdir b (us r) s = (Ok (f_isdir (T r)), s);
  s_isfile : forall T s r d, K T s -> T r = Some (Some d) -> b_isfile b (us r) s = (Ok true, s);
  s_islink : forall T s r, K T s -> T r <> None -> b_islink b (us r) s = (Ok false, s);
  s_list : forall T s r, K T s -> T r = Some None -> exists l, b_listdir b (us r) s = (Ok l, s) /\ StronglySorted slt l /\
    forall n, In n l <-> T (r ++ [n]) <> None;
  s_read : forall T s r d, K T s -> T r = Some (Some d) -> exists s', rd (us r) s = (Ok d, s') /\ K T s' }.
Record gone (b : backend S) (us : list str -> uri) (K : ftree -> S -> Prop) : Prop := {
  g_isfile : forall T s r, K T s -> T r <> None -> b_isfile b (us r) s = (Ok (f_isfile (T r)), s);
  g_rmfile : forall T s r d, K T s -> T r = Some (Some d) -> exists s', b_removefile b (us r) s = (Ok tt, s') /\ K (cutT T r) s';
  g_rmdir : forall T s r, K T s -> T r = Some None -> (forall n, T (r ++ [n]) = None) ->
    exists s', b_removedir b (us r) s = (Ok tt, s') /\ K (cutT T r) s' }.
Context {E : Type}.
Record target (b : backend S) (wr : uri -> list N -> M S unit) (ud : list str -> uri) (good : list str -> Prop) (isd isl : E -> bool) (ndir : E)
  (nfile : option E -> list N -> E) (K : (list str -> option E) -> S -> Prop) : Prop := {
  t_isd : forall e, isd e = true -> isl e = false;
  t_ndir : isd ndir = true;
  t_nfile : forall o d, isd (nfile o d) = false;
  t_up : forall D s p n, K D s -> D (p ++ [n]) <> None -> dirE isd (D p) = true;
  t_good : forall a b, good (a ++ b) -> good a;
  t_gname : forall p n, good (p ++ [n]) -> n <> [];
  t_div : forall p r, good (p ++ r) -> r <> [] -> u_div (ud p) (joined r) = Ok (ud (p ++ r));
  t_split : forall p n, good (p ++ [n]) -> u_split (ud (p ++ [n])) = Ok (ud p, n);
  t_hook : forall D s p n, K D s -> good p -> b_hook b (ud p) n s = (Ok tt, s);
  t_isdir : forall D s p, K D s -> good p -> askable isd isl D p -> b_isdir b (ud p) s = (Ok (dirE isd (D p)), s);
  t_mkdir : forall D s p n, K D s -> good (p ++ [n]) -> dirE isd (D p) = true -> D (p ++ [n]) = None ->
    exists s', b_mkdir b (ud (p ++ [n])) s = (Ok tt, s') /\ K (put D (p ++ [n]) ndir) s';
  t_write : forall D s d p n, K D s -> good (p ++ [n]) -> dirE isd (D p) = true -> dirE isd (D (p ++ [n])) = false ->
    linkE isl (D (p ++ [n])) = false ->
    exists s', wr (ud (p ++ [n])) d s = (Ok tt, s') /\ K (put D (p ++ [n]) (nfile (D (p ++ [n])) d)) s' }.
End Sides.

Section Two.
Context {S1 S2 E : Type}.
Variables (b1 : backend S1) (b2 : backend S2).
Variables (rd1 : uri -> M S1 (list N)) (wr1 : uri -> list N -> M S1 unit).
Variables (rd2 : uri -> M S2 (list N)) (wr2 : uri -> list N -> M S2 unit).
Variable side : uri -> bool.
Variables (us ud : list str -> uri) (good : list str -> Prop) (isd isl : E -> bool) (ndir : E) (nfile : option E -> list N -> E).
Local Notation w := (world b1 b2 rd1 wr1 rd2 wr2 side).

Lemma on1_ok {A} (m : M S1 A) a s1 s1' (s2 : S2) : m s1 = (Ok a, s1') -> on1 m (s1, s2) = (Ok a, (s1', s2)).
Proof. intros H. unfold on1. cbn [fst snd]. now rewrite H. Qed.
Lemma on2_ok {A} (m : M S2 A) a s2 s2' (s1 : S1) : m s2 = (Ok a, s2') -> on2 m (s1, s2) = (Ok a, (s1, s2')).
Proof. intros H. unfold on2. cbn [fst snd]. now rewrite H. Qed.

Definition K12 (K1 : ftree -> S1 -> Prop) (K2 : (list str -> option E) -> S2 -> Prop) T D (s : S1 * S2) : Prop := K1 T (fst s) /\ K2 D (snd s).
Definition K21 (K1 : ftree -> S2 -> Prop) (K2 : (list str -> option E) -> S1 -> Prop) T D (s : S1 * S2) : Prop := K1 T (snd s) /\ K2 D (fst s).

Lemma contract12 K1 K2 : (forall r, side (us r) = true) -> (forall p, side (ud p) = false) ->
  source b1 rd1 us K1 -> target b2 wr2 ud good isd isl ndir nfile K2 ->
  contract w us ud good isd isl ndir nfile (K12 K1 K2).
Proof.
  intros Hs Hd P Q. constructor; try (first [exact (t_isd _ _ _ _ _ _ _ _ _ Q)|exact (t_ndir _ _ _ _ _ _ _ _ _ Q)|exact (t_nfile _ _ _ _ _ _ _ _ _ Q)|exact (t_good _ _ _ _ _ _ _ _ _ Q)|exact (t_gname _ _ _ _ _ _ _ _ _ Q)|exact (t_div _ _ _ _ _ _ _ _ _ Q)|exact (t_split _ _ _ _ _ _ _ _ _ Q)]); unfold K12; cbn [world b_hook b_exists b_isfile b_isdir b_islink b_listdir b_mkdir b_copy_content]; unfold both.
  - intros T D [s x] r n [k _]. apply (s_up _ _ _ _ P T s); auto.
  - intros T D [s x] p n [_ k]. apply (t_up _ _ _ _ _ _ _ _ _ Q D x); auto.
  - intros T D [s x] r [k _]. apply (s_name _ _ _ _ P T s); auto.
  - intros T D [s x] r n [k _]. apply (s_div _ _ _ _ P T s); auto.
  - intros T D [s x] r [k _]. apply (s_path _ _ _ _ P T s); auto.
  - intros T D [s x] r n [k _] H. rewrite Hs. apply on1_ok. now apply (s_hook _ _ _ _ P T).
  - intros T D [s x] r [k _] H. rewrite Hs. apply on1_ok. now apply (s_exists _ _ _ _ P T).
  - intros T D [s x] r [k _] H. rewrite Hs. apply on1_ok. now apply (s_isdir _ _ _ _ P T).
  - intros T D [s x] r d [k _] H. rewrite Hs. apply on1_ok. now apply (s_isfile _ _ _ _ P T s r d).
  - intros T D [s x] r [k _] H. rewrite Hs. apply on1_ok. now apply (s_islink _ _ _ _ P T).
  - intros T D [s x] r [k _] H. rewrite Hs. destruct (s_list _ _ _ _ P T s r k H) as (l & R & X). exists l. split; auto. apply on1_ok; eassumption.
  - intros T D [s x] p n [_ k] H. rewrite Hd. apply on2_ok. now apply (t_hook _ _ _ _ _ _ _ _ _ Q D).
  - intros T D [s x] p [_ k] H A. rewrite Hd. apply on2_ok. now apply (t_isdir _ _ _ _ _ _ _ _ _ Q D).
  - intros T D [s x] p n [k1 k] G Dp N. rewrite Hd. destruct (t_mkdir _ _ _ _ _ _ _ _ _ Q D x p n k G Dp N) as (x' & R & k').
    exists (s, x'). split; [apply on2_ok; eassumption|]. now split.
  - intros T D [s x] r d p n [k1 k] Tr G Dp N L. unfold world_content. rewrite Hs, Hd.
    destruct (s_read _ _ _ _ P T s r d k1 Tr) as (s' & R1 & k1'). destruct (t_write _ _ _ _ _ _ _ _ _ Q D x d p n k G Dp N L) as (x' & R & k').
    exists (s', x'). split; [|now split]. erewrite bind_ok by (apply on1_ok; eassumption). apply on2_ok; eassumption.
Qed.
Lemma contract21 K1 K2 : (forall r, side (us r) = false) -> (forall p, side (ud p) = true) ->
  source b2 rd2 us K1 -> target b1 wr1 ud good isd isl ndir nfile K2 ->
  contract w us ud good isd isl ndir nfile (K21 K1 K2).
Proof.
  intros Hs Hd P Q. constructor; try (first [exact (t_isd _ _ _ _ _ _ _ _ _ Q)|exact (t_ndir _ _ _ _ _ _ _ _ _ Q)|exact (t_nfile _ _ _ _ _ _ _ _ _ Q)|exact (t_good _ _ _ _ _ _ _ _ _ Q)|exact (t_gname _ _ _ _ _ _ _ _ _ Q)|exact (t_div _ _ _ _ _ _ _ _ _ Q)|exact (t_split _ _ _ _ _ _ _ _ _ Q)]); unfold K21; cbn [world b_hook b_exists b_isfile b_isdir b_islink b_listdir b_mkdir b_copy_content]; unfold both.
  - intros T D [s x] r n [k _]. apply (s_up _ _ _ _ P T x); auto.
  - intros T D [s x] p n [_ k]. apply (t_up _ _ _ _ _ _ _ _ _ Q D s); auto.
  - intros T D [s x] r [k _]. apply (s_name _ _ _ _ P T x); auto.
  - intros T D [s x] r n [k _]. apply (s_div _ _ _ _ P T x); auto.
  - intros T D [s x] r [k _]. apply (s_path _ _ _ _ P T x); auto.
  - intros T D [s x] r n [k _] H. rewrite Hs. apply on2_ok. now apply (s_hook _ _ _ _ P T).
  - intros T D [s x] r [k _] H. rewrite Hs. apply on2_ok. now apply (s_exists _ _ _ _ P T).
  - intros T D [s x] r [k _] H. rewrite Hs. apply on2_ok. now apply (s_isdir _ _ _ _ P T).
  - intros T D [s x] r d [k _] H. rewrite Hs. apply on2_ok. now apply (s_isfile _ _ _ _ P T x r d).
  - intros T D [s x] r [k _] H. rewrite Hs. apply on2_ok. now apply (s_islink _ _ _ _ P T).
  - intros T D [s x] r [k _] H. rewrite Hs. destruct (s_list _ _ _ _ P T x r k H) as (l & R & X). exists l. split; auto. apply on2_ok; eassumption.
  - intros T D [s x] p n [_ k] H. rewrite Hd. apply on1_ok. now apply (t_hook _ _ _ _ _ _ _ _ _ Q D).
  - intros T D [s x] p [_ k] H A. rewrite Hd. apply on1_ok. now apply (t_isdir _ _ _ _ _ _ _ _ _ Q D).
  - intros T D [s x] p n [k1 k] G Dp N. rewrite Hd. destruct (t_mkdir _ _ _ _ _ _ _ _ _ Q D s p n k G Dp N) as (x' & R & k').
    exists (x', x). split; [apply on1_ok; eassumption|]. now split.
  - intros T D [s x] r d p n [k1 k] Tr G Dp N L. unfold world_content. rewrite Hs, Hd.
    destruct (s_read _ _ _ _ P T x r d k1 Tr) as (s' & R1 & k1'). destruct (t_write _ _ _ _ _ _ _ _ _ Q D s d p n k G Dp N L) as (x' & R & k').
    exists (x', s'). split; [|now split]. erewrite bind_ok by (apply on2_ok; eassumption). apply on1_ok; eassumption.
Qed.
Lemma removal12 K1 (K2 : (list str -> option E) -> S2 -> Prop) : (forall r, side (us r) = true) -> gone b1 us K1 -> removal w us (K12 K1 K2).
Proof.
  intros Hs P. constructor; unfold K12; cbn [world b_isfile b_removefile b_removedir]; unfold both.
  - intros T D [s x] r [k _] H. rewrite Hs. apply on1_ok. now apply (g_isfile _ _ _ P T).
  - intros T D [s x] r d [k k2] H. rewrite Hs. destruct (g_rmfile _ _ _ P T s r d k H) as (s' & R & k'). exists (s', x). split; [apply on1_ok; eassumption|now split].
  - intros T D [s x] r [k k2] H N. rewrite Hs. destruct (g_rmdir _ _ _ P T s r k H N) as (s' & R & k'). exists (s', x). split; [apply on1_ok; eassumption|now split].
Qed.
Lemma removal21 K1 (K2 : (list str -> option E) -> S1 -> Prop) : (forall r, side (us r) = false) -> gone b2 us K1 -> removal w us (K21 K1 K2).
Proof.
  intros Hs P. constructor; unfold K21; cbn [world b_isfile b_removefile b_removedir]; unfold both.
  - intros T D [s x] r [k _] H. rewrite Hs. apply on2_ok. now apply (g_isfile _ _ _ P T).
  - intros T D [s x] r d [k k2] H. rewrite Hs. destruct (g_rmfile _ _ _ P T x r d k H) as (s' & R & k'). exists (s, s'). split; [apply on2_ok; eassumption|now split].
  - intros T D [s x] r [k k2] H N. rewrite Hs. destruct (g_rmdir _ _ _ P T x r k H N) as (s' & R & k'). exists (s, s'). split; [apply on2_ok; eassumption|now split].
Qed.
End Two.
