(** C164: makedirs() of local files stopped before any of its system calls, and called again. *)
From Coq Require Import Lia Sorted.
From Verif Require Import Str Exc Utf8 UriParse BaseUri StrFacts Utf8Facts SpecUri Mem SpecMem MemOps Generic SpecGen UriOps.
From Verif Require Import UriFacts2 UriFacts3 MemFacts MemFacts2 MemFacts3 MemFacts4 MemFacts5 MemFacts6 MemFacts7 MemFacts9 MemUri MemFacts10 PropsMem.
From Verif Require Import GenFacts1 GenFacts2 GenFacts3 GenFacts4 GenFacts5 Enum PropsGeneric PropsCopy PropsWalk Fnmatch SpecFn.
From Verif Require Import Misc Posix Local SpecLocal Program LocalFacts1 LocalFacts2 LocalFacts3 LocalFacts4 LocalFacts5 LocalFacts6 LocalFacts7 LocalFacts8 LocalFacts9 LocalFacts10.
From Verif Require Import LocalFacts11 LocalFacts12 LocalFacts13 LocalFacts14 LocalFacts15 LocalFacts16 LocalFacts17 PropsLocal2.
From Verif Require Import PropsLocal3 LocProg LocSteps SpecPosix SpecStay StayFacts2 PropsRetry PropsSteps.
From Verif Require Resp LocTwin LocalFacts19.
From Coq Require Import String.
Open Scope nat_scope.
Open Scope list_scope.

(** ** makedirs() on ordinary trees: called again it ends as if it had not been stopped *)
Section Again.
Variables (x : pst) (j b : list str).
Hypothesis Ox : ordinary x.
Hypothesis Dj : is_dir_at x j.
Hypothesis Pp : plain_path (j ++ b).
Definition on_way (y : pst) : Prop :=
  ordinary y /\ p_cwd y = p_cwd x /\ p_now y = p_now x /\ p_umask y = p_umask x /\
  forall p, pget p (p_tree y) = pget p (p_tree x) \/
    entry_at x p None /\ pget p (p_tree y) = Some (PDir (Z.land 511 (Z.lnot (p_umask x))) (p_now x)) /\ exists b1 b2, b = b1 ++ b2 /\ p = j ++ b1.
Lemma way_mkdir q r : q ++ r = j ++ b -> holds on_way (os_mkdir (abs_path q)).
Proof.
  intros Eq y H. pose proof H as (O & A & B & C & D). rewrite <- Eq in Pp. pose proof (plain_app _ _ Pp) as Pq.
  pose proof (resp_sound (os_mkdir (abs_path q)) y (LocTwin.mkdir_resp _) (or_sound _ O)) as So.
  destruct (ordinary_mirror y O) as (s & R & Q & Mi & Hl). assert (T : twin s y) by (split; auto; now apply reachable_wf).
  pose proof (look s y T q false Pq) as L. unfold os_mkdir, sys_mkdir in *. rewrite chop_abs in * by (apply plain_names, Pq). destruct (plook y false (abs_path q)) as [[a en|d n]|z] eqn:El; cbn [snd] in *; try exact H.
  inversion L as [|i n' E1 _ _ _ _ E2| |]; subst. cbn [app] in *. clear L.
  pose proof (gap_free y _ _ (look_spot y false _ _ El)) as [F _].
  assert (Nx : entry_at x (d ++ [n]) None). { unfold entry_at. destruct (D (d ++ [n])) as [X|[X _]]; [congruence|exact X]. }
  split; [constructor|].
  - exact So.
  - intros p tg. cbn [p_tree set_tree]. rewrite pget_pset. destruct (path_eqb p (d ++ [n])); [discriminate|apply (or_unlinked _ O)].
  - intros p. cbn [p_tree set_tree]. rewrite pget_pset. destruct (path_eqb p (d ++ [n])) eqn:E; [|apply (or_names _ O)]. apply path_eqb_spec in E as ->. intros _. exact Pq.
  - split; [exact A|]. split; [exact B|]. split; [exact C|]. intros p. cbn [p_tree set_tree]. rewrite pget_pset. destruct (path_eqb p (d ++ [n])) eqn:E; [|apply D].
    apply path_eqb_spec in E as ->. right. split; [exact Nx|]. split; [now rewrite B, C|]. destruct (app_eq_app _ _ _ _ Eq) as (l & [[E1 E2]|[E1 E2]]); [now exists l, r|].
    exfalso. destruct l as [|c l]; [rewrite app_nil_r in E1; destruct Dj as (mo & mt & G); unfold entry_at in Nx; rewrite E1 in G; congruence|].
    destruct (so_dir x (or_sound _ Ox) (d ++ [n]) (c :: l)) as (mo & mt & G); [easy|rewrite <- E1; destruct Dj as (mo & mt & G); congruence|]. unfold entry_at in Nx. congruence.
Qed.
Lemma way_kept e fuel : forall q r, q ++ r = j ++ b -> kept on_way (fs_makedirs (st_backend (@unless_stopped e)) fuel (file_uri q)).
Proof.
  induction fuel as [|f IH]; intros q r Eq; cbn [fs_makedirs]; [apply kept_raise|]. apply kept_bind; [apply kept_isdir|]. intros [|]; [apply kept_ret|].
  assert (Pq : plain_path q) by (apply (plain_app q r); now rewrite Eq).
  destruct (snoc_cases q) as [->|(i & n & ->)].
  - change (u_split (file_uri [])) with (Ok (file_uri [], @nil N)). intros z Z. unfold bind at 1, lift. cbn [fst snd].
    revert z Z. apply kept_bind; [apply kept_isdir|]. intros pd. apply kept_bind; [destruct pd; [apply kept_ret|now apply (IH [] r)]|]. intros _. apply kept_ret.
  - rewrite file_split by apply Pq. intros z Z. unfold bind at 1, lift. cbn [fst snd]. revert z Z.
    apply kept_bind; [apply kept_isdir|]. intros pd. apply kept_bind; [destruct pd; [apply kept_ret|]|].
    + apply (IH i (n :: r)). now rewrite <- Eq, <- app_assoc.
    + intros _. enough (Z : kept on_way (u_mkdir (st_backend (@unless_stopped e)) (file_uri (i ++ [n])))) by (destruct n; [apply kept_ret|exact Z]).
      unfold u_mkdir, hooked. apply kept_bind; [apply kept_ret|]. intros _. cbn [st_backend b_mkdir]. unfold st_mkdir. rewrite LocalFacts19.local_path by exact Pq.
      pose proof (way_mkdir (i ++ [n]) r Eq) as W. destruct (abs_path (i ++ [n])); [apply kept_ret|now apply kept_step].
Qed.
Lemma way_start : on_way x.
Proof. split; [exact Ox|]. repeat split. intros p. now left. Qed.
Lemma way_split y : on_way y -> (forall m b', b = m :: b' -> pget (j ++ [m]) (p_tree x) = None) ->
  exists c b', b = c ++ b' /\ is_dir_at y (j ++ c) /\ forall m b'', b' = m :: b'' -> pget ((j ++ c) ++ [m]) (p_tree y) = None.
Proof.
  intros (O & _ & _ & _ & D) F.
  assert (K : forall c, (exists b', b = c ++ b') -> c <> [] -> entry_at x (j ++ c) None).
  { intros [|m c] [b' E] N; [easy|]. unfold entry_at. destruct (pget (j ++ m :: c) (p_tree x)) eqn:G; [|reflexivity]. specialize (F m (c ++ b') E). destruct c as [|a c]; [congruence|].
    destruct (so_dir x (or_sound _ Ox) (j ++ [m]) (a :: c)) as (mo & mt & G'); [easy|rewrite <- app_assoc; cbn; congruence|congruence]. }
  assert (D0 : is_dir_at y j). { destruct Dj as (mo & mt & G). destruct (D j) as [X|(X & _)]; [exists mo, mt; congruence|unfold entry_at in X; congruence]. }
  enough (Z : forall b' c, b = c ++ b' -> is_dir_at y (j ++ c) -> exists c b', b = c ++ b' /\ is_dir_at y (j ++ c) /\ forall m b'', b' = m :: b'' -> pget ((j ++ c) ++ [m]) (p_tree y) = None).
  { apply (Z b []); [reflexivity|now rewrite app_nil_r]. }
  induction b' as [|m b' IH]; intros c E Dc; [exists c, []; split; [exact E|]; split; [exact Dc|discriminate]|].
  destruct (pget ((j ++ c) ++ [m]) (p_tree y)) eqn:G; [|exists c, (m :: b'); split; [exact E|]; split; [exact Dc|]; intros m' b'' [= <- <-]; exact G].
  apply (IH (c ++ [m])); [now rewrite <- app_assoc|]. rewrite app_assoc. destruct (D ((j ++ c) ++ [m])) as [X|(_ & X & _)]; [|eexists _, _; exact X].
  exfalso. assert (Y : entry_at x (j ++ c ++ [m]) None). { apply K; [exists b'; now rewrite <- app_assoc|now destruct c]. } unfold entry_at in Y. rewrite app_assoc in Y. congruence.
Qed.
End Again.
Fixpoint made_often (u : uri) (l : list (exc * nat * nat)) (x : pst) : pst :=
  match l with [] => x | (e, k, fuel) :: l' => made_often u l' (fst (snd (kask e (LMakedirs fuel u) (x, k)))) end.
Lemma often_way x j b l : ordinary x -> is_dir_at x j -> plain_path (j ++ b) -> forall y, on_way x j b y -> on_way x j b (made_often (file_uri (j ++ b)) l y).
Proof.
  intros O D P. induction l as [|[[e k] fuel] l IH]; intros y H; cbn [made_often]; [exact H|]. apply IH. unfold kask. cbn [stask]. unfold told. apply (kept_bind (on_way x j b)); [|intros a; apply kept_ret|exact H].
  unfold u_makedirs, hooked. apply kept_bind; [apply kept_ret|]. intros _. apply (way_kept x j b O D P e fuel (j ++ b) []). apply app_nil_r.
Qed.
(** ** Stopped any number of times: what was there is as it was, and nothing is new but directories on the way *)
Theorem C164_stopped x j b u l : ordinary x -> file_at (j ++ b) u -> is_dir_at x j ->
  let y := made_often u l x in ordinary y /\ p_cwd y = p_cwd x /\ p_now y = p_now x /\ p_umask y = p_umask x /\
  forall p, pget p (p_tree y) = pget p (p_tree x) \/
    entry_at x p None /\ pget p (p_tree y) = Some (PDir (Z.land 511 (Z.lnot (p_umask x))) (p_now x)) /\ exists b1 b2, b = b1 ++ b2 /\ p = j ++ b1.
Proof. intros O Hu D. rewrite (file_at_eq _ _ Hu). apply (often_way x j b l O D (proj1 Hu)). now apply way_start. Qed.
(** ** Called once more it returns, and ends as if it had never been stopped *)
Theorem C164_again x j b u l fuel : ordinary x -> file_at (j ++ b) u -> is_dir_at x j ->
  (forall m b', b = m :: b' -> pget (j ++ [m]) (p_tree x) = None) -> (List.length b < fuel)%nat ->
  exists x', lask (LMakedirs fuel u) (made_often u l x) = (Ok LUnit, x') /\
    (forall b1 b2, b = b1 ++ b2 -> content x' (j ++ b1) = Some None) /\
    (forall z, (forall b1 b2, b = b1 ++ b2 -> z <> j ++ b1) -> content x' z = content x z).
Proof.
  intros O Hu D F Lf. pose proof (often_way x j b l O D (proj1 Hu) x (way_start x j b O)) as H. rewrite <- (file_at_eq _ _ Hu) in H. set (y := made_often u l x) in *.
  destruct (way_split x j b O D y H F) as (c & b' & E & Dc & G). pose proof H as (Oy & _ & _ & _ & K).
  destruct (C68_makedirs_partial y (j ++ c) b' u fuel Oy) as (x' & R & _ & R1 & R2); auto; [rewrite <- app_assoc, <- E; exact Hu|rewrite E, app_length in Lf; lia|].
  exists x'. split; [cbn [lask]; unfold said, bind; rewrite R; reflexivity|]. split.
  - intros b1 b2 E1. rewrite E in E1. destruct (app_eq_app _ _ _ _ E1) as (l0 & [[A1 A2]|[A1 A2]]); [|subst b1; rewrite app_assoc; now apply (R1 l0 b2)].
    destruct l0 as [|a l0]; [rewrite app_nil_r in A1; subst c; specialize (R1 [] b' eq_refl); now rewrite app_nil_r in R1|].
    rewrite R2.
    + unfold content. subst c. destruct (so_dir y (or_sound _ Oy) (j ++ b1) (a :: l0)) as (mo & mt & G1); [easy| |now rewrite G1]. rewrite <- app_assoc. destruct Dc as (mo & mt & G1). congruence.
    + intros d1 d2 _ X. subst c. apply (f_equal (@List.length str)) in X. rewrite !app_length in X. cbn in X. lia.
  - intros z Hz. rewrite R2; [unfold content; destruct (K z) as [X|(_ & _ & b1 & b2 & E1 & X)]; [now rewrite X|now apply (Hz b1 b2) in X]|].
    intros d1 d2 E1 X. apply (Hz (c ++ d1) d2); [rewrite E, E1; now rewrite app_assoc|now rewrite app_assoc].
Qed.
(** ** Cases: stopped three times on the way to the fourth directory *)
Definition deep_uri : uri := file_uri (map lit ["b"; "n"; "o"; "p"; "q"]%string).
Theorem C164_witness : let l := [(UserError 0, 3, 9); (UserError 1, 9, 9); (UserError 2, 7, 9)] in
  ordinary loc1 /\ file_at (map lit ["b"]%string ++ map lit ["n"; "o"; "p"; "q"]%string) deep_uri /\ is_dir_at loc1 (map lit ["b"]%string) /\
  pget (map lit ["b"]%string ++ [lit "n"]) (p_tree loc1) = None /\
  map (fun n => content (made_often deep_uri l loc1) (map lit n)) [["b"; "n"]; ["b"; "n"; "o"]; ["b"; "n"; "o"; "p"]; ["b"; "n"; "o"; "p"; "q"]; ["a"; "f"]]%string = [Some None; Some None; None; None; Some (Some (lit "hello"))] /\
  map (fun n => content (snd (lask (LMakedirs 9 deep_uri) (made_often deep_uri l loc1))) (map lit n)) [["b"; "n"]; ["b"; "n"; "o"; "p"; "q"]; ["a"; "f"]]%string = [Some None; Some None; Some (Some (lit "hello"))].
Proof.
  cbv zeta. split; [apply loc1_ordinary|]. split; [split; [apply plain_b_ok; reflexivity|apply file_uri_eq, plain_b_ok; reflexivity]|]. split; [now exists 493%Z, 5%Z|]. vm_compute. auto.
Qed.
Print Assumptions C164_stopped.
Print Assumptions C164_again.
Print Assumptions C164_witness.
