(** The part of a local tree at and below a directory: lookups that start there stay there. *)
From Coq Require Import Lia.
From Verif Require Import Str Exc UriParse BaseUri StrFacts SpecUri Mem SpecMem Misc Posix Local SpecLocal Generic LocProg SpecHome LocalFacts1 LocalFacts6 ApartFacts2.

Section Home.
Variable D : list str.
Notation inb := (fun qe : list str * pent => is_below D (fst qe)).
Notation outb := (fun qe : list str * pent => negb (is_below D (fst qe))).
Definition innards (t : ptree) : ptree := filter inb t.
Definition outer (t : ptree) : ptree := filter outb t.

Lemma below_self p : is_below D (D ++ p) = true. Proof. apply is_below_true. now exists p. Qed.
Lemma pget_filter (f : list str -> bool) q t : f q = true -> pget q (filter (fun qe => f (fst qe)) t) = pget q t.
Proof.
  intros H. induction t as [|[r e] t IH]; cbn [filter pget fst]; [reflexivity|]. destruct (f r) eqn:E; cbn [pget]; [now rewrite IH|].
  rewrite path_eqb_neq; [exact IH|]. intros ->. congruence.
Qed.
Lemma get_in q t : is_below D q = true -> pget q (innards t) = pget q t. Proof. apply (pget_filter (is_below D)). Qed.
Lemma get_out q t : is_below D q = false -> pget q (outer t) = pget q t. Proof. intros H. apply (pget_filter (fun r => negb (is_below D r))). now rewrite H. Qed.
Lemma filter_pset (f : list str -> bool) q e t : filter (fun qe => f (fst qe)) (pset q e t) = if f q then pset q e (filter (fun qe => f (fst qe)) t) else filter (fun qe => f (fst qe)) t.
Proof.
  induction t as [|[r g] t IH]; cbn [filter pset fst].
  - now destruct (f q).
  - destruct (path_eqb q r) eqn:E; cbn [filter fst].
    + apply path_eqb_spec in E. subst r. destruct (f q); [|reflexivity]. cbn [pset]. now rewrite path_eqb_refl.
    + rewrite IH. destruct (f r) eqn:Er, (f q) eqn:Eq; cbn [pset]; try rewrite E; reflexivity.
Qed.
Lemma filter_pdel (f : list str -> bool) q t : filter (fun qe => f (fst qe)) (pdel q t) = if f q then pdel q (filter (fun qe => f (fst qe)) t) else filter (fun qe => f (fst qe)) t.
Proof.
  unfold pdel. induction t as [|[r g] t IH]; cbn [filter fst]; [now destruct (f q)|].
  destruct (path_eqb q r) eqn:E; cbn [negb filter fst].
  - apply path_eqb_spec in E. subst r. rewrite IH. destruct (f q) eqn:Eq; cbn [filter fst]; [now rewrite path_eqb_refl|reflexivity].
  - rewrite IH. destruct (f r) eqn:Er, (f q) eqn:Eq; cbn [filter fst]; try rewrite E; reflexivity.
Qed.
Lemma pset_in q e t : is_below D q = true -> innards (pset q e t) = pset q e (innards t).
Proof. intros H. unfold innards. rewrite (filter_pset (is_below D)). now rewrite H. Qed.
Lemma pset_out q e t : is_below D q = true -> outer (pset q e t) = outer t.
Proof. intros H. unfold outer. rewrite (filter_pset (fun r => negb (is_below D r))). now rewrite H. Qed.
Lemma pdel_in q t : is_below D q = true -> innards (pdel q t) = pdel q (innards t).
Proof. intros H. unfold innards. rewrite (filter_pdel (is_below D)). now rewrite H. Qed.
Lemma pdel_out q t : is_below D q = true -> outer (pdel q t) = outer t.
Proof. intros H. unfold outer. rewrite (filter_pdel (fun r => negb (is_below D r))). now rewrite H. Qed.
Lemma below_app q r : is_below D q = true -> is_below D (q ++ r) = true.
Proof. rewrite !is_below_true. intros [x ->]. exists (x ++ r). now rewrite app_assoc. Qed.
Lemma prename_in p q t : is_below D p = true -> is_below D q = true -> innards (prename p q t) = prename p q (innards t).
Proof.
  intros Hp Hq. unfold prename. rewrite <- pdel_in by exact Hq. generalize (pdel q t) as l. intros l. unfold innards. induction l as [|[r e] l IH]; cbn [map filter fst snd]; [reflexivity|].
  destruct (strip_path p r) as [s|] eqn:E; cbn [fst].
  - apply strip_path_spec in E. subst r. rewrite !below_app by auto. cbn [map fst snd]. rewrite (proj2 (strip_path_spec p (p ++ s) s) eq_refl). now rewrite IH.
  - destruct (is_below D r); cbn [map fst snd]; [rewrite E|]; now rewrite IH.
Qed.
Lemma prename_out p q t : is_below D p = true -> is_below D q = true -> outer (prename p q t) = outer t.
Proof.
  intros Hp Hq. unfold prename. rewrite <- (pdel_out q t Hq). generalize (pdel q t) as l. intros l. unfold outer. induction l as [|[r e] l IH]; cbn [map filter fst snd]; [reflexivity|].
  destruct (strip_path p r) as [s|] eqn:E; cbn [fst].
  - apply strip_path_spec in E. subst r. rewrite !below_app by auto. exact IH.
  - destruct (is_below D r); cbn [negb]; now rewrite IH.
Qed.
Lemma kids_in d t : is_below D d = true -> pchildren d (innards t) = pchildren d t.
Proof.
  intros H. unfold pchildren, innards. induction t as [|[r e] t IH]; cbn [filter flat_map fst]; [reflexivity|].
  destruct (is_below D r) eqn:E; cbn [flat_map fst]; [now rewrite IH|]. destruct (child_name d r) as [n|] eqn:C; [|exact IH].
  apply child_name_spec in C. subst r. rewrite below_app in E by exact H. discriminate E.
Qed.

(** Two states with the same entries there; outside nothing changes. *)
Variables x0 y0 : pst.
Hypothesis HD : home_dir D.
Hypothesis roof1 : forall A n B, D = A ++ n :: B -> is_dir_at x0 A.
Hypothesis roof2 : forall A n B, D = A ++ n :: B -> is_dir_at y0 A.
Record twins (x y : pst) : Prop := {
  tw_in : innards (p_tree x) = innards (p_tree y);
  tw_out1 : outer (p_tree x) = outer (p_tree x0);
  tw_out2 : outer (p_tree y) = outer (p_tree y0);
  tw_now : p_now x = p_now y;
  tw_umask : p_umask x = p_umask y;
  tw_same1 : p_cwd x = p_cwd x0 /\ p_now x = p_now x0 /\ p_umask x = p_umask x0;
  tw_same2 : p_cwd y = p_cwd y0;
  tw_names : forall p, pget (D ++ p) (p_tree x) <> None -> Forall mild p;
  tw_links : forall p tg, pget (D ++ p) (p_tree x) = Some (PLink tg) -> home_text D tg }.
Lemma not_below A n B : D = A ++ n :: B -> is_below D A = false.
Proof. intros E. apply is_below_false. intros [r E']. apply (f_equal (@length str)) in E, E'. rewrite !app_length in *. cbn in *. lia. Qed.
Lemma tw_roof1 x y A n B : twins x y -> D = A ++ n :: B -> is_dir_at x A.
Proof. intros T E. unfold is_dir_at. rewrite <- (get_out A (p_tree x) (not_below A n B E)), (tw_out1 _ _ T), (get_out A (p_tree x0) (not_below A n B E)). exact (roof1 A n B E). Qed.
Lemma tw_roof2 x y A n B : twins x y -> D = A ++ n :: B -> is_dir_at y A.
Proof. intros T E. unfold is_dir_at. rewrite <- (get_out A (p_tree y) (not_below A n B E)), (tw_out2 _ _ T), (get_out A (p_tree y0) (not_below A n B E)). exact (roof2 A n B E). Qed.
Lemma tw_get x y q : twins x y -> is_below D q = true -> pget q (p_tree x) = pget q (p_tree y).
Proof. intros T H. rewrite <- (get_in q (p_tree x) H), <- (get_in q (p_tree y) H). now rewrite (tw_in _ _ T). Qed.
Lemma tw_kids x y q : twins x y -> is_below D q = true -> pchildren q (p_tree x) = pchildren q (p_tree y).
Proof. intros T H. rewrite <- (kids_in q (p_tree x) H), <- (kids_in q (p_tree y) H). now rewrite (tw_in _ _ T). Qed.

(** Names and texts *)
Lemma mild_sub s w : mild s -> (exists a b, s = a ++ w ++ b) -> mild w.
Proof.
  intros [F P Q] (a & b & ->). constructor.
  - intros c Hc I. apply (F c Hc). apply in_app_iff. right. apply in_app_iff. now left.
  - intros x y ->. apply (P (a ++ x) (y ++ b)). now rewrite <- !app_assoc.
  - intros x y ->. apply (Q (a ++ x) (y ++ b)). now rewrite <- !app_assoc.
Qed.
Lemma mild_piece s w : mild s -> In w (split_on cSlash s) -> mild w. Proof. intros M I. apply (mild_sub s w M). exact (proj2 (piece_sub cSlash s) w I). Qed.
Lemma mild_dotdot w : mild w -> str_eqb w dotdot = false.
Proof. intros M. destruct (str_eqb w dotdot) eqn:E; [|reflexivity]. apply str_eqb_eq in E. subst w. now destruct (mi_dots _ M [] []). Qed.

(** Lookup *)
Definition spot_in (s : spot) : Prop := match s with At q _ => is_below D q = true | Gap d n => is_below D (d ++ [n]) = true /\ mild n end.
Lemma split_home tg : home_text D tg -> exists rest, split_on cSlash tg = [] :: D ++ rest /\ Forall mild rest.
Proof.
  intros [M (t & Ht & E)]. pose proof (hd_some D HD) as N. pose proof (hd_names D HD) as Nm.
  assert (S : split_on cSlash (abs_path D) = [] :: D).
  { clear - N Nm. destruct D as [|c l]; [easy|]. unfold abs_path. cbn [flat_map app]. change (cSlash :: c ++ flat_map (fun c => cSlash :: c) l) with ([] ++ cSlash :: (c ++ flat_map (fun c => cSlash :: c) l)). rewrite (split_on_app cSlash [] _ (fun H => H)). f_equal. clear N.
    revert c Nm. induction l as [|d l IH]; intros c Nm; inversion Nm as [|? ? (H1 & H2 & _) Nm']; subst; cbn [flat_map].
    - rewrite app_nil_r. now apply split_on_none.
    - change (c ++ (cSlash :: d) ++ flat_map (fun c => cSlash :: c) l) with (c ++ cSlash :: (d ++ flat_map (fun c => cSlash :: c) l)). rewrite split_on_app by exact H2. f_equal. now apply IH. }
  destruct Ht as [->|[r ->]].
  - rewrite app_nil_r in E. subst tg. rewrite S. exists []. rewrite app_nil_r. now split.
  - exists (split_on cSlash r). rewrite E, split_on_gen, S. split; [reflexivity|]. apply Forall_forall. intros w I. apply (mild_piece tg w M). rewrite E, split_on_gen, S. apply in_app_iff. now right.
Qed.
Lemma name_no c A B : D = A ++ c :: B -> str_eqb c [] || str_eqb c dot = false /\ str_eqb c dotdot = false /\ mild c.
Proof.
  intros E. pose proof (hd_names D HD) as Nm. rewrite E in Nm. apply Forall_app in Nm as [_ Nm]. inversion Nm as [|? ? (H1 & H2 & H3 & H4) _]; subst.
  split; [|split; [now apply mild_dotdot|exact H4]]. destruct (str_eqb c []) eqn:E1; [now apply str_eqb_eq in E1|]. destruct (str_eqb c dot) eqn:E2; [now apply str_eqb_eq in E2|reflexivity].
Qed.
Section Walk.
Variables (x y : pst) (T : twins x y) (follow : bool).
Notation W1 := (pwalk (p_tree x) follow). Notation W2 := (pwalk (p_tree y) follow).
Definition okw (b : nat) (cur comps : list str) : Prop := W1 b cur comps = W2 b cur comps /\ forall s, W1 b cur comps = Ok s -> spot_in s.
Definition good_start (b : nat) : Prop := forall rest, Forall mild rest -> okw b [] ([] :: D ++ rest) /\ forall p, okw b (D ++ p) rest.
Lemma okw_raise b cur comps e : W1 b cur comps = Raise e -> W2 b cur comps = Raise e -> okw b cur comps.
Proof. intros E1 E2. split; [congruence|]. intros s H. rewrite E1 in H. discriminate H. Qed.
(** A name looked up in a directory *)
Lemma entry_step b cur c rest : (forall b', S b' = b -> good_start b') -> Forall mild rest -> mild c -> is_below D (cur ++ [c]) = true -> is_dir_at x cur -> is_dir_at y cur ->
  str_eqb c [] || str_eqb c dot = false -> okw b (cur ++ [c]) rest -> okw b cur (c :: rest).
Proof.
  intros G Mr Mc Hb (mo & mt & Ex) (mo' & mt' & Ey) Ec IH. unfold okw in *.
  assert (U : forall t m1 m2, pget cur t = Some (PDir m1 m2) -> pwalk t follow b cur (c :: rest) =
     match pget (cur ++ [c]) t with
     | None => match rest with [] => Ok (Gap cur c) | _ => Raise (OSError ENOENT) end
     | Some (PLink tg) =>
         if match rest with [] => negb follow | _ => false end then Ok (At (cur ++ [c]) (PLink tg))
         else match b, tg with
              | O, _ => Raise (OSError ELOOP)
              | _, [] => Raise (OSError ENOENT)
              | S b, _ => pwalk t follow b (if prefixb [cSlash] tg then [] else cur) (split_on cSlash tg ++ rest)
              end
     | Some _ => pwalk t follow b (cur ++ [c]) rest
     end).
  { intros t m1 m2 Eg. destruct b; cbn; rewrite Eg, Ec, (mild_dotdot c Mc); reflexivity. }
  rewrite (U _ _ _ Ex), (U _ _ _ Ey). rewrite <- (tw_get x y (cur ++ [c]) T Hb).
  destruct (pget (cur ++ [c]) (p_tree x)) as [[d m1 m2|m1 m2|tg]|] eqn:Eg; try exact IH.
  - destruct (match rest with [] => negb follow | _ => false end).
    { split; [reflexivity|]. intros s H. injection H as <-. exact Hb. }
    destruct b as [|b']; [split; [reflexivity|discriminate]|]. destruct tg as [|a tg]; [split; [reflexivity|discriminate]|].
    assert (Ht : home_text D (a :: tg)).
    { apply is_below_true in Hb as [p Ep]. rewrite Ep in Eg. exact (tw_links _ _ T p _ Eg). }
    specialize (G b' eq_refl).
    destruct (split_home _ Ht) as (r1 & Er & M1). assert (Pr : prefixb [cSlash] (a :: tg) = true).
    { destruct Ht as [_ (t & _ & E)]. unfold abs_path in E. pose proof (hd_some D HD) as N. destruct D as [|d0 D']; [easy|]. cbn in E. injection E as -> _. reflexivity. }
    rewrite Pr, Er. cbn [app]. rewrite <- app_assoc. apply (proj1 (G (r1 ++ rest) ltac:(apply Forall_app; now split))).
  - split; [reflexivity|]. destruct rest; [|discriminate]. intros s H. injection H as <-. now split.
Qed.
Lemma walk_in b : (forall b', S b' = b -> good_start b') -> forall rest, Forall mild rest -> forall p, okw b (D ++ p) rest.
Proof.
  intros G rest Mr. induction Mr as [|c rest Mc Mr IH]; intros p; pose proof (tw_get x y (D ++ p) T (below_self p)) as Eg.
  - unfold okw. destruct b; cbn; rewrite <- Eg; destruct (pget (D ++ p) (p_tree x)) as [[]|] eqn:E; (split; [reflexivity|]; intros s H; try discriminate H; injection H as <-; apply below_self).
  - destruct (pget (D ++ p) (p_tree x)) as [[d m1 m2|m1 m2|tg]|] eqn:E.
    + apply (okw_raise _ _ _ (OSError ENOTDIR)); destruct b; cbn; rewrite ?E, <- ?Eg; reflexivity.
    + destruct (str_eqb c [] || str_eqb c dot) eqn:Ec.
      * specialize (IH p). unfold okw in *. assert (U : forall t m1 m2, pget (D ++ p) t = Some (PDir m1 m2) -> pwalk t follow b (D ++ p) (c :: rest) = pwalk t follow b (D ++ p) rest).
        { intros t n1 n2 Et. destruct b; cbn; rewrite Et, Ec; reflexivity. }
        rewrite (U _ _ _ E), (U _ _ _ (eq_sym Eg)). exact IH.
      * apply entry_step; auto; [rewrite <- app_assoc; apply below_self|now exists m1, m2|exists m1, m2; now rewrite <- Eg|]. rewrite <- app_assoc. apply IH.
    + apply (okw_raise _ _ _ (OSError ENOTDIR)); destruct b; cbn; rewrite ?E, <- ?Eg; reflexivity.
    + apply (okw_raise _ _ _ (OSError ENOENT)); destruct b; cbn; rewrite ?E, <- ?Eg; reflexivity.
Qed.
Lemma walk_down b : (forall b', S b' = b -> good_start b') -> forall rest, Forall mild rest -> forall B A, D = A ++ B -> okw b A (B ++ rest).
Proof.
  intros G rest Mr B. induction B as [|n B IH]; intros A E.
  - rewrite app_nil_r in E. cbn [app]. subst A. pose proof (walk_in b G rest Mr []) as Q. now rewrite app_nil_r in Q.
  - cbn [app]. destruct (name_no n A B E) as (N1 & N2 & Mn). pose proof (tw_roof1 x y A n B T E) as R1. pose proof (tw_roof2 x y A n B T E) as R2.
    assert (E' : D = (A ++ [n]) ++ B) by (now rewrite <- app_assoc). specialize (IH (A ++ [n]) E').
    destruct B as [|m B].
    + apply entry_step; auto. rewrite app_nil_r in E'. rewrite <- E'. pose proof (below_self []) as Q. now rewrite app_nil_r in Q.
    + destruct (tw_roof1 x y (A ++ [n]) m B T E') as (a1 & a2 & Ea). destruct (tw_roof2 x y (A ++ [n]) m B T E') as (b1 & b2 & Eb). destruct R1 as (c1 & c2 & Ec), R2 as (d1 & d2 & Ed).
      unfold okw in *. assert (U : forall t m1 m2 m3 m4, pget A t = Some (PDir m1 m2) -> pget (A ++ [n]) t = Some (PDir m3 m4) -> pwalk t follow b A (n :: (m :: B) ++ rest) = pwalk t follow b (A ++ [n]) ((m :: B) ++ rest)).
      { intros t m1 m2 m3 m4 H1 H2. destruct b; cbn -[app]; rewrite H1, N1, N2, H2; reflexivity. }
      rewrite (U _ _ _ _ _ Ec Ea), (U _ _ _ _ _ Ed Eb). exact IH.
Qed.
Lemma starts b : good_start b.
Proof.
  assert (Z : forall b, (forall b', S b' = b -> good_start b') -> good_start b).
  { clear b. intros b G rest Mr. split; [|now apply walk_in]. pose proof (walk_down b G rest Mr D [] eq_refl) as H.
    assert (X : exists n B, D = [] ++ n :: B) by (pose proof (hd_some D HD); destruct D as [|n B]; [easy|now exists n, B]). destruct X as (n & B & E).
    destruct (tw_roof1 x y [] n B T E) as (c1 & c2 & Ec). destruct (tw_roof2 x y [] n B T E) as (d1 & d2 & Ed).
    unfold okw in *. assert (U : forall t m1 m2, pget [] t = Some (PDir m1 m2) -> pwalk t follow b [] ([] :: D ++ rest) = pwalk t follow b [] (D ++ rest)).
    { intros t m1 m2 H1. destruct b; cbn -[app]; rewrite H1; reflexivity. }
    now rewrite (U _ _ _ Ec), (U _ _ _ Ed). }
  induction b as [|b IH]; apply Z; [discriminate|]. intros b' E. injection E as ->. exact IH.
Qed.
Lemma look p : home_text D p -> plook x follow p = plook y follow p /\ forall s, plook x follow p = Ok s -> spot_in s.
Proof.
  intros H. destruct (split_home p H) as (rest & E & Mr). unfold plook. destruct (has_char 0 p); [split; [reflexivity|discriminate]|].
  assert (P : exists q, p = cSlash :: q).
  { destruct H as [_ (t & _ & ->)]. pose proof (hd_some D HD). unfold abs_path. destruct D as [|d0 D']; [easy|]. now eexists. }
  destruct P as [q ->]. assert (Pr : prefixb [cSlash] (cSlash :: q) = true) by reflexivity. rewrite Pr, E. apply (proj1 (starts pbudget rest Mr)).
Qed.
End Walk.
End Home.
