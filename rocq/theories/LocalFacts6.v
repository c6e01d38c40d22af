(** Paths through real directories in the local tree, rename and shutil.move. *)
From Coq Require Import Lia.
From Verif Require Import Str Exc Utf8 UriParse BaseUri StrFacts UriFacts SpecUri UriFacts2 UriFacts3 UriFacts4 UriFacts5 UriFacts6.
From Verif Require Import Mem SpecMem MemFacts MemFacts2 MemFacts3 MemFacts4 MemFacts5 MemFacts6 MemFacts7 MemFacts8 MemFacts9 MemFacts10 MemFacts11 MemUri.
From Verif Require Import Generic SpecGen GenFacts1 GenFacts2 GenFacts3 GenFacts6 GenFacts8.
From Verif Require Import Misc Posix Local SpecLocal LocalFacts1 LocalFacts2.

(** *** Lists *)
Lemma strip_path_spec p q r : strip_path p q = Some r <-> q = p ++ r.
Proof.
  revert q. induction p as [|a p IH]; intros q; cbn.
  - split; [now intros [= ->]|now intros ->].
  - destruct q as [|b q]; [split; discriminate|]. destruct (str_eqb a b) eqn:E.
    + apply str_eqb_eq in E. subst b. rewrite IH. split; [now intros ->|now intros [= ->]].
    + split; [discriminate|]. intros [= -> _]. now rewrite str_eqb_refl in E.
Qed.
Lemma strip_path_none p q : strip_path p q = None <-> forall r, q <> p ++ r.
Proof.
  split.
  - intros E r Er. apply strip_path_spec in Er. congruence.
  - intros H. destruct (strip_path p q) as [r|] eqn:E; auto. apply strip_path_spec in E. now destruct (H r).
Qed.
Lemma is_below_true p q : is_below p q = true <-> below p q.
Proof.
  unfold is_below, below. split.
  - destruct (strip_path p q) as [r|] eqn:E; [|discriminate]. intros _. exists r. now apply strip_path_spec.
  - intros [r E]. apply strip_path_spec in E. now rewrite E.
Qed.
Lemma is_below_false p q : is_below p q = false <-> ~ below p q.
Proof. rewrite <- is_below_true. destruct (is_below p q); split; intros; congruence. Qed.

(** *** Renaming *)
Section Rename.
Variables (t : ptree) (p q : list str).
Hypothesis N : NoDup (map fst t).
Hypothesis Hpq : ~ below p q.
Hypothesis Hqp : ~ below q p.
Hypothesis Hq : forall r, r <> [] -> pget (q ++ r) t = None.
Let f (re : list str * pent) : list str * pent := match strip_path p (fst re) with Some r => (q ++ r, snd re) | None => re end.

Lemma prename_in y e : In (y, e) (prename p q t) <->
  (exists r, y = q ++ r /\ pget (p ++ r) t = Some e) \/ ((forall r, y <> p ++ r) /\ y <> q /\ pget y t = Some e).
Proof.
  unfold prename. rewrite in_map_iff. unfold pdel. split.
  - intros ([k e'] & E & I). apply filter_In in I as [I Nq]. cbn [fst snd] in *.
    apply negb_true_iff in Nq. apply (pget_in _ _ _ N) in I. destruct (strip_path p k) as [r|] eqn:Es.
    + injection E as <- <-. apply strip_path_spec in Es. subst k. left. exists r. auto.
    + injection E as <- <-. right. rewrite strip_path_none in Es. split; auto. split; auto. intros ->. now rewrite path_eqb_refl in Nq.
  - intros [(r & -> & E)|(H1 & H2 & E)].
    + exists (p ++ r, e). cbn [fst snd]. assert (Es : strip_path p (p ++ r) = Some r) by now apply strip_path_spec.
      rewrite Es. split; auto. apply filter_In. split; [now apply pget_in|]. cbn [fst]. apply negb_true_iff, path_eqb_neq.
      intros Eq. apply Hpq. now exists r.
    + exists (y, e). cbn [fst snd]. assert (Es : strip_path p y = None) by now apply strip_path_none. rewrite Es.
      split; auto. apply filter_In. split; [now apply pget_in|]. cbn [fst]. apply negb_true_iff, path_eqb_neq. congruence.
Qed.
Lemma prename_nodup : NoDup (map fst (prename p q t)).
Proof.
  unfold prename. fold f.
  assert (N1 : NoDup (map fst (pdel q t))) by now apply pdel_nodup.
  assert (S : forall l, NoDup (map fst l) -> (forall k e, In (k, e) l -> pget k t = Some e /\ k <> q) -> NoDup (map fst (map f l))).
  { induction l as [|[k e] l IH]; intros Nl Hl; [constructor|]. cbn [map fst] in *. inversion Nl as [|? ? Nk Nl']; subst.
    constructor; [|apply IH; auto; intros; apply Hl; now right].
    intros I. apply in_map_iff in I as (y & E & I). apply in_map_iff in I as ([k2 e2] & <- & I).
    destruct (Hl k e (or_introl eq_refl)) as [G1 Q1]. destruct (Hl k2 e2 (or_intror I)) as [G2 Q2].
    assert (Ne : k2 <> k) by (intros ->; apply Nk; change k with (fst (k, e2)); now apply in_map).
    revert E. unfold f. cbn [fst snd]. destruct (strip_path p k2) as [r2|] eqn:E2; destruct (strip_path p k) as [r1|] eqn:E1; cbn [fst].
    - apply strip_path_spec in E1, E2. subst. intros E. apply app_inv_head in E. congruence.
    - apply strip_path_spec in E2. subst k2. intros <-. destruct r2 as [|c r2]; [now rewrite app_nil_r in Q1|].
      rewrite Hq in G1 by easy. discriminate.
    - apply strip_path_spec in E1. subst k. intros ->. destruct r1 as [|c r1]; [now rewrite app_nil_r in Q2|].
      rewrite Hq in G2 by easy. discriminate.
    - auto. }
  apply S; auto. intros k e I. unfold pdel in I. apply filter_In in I as [I Nq]. apply pget_in in I; auto. split; auto.
  intros ->. cbn [fst] in Nq. now rewrite path_eqb_refl in Nq.
Qed.
Lemma prename_get : (forall r, pget (q ++ r) (prename p q t) = pget (p ++ r) t) /\ (forall r, pget (p ++ r) (prename p q t) = None) /\
  (forall y, (forall r, y <> p ++ r) -> (forall r, y <> q ++ r) -> pget y (prename p q t) = pget y t).
Proof.
  pose proof prename_nodup as N'. repeat split.
  - intros r. destruct (pget (q ++ r) (prename p q t)) as [e|] eqn:E.
    + apply pget_in in E; auto. apply prename_in in E as [(r' & E & F)|(H1 & H2 & E)].
      * apply app_inv_head in E. now subst.
      * exfalso. destruct r as [|c r]; [now rewrite app_nil_r in H2|]. rewrite Hq in E by easy. discriminate.
    + destruct (pget (p ++ r) t) as [e|] eqn:F; auto. assert (I : In (q ++ r, e) (prename p q t)) by (apply prename_in; left; eauto).
      apply pget_in in I; auto. congruence.
  - intros r. destruct (pget (p ++ r) (prename p q t)) as [e|] eqn:E; auto. exfalso.
    apply pget_in in E; auto. apply prename_in in E as [(r' & E & F)|(H1 & H2 & E)]; [|now apply (H1 r)].
    assert (X : forall a b c d : list str, a ++ b = c ++ d -> below a c \/ below c a).
    { clear. induction a as [|x a IH]; intros b c d E; [left; now exists c|]. destruct c as [|y c]; [right; now exists (x :: a)|].
      cbn in E. injection E as -> E. destruct (IH _ _ _ E) as [[r ->]|[r ->]]; [left|right]; now exists r. }
    destruct (X _ _ _ _ E); auto.
  - intros y H1 H2. destruct (pget y (prename p q t)) as [e|] eqn:E.
    + apply pget_in in E; auto. apply prename_in in E as [(r' & E & F)|(_ & _ & E)]; [now destruct (H2 r')|auto].
    + destruct (pget y t) as [e|] eqn:F; auto. assert (I : In (y, e) (prename p q t)).
      { apply prename_in. right. split; auto. split; auto. intros ->. now apply (H2 []); rewrite app_nil_r. }
      apply pget_in in I; auto. congruence.
Qed.
End Rename.

(** *** Lookup *)
Section Lookup.
Variable x : pst.
Hypothesis So : sound x.
Local Notation T := (p_tree x).

Lemma so_dir a b : b <> [] -> pget (a ++ b) T <> None -> is_dir_at x a.
Proof.
  revert a. induction b as [|c b IH] using rev_ind; intros a Nb H; [easy|].
  destruct b as [|d b]; [now apply (so_up _ So a c)|]. apply IH; [easy|].
  destruct (so_up _ So (a ++ d :: b) c) as (mo & mt & E); [now rewrite <- app_assoc|congruence].
Qed.
Lemma walk_enter f b cur c rest : is_dir_at x cur -> plain_name c -> (exists e, pget (cur ++ [c]) T = Some e /\ is_plink e = false) ->
  pwalk T f b cur (c :: rest) = pwalk T f b (cur ++ [c]) rest.
Proof.
  intros (mo & mt & D) P (e & E & L). destruct (plain_step c P) as [S1 S2].
  destruct b; cbn [pwalk]; rewrite D, S1, S2, E; destruct e; try discriminate; reflexivity.
Qed.
Lemma walk_here f b cur e : pget cur T = Some e -> pwalk T f b cur [] = Ok (At cur e).
Proof. intros E. destruct b; cbn [pwalk]; rewrite E; now destruct e. Qed.
Lemma walk_link b cur c tg : is_dir_at x cur -> plain_name c -> pget (cur ++ [c]) T = Some (PLink tg) ->
  pwalk T false b cur [c] = Ok (At (cur ++ [c]) (PLink tg)).
Proof.
  intros (mo & mt & D) P E. destruct (plain_step c P) as [S1 S2].
  destruct b; cbn [pwalk]; rewrite D, S1, S2, E; reflexivity.
Qed.
Lemma walk_none f b cur c rest : is_dir_at x cur -> plain_name c -> pget (cur ++ [c]) T = None ->
  pwalk T f b cur (c :: rest) = match rest with [] => Ok (Gap cur c) | _ => Raise (OSError ENOENT) end.
Proof.
  intros (mo & mt & D) P E. destruct (plain_step c P) as [S1 S2].
  destruct b; cbn [pwalk]; rewrite D, S1, S2, E; reflexivity.
Qed.
Lemma walk_file f b cur c rest : is_file_at x cur -> pwalk T f b cur (c :: rest) = Raise (OSError ENOTDIR).
Proof. intros (d & mo & mt & E). destruct b; cbn [pwalk]; now rewrite E. Qed.
Lemma walk_down f b rest cs : forall cur, Forall plain_name cs -> is_dir_at x (cur ++ cs) -> pwalk T f b cur (cs ++ rest) = pwalk T f b (cur ++ cs) rest.
Proof.
  induction cs as [|c cs IH]; intros cur P D; [now rewrite app_nil_r|].
  inversion P as [|? ? Pc Pcs]; subst.
  assert (D' : is_dir_at x ((cur ++ [c]) ++ cs)) by now rewrite <- app_assoc.
  assert (Dc : is_dir_at x (cur ++ [c])).
  { destruct cs as [|d cs]; [now rewrite app_nil_r in D'|]. apply (so_dir (cur ++ [c]) (d :: cs)); [easy|]. destruct D' as (? & ? & E). congruence. }
  cbn [app]. rewrite walk_enter; auto.
  - rewrite IH by auto. now rewrite <- app_assoc.
  - apply (so_dir cur [c]); [easy|]. destruct Dc as (? & ? & E). congruence.
  - destruct Dc as (mo & mt & E). eauto.
Qed.

Lemma plook_abs f cs : Forall plain_name cs -> plook x f (abs_path cs) = pwalk T f pbudget [] cs.
Proof.
  intros H1. unfold plook. rewrite no_nul by auto.
  assert (P : exists r, abs_path cs = cSlash :: r) by (destruct cs; cbn; eauto).
  destruct P as [r P]. destruct (abs_path cs) as [|a l] eqn:Ea; [discriminate|].
  assert (Pr : prefixb [cSlash] (a :: l) = true) by (apply prefixb_spec; injection P as -> ->; now exists r).
  rewrite Pr, <- Ea, split_abs by now apply plain_names.
  destruct (so_root _ So) as (mo & mt & D).
  assert (W : forall l, pwalk T f pbudget [] ([] :: l) = pwalk T f pbudget [] l) by (intros l0; cbn [pwalk pbudget]; now rewrite D).
  destruct cs as [|c cs]; now rewrite !W.
Qed.
Lemma look_at f cs e : Forall plain_name cs -> pget cs T = Some e -> (is_plink e = true -> f = false) -> plook x f (abs_path cs) = Ok (At cs e).
Proof.
  intros P E L. rewrite plook_abs by auto. destruct (snoc_cases cs) as [->|(i & n & ->)]; [now apply walk_here|].
  assert (D : is_dir_at x i) by (apply (so_dir i [n]); [easy|congruence]).
  apply Forall_app in P as [Pi Pn]. inversion Pn as [|? ? Pn' _]; subst.
  rewrite (walk_down f pbudget [n] i []) by auto. cbn [app].
  destruct (is_plink e) eqn:El.
  - destruct e; try discriminate. rewrite L by auto. now apply walk_link.
  - rewrite walk_enter by eauto. now apply walk_here.
Qed.
Lemma look_gap f i n : Forall plain_name (i ++ [n]) -> is_dir_at x i -> pget (i ++ [n]) T = None -> plook x f (abs_path (i ++ [n])) = Ok (Gap i n).
Proof.
  intros P D E. rewrite plook_abs by auto. apply Forall_app in P as [Pi Pn]. inversion Pn as [|? ? Pn' _]; subst.
  rewrite (walk_down f pbudget [n] i []) by auto. cbn [app]. now rewrite walk_none.
Qed.
Lemma look_void f i n m rest : Forall plain_name (i ++ n :: m :: rest) -> is_dir_at x i -> pget (i ++ [n]) T = None ->
  plook x f (abs_path (i ++ n :: m :: rest)) = Raise (OSError ENOENT).
Proof.
  intros P D E. rewrite plook_abs by auto. apply Forall_app in P as [Pi Pn]. inversion Pn as [|? ? Pn' _]; subst.
  rewrite (walk_down f pbudget (n :: m :: rest) i []) by auto. cbn [app]. now rewrite walk_none.
Qed.
Lemma look_under_file f i m rest : Forall plain_name (i ++ m :: rest) -> is_file_at x i ->
  plook x f (abs_path (i ++ m :: rest)) = Raise (OSError ENOTDIR).
Proof.
  intros P F. rewrite plook_abs by auto. destruct (snoc_cases i) as [->|(j & n & ->)].
  { destruct F as (? & ? & ? & F). destruct (so_root _ So) as (? & ? & R). congruence. }
  rewrite <- app_assoc in *. cbn [app] in *. apply Forall_app in P as [Pi Pn]. inversion Pn as [|? ? Pn' _]; subst.
  assert (D : is_dir_at x j) by (apply (so_dir j [n]); [easy|]; destruct F as (? & ? & ? & F); congruence).
  rewrite (walk_down f pbudget (n :: m :: rest) j []) by auto. cbn [app].
  rewrite walk_enter; auto; [now apply walk_file|]. destruct F as (d & mo & mt & F). eauto.
Qed.
End Lookup.
