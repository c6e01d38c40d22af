(** The rules of SpecPosix.v determine results and effects; what was written is read back. *)
From Coq Require Import Lia Sorted Permutation.
From Verif Require Import Str Exc UriParse BaseUri StrFacts SpecUri SpecParse SpecNames NamesFacts Mem Misc Generic Posix Local SpecLocal.
From Verif Require Import MemFacts7 LocalFacts1 LocalFacts12 LocalFacts15 SpecPosix PosixFacts PosixFacts2.
Local Notation looked := SpecPosix.looked.

Lemma aims_dir x u p mo mt : aims x u (Is p (PDir mo mt)) -> sees x false u (Is p (PDir mo mt)).
Proof.
  intros A. destruct (trailing_dec u) as [T|T]; [|now apply aims_plain]. change (Is p (PDir mo mt)) with (slashed_place (Is p (PDir mo mt))). apply aims_slash; auto. discriminate.
Qed.
Lemma ends_one u c c' : ends_in u c -> ends_in u c' -> c = c'. Proof. rewrite !ends_iff. congruence. Qed.
Lemma link_not_dir x p t : entry_at x p (Some (PLink t)) -> ~ is_dir_at x p. Proof. intros E (mo & mt & D). unfold entry_at in E. congruence. Qed.
Lemma aims_spot x u o : aims x u o -> match o with Is p e => entry_at x p (Some e) | Free d n => is_dir_at x d /\ entry_at x (d ++ [n]) None | Wrong _ => True end.
Proof. intros H. apply aims_iff in H. destruct o as [p e|d n|e]; auto; apply look_spot in H; exact H. Qed.
Lemma aims_link_ends x u c q t : sound x -> ends_in u c -> special c -> aims x u (Is q (PLink t)) -> False.
Proof. intros So E S A. apply (link_not_dir x q t); [exact (aims_spot _ _ _ A)|]. eapply aims_dots; eauto. Qed.
Lemma full_not_empty x p : full_dir x p -> empty_dir x p -> False.
Proof. intros (_ & n & e & E) (_ & N). specialize (N n). unfold entry_at in *. congruence. Qed.

Ltac same_place :=
  repeat match goal with
  | A : sees ?x ?f ?u ?o, B : sees ?x ?f ?u ?o' |- _ => let E := fresh "Eo" in pose proof (sees_det _ _ _ _ _ A B) as E; clear B; try discriminate E; try (injection E as <- <-); try (injection E as <-); try subst
  | A : aims ?x ?u ?o, B : aims ?x ?u ?o' |- _ => let E := fresh "Eo" in pose proof (aims_det _ _ _ _ A B) as E; clear B; try discriminate E; try (injection E as <- <-); try (injection E as <-); try subst
  end.
Ltac absents := repeat match goal with A : absent _ _ |- _ => destruct A; subst end.
Ltac settle := match goal with
  | A : only ?x ?y ?p ?o, B : only ?x ?z ?p ?o |- _ => split; [reflexivity|exact (only_alike _ _ _ _ _ A B)]
  | |- _ => split; [reflexivity|apply alike_refl]
  end.
Lemma special_dot : special (lit "."). Proof. right. now left. Qed.
Lemma special_dots : special (lit ".."). Proof. right. now right. Qed.

Theorem removes_det x u r x1 r' x2 : sound x -> removes x u r x1 -> removes x u r' x2 -> r = r' /\ alike x1 x2.
Proof.
  intros So H H'.
  destruct H as [p e x1 Se Ne O|p mo mt Se En|p mo mt Se En|p mo mt q t Se Ai|p mo mt x1 E1 E2 Ai Em Np O|p mo mt E1 E2 Ai Fu Np|mo mt E1 E2 Ai|o e Se Ab];
  destruct H' as [p' e' x2 Se' Ne' O'|p' mo' mt' Se' En'|p' mo' mt' Se' En'|p' mo' mt' q' t' Se' Ai'|p' mo' mt' x2 E1' E2' Ai' Em' Np' O'|p' mo' mt' E1' E2' Ai' Fu' Np'|mo' mt' E1' E2' Ai'|o' e' Se' Ab'];
  try (pose proof (aims_dir _ _ _ _ _ Ai) as Se); try (pose proof (aims_dir _ _ _ _ _ Ai') as Se'); absents; same_place; try settle; try congruence; try contradiction;
  try (exfalso; first [pose proof (ends_one _ _ _ En En'); discriminate|now apply (aims_link_ends x u _ _ _ So En special_dot) in Ai'|now apply (aims_link_ends x u _ _ _ So En special_dots) in Ai'
    |now apply (aims_link_ends x u _ _ _ So En' special_dot) in Ai|now apply (aims_link_ends x u _ _ _ So En' special_dots) in Ai|eapply full_not_empty; eassumption]).
Qed.
Theorem mkdirs_det x u r x1 r' x2 : mkdirs x u r x1 -> mkdirs x u r' x2 -> r = r' /\ alike x1 x2.
Proof.
  intros H H'. destruct H as [P|d n x1 P A O|p e P A|e P A]; destruct H' as [P'|d' n' x2 P' A' O'|p' e' P' A'|e' P' A']; try contradiction; same_place; settle.
Qed.
Theorem links_det x u v r x1 r' x2 : links x u v r x1 -> links x u v r' x2 -> r = r' /\ alike x1 x2.
Proof.
  assert (Nv : forall o, has_nul v -> aims x v o -> o = Wrong ValueError) by (intros o N A; eapply aims_det; [exact A|now apply nul_aims]).
  intros H H'. destruct H as [N|P N|t d n x1 P Nt Nu A Tr O|d n P Nu A Tr|p e P Nu A|e P Nu A];
  destruct H' as [N'|P' N'|t' d' n' x2 P' Nt' Nu' A' Tr' O'|d' n' P' Nu' A' Tr'|p' e' P' Nu' A'|e' P' Nu' A'];
  try contradiction; same_place; try settle;
  try (destruct N as [N|N]; [try contradiction|]; try contradiction; try (apply (Nv _ N) in A'; try discriminate A'; injection A' as ->; settle));
  try (destruct N' as [N'|N']; [try contradiction|]; try contradiction; try (apply (Nv _ N') in A; try discriminate A; injection A as ->; settle));
  try (exfalso; apply paths_iff in P, P'; congruence).
  - exfalso. destruct N as (s & P1 & I). apply paths_iff in P', P1. rewrite P' in P1. subst s. exact I.
  - exfalso. destruct N' as (s & P1 & I). apply paths_iff in P, P1. rewrite P in P1. subst s. exact I.
  - assert (t = t') as <- by (apply paths_iff in P, P'; congruence). settle.
Qed.
Lemma opens_det x u p o p' o' : opens x u p o -> opens x u p' o' -> p = p' /\ o = o'.
Proof.
  intros [p1 d mo mt T S|d n T S]; intros [p2 d2 mo2 mt2 T2 S2|d2 n2 T2 S2]; same_place; auto; try congruence.
Qed.
Lemma refused_det x u e e' : refused x u e -> refused x u e' -> e = e'.
Proof.
  intros [p mo mt T S|e1 T S|o T A N|e1 T A]; intros [p2 mo2 mt2 T2 S2|e2 T2 S2|o2 T2 A2 N2|e2 T2 A2]; try contradiction; same_place; auto; try congruence;
  match goal with N : forall e, Wrong ?y <> Wrong e |- _ => now destruct (N y) end.
Qed.
Lemma opens_refused x u p o e : opens x u p o -> refused x u e -> False.
Proof. intros [p1 d mo mt T S|d n T S]; intros [p2 mo2 mt2 T2 S2|e2 T2 S2|o2 T2 A2 N2|e2 T2 A2]; try contradiction; same_place. Qed.
Ltac opened := repeat match goal with
  | A : opens ?x ?u ?p ?o, B : opens ?x ?u ?p' ?o' |- _ => let E := fresh "E" in destruct (opens_det _ _ _ _ _ _ A B) as [? E]; clear B; try discriminate E; try (injection E as <- <- <-); subst
  | A : opens ?x ?u _ _, B : refused ?x ?u _ |- _ => destruct (opens_refused _ _ _ _ _ A B)
  | A : refused ?x ?u ?e, B : refused ?x ?u ?e' |- _ => pose proof (refused_det _ _ _ _ A B); clear B; subst
  end.
Theorem writes_det x u ds r x1 r' x2 : writes x u ds r x1 -> writes x u ds r' x2 -> r = r' /\ alike x1 x2.
Proof. intros [p d mo mt x1' A O|p x1' A O|e A]; intros [p' d' mo' mt' x2' A' O'|p' x2' A' O'|e' A']; opened; settle. Qed.
Theorem appends_det x u ds r x1 r' x2 : appends x u ds r x1 -> appends x u ds r' x2 -> r = r' /\ alike x1 x2.
Proof. intros [p d mo mt x1' A N O|p d mo mt A N|p x1' A O|e A]; intros [p' d' mo' mt' x2' A' N' O'|p' d' mo' mt' A' N'|p' x2' A' O'|e' A']; opened; try contradiction; settle. Qed.
Theorem reexecs_det x u m r x1 r' x2 : reexecs x u m r x1 -> reexecs x u m r' x2 -> r = r' /\ alike x1 x2.
Proof. intros [p e x1' S O|o e S A]; intros [p' e' x2' S' O'|o' e' S' A']; absents; same_place; settle. Qed.
Theorem reads_det x u r r' : reads x u r -> reads x u r' -> r = r'.
Proof. intros [p d mo mt S|p mo mt S|o e S A]; intros [p' d' mo' mt' S'|p' mo' mt' S'|o' e' S' A']; absents; same_place; congruence. Qed.
Theorem lists_det x u r r' : lists x u r -> lists x u r' -> r = r'.
Proof.
  intros [p mo mt l S L I|p e S N|o e S A]; intros [p' mo' mt' l' S' L' I'|p' e' S' N'|o' e' S' A']; absents; same_place; auto; try (now destruct (N _ _ eq_refl)); try (now destruct (N' _ _ eq_refl)).
  f_equal. apply sorted_ext; auto. intros n. now rewrite I, I'.
Qed.
Theorem leads_det x u r r' : leads x u r -> leads x u r' -> r = r'.
Proof.
  intros [p t r0 S M|p e S N|o e S A]; intros [p' t' r0' S' M'|p' e' S' N'|o' e' S' A']; absents; same_place; auto; try (now destruct (N _ eq_refl)); try (now destruct (N' _ eq_refl)).
  apply ParseFacts4.made_iff in M, M'. congruence.
Qed.
Theorem informs_det x f u r r' : informs x f u r -> informs x f u r' -> r = r'.
Proof. intros [p e S|o e S A]; intros [p' e' S'|o' e' S' A']; absents; same_place; congruence. Qed.

(** ** Reading back *)
Lemma opens_spot x u p o : opens x u p o -> entry_at x p o.
Proof. intros [p1 d mo mt T S|d n T S]; apply sees_spot in S; [exact S|apply S]. Qed.
Lemma walks_put x x' n cur l o p d mo mt : walks x true n cur l o ->
  (match o with Is q (PFile _ _ _) => q = p | Free i m => p = i ++ [m] | _ => False end) ->
  (forall e, entry_at x p (Some e) -> exists d mo mt, e = PFile d mo mt) -> only x x' p (Some (PFile d mo mt)) ->
  walks x' true n cur l (Is p (PFile d mo mt)).
Proof.
  intros W Ho Hp (O1 & O2 & _).
  assert (Dir : forall q, is_dir_at x q -> is_dir_at x' q).
  { intros q (a & b & D). exists a, b. destruct (list_eq_dec str_eq_dec q p) as [->|N]; [|now rewrite O2]. destruct (Hp _ D) as (? & ? & ? & Y). discriminate. }
  assert (Lnk : forall q t, entry_at x q (Some (PLink t)) -> entry_at x' q (Some (PLink t))).
  { intros q t E. unfold entry_at in *. destruct (list_eq_dec str_eq_dec q p) as [->|N]; [|now rewrite O2]. destruct (Hp _ E) as (? & ? & ? & Y). discriminate. }
  assert (Nol : forall q e, entry_at x q (Some e) -> (forall t, e <> PLink t) -> exists e', entry_at x' q (Some e') /\ forall t, e' <> PLink t).
  { intros q e E N. unfold entry_at in *. destruct (list_eq_dec str_eq_dec q p) as [->|Nq]; [exists (PFile d mo mt); split; [exact O1|discriminate]|]. exists e. split; auto. now rewrite O2. }
  induction W as [cur e E|n cur c l o D C W IH|n cur l o D W IH|cur c D Sp E|cur c l D Sp E N|n cur c e l o D Sp E L W IH
    |cur c t D Sp E F|cur c l D Sp E F|n cur c t st ps l o D Sp E F T B P W IH|cur e l E D N|cur l E]; try contradiction.
  - destruct e; try contradiction. subst cur. now apply wk_end.
  - apply wk_same; auto.
  - apply wk_up; auto.
  - subst p. apply wk_in with (PFile d mo mt); auto; [discriminate|]. now apply wk_end.
  - destruct (Nol _ _ E L) as (e' & E' & L'). apply wk_in with e'; auto.
  - apply wk_link with t st ps; auto.
Qed.
Lemma opens_after x x' u p o d mo mt : opens x u p o -> only x x' p (Some (PFile d mo mt)) -> opens x' u p (Some (PFile d mo mt)).
Proof.
  intros Op O. assert (Hp : forall e, entry_at x p (Some e) -> exists d mo mt, e = PFile d mo mt).
  { intros e E. pose proof (opens_spot _ _ _ _ Op) as Y. unfold entry_at in *. destruct Op as [p1 d1 mo1 mt1 T S|i m T S]; [rewrite E in Y; injection Y as ->; eauto|congruence]. }
  assert (G : ~ trailing u /\ exists o', sees x true u o' /\ match o' with Is q (PFile _ _ _) => q = p | Free i m => p = i ++ [m] | _ => False end).
  { destruct Op as [p1 d1 mo1 mt1 T S|i m T S]; (split; [exact T|]); eexists; (split; [exact S|reflexivity]). }
  destruct G as (T & o' & (s & P & L) & Ho). apply op_file; auto. exists s. split; auto.
  destruct L as [N| -> |n st ps o' N N' S B Ln W|st ps N N' S B Ln]; try contradiction. apply lo_found with n st ps; auto.
  - destruct O as (_ & _ & -> & _). exact S.
  - eapply walks_put; eauto.
Qed.
Lemma opens_read x u p d mo mt : opens x u p (Some (PFile d mo mt)) -> reads x u (Ok d).
Proof. intros O. inversion O; subst. eapply rd_file; eauto. Qed.

(** ** Places that are the same *)
Lemma sees_answer x f u v o : sees x f u o -> sees x f v o -> plook x f (u_path u) = plook x f (u_path v).
Proof. rewrite !sees_iff. congruence. Qed.
(** ** Links *)
Lemma walks_last_link x n cur l o : sound x -> walks x false n cur l o -> forall d c t, o = Is (d ++ [c]) (PLink t) -> t <> [] ->
  (l = [] -> forall t', pget cur (p_tree x) <> Some (PLink t')) ->
  forall b, pwalk (p_tree x) true b cur l = if Nat.ltb n b then pwalk (p_tree x) true (b - S n) (if prefixb [cSlash] t then [] else d) (split_on cSlash t) else Raise (OSError ELOOP).
Proof.
  intros So.
  induction 1 as [cur e E|n cur c l o D C W IH|n cur l o D W IH|cur c D Sp E|cur c l D Sp E N|n cur c e l o D Sp E L W IH
    |cur c t D Sp E F|cur c l D Sp E F|n cur c t st ps l o D Sp E F T B P W IH|cur e l E D N|cur l E]; intros d0 c0 t0 Eo Nt Nl b; try discriminate Eo; rewrite pwalk_eq; unfold entry_at in *;
    try (pose proof D as D'; destruct D' as (mo & mt & D')).
  - injection Eo as -> ->. now destruct (Nl eq_refl t0).
  - rewrite D'. replace (str_eqb c [] || str_eqb c dot) with true; [|symmetry; apply orb_true_iff; rewrite !str_eqb_eq; exact C].
    apply (IH _ _ _ Eo Nt). intros _ t' X. destruct D as (? & ? & D). rewrite D in X. discriminate.
  - rewrite D'. change (str_eqb (lit "..") [] || str_eqb (lit "..") dot) with false. change (str_eqb (lit "..") dotdot) with true. cbv iota.
    apply (IH _ _ _ Eo Nt). intros _ t' X. destruct (sound_up x cur So D) as (? & ? & Y). rewrite Y in X. discriminate.
  - rewrite D'. apply not_special in Sp as [-> ->]. rewrite E. destruct e as [a a' a''|a a'|a]; [| |now destruct (L a)]; apply (IH _ _ _ Eo Nt); intros _ t' X; rewrite E in X; discriminate.
  - rewrite D'. apply not_special in Sp as [-> ->]. rewrite E. cbn [negb]. injection Eo as Ed Et. apply app_inj_tail in Ed as [<- <-]. subst t0.
    destruct b; [reflexivity|]. cbn [Nat.ltb Nat.leb Nat.sub]. rewrite Nat.sub_0_r, app_nil_r. destruct t; [congruence|reflexivity].
  - rewrite D'. apply not_special in Sp as [-> ->]. rewrite E. destruct F as [F|F]; [|discriminate]. replace (match l with [] => negb true | _ => false end) with false by now destruct l.
    apply starts_iff in B. apply pieces_iff in P.
    destruct b; [reflexivity|]. destruct t; [congruence|]. rewrite B, P. rewrite (IH _ _ _ Eo Nt); [reflexivity|]. intros X. apply app_eq_nil in X as [_ X]. now subst.
Qed.
(** A link is followed from the directory it is in, as often as the limit allows. *)
Lemma link_text x v d c t o : sound x -> sees x false v (Is (d ++ [c]) (PLink t)) -> sees x true v o -> o <> Wrong (OSError ELOOP) -> t <> [] ->
  exists st ps k, starts d t st /\ pieces t ps /\ (k < 40)%nat /\ walks x true k st ps o.
Proof.
  intros So (s & P & L) (s' & P' & L') No Nt. assert (s' = s) as -> by (apply paths_iff in P, P'; exact (eq_trans (eq_sym P') P)). clear P'. apply looked_iff in L'.
  inversion L as [| |n st ps o1 N1 N2 S1 B1 Ln W|]; subst.
  assert (Np : ps = [] -> forall t', pget st (p_tree x) <> Some (PLink t')) by (intros ->; now destruct B1).
  pose proof (walks_last_link x n st ps _ So W d c t eq_refl Nt Np pbudget) as E. apply starts_iff in S1. apply pieces_iff in B1.
  unfold plook in L'. rewrite (proj2 (has_char_false _ _) N1) in L'. destruct s as [|s0 s]; [congruence|]. rewrite S1, B1, E in L'.
  exists (if prefixb [cSlash] t then [] else d), (split_on cSlash t). destruct (Nat.ltb_spec n pbudget) as [Hn|Hn]; [|destruct No; apply answer_inj; symmetry; exact L'].
  destruct (walks_ex x true (pbudget - Datatypes.S n) (split_on cSlash t) (if prefixb [cSlash] t then [] else d)) as [(k & o' & Hk & W')|X]; [|destruct No; apply answer_inj; cbn [answer]; congruence].
  exists k. split; [now apply starts_iff|]. split; [now apply pieces_iff|]. split; [unfold pbudget in *; lia|]. rewrite (walks_run _ _ _ _ _ _ W' _ Hk) in L'. now apply answer_inj in L' as ->.
Qed.
(** A free name that has been taken *)
Lemma walks_take x x' n cur l o i m e : walks x false n cur l o -> o = Free i m -> only x x' (i ++ [m]) (Some e) -> entry_at x (i ++ [m]) None ->
  walks x' false n cur l (Is (i ++ [m]) e).
Proof.
  intros W Ho (O1 & O2 & _) Nn.
  assert (Ent : forall q a, entry_at x q (Some a) -> entry_at x' q (Some a)).
  { intros q a E. unfold entry_at in *. destruct (list_eq_dec str_eq_dec q (i ++ [m])) as [->|Q]; [congruence|]. rewrite O2; auto. }
  assert (Dir : forall q, is_dir_at x q -> is_dir_at x' q) by (intros q (a & b & D); exists a, b; now apply Ent).
  induction W as [cur e0 E|n cur c l o D C W IH|n cur l o D W IH|cur c D Sp E|cur c l D Sp E N|n cur c e0 l o D Sp E L W IH
    |cur c t D Sp E F|cur c l D Sp E F|n cur c t st ps l o D Sp E F T B P W IH|cur e0 l E D N|cur l E]; try discriminate Ho.
  - apply wk_same; auto.
  - apply wk_up; auto.
  - injection Ho as -> ->. destruct e as [a b c|a b|t].
    + eapply wk_in; eauto; [discriminate|]. now apply wk_end.
    + eapply wk_in; eauto; [discriminate|]. now apply wk_end.
    + apply wk_last; auto.
  - eapply wk_in; eauto.
  - eapply wk_link; eauto.
Qed.
Lemma sees_new x x' v d n e : sees x false v (Free d n) -> only x x' (d ++ [n]) (Some e) -> sees x' false v (Is (d ++ [n]) e).
Proof.
  intros H O. pose proof (sees_spot _ _ _ _ H) as [_ Nn]. destruct H as (s & P & L). exists s. split; auto. inversion L as [| |k st ps o1 N1 N2 S1 B1 Ln W|]; subst. apply lo_found with k st ps; auto.
  - destruct O as (_ & _ & -> & _). exact S1.
  - eapply walks_take; eauto.
Qed.
