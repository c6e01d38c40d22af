(** Facts on Version.v for the theorems of PropsVersion.v. *)
From Verif Require Import Str Exc Utf8 UriParse SpecUri SpecParse StrFacts UriFacts UriFacts2 ParseFacts2 Version SpecVersion.
From Coq Require Import Sorting.Sorted.
Require Import Lia.
Local Open Scope string_scope.
Local Open Scope list_scope.

(** ** Stripping *)
Definition cut_to (p : N -> bool) (s w : str) : Prop :=
  exists a b, s = a ++ w ++ b /\ forallb p a = true /\ forallb p b = true /\ forall c r, w = c :: r \/ w = r ++ [c] -> p c = false.
Lemma cut_to_strip p s w : cut_to p s w <-> strip_p p s = w.
Proof.
  unfold strip_p. split.
  - intros (a & b & -> & Ba & Bb & Ed). destruct w as [|c w].
    + cbn [app]. unfold lstrip_p at 1. rewrite span_all by (rewrite forallb_app, Ba, Bb; reflexivity). reflexivity.
    + unfold lstrip_p at 1. rewrite span_app; [|exact Ba|cbn; apply (Ed c w); now left]. cbn [snd]. apply rstrip_app; [exact Bb|].
      destruct (exists_last (l := c :: w)) as (r & x & E); [discriminate|]. rewrite E, rev_app_distr. cbn. apply (Ed x r). now right.
  - intros <-. set (l := lstrip_p p s). destruct (rstrip_decomp p l) as (t & El & Bt & St).
    set (w := rstrip_p p l) in *. exists (fst (span p s)), t. split; [rewrite <- El; symmetry; apply span_eq|].
    split; [apply span_fst|]. split; [exact Bt|]. intros c r [E|E].
    + assert (X : l = c :: r ++ t) by (rewrite El, E; reflexivity). exact (span_snd _ _ _ _ X).
    + rewrite E, rev_app_distr in St. exact St.
Qed.
Definition is_paren (c : N) : bool := N.eqb c cLpar || N.eqb c cRpar.
Lemma paren_iff c : is_paren c = true <-> paren c.
Proof. unfold is_paren, paren. now rewrite orb_true_iff, !N.eqb_eq. Qed.
Lemma bared_strip s w : bared s w <-> strip_p is_paren s = w.
Proof.
  rewrite <- cut_to_strip. unfold bared, cut_to. split.
  - intros (a & b & E & P & Q). exists a, b. split; [exact E|]. rewrite !forallb_forall. split; [intros c Hc; apply paren_iff, P, in_or_app; now left|].
    split; [intros c Hc; apply paren_iff, P, in_or_app; now right|]. intros c r H. destruct (is_paren c) eqn:X; [|reflexivity]. apply paren_iff in X. now destruct (Q c r H).
  - intros (a & b & E & P1 & P2 & Q). rewrite forallb_forall in P1, P2. exists a, b. split; [exact E|]. split.
    + intros c Hc. apply paren_iff. apply in_app_or in Hc as [Hc|Hc]; auto.
    + intros c r H X. apply paren_iff in X. rewrite (Q c r H) in X. discriminate X.
Qed.
Lemma unpadded_strip s : unpadded_text s -> strip_ws s = s.
Proof. intros U. apply trimmed_strip. exists [], []. rewrite app_nil_r. split; [reflexivity|]. split; [easy|]. split; [easy|]. exact U. Qed.

(** ** Lists with commas *)
Lemma split_join c l : l <> [] -> (forall y, In y l -> ~ In c y) -> split_on c (join_with [c] l) = l.
Proof.
  induction l as [|x l IH]; intros N H; [easy|]. destruct l as [|y l]; [cbn; apply split_on_none, H; now left|].
  change (join_with [c] (x :: y :: l)) with (x ++ c :: join_with [c] (y :: l)). rewrite split_on_app by (apply H; now left). f_equal.
  apply IH; [discriminate|]. intros z Hz. apply H. now right.
Qed.
Lemma listed_iff body r : listed body r <-> In r (map strip_ws (split_on 44 body)).
Proof.
  rewrite in_map_iff. split.
  - intros (l & x & -> & N & I & T). apply trimmed_strip in T. exists x. split; [exact T|]. change (lit ",") with [44%N]. rewrite split_join; auto.
    now intros ->.
  - intros (x & E & I). exists (split_on 44 body), x. split; [symmetry; apply join_split|]. split.
    + intros y Hy. pose proof (split_on_no_sep 44 body) as F. rewrite Forall_forall in F. now apply F.
    + split; [exact I|]. now apply trimmed_strip.
Qed.

(** ** Picking the version *)
Lemma numeric_iff v : numeric v <-> starts_digit v = true.
Proof.
  unfold numeric, starts_digit, digit. split.
  - intros (c & r & -> & D). now apply digit_iff.
  - destruct v as [|c r]; [discriminate|]. intros D. apply digit_iff in D. eauto.
Qed.
Lemma pick_some prefix l r : pick_ref prefix l = Some r -> exists l1 l2, l = l1 ++ (prefix ++ r) :: l2 /\ starts_digit r = true /\
  forall w, starts_digit w = true -> ~ In (prefix ++ w) l1.
Proof.
  induction l as [|x l IH]; [discriminate|]. cbn [pick_ref]. destruct (prefixb prefix x) eqn:P.
  - apply prefixb_spec in P as [y ->]. rewrite skipn_app, skipn_all, Nat.sub_diag. cbn [app skipn]. destruct (starts_digit y) eqn:D.
    + intros [= ->]. exists [], l. repeat split; auto.
    + intros H. destruct (IH H) as (l1 & l2 & -> & D' & F). exists ((prefix ++ y) :: l1), l2. repeat split; auto.
      intros w W [E|E]; [apply app_inv_head in E; congruence|]. now apply (F w).
  - intros H. destruct (IH H) as (l1 & l2 & -> & D' & F). exists (x :: l1), l2. repeat split; auto.
    intros w W [->|E]; [now rewrite prefixb_app in P|]. now apply (F w).
Qed.
Lemma pick_none prefix l : pick_ref prefix l = None -> forall w, starts_digit w = true -> ~ In (prefix ++ w) l.
Proof.
  induction l as [|x l IH]; [intros _ w _ []|]. cbn [pick_ref]. destruct (prefixb prefix x) eqn:P.
  - apply prefixb_spec in P as [y ->]. rewrite skipn_app, skipn_all, Nat.sub_diag. cbn [app skipn]. destruct (starts_digit y) eqn:D; [discriminate|].
    intros H w W [E|E]; [apply app_inv_head in E; congruence|]. now apply (IH H w).
  - intros H w W [->|E]; [now rewrite prefixb_app in P|]. now apply (IH H w).
Qed.
Lemma before_iff a b : before a b <-> str_ltb a b = true.
Proof.
  split.
  - induction 1 as [c t|c d s t L|c s t H IH]; cbn; [reflexivity| |].
    + apply N.ltb_lt in L. now rewrite L.
    + now rewrite N.eqb_refl, IH, orb_true_r.
  - revert b. induction a as [|x a IH]; intros [|y b]; cbn; try discriminate; [constructor|].
    rewrite orb_true_iff, andb_true_iff, N.ltb_lt, N.eqb_eq. intros [L|[-> L]]; [now apply be_less|apply be_same; auto].
Qed.
Lemma before_app p a b : before (p ++ a) (p ++ b) -> before a b.
Proof. induction p as [|c p IH]; [auto|]. cbn. inversion 1; subst; [lia|auto]. Qed.

Definition refs_of (body : str) : list str := dedup (map strip_ws (split_on 44 body)).
Definition tags_of (body : str) : list str :=
  let tags := map (skipn 5) (filter (prefixb (lit "tag: ")) (refs_of body)) in
  match tags with [] => filter (existsb is_digit) (refs_of body) | _ => tags end.
Lemma refs_iff body r : In r (refs_of body) <-> listed body r.
Proof. unfold refs_of. now rewrite dedup_In, listed_iff. Qed.
Lemma marked_iff body t : In t (map (skipn 5) (filter (prefixb (lit "tag: ")) (refs_of body))) <-> listed body (lit "tag: " ++ t).
Proof.
  rewrite in_map_iff. split.
  - intros (x & E & H). apply filter_In in H as [I P]. apply prefixb_spec in P as [y ->]. apply refs_iff in I. cbn in E. now subst y.
  - intros L. exists (lit "tag: " ++ t). split; [reflexivity|]. apply filter_In. split; [now apply refs_iff|apply prefixb_app].
Qed.
Lemma tags_iff body t : In t (tags_of body) <-> candidate body t.
Proof.
  unfold tags_of, candidate. destruct (map (skipn 5) _) as [|x l] eqn:E.
  - assert (N : forall t', ~ listed body (lit "tag: " ++ t')) by (intros t' H; apply marked_iff in H; rewrite E in H; destruct H).
    rewrite filter_In, refs_iff, existsb_exists. split.
    + intros (L & c & I & D). apply digit_iff in D. right. split; [exact N|]. split; [exact L|]. now exists c.
    + intros [H|(_ & L & c & I & D)]; [now destruct (N t)|]. split; [exact L|]. exists c. split; [exact I|now apply digit_iff].
  - rewrite <- E. rewrite marked_iff. split; [now left|]. intros [H|(N & _)]; [exact H|]. destruct (N x). apply marked_iff. rewrite E. now left.
Qed.
Lemma sorted_after (l1 l2 : list str) x y : StronglySorted sle (l1 ++ x :: l2) -> In y l2 -> sle x y.
Proof.
  induction l1 as [|z l1 IH]; cbn; intros S I; inversion S as [|? ? S' F]; subst; [|auto]. rewrite Forall_forall in F. auto.
Qed.
Lemma picked prefix body v : pick_ref prefix (sort_strs (tags_of body)) = Some v -> release prefix body v.
Proof.
  intros H. apply pick_some in H as (l1 & l2 & E & D & F).
  assert (I : forall t, candidate body t <-> In t (l1 ++ (prefix ++ v) :: l2)) by (intros t; now rewrite <- E, sort_In, tags_iff).
  pose proof (sort_sorted (tags_of body)) as S. rewrite E in S. split.
  - split; [apply I, in_elt|now apply numeric_iff].
  - intros w [C N]. apply numeric_iff in N. apply I in C. apply in_app_or in C as [C|[C|C]]; [now destruct (F w N)|apply app_inv_head in C; now left|].
    pose proof (sorted_after _ _ _ _ S C) as L. unfold sle in L. destruct (str_ltb (prefix ++ v) (prefix ++ w)) eqn:B.
    + right. apply before_app with prefix. now apply before_iff.
    + left. symmetry. apply (app_inv_head prefix). apply str_ltb_total; auto.
Qed.
Lemma not_picked prefix body : pick_ref prefix (sort_strs (tags_of body)) = None -> forall v, ~ fits prefix body v.
Proof.
  intros H v [C N]. apply numeric_iff in N. apply (pick_none _ _ H v N). now rewrite sort_In, tags_iff.
Qed.
Lemma before_asym a b : before a b -> before b a -> False.
Proof. intros A B. apply before_iff in A, B. pose proof (str_ltb_trans _ _ _ A B) as X. now rewrite str_ltb_irrefl in X. Qed.
Lemma release_det prefix body v w : release prefix body v -> release prefix body w -> v = w.
Proof.
  intros [F1 L1] [F2 L2]. destruct (L1 w F2) as [->|A]; [reflexivity|]. destruct (L2 v F1) as [->|B]; [reflexivity|]. now destruct (before_asym _ _ A B).
Qed.

(** ** Dates *)
Lemma is_break_in c : is_break c = true <-> In c line_breaks.
Proof.
  unfold is_break, line_breaks. cbn [In]. rewrite !orb_true_iff, !andb_true_iff, !N.leb_le, !N.eqb_eq. lia.
Qed.
Lemma no_break c l : no_breaks l -> In c l -> is_break c = false.
Proof. intros B H. destruct (is_break c) eqn:E; [|reflexivity]. apply is_break_in in E. now destruct (B c H). Qed.
Lemma splitlines_one l : l <> [] -> no_breaks l -> splitlines l = [l].
Proof.
  induction l as [|c l IH]; intros N B; [easy|]. cbn [splitlines]. rewrite (no_break c _ B (or_introl eq_refl)). destruct l as [|d l]; [reflexivity|].
  rewrite IH; [reflexivity|discriminate|]. intros x Hx. apply B. now right.
Qed.
Lemma splitlines_last_n n : forall a k l, length a <= n -> In k line_breaks -> l <> [] -> no_breaks l -> exists x ls, splitlines (a ++ k :: l) = x :: ls ++ [l].
Proof.
  induction n as [|n IH]; intros a k l Ln K N B; pose proof (proj2 (is_break_in k) K) as Bk.
  all: assert (Z : exists x ls, splitlines (k :: l) = x :: ls ++ [l]).
  1,3: exists [], []; cbn [splitlines]; rewrite Bk; destruct l as [|y l]; [easy|]; destruct (N.eqb k 13); [|now rewrite splitlines_one];
       pose proof (no_break y _ B (or_introl eq_refl)) as Ny; destruct (N.eqb y 10) eqn:E; [apply N.eqb_eq in E; subst y; discriminate Ny|now rewrite splitlines_one].
  - destruct a; [exact Z|cbn in Ln; lia].
  - destruct a as [|c a]; [exact Z|]. cbn [app splitlines]. cbn [length] in Ln. destruct (is_break c).
    + destruct (N.eqb c 13).
      * destruct a as [|x a]; cbn [app].
        { destruct (N.eqb k 10); [exists [], []; now rewrite splitlines_one|]. destruct Z as (x & ls & E). rewrite E. now exists [], (x :: ls). }
        destruct (N.eqb x 10).
        { cbn in Ln. destruct (IH a k l) as (y & ls & E); [lia|auto|auto|auto|]. rewrite E. now exists [], (y :: ls). }
        destruct (IH (x :: a) k l) as (y & ls & E); [cbn in *; lia|auto|auto|auto|]. cbn [app] in E. rewrite E. now exists [], (y :: ls).
      * destruct (IH a k l) as (y & ls & E); [lia|auto|auto|auto|]. rewrite E. now exists [], (y :: ls).
    + destruct (IH a k l) as (y & ls & E); [lia|auto|auto|auto|]. rewrite E. now exists (c :: y), ls.
Qed.
Lemma last_line_run s l : last_line s l -> last_item (splitlines s) = Ok l.
Proof.
  intros (N & B & [->|(a & k & K & ->)]); unfold last_item.
  - now rewrite splitlines_one.
  - destruct (splitlines_last_n (length a) a k l (le_n _) K N B) as (x & ls & ->). cbn [rev]. now rewrite rev_app_distr.
Qed.
Lemma replace1_none c rep s : ~ In c s -> replace1 c rep s = s.
Proof. intros H. unfold replace1. now rewrite (proj2 (cut_first_none c s) H). Qed.
Lemma replace1_some c rep a b : ~ In c a -> replace1 c rep (a ++ c :: b) = a ++ rep ++ b.
Proof. intros H. unfold replace1. now rewrite cut_first_app. Qed.
Lemma iso_run w d : iso w d -> replace1 cSpace [] (replace1 cSpace (lit "T") w) = d.
Proof.
  intros [v N|a b A B|a b c A B].
  - rewrite (replace1_none cSpace (lit "T") v N). now apply replace1_none.
  - rewrite replace1_some by exact A. apply replace1_none. rewrite !in_app_iff. intros [X|[[X|[]]|X]]; [now apply A|discriminate X|now apply B].
  - rewrite replace1_some by exact A. replace (a ++ lit "T" ++ b ++ cSpace :: c) with ((a ++ lit "T" ++ b) ++ cSpace :: c) by now rewrite <- !app_assoc.
    rewrite replace1_some; [now rewrite <- !app_assoc|]. rewrite !in_app_iff. intros [X|[[X|[]]|X]]; [now apply A|discriminate X|now apply B].
Qed.
Lemma dated_run s d : dated s d -> iso_date s = Ok d.
Proof.
  intros (l & w & L & T & I). unfold iso_date. rewrite (last_line_run _ _ L). cbn [rbind]. apply trimmed_strip in T. rewrite T. now rewrite (iso_run _ _ I).
Qed.
