(** C160: local files at and below one directory. *)
From Coq Require Import Lia Permutation String.
From Verif Require Import Str Exc UriParse BaseUri StrFacts SpecUri Mem SpecMem Misc Posix Local SpecLocal Generic LocProg SpecHome LocalFacts1 LocalFacts6 LocTwin PropsWork PropsStay HomeFacts1 HomeFacts2 HomeFacts4 Pair.
Open Scope nat_scope.
Open Scope list_scope.

(** The files of one system at and below the directory with those of another elsewhere *)
Definition blend (D : list str) (x y : pst) : pst := mkP (innards D (p_tree x) ++ outer D (p_tree y)) (p_cwd y) (p_now y) (p_umask y).
Lemma pget_app p a b : pget p (a ++ b) = match pget p a with Some e => Some e | None => pget p b end.
Proof. induction a as [|[q e] a IH]; cbn; [reflexivity|]. now destruct (path_eqb p q). Qed.
Lemma pget_filter f p t : pget p (filter (fun re => f (fst re)) t) = if f p then pget p t else None.
Proof.
  induction t as [|[q e] t IH]; cbn [filter pget fst]; [now destruct (f p)|]. destruct (f q) eqn:F; cbn [pget]; destruct (path_eqb p q) eqn:E; try exact IH.
  - apply path_eqb_spec in E. subst q. now rewrite F.
  - apply path_eqb_spec in E. subst q. rewrite F in *. exact IH.
Qed.
Lemma blend_get D x y p : pget p (p_tree (blend D x y)) = if is_below D p then pget p (p_tree x) else pget p (p_tree y).
Proof.
  cbn [blend p_tree]. rewrite pget_app. unfold innards, outer. rewrite (pget_filter (is_below D)), (pget_filter (fun q => negb (is_below D q))). destruct (is_below D p); cbn [negb]; [|reflexivity]. now destruct (pget p (p_tree x)).
Qed.
Lemma keys_filter (f : list str -> bool) (t : ptree) : map fst (filter (fun re => f (fst re)) t) = filter f (map fst t).
Proof. induction t as [|[q e] t IH]; cbn; [reflexivity|]. destruct (f q); cbn; now rewrite IH. Qed.
Lemma blend_nodup D x y : NoDup (map fst (p_tree x)) -> NoDup (map fst (p_tree y)) -> NoDup (map fst (p_tree (blend D x y))).
Proof.
  intros N1 N2. cbn [blend p_tree]. unfold innards, outer. rewrite map_app, (keys_filter (is_below D)), (keys_filter (fun q => negb (is_below D q))).
  assert (A : forall l1 l2 : list (list str), NoDup l1 -> NoDup l2 -> (forall q, In q l1 -> ~ In q l2) -> NoDup (l1 ++ l2)).
  { clear. induction l1 as [|q l1 IH]; intros l2 N1 N2 H; [exact N2|]. inversion N1; subst. cbn. constructor.
    - rewrite in_app_iff. intros [I|I]; [contradiction|]. now apply (H q); [left|].
    - apply IH; auto. intros r I. apply H. now right. }
  apply A; [now apply NoDup_filter|now apply NoDup_filter|]. intros q I J. apply filter_In in I as [_ I]. apply filter_In in J as [_ J]. rewrite I in J. discriminate J.
Qed.
Lemma blend_eq D x y : sound x -> sound y -> same_home D x y -> peq y (blend D x y).
Proof.
  intros Sx Sy H. assert (G : forall p, pget p (p_tree (blend D x y)) = pget p (p_tree y)).
  { intros p. rewrite blend_get. destruct (is_below D p) eqn:B; [|reflexivity]. apply is_below_true in B as [r ->]. symmetry. apply (sa_tree _ _ _ H). }
  pose proof (blend_nodup D x y (so_nodup _ Sx) (so_nodup _ Sy)) as N. constructor; [exact Sy| |].
  - destruct Sy as [S1 S2 S3]. constructor; [now rewrite G| |exact N]. intros p n. rewrite !G. apply S2.
  - constructor; try reflexivity. apply get_perm; [apply Sy|exact N|]. intros p. now rewrite G.
Qed.
Lemma filter_twice {A} (f : A -> bool) l l' : filter f (filter f l ++ filter (fun a => negb (f a)) l') = filter f l.
Proof.
  rewrite filter_app. assert (E1 : forall l, filter f (filter f l) = filter f l) by (clear; induction l as [|a l IH]; cbn; [reflexivity|]; destruct (f a) eqn:E; cbn; rewrite ?E, IH; reflexivity).
  assert (E2 : forall l, filter f (filter (fun a => negb (f a)) l) = []) by (clear; induction l as [|a l IH]; cbn; [reflexivity|]; destruct (f a) eqn:E; cbn; rewrite ?E, ?IH; reflexivity).
  now rewrite E1, E2, app_nil_r.
Qed.
Lemma start_twins D x z : walled D x -> innards D (p_tree x) = innards D (p_tree z) -> p_now x = p_now z -> p_umask x = p_umask z -> twins D x z x z.
Proof. intros W H1 H2 H3. constructor; auto; [apply (wa_names _ _ W)|apply (wa_links _ _ W)]. Qed.
(** ** What is not at or below the directory does not change, and links still do not lead away *)
Theorem C160_rest D c x : home_dir D -> walled D x -> lcall_in D c ->
  (forall p, (forall r, p <> D ++ r) -> pget p (p_tree (snd (lask c x))) = pget p (p_tree x)) /\ p_cwd (snd (lask c x)) = p_cwd x /\ p_now (snd (lask c x)) = p_now x /\ p_umask (snd (lask c x)) = p_umask x /\ walled D (snd (lask c x)).
Proof.
  intros HD W C. pose proof (start_twins D x x W eq_refl eq_refl eq_refl) as T. destruct (on_lask D x x HD (wa_above _ _ W) (wa_above _ _ W) c C x x T) as (_ & T1 & _). set (x1 := snd (lask c x)) in *.
  destruct (tw_same1 _ _ _ _ _ T1) as (E1 & E2 & E3). split; [|split; [exact E1|split; [exact E2|split; [exact E3|constructor]]]].
  - intros p Hp. assert (B : is_below D p = false) by (apply is_below_false; intros [r ->]; now apply (Hp r)). rewrite <- (get_out D p (p_tree x1) B), (tw_out1 _ _ _ _ _ T1). now apply get_out.
  - apply (tw_names _ _ _ _ _ T1).
  - apply (tw_links _ _ _ _ _ T1).
  - intros A n B E. exact (tw_roof1 D x x (wa_above _ _ W) (wa_above _ _ W) x1 x1 A n B T1 E).
Qed.
(** ** Answers and effects depend only on what is at and below the directory *)
Theorem C160_own D c x y : home_dir D -> sound x -> sound y -> walled D x -> walled D y -> same_home D x y -> lcall_in D c ->
  fst (lask c y) = fst (lask c x) /\ same_home D (snd (lask c x)) (snd (lask c y)).
Proof.
  intros HD Sx Sy Wx Wy H C. set (z := blend D x y). pose proof (blend_eq D x y Sx Sy H) as Q. fold z in Q. destruct (lask_resp c y z Q) as [R1 R2].
  assert (Iz : innards D (p_tree x) = innards D (p_tree z)) by (cbn [z blend p_tree]; unfold innards, outer; symmetry; apply (filter_twice (fun re => is_below D (fst re)))).
  assert (T : twins D x z x z). { apply start_twins; auto; cbn; [symmetry; apply (sa_now _ _ _ H)|symmetry; apply (sa_umask _ _ _ H)]. }
  assert (Rz : forall A n B, D = A ++ n :: B -> is_dir_at z A).
  { intros A n B E. destruct (wa_above _ _ Wy A n B E) as (mo & mt & G). exists mo, mt. unfold z. rewrite blend_get. replace (is_below D A) with false; [exact G|]. symmetry. apply is_below_false. intros [r E']. apply (f_equal (@List.length str)) in E, E'. rewrite !app_length in *. cbn in *. lia. }
  destruct (on_lask D x z HD (wa_above _ _ Wx) Rz c C x z T) as (E & T1 & _). split; [congruence|]. set (x1 := snd (lask c x)) in *. set (z1 := snd (lask c z)) in *. set (y1 := snd (lask c y)) in *. constructor.
  - intros p. rewrite (peq_get y1 z1 _ R2). symmetry. exact (tw_get _ _ _ x1 z1 (D ++ p) T1 (below_self D p)).
  - rewrite (sh_now _ _ (pe_same _ _ R2)). symmetry. exact (tw_now _ _ _ _ _ T1).
  - rewrite (sh_umask _ _ (pe_same _ _ R2)). symmetry. exact (tw_umask _ _ _ _ _ T1).
Qed.
(** Programs that call only methods for such URIs *)
Fixpoint stays_in {X} (D : list str) (p : lprog X) (x : pst) : Prop :=
  match p with LDone _ => True | LCall c k => lcall_in D c /\ let (r, x') := lask c x in stays_in D (k r) x' end.
Theorem C160_program {X} D (p : lprog X) x y : home_dir D -> sound x -> sound y -> walled D x -> walled D y -> same_home D x y -> stays_in D p x ->
  fst (lrun p y) = fst (lrun p x) /\ same_home D (snd (lrun p x)) (snd (lrun p y)) /\ (forall q, (forall r, q <> D ++ r) -> pget q (p_tree (snd (lrun p x))) = pget q (p_tree x)) /\ walled D (snd (lrun p x)).
Proof.
  intros HD. revert x y. induction p as [a|c k IH]; intros x y Sx Sy Wx Wy H; cbn [stays_in lrun]; [auto|]. intros [C St].
  destruct (C160_own D c x y HD Sx Sy Wx Wy H C) as [E1 H1]. destruct (C160_rest D c x HD Wx C) as (F1 & _ & _ & _ & W1). destruct (C160_rest D c y HD Wy C) as (_ & _ & _ & _ & W2).
  pose proof (lask_sound c x Sx) as S1. pose proof (lask_sound c y Sy) as S2. destruct (lask c x) as [r x1], (lask c y) as [r2 y1]. cbn [fst snd] in *. subst r2.
  destruct (IH r x1 y1 S1 S2 W1 W2 H1 St) as (A1 & A2 & A3 & A4). split; [exact A1|]. split; [exact A2|]. split; [|exact A4]. intros q Hq. now rewrite A3, F1.
Qed.
(** ** Two parties in two directories, none of them at or below the other *)
Definition apart_dirs (D E : list str) : Prop := (forall r, E <> D ++ r) /\ (forall r, D <> E ++ r).
Lemma apart_sym D E : apart_dirs D E -> apart_dirs E D. Proof. intros [H1 H2]. now split. Qed.
Lemma apart_below D E p : apart_dirs D E -> forall r, E ++ p <> D ++ r.
Proof.
  intros [H1 H2] r H. apply app_eq_app in H as (l & [[-> _]|[-> _]]); [now apply (H1 l)|now apply (H2 l)].
Qed.
Lemma apart_above D E A n B : apart_dirs D E -> E = A ++ n :: B -> forall r, A <> D ++ r.
Proof. intros [H1 _] H r ->. apply (H1 (r ++ n :: B)). now rewrite H, <- app_assoc. Qed.
Lemma other_kept D E x y : apart_dirs D E -> (forall p, (forall r, p <> E ++ r) -> pget p (p_tree y) = pget p (p_tree x)) -> p_now y = p_now x -> p_umask y = p_umask x -> walled D x -> same_home D x y /\ walled D y.
Proof.
  intros A F N U W. assert (G : forall p, pget (D ++ p) (p_tree y) = pget (D ++ p) (p_tree x)) by (intros p; apply F; now apply apart_below, apart_sym). split; [now constructor|]. constructor.
  - intros p. rewrite G. apply (wa_names _ _ W).
  - intros p tg. rewrite G. apply (wa_links _ _ W).
  - intros B n C H. destruct (wa_above _ _ W B n C H) as (mo & mt & K). exists mo, mt. rewrite F; [exact K|]. exact (apart_above E D B n C (apart_sym _ _ A) H).
Qed.
Lemma same_trans D x y z : same_home D x y -> same_home D y z -> same_home D x z.
Proof. intros [A1 A2 A3] [B1 B2 B3]. constructor; [intros p; now rewrite B1, A1|congruence|congruence]. Qed.
Lemma same_sym D x y : same_home D x y -> same_home D y x. Proof. intros [A1 A2 A3]. constructor; auto. Qed.
Lemma sound_time t x : sound x -> sound (lat_time t x). Proof. intros [A B C]. now constructor. Qed.
Lemma walled_time D t x : walled D x -> walled D (lat_time t x). Proof. intros [A B C]. now constructor. Qed.
Theorem C160_together D E es x : home_dir D -> home_dir E -> apart_dirs D E -> sound x -> walled D x -> walled E x -> Forall (levent_in D E) es ->
  fst (lhappen es x) = fst (lhappen (lown_only es) x) /\ same_home D (snd (lhappen (lown_only es) x)) (snd (lhappen es x)).
Proof.
  intros HD HE A Sx WD WE F. enough (G : forall y, sound y -> walled D y -> walled E y -> same_home D x y -> fst (lhappen es y) = fst (lhappen (lown_only es) x) /\ same_home D (snd (lhappen (lown_only es) x)) (snd (lhappen es y))) by (apply G; auto; now constructor).
  clear WE. revert x Sx WD. induction F as [|e es He F IH]; intros x Sx WD y Sy WDy WE H; [now cbn|]. destruct e as [c|c|t]; cbn [levent_in lown_only filter lhappen] in *; fold (lown_only es).
  - destruct (C160_own D c x y HD Sx Sy WD WDy H He) as [E1 H1]. destruct (C160_rest D c x HD WD He) as (_ & _ & _ & _ & W1). destruct (C160_rest D c y HD WDy He) as (K1 & _ & K2 & K3 & W2).
    destruct (other_kept E D y (snd (lask c y)) (apart_sym _ _ A) K1 K2 K3 WE) as [_ W3].
    pose proof (lask_sound c x Sx) as S1. pose proof (lask_sound c y Sy) as S2. destruct (lask c x) as [r x1], (lask c y) as [r2 y1]. cbn [fst snd] in *. subst r2.
    destruct (IH x1 S1 W1 y1 S2 W2 W3 H1) as [B1 B2]. destruct (lhappen es y1), (lhappen (lown_only es) x1). cbn [fst snd] in *. split; [now f_equal|exact B2].
  - destruct (C160_rest E c y HE WE He) as (K1 & _ & K2 & K3 & W2). destruct (other_kept D E y (snd (lask c y)) A K1 K2 K3 WDy) as [H1 W1].
    apply IH; auto; [now apply lask_sound|]. now apply (same_trans D x y).
  - apply IH; auto using sound_time, walled_time. destruct H. now constructor.
Qed.
(** ** The order of two calls does not matter *)
Theorem C160_order D E c d x : home_dir D -> home_dir E -> apart_dirs D E -> sound x -> walled D x -> walled E x -> lcall_in D c -> lcall_in E d ->
  let cd := lask d (snd (lask c x)) in let dc := lask c (snd (lask d x)) in
  fst cd = fst (lask d x) /\ fst dc = fst (lask c x) /\ (forall p, pget p (p_tree (snd cd)) = pget p (p_tree (snd dc))) /\
  p_cwd (snd cd) = p_cwd (snd dc) /\ p_now (snd cd) = p_now (snd dc) /\ p_umask (snd cd) = p_umask (snd dc).
Proof.
  intros HD HE A Sx WD WE C K cd dc. pose proof (lask_sound c x Sx) as S1. pose proof (lask_sound d x Sx) as S2.
  destruct (C160_rest D c x HD WD C) as (F1 & F2 & F3 & F4 & W1). destruct (C160_rest E d x HE WE K) as (G1 & G2 & G3 & G4 & W2).
  destruct (other_kept E D x (snd (lask c x)) (apart_sym _ _ A) F1 F3 F4 WE) as [H1 V1]. destruct (other_kept D E x (snd (lask d x)) A G1 G3 G4 WD) as [H2 V2].
  destruct (C160_own E d x _ HE Sx S1 WE V1 H1 K) as [A1 A2]. destruct (C160_own D c x _ HD Sx S2 WD V2 H2 C) as [B1 B2].
  destruct (C160_rest E d (snd (lask c x)) HE V1 K) as (P1 & P2 & P3 & P4 & _). destruct (C160_rest D c (snd (lask d x)) HD V2 C) as (Q1 & Q2 & Q3 & Q4 & _). fold cd in A1, A2, P1, P2, P3, P4. fold dc in B1, B2, Q1, Q2, Q3, Q4.
  split; [exact A1|]. split; [exact B1|]. split; [|repeat split; congruence]. intros p. destruct (is_below D p) eqn:BD.
  - apply is_below_true in BD as [r ->]. rewrite P1 by (apply apart_below, apart_sym, A). symmetry. apply (sa_tree _ _ _ B2).
  - assert (ND : forall r, p <> D ++ r) by (intros r ->; now rewrite below_self in BD). destruct (is_below E p) eqn:BE.
    + apply is_below_true in BE as [r ->]. rewrite Q1 by exact ND. apply (sa_tree _ _ _ A2).
    + assert (NE : forall r, p <> E ++ r) by (intros r ->; now rewrite below_self in BE). now rewrite P1, F1, Q1, G1.
Qed.

(** ** The conditions: links that lead out, and two dots, are left out for a reason *)
Definition names_of (l : list string) : list str := map lit l.
Definition fu (t : string) : uri := match URI (lit ("file://" ++ t)%string) cSlash [] with Ok u => u | Raise _ => HomeFacts3.furi [] end.
Definition two_homes (more : ptree) : pst :=
  mkP ([([], PDir 493 5); (names_of ["a"]%string, PDir 493 5); (names_of ["a"; "f"]%string, PFile (lit "own") 420 6); (names_of ["b"]%string, PDir 493 5); (names_of ["b"; "g"]%string, PFile (lit "other") 420 7)] ++ more) [] 50 18.
Lemma mild_check s : forallb (fun c => negb (existsb (N.eqb c) (cColon :: meta))) s = true -> contains (lit "((") s = false -> contains (lit "..") s = false -> mild s.
Proof.
  intros F P Q. constructor; [|now apply PropsMem.not_contains|now apply PropsMem.not_contains]. intros c Hc I. rewrite forallb_forall in F. apply F in I. apply negb_true_iff in I.
  assert (existsb (N.eqb c) (cColon :: meta) = true) by (apply existsb_exists; exists c; split; [exact Hc|apply N.eqb_refl]). congruence.
Qed.
Ltac mild := apply mild_check; reflexivity.
Lemma home_one n : n <> [] -> ~ In cSlash n -> n <> dot -> mild n -> ~ In 0%N n -> (forall r, n <> cDot :: r) -> home_dir [n].
Proof. intros H1 H2 H3 H4 H5 H6. constructor; [discriminate|apply Forall_cons; [now split; [|split; [|split]]|apply Forall_nil]|apply Forall_cons; [exact H5|apply Forall_nil]|]. intros c D' E. injection E as <- _. exact H6. Qed.
Lemma home_a : home_dir (names_of ["a"%string]). Proof. apply home_one; try discriminate; [cbn; intuition discriminate|mild|cbn; intuition discriminate]. Qed.
Lemma home_b : home_dir (names_of ["b"%string]). Proof. apply home_one; try discriminate; [cbn; intuition discriminate|mild|cbn; intuition discriminate]. Qed.
Lemma uri_one n t u : mild (cSlash :: n ++ t) -> (t = [] \/ exists r, t = cSlash :: r) -> URI (lit "file://" ++ cSlash :: n ++ t) cSlash [] = Ok u -> home_uri [n] u.
Proof. intros M H E. exists (cSlash :: n ++ t). split; [|exact E]. split; [exact M|]. exists t. split; [exact H|]. cbn. now rewrite app_nil_r. Qed.
Ltac at_uri t := apply (uri_one _ t); [mild|right; eexists; reflexivity|vm_compute; reflexivity].
Lemma pget_there p t e : pget p t = Some e -> In (p, e) t.
Proof. induction t as [|[q g] t IH]; cbn [pget]; [discriminate|]. destruct (path_eqb p q) eqn:E; [|intros H; right; now apply IH]. apply path_eqb_spec in E. intros H. injection H as <-. subst q. now left. Qed.
Lemma walled_one n x : (exists mo mt, pget [] (p_tree x) = Some (PDir mo mt)) -> (forall p e, In (n :: p, e) (p_tree x) -> Forall mild p /\ forall tg, e = PLink tg -> home_text [n] tg) -> walled [n] x.
Proof.
  intros R H. constructor.
  - intros p G. destruct (pget ([n] ++ p) (p_tree x)) as [e|] eqn:E; [|easy]. apply pget_there in E. apply (H p e E).
  - intros p tg E. apply pget_there in E. now apply (proj2 (H p _ E)).
  - intros A m B E. destruct A as [|a [|b A]]; [exact R|discriminate E|discriminate E].
Qed.
Ltac wall := apply walled_one; [eexists _, _; reflexivity|]; let I := fresh in intros ? ? I; cbn [two_homes p_tree names_of map app In] in I;
  repeat (destruct I as [I|I]; [first [discriminate I|injection I as <- <-; split; [repeat (apply Forall_cons; [mild|]); apply Forall_nil|intros ? J; first [discriminate J|injection J as <-; split; [mild|eexists (lit "/f"); split; [right; eexists; reflexivity|reflexivity]]]]]|]); destruct I.
(** With a link /a/k to /b, what is written below /a is found below /b. *)
Theorem C160_link_needed : exists x c, x = two_homes [(names_of ["a"; "k"]%string, PLink (lit "/b"))] /\ c = LWrite (fu "/a/k/g"%string) [lit "new"] /\ home_dir (names_of ["a"%string]) /\ lcall_in (names_of ["a"%string]) c /\ fst (lask c x) = Ok LUnit /\
  pget (names_of ["b"; "g"]%string) (p_tree x) = Some (PFile (lit "other") 420 7) /\ pget (names_of ["b"; "g"]%string) (p_tree (snd (lask c x))) = Some (PFile (lit "new") 420 50).
Proof.
  eexists _, _. split; [reflexivity|]. split; [reflexivity|]. split; [apply home_a|]. split; [at_uri (lit "/k/g")|]. vm_compute. auto.
Qed.
(** Two dots at the place of a name lead out as well. *)
Theorem C160_dots_needed : exists x c, x = two_homes [] /\ c = LWrite (fu "/a/../b/g"%string) [lit "new"] /\ walled (names_of ["a"]%string) x /\ fst (lask c x) = Ok LUnit /\
  pget (names_of ["b"; "g"]%string) (p_tree x) = Some (PFile (lit "other") 420 7) /\ pget (names_of ["b"; "g"]%string) (p_tree (snd (lask c x))) = Some (PFile (lit "new") 420 50).
Proof. eexists _, _. split; [reflexivity|]. split; [reflexivity|]. split; [wall|vm_compute; auto]. Qed.

(** ** Cases *)
Definition linked_home : pst := two_homes [(names_of ["a"; "l"]%string, PLink (lit "/a/f"))].
Definition own_calls : list lcall := [LMkdir (fu "/a/d"%string); LCopy 9 false [] true (fu "/a/l"%string) (fu "/a/d/h"%string); LMove (fu "/a/f"%string) (fu "/a/d/m"%string); LRead (fu "/a/d/h"%string); LReadlink (fu "/a/l"%string); LListdir (fu "/a"%string)].
Definition their_events : list levent := [LOwn (LMkdir (fu "/a/d"%string)); LOther (LRemove 9 true (fu "/b/g"%string)); LClock 60; LOther (LMakedirs 9 (fu "/b/g/h"%string)); LOwn (LMove (fu "/a/f"%string) (fu "/a/d/m"%string)); LOther (LWrite (fu "/b/f"%string) [lit "x"]); LOwn (LListdir (fu "/a/d"%string)); LOwn (LRead (fu "/a/l"%string))].
Theorem C160_witness : let A := names_of ["a"]%string in let B := names_of ["b"]%string in
  home_dir A /\ home_dir B /\ apart_dirs A B /\ sound linked_home /\ walled A linked_home /\ walled B linked_home /\ Forall (lcall_in A) own_calls /\ Forall (levent_in A B) their_events /\
  same_home A linked_home (two_homes [(names_of ["a"; "l"]%string, PLink (lit "/a/f")); (names_of ["c"]%string, PLink (lit "nowhere"))]) /\
  fst (lhappen their_events linked_home) = [Ok LUnit; Ok LUnit; Ok (LNames [lit "m"]); Raise (OSError ENOENT)] /\
  pget (names_of ["b"; "f"]%string) (p_tree (snd (lhappen their_events linked_home))) = Some (PFile (lit "x") 420 60) /\
  fst (lhappen (map LOwn own_calls) linked_home) = [Ok LUnit; Ok LUnit; Ok LUnit; Ok (LBytes (lit "own")); Ok (LUri (fu "/a/f"%string)); Ok (LNames [lit "d"; lit "l"])].
Proof.
  cbv zeta. split; [apply home_a|]. split; [apply home_b|]. split; [split; intros r E; discriminate E|]. split; [apply sound_check; [now exists 493%Z, 5%Z|reflexivity|repeat constructor; cbn; intuition discriminate]|].
  split; [unfold linked_home; wall|]. split; [unfold linked_home; wall|].
  split; [repeat (apply Forall_cons; [cbn [lcall_in]; repeat match goal with |- _ /\ _ => split end|]); try apply Forall_nil|].
  1: at_uri (lit "/d").
  1: at_uri (lit "/l").
  1: at_uri (lit "/d/h").
  1: at_uri (lit "/f").
  1: at_uri (lit "/d/m").
  1: at_uri (lit "/d/h").
  1: at_uri (lit "/l").
  1: apply (uri_one _ []); [mild|now left|vm_compute; reflexivity].
  split; [repeat (apply Forall_cons; [cbn [levent_in lcall_in]; repeat match goal with |- _ /\ _ => split end|]); try apply Forall_nil; try exact I|].
  1: at_uri (lit "/d").
  1: at_uri (lit "/g").
  1: at_uri (lit "/g/h").
  1: at_uri (lit "/f").
  1: at_uri (lit "/d/m").
  1: at_uri (lit "/f").
  1: at_uri (lit "/d").
  1: at_uri (lit "/l").
  split; [constructor; try reflexivity; intros p; cbn [two_homes linked_home p_tree app]; cbn [pget names_of map app]|].
  split; [vm_compute; reflexivity|]. split; [vm_compute; reflexivity|]. vm_compute. reflexivity.
Qed.
(** A program that goes where the answers lead *)
Definition tidy_up : lprog (list str) := LCall (LListdir (fu "/a"%string)) (fun r => LCall (LRemove 9 false (fu "/a/l"%string)) (fun _ => LDone match r with Ok (LNames l) => l | _ => [] end)).
Example C160_program_witness : stays_in (names_of ["a"]%string) tidy_up linked_home /\ fst (lrun tidy_up linked_home) = [lit "f"; lit "l"].
Proof.
  split; [|vm_compute; reflexivity]. cbn [stays_in tidy_up]. split; [apply (uri_one _ []); [mild|now left|vm_compute; reflexivity]|]. destruct (lask _ linked_home) as [r x']. split; [at_uri (lit "/l")|]. now destruct (lask _ x').
Qed.
Print Assumptions C160_rest.
Print Assumptions C160_own.
Print Assumptions C160_program.
Print Assumptions C160_together.
Print Assumptions C160_order.
Print Assumptions C160_link_needed.
Print Assumptions C160_dots_needed.
Print Assumptions C160_witness.
