(** As Pair.v, with different URIs on the two sides: two computations that end alike and keep a relation between their
    states.  If the operations of two backends are such for related URIs, and the URIs made on the way are related
    again, so is everything built from them. *)
From Verif Require Import Str Exc UriParse BaseUri Generic Pair.

Definition rel {A B} (Q : A -> B -> Prop) (r1 : res A) (r2 : res B) : Prop :=
  match r1, r2 with Ok a, Ok b => Q a b | Raise e, Raise e' => e = e' | _, _ => False end.
Definition whatever {A B} (_ : A) (_ : B) : Prop := True.
Lemma rel_weak {A B} (Q Q' : A -> B -> Prop) r1 r2 : rel Q r1 r2 -> (forall a b, Q a b -> Q' a b) -> rel Q' r1 r2.
Proof. destruct r1, r2; cbn; auto. Qed.

Section Alike.
Context {S1 S2 : Type}.
Variable R : S1 -> S2 -> Prop.
Definition alike {A B} (Q : A -> B -> Prop) (m1 : M S1 A) (m2 : M S2 B) : Prop :=
  forall s1 s2, R s1 s2 -> R (snd (m1 s1)) (snd (m2 s2)) /\ rel Q (fst (m1 s1)) (fst (m2 s2)).
Lemma alike_weak {A B} (Q Q' : A -> B -> Prop) m1 m2 : alike Q m1 m2 -> (forall a b, Q a b -> Q' a b) -> alike Q' m1 m2.
Proof. intros H W s1 s2 T. destruct (H s1 s2 T) as (T' & q). split; [exact T'|]. eapply rel_weak; eauto. Qed.
Lemma alike_what {A B} (Q : A -> B -> Prop) m1 m2 : alike Q m1 m2 -> alike whatever m1 m2.
Proof. intros H. apply (alike_weak Q); [exact H|]. now intros. Qed.
Lemma alike_ret {A B} (Q : A -> B -> Prop) a b : Q a b -> alike Q (ret a) (ret b).
Proof. intros q s1 s2 T. split; [exact T|exact q]. Qed.
Lemma alike_raise {A B} (Q : A -> B -> Prop) e : alike Q (raise e) (raise e).
Proof. intros s1 s2 T. split; [exact T|reflexivity]. Qed.
Lemma alike_lift {A B} (Q : A -> B -> Prop) r1 r2 : rel Q r1 r2 -> alike Q (lift r1) (lift r2).
Proof. intros q s1 s2 T. split; [exact T|exact q]. Qed.
Lemma alike_bind {A B A' B'} (Q : A -> B -> Prop) (Q' : A' -> B' -> Prop) m1 m2 k1 k2 :
  alike Q m1 m2 -> (forall a b, Q a b -> alike Q' (k1 a) (k2 b)) -> alike Q' (bind m1 k1) (bind m2 k2).
Proof.
  intros H K s1 s2 T. destruct (H s1 s2 T) as (T' & q). unfold bind. destruct (m1 s1) as [r1 s1'], (m2 s2) as [r2 s2']. cbn [fst snd] in *.
  destruct r1 as [a|e], r2 as [b|e']; cbn [rel] in q; try contradiction; [now apply K|]. subst e'. split; [exact T'|reflexivity].
Qed.
Lemma alike_if {A B} (Q : A -> B -> Prop) (c : bool) m1 m2 m1' m2' : alike Q m1 m2 -> alike Q m1' m2' -> alike Q (if c then m1 else m1') (if c then m2 else m2').
Proof. now destruct c. Qed.
(** The same answer, of a given kind *)
Definition same {A} (P : A -> Prop) (a b : A) : Prop := a = b /\ P a.
Lemma alike_map {X} (P : X -> Prop) (f1 : X -> M S1 unit) (f2 : X -> M S2 unit) l :
  Forall P l -> (forall x, P x -> alike whatever (f1 x) (f2 x)) -> alike whatever (mapM_ f1 l) (mapM_ f2 l).
Proof. intros H F. induction H; cbn [mapM_]; [now apply alike_ret|]. apply (alike_bind whatever); auto. Qed.
Lemma alike_fold {A B X} (Q : A -> B -> Prop) (P : X -> Prop) (f1 : A -> X -> M S1 A) (f2 : B -> X -> M S2 B) l :
  Forall P l -> (forall a b x, Q a b -> P x -> alike Q (f1 a x) (f2 b x)) -> forall a b, Q a b -> alike Q (foldM f1 a l) (foldM f2 b l).
Proof. intros H F. induction H; intros a b q; cbn [foldM]; [now apply alike_ret|]. apply (alike_bind Q); auto. Qed.

Variables (b1 : backend S1) (b2 : backend S2).
Variable P : uri -> uri -> Prop.    (* the URIs *)
Variable Nm : str -> Prop.          (* the names of entries *)
Variable T : uri -> uri -> Prop.    (* the targets of links *)
Variable Rt : uri -> Prop.          (* the URIs that have a parent *)
Variable Lt : uri -> Prop.          (* the URIs that have a name *)
Record matched : Prop := {
  ma_hook : forall u v n, P u v -> alike whatever (b_hook b1 u n) (b_hook b2 v n);
  ma_exists : forall u v, P u v -> alike eq (b_exists b1 u) (b_exists b2 v);
  ma_isfile : forall u v, P u v -> alike eq (b_isfile b1 u) (b_isfile b2 v);
  ma_isdir : forall u v, P u v -> alike (same (fun _ => Rt u)) (b_isdir b1 u) (b_isdir b2 v);
  ma_islink : forall u v, P u v -> alike eq (b_islink b1 u) (b_islink b2 v);
  ma_listdir : forall u v, P u v -> alike (same (Forall Nm)) (b_listdir b1 u) (b_listdir b2 v);
  ma_removefile : forall u v, P u v -> alike whatever (b_removefile b1 u) (b_removefile b2 v);
  ma_removedir : forall u v, P u v -> alike whatever (b_removedir b1 u) (b_removedir b2 v);
  ma_mkdir : forall u v, P u v -> alike whatever (b_mkdir b1 u) (b_mkdir b2 v);
  ma_readlink : forall u v, P u v -> alike T (b_readlink b1 u) (b_readlink b2 v);
  ma_copystat : forall u v u' v', P u v -> P u' v' -> alike whatever (b_copystat b1 u u') (b_copystat b2 v v');
  ma_content : forall u v u' v', P u v -> P u' v' -> alike whatever (b_copy_content b1 u u') (b_copy_content b2 v v');
  ma_removefile_by : forall u v u' v', P u v -> P u' v' -> alike whatever (b_removefile_by b1 u u') (b_removefile_by b2 v v');
  ma_symlink_by : forall u v t t' u' v', P u v -> T t t' -> P u' v' -> alike whatever (b_symlink_by b1 u t u') (b_symlink_by b2 v t' v') }.
Hypothesis K : matched.
Hypothesis div_in : forall u v n, P u v -> Nm n -> rel P (u_div u n) (u_div v n).
Hypothesis str_in : forall u v, P u v -> rel whatever (u_str u) (u_str v).

Lemma alike_div u v n : P u v -> Nm n -> alike P (lift (u_div u n)) (lift (u_div v n)).
Proof. intros p q. apply alike_lift. now apply div_in. Qed.
Lemma alike_hooked {A B} (Q : A -> B -> Prop) n u v m1 m2 : P u v -> alike Q m1 m2 -> alike Q (hooked b1 n u m1) (hooked b2 n v m2).
Proof. intros p H. unfold hooked. apply (alike_bind whatever); [now apply (ma_hook K)|]. now intros _ _ _. Qed.
Lemma alike_exists u v : P u v -> alike eq (u_exists b1 u) (u_exists b2 v). Proof. intros p. apply alike_hooked; [exact p|]. now apply (ma_exists K). Qed.
Lemma alike_isfile u v : P u v -> alike eq (u_isfile b1 u) (u_isfile b2 v). Proof. intros p. apply alike_hooked; [exact p|]. now apply (ma_isfile K). Qed.
Lemma alike_isdir_rt u v : P u v -> alike (same (fun _ => Rt u)) (u_isdir b1 u) (u_isdir b2 v). Proof. intros p. apply alike_hooked; [exact p|]. now apply (ma_isdir K). Qed.
Lemma alike_isdir u v : P u v -> alike eq (u_isdir b1 u) (u_isdir b2 v). Proof. intros p. apply (alike_weak (same (fun _ => Rt u))); [now apply alike_isdir_rt|]. now intros a b [-> _]. Qed.
Lemma alike_b_isdir u v : P u v -> alike eq (b_isdir b1 u) (b_isdir b2 v). Proof. intros p. apply (alike_weak (same (fun _ => Rt u))); [now apply (ma_isdir K)|]. now intros a b [-> _]. Qed.
Lemma alike_islink u v : P u v -> alike eq (u_islink b1 u) (u_islink b2 v). Proof. intros p. apply alike_hooked; [exact p|]. now apply (ma_islink K). Qed.
Lemma alike_mkdir u v : P u v -> alike whatever (u_mkdir b1 u) (u_mkdir b2 v). Proof. intros p. apply alike_hooked; [exact p|]. now apply (ma_mkdir K). Qed.
Lemma alike_listdir u v : P u v -> alike (same (Forall Nm)) (u_listdir b1 u) (u_listdir b2 v). Proof. intros p. apply alike_hooked; [exact p|]. now apply (ma_listdir K). Qed.

Definition sorted_kinds := same (fun dn : list str * list str => Forall Nm (fst dn) /\ Forall Nm (snd dn)).
Lemma alike_kinds top top' l : P top top' -> Forall Nm l -> alike sorted_kinds (kinds b1 top l) (kinds b2 top' l).
Proof.
  intros p H. induction H as [|n l q H IH]; cbn [kinds]; [apply alike_ret; split; [reflexivity|]; split; constructor|].
  apply (alike_bind P); [now apply alike_div|]. intros x y px. apply (alike_bind eq); [now apply alike_b_isdir|]. intros d d' <-.
  apply (alike_bind _ _ _ _ _ _ IH). intros r r' [<- [r1 r2]]. apply alike_ret. split; [reflexivity|]. destruct d; cbn [fst snd]; split; auto.
Qed.
(** The list of directories the body leaves is the same. *)
Definition left {A B} (Q : A -> B -> Prop) (x : A * list str) (y : B * list str) : Prop := Q (fst x) (fst y) /\ snd x = snd y /\ Forall Nm (snd x).
Lemma alike_walk_gen {A B} (Q : A -> B -> Prop) fuel td fl (body1 : A -> uri -> list str -> list str -> M S1 (A * list str)) (body2 : B -> uri -> list str -> list str -> M S2 (B * list str)) :
  (forall a b u v ds fs, Q a b -> P u v -> Forall Nm ds -> Forall Nm fs -> alike (left Q) (body1 a u ds fs) (body2 b v ds fs)) ->
  forall a b top top', Q a b -> P top top' -> alike Q (walk_gen b1 fuel td fl body1 a top) (walk_gen b2 fuel td fl body2 b top').
Proof.
  intros Bd. induction fuel as [|f IH]; intros a b top top' q p; cbn [walk_gen]; [apply alike_raise|].
  apply (alike_bind (same (Forall Nm))); [now apply (ma_listdir K)|]. intros names names' [<- H].
  apply (alike_bind _ _ _ _ _ _ (alike_kinds top top' _ p (sorted_in Nm _ H))).
  intros dn dn' [<- [d1 d2]]. apply (alike_bind (left Q)).
  - apply alike_if; [now apply Bd|]. apply alike_ret. repeat split; auto.
  - intros ad ad' (a1 & <- & a2). apply (alike_bind Q).
    + apply (alike_fold Q Nm); [exact a2| |exact a1]. intros x y n qa qn. apply (alike_bind P); [now apply alike_div|]. intros z z' px.
      apply (alike_bind eq); [now apply alike_islink|]. intros l l' <-. apply alike_if; [now apply IH|now apply alike_ret].
    + intros acc acc' q'. apply alike_if; [now apply alike_ret|]. apply (alike_bind _ _ _ _ _ _ (Bd acc acc' top top' _ _ q' p d1 d2)). intros r r' [r1 _]. now apply alike_ret.
Qed.
(** The directories of a walk correspond. *)
Definition walks (l l' : list (uri * list str * list str)) : Prop :=
  Forall2 (fun x y => P (fst (fst x)) (fst (fst y)) /\ snd (fst x) = snd (fst y) /\ snd x = snd y) l l'.
Lemma alike_walk fuel td fl u v : P u v -> alike walks (u_walk b1 fuel td fl u) (u_walk b2 fuel td fl v).
Proof.
  intros p. apply alike_hooked; [exact p|]. apply alike_walk_gen; [|constructor|exact p].
  intros a b r r' ds fs qa pr Hd Hf. apply alike_ret. split; [|split; [reflexivity|exact Hd]]. cbn [fst]. apply Forall2_app; [exact qa|]. constructor; [|constructor]. cbn [fst snd]. auto.
Qed.
Lemma alike_remove_dir fuel u v : P u v -> alike whatever (remove_dir_recursively b1 fuel u) (remove_dir_recursively b2 fuel v).
Proof.
  intros p. unfold remove_dir_recursively. apply (alike_bind whatever).
  - apply alike_walk_gen; [|exact I|exact p]. intros [] [] r r' ds fs _ pr Hd Hf. apply (alike_bind whatever).
    + apply (alike_map Nm); [exact Hf|]. intros n qn. apply (alike_bind P); [now apply alike_div|]. intros x y px. now apply (ma_removefile K).
    + intros _ _ _. apply (alike_bind whatever); [|intros _ _ _; apply alike_ret; now repeat split].
      apply (alike_map Nm); [exact Hd|]. intros n qn. apply (alike_bind P); [now apply alike_div|]. intros x y px.
      apply (alike_bind eq); [now apply (ma_islink K)|]. intros l l' <-. apply alike_if; [now apply (ma_removefile K)|now apply (ma_removedir K)].
  - intros _ _ _. apply (alike_bind eq); [now apply (ma_islink K)|]. intros l l' <-. apply alike_if; [now apply (ma_removefile K)|now apply (ma_removedir K)].
Qed.
Lemma alike_str {A} u v e : P u v -> alike (A := A) (B := A) whatever (let! _ <- lift (u_str u); raise e) (let! _ <- lift (u_str v); raise e).
Proof. intros p. apply (alike_bind whatever); [apply alike_lift; now apply str_in|]. intros _ _ _. apply alike_raise. Qed.
Lemma alike_remove fuel rc u v : P u v -> alike whatever (u_remove b1 fuel rc u) (u_remove b2 fuel rc v).
Proof.
  intros p. apply alike_hooked; [exact p|]. apply (alike_bind eq); [now apply (ma_islink K)|]. intros l l' <-. apply alike_if; [now apply (ma_removefile K)|].
  apply (alike_bind eq); [now apply (ma_exists K)|]. intros e e' <-. apply alike_if; [now apply alike_str|].
  apply (alike_bind eq); [now apply alike_b_isdir|]. intros d d' <-. apply alike_if; [apply alike_if; [now apply alike_remove_dir|now apply (ma_removedir K)]|].
  apply (alike_bind eq); [now apply (ma_isfile K)|]. intros f f' <-. apply alike_if; [now apply (ma_removefile K)|now apply alike_ret].
Qed.
Lemma alike_copy_link u v u' v' : P u v -> P u' v' -> alike whatever (copy_link b1 u u') (copy_link b2 v v').
Proof.
  intros p q. unfold copy_link. apply (alike_bind eq); [now apply (ma_islink K)|]. intros l l' <-. apply alike_if; [apply alike_raise|].
  apply (alike_bind eq); [now apply alike_isfile|]. intros f f' <-. apply (alike_bind whatever); [apply alike_if; [now apply (ma_removefile_by K)|now apply alike_ret]|].
  intros _ _ _. apply (alike_bind T); [now apply (ma_readlink K)|]. intros t t' tt. now apply (ma_symlink_by K).
Qed.
Lemma alike_copy_entry fl sm u v u' v' : P u v -> P u' v' -> alike whatever (copy_entry b1 fl sm u u') (copy_entry b2 fl sm v v').
Proof.
  intros p q. unfold copy_entry. apply (alike_bind eq); [now apply alike_islink|]. intros l l' <-. apply alike_if; [now apply alike_copy_link|].
  apply (alike_bind whatever); [now apply (ma_content K)|]. intros _ _ _. apply alike_if; [now apply (ma_copystat K)|now apply alike_ret].
Qed.
Lemma alike_glob fn u v pat : P u v -> alike (Forall2 P) (u_glob b1 fn u pat) (u_glob b2 fn v pat).
Proof.
  intros p. apply alike_hooked; [exact p|]. unfold fs_glob. apply (alike_bind (same (Forall Nm))); [now apply alike_listdir|]. intros l l' [<- H].
  apply (alike_fold (Forall2 P) Nm); [exact H| |constructor]. intros a b x qa qx. apply alike_if; [|now apply alike_ret].
  apply (alike_bind P); [now apply alike_div|]. intros r r' pr. apply alike_ret. apply Forall2_app; [exact qa|]. now constructor.
Qed.

(** *** Copying *)
Hypothesis scheme_in : forall u v u' v', P u v -> P u' v' -> opt_eqb (u_scheme u) (u_scheme u') = opt_eqb (u_scheme v) (u_scheme v').
Hypothesis last_in : forall u v, P u v -> Lt u -> u_last u = u_last v /\ Nm (u_last u).
Lemma alike_aim (c : bool) u v u' v' : P u v -> Lt u -> P u' v' -> alike P (if c then lift (u_div u' (u_last u)) else ret u') (if c then lift (u_div v' (u_last v)) else ret v').
Proof. intros p l q. apply alike_if; [|now apply alike_ret]. destruct (last_in u v p l) as [<- n]. now apply alike_div. Qed.
Lemma alike_copy_one fuel ig fl u v u' v' : P u v -> Lt u -> P u' v' -> alike whatever (u_copy b1 fuel false ig fl u u') (u_copy b2 fuel false ig fl v v').
Proof.
  intros p lt q. apply alike_hooked; [exact p|]. unfold fs_copy. rewrite <- (scheme_in u v u' v' p q). apply (alike_bind eq); [now apply alike_exists|]. intros e e' <-. apply alike_if; [now apply alike_str|].
  cbn [negb]. apply (alike_bind eq); [now apply alike_isfile|]. intros f f' <-. apply alike_if; [apply alike_raise|].
  apply (alike_bind eq); [now apply alike_isdir|]. intros dd dd' <-. apply (alike_bind _ _ _ _ _ _ (alike_aim dd u v u' v' p lt q)). intros w w' pw. now apply alike_copy_entry.
Qed.

(** *** Everything that asks for the parent *)
Hypothesis split_in : forall u v, P u v -> Rt u -> rel (fun x y => P (fst x) (fst y) /\ snd x = snd y) (u_split u) (u_split v).
Hypothesis rest_in : forall s s' u v, P s s' -> P u v ->
  strip_p is_space (skipn (length (u_path s) + 1) (u_path u)) = strip_p is_space (skipn (length (u_path s') + 1) (u_path v)) /\ Nm (strip_p is_space (skipn (length (u_path s) + 1) (u_path u))).
Lemma alike_fs_makedirs fuel : forall u v, P u v -> alike whatever (fs_makedirs b1 fuel u) (fs_makedirs b2 fuel v).
Proof.
  induction fuel as [|f IH]; intros u v p; cbn [fs_makedirs]; [apply alike_raise|].
  apply (alike_bind (same (fun _ => Rt u))); [now apply alike_isdir_rt|]. intros d d' [<- rt]. apply alike_if; [now apply alike_ret|].
  apply (alike_bind (fun x y => P (fst x) (fst y) /\ snd x = snd y)); [apply alike_lift; now apply split_in|].
  intros [x y] [x' y'] [px ey]. cbn [fst snd] in *. subst y'. apply (alike_bind eq); [now apply alike_isdir|]. intros pd pd' <-. apply (alike_bind whatever).
  - apply alike_if; [now apply alike_ret|now apply IH].
  - intros _ _ _. destruct y; [now apply alike_ret|now apply alike_mkdir].
Qed.
Lemma alike_makedirs fuel u v : P u v -> alike whatever (u_makedirs b1 fuel u) (u_makedirs b2 fuel v).
Proof. intros p. apply alike_hooked; [exact p|]. now apply alike_fs_makedirs. Qed.
Lemma alike_copy_step fuel ig fl sm s s' d d' root root' ds fs : P s s' -> P d d' -> P root root' -> Forall Nm ds -> Forall Nm fs ->
  alike (same (Forall Nm)) (copy_step b1 fuel ig fl sm (length (u_path s) + 1) d root ds fs) (copy_step b2 fuel ig fl sm (length (u_path s') + 1) d' root' ds fs).
Proof.
  intros ps p q Hd Hf. unfold copy_step. destruct (rest_in s s' root root' ps q) as [<- W]. apply (alike_bind P).
  - destruct (strip_p is_space (skipn (length (u_path s) + 1) (u_path root))); [now apply alike_ret|now apply alike_div].
  - intros dbase dbase' pd. apply (alike_bind (same (Forall Nm))).
    + apply (alike_fold (same (Forall Nm)) Nm); [exact Hd| |now split]. intros a b x [<- qa] qx. apply alike_if; [apply alike_ret; split; [reflexivity|now apply removed_in]|].
      apply (alike_bind P); [now apply alike_div|]. intros dd dd' pdd. apply (alike_bind P); [now apply alike_div|]. intros sp sp' psp.
      apply (alike_bind eq); [now apply alike_islink|]. intros l l' <-. apply (alike_bind whatever); [apply alike_if; [now apply alike_copy_link|now apply alike_makedirs]|].
      intros _ _ _. now apply alike_ret.
    + intros ds' ds'' [<- qd]. apply (alike_bind whatever); [|intros _ _ _; now apply alike_ret]. apply (alike_map Nm); [exact Hf|]. intros x qx.
      apply (alike_bind P); [now apply alike_div|]. intros sf sf' psf. apply (alike_bind P); [now apply alike_div|]. intros df df' pdf. now apply alike_copy_entry.
Qed.
Lemma alike_copy fuel rc ig fl u v u' v' : P u v -> Lt u -> P u' v' -> alike whatever (u_copy b1 fuel rc ig fl u u') (u_copy b2 fuel rc ig fl v v').
Proof.
  destruct rc; [|apply alike_copy_one]. intros p lt q. apply alike_hooked; [exact p|]. unfold fs_copy. rewrite <- (scheme_in u v u' v' p q).
  apply (alike_bind eq); [now apply alike_exists|]. intros e e' <-. apply alike_if; [now apply alike_str|]. cbn [negb].
  apply (alike_bind eq); [now apply alike_isdir|]. intros d d' <-. apply alike_if; [apply alike_raise|].
  apply (alike_bind eq); [now apply alike_isdir|]. intros dd dd' <-. apply (alike_bind _ _ _ _ _ _ (alike_aim dd u v u' v' p lt q)). intros w w' pw.
  apply (alike_bind eq); [now apply alike_islink|]. intros l l' <-. apply alike_if; [now apply alike_copy_link|].
  apply (alike_bind whatever); [now apply alike_makedirs|]. intros _ _ _. apply (alike_bind whatever); [now apply (ma_hook K)|]. intros _ _ _.
  apply alike_walk_gen; [|exact I|exact p]. intros [] [] r r' ds fs _ pr Hd Hf.
  apply (alike_bind _ _ _ _ _ _ (alike_copy_step fuel ig fl _ u v w w' r r' ds fs p pw pr Hd Hf)).
  intros ds' ds'' [<- q']. apply alike_ret. now repeat split.
Qed.
Lemma alike_move fuel u v u' v' : P u v -> Lt u -> P u' v' -> alike whatever (u_move b1 fuel u u') (u_move b2 fuel v v').
Proof.
  intros p lt q. apply alike_hooked; [exact p|]. unfold fs_move. apply (alike_bind eq); [now apply alike_isfile|]. intros f f' <-.
  apply alike_if; (apply (alike_bind whatever); [now apply alike_copy|]; intros _ _ _; now apply alike_remove).
Qed.
End Alike.
