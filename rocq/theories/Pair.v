(** Two computations that give the same answer and keep a relation between their states.  If the operations two
    backends supply are such, for the URIs of some set, and the set has all URIs made on the way, so is everything built
    from them. *)
From Verif Require Import Str Exc UriParse BaseUri Generic.

Section Pair.
Context {S1 S2 : Type}.
Variable R : S1 -> S2 -> Prop.
Definition both {A} (Q : A -> Prop) (m1 : M S1 A) (m2 : M S2 A) : Prop :=
  forall s1 s2, R s1 s2 -> fst (m1 s1) = fst (m2 s2) /\ R (snd (m1 s1)) (snd (m2 s2)) /\ forall a, fst (m1 s1) = Ok a -> Q a.
Definition any {A} (_ : A) : Prop := True.
Lemma both_weak {A} (Q Q' : A -> Prop) m1 m2 : both Q m1 m2 -> (forall a, Q a -> Q' a) -> both Q' m1 m2.
Proof. intros H W s1 s2 T. destruct (H s1 s2 T) as (E & T' & q). auto. Qed.
Lemma both_any {A} (Q : A -> Prop) m1 m2 : both Q m1 m2 -> both any m1 m2.
Proof. intros H. apply (both_weak Q); [exact H|]. now intros. Qed.
Lemma both_ret {A} (Q : A -> Prop) a : Q a -> both Q (ret a) (ret a).
Proof. intros q s1 s2 T. split; [reflexivity|]. split; [exact T|]. intros x E. now injection E as <-. Qed.
Lemma both_raise {A} (Q : A -> Prop) e : both Q (raise e) (raise e).
Proof. intros s1 s2 T. split; [reflexivity|]. split; [exact T|]. discriminate. Qed.
Lemma both_lift {A} (Q : A -> Prop) r : (forall a, r = Ok a -> Q a) -> both Q (lift r) (lift r).
Proof. intros q s1 s2 T. split; [reflexivity|]. split; [exact T|exact q]. Qed.
Lemma both_bind {A B} (Q : A -> Prop) (Q' : B -> Prop) m1 m2 k1 k2 :
  both Q m1 m2 -> (forall a, Q a -> both Q' (k1 a) (k2 a)) -> both Q' (bind m1 k1) (bind m2 k2).
Proof.
  intros H K s1 s2 T. destruct (H s1 s2 T) as (E & T' & q). unfold bind. destruct (m1 s1) as [r1 s1'], (m2 s2) as [r2 s2']. cbn [fst snd] in *. subst r2.
  destruct r1 as [a|e]; [apply K; auto|]. split; [reflexivity|]. split; [exact T'|]. discriminate.
Qed.
Lemma both_if {A} (Q : A -> Prop) (c : bool) m1 m2 m1' m2' : both Q m1 m2 -> both Q m1' m2' -> both Q (if c then m1 else m1') (if c then m2 else m2').
Proof. now destruct c. Qed.
Lemma both_map {X} (P : X -> Prop) (f1 : X -> M S1 unit) (f2 : X -> M S2 unit) l :
  Forall P l -> (forall x, P x -> both any (f1 x) (f2 x)) -> both any (mapM_ f1 l) (mapM_ f2 l).
Proof. intros H F. induction H; cbn [mapM_]; [now apply both_ret|]. apply (both_bind any); auto. Qed.
Lemma both_fold {A X} (Q : A -> Prop) (P : X -> Prop) (f1 : A -> X -> M S1 A) (f2 : A -> X -> M S2 A) l :
  Forall P l -> (forall a x, Q a -> P x -> both Q (f1 a x) (f2 a x)) -> forall a, Q a -> both Q (foldM f1 a l) (foldM f2 a l).
Proof. intros H F. induction H; intros a q; cbn [foldM]; [now apply both_ret|]. apply (both_bind Q); auto. Qed.

Variables (b1 : backend S1) (b2 : backend S2).
Variable P : uri -> Prop.       (* the URIs *)
Variable Nm : str -> Prop.      (* the names of entries *)
Variable T : uri -> Prop.       (* the targets of links *)
Variable Rt : uri -> Prop.      (* the URIs that have a parent *)
Record paired : Prop := {
  pa_hook : forall u n, P u -> both any (b_hook b1 u n) (b_hook b2 u n);
  pa_exists : forall u, P u -> both any (b_exists b1 u) (b_exists b2 u);
  pa_isfile : forall u, P u -> both any (b_isfile b1 u) (b_isfile b2 u);
  pa_isdir : forall u, P u -> both (fun _ => Rt u) (b_isdir b1 u) (b_isdir b2 u);
  pa_islink : forall u, P u -> both any (b_islink b1 u) (b_islink b2 u);
  pa_listdir : forall u, P u -> both (Forall Nm) (b_listdir b1 u) (b_listdir b2 u);
  pa_removefile : forall u, P u -> both any (b_removefile b1 u) (b_removefile b2 u);
  pa_removedir : forall u, P u -> both any (b_removedir b1 u) (b_removedir b2 u);
  pa_mkdir : forall u, P u -> both any (b_mkdir b1 u) (b_mkdir b2 u);
  pa_readlink : forall u, P u -> both T (b_readlink b1 u) (b_readlink b2 u);
  pa_copystat : forall u v, P u -> P v -> both any (b_copystat b1 u v) (b_copystat b2 u v);
  pa_content : forall u v, P u -> P v -> both any (b_copy_content b1 u v) (b_copy_content b2 u v);
  pa_removefile_by : forall w u, P w -> P u -> both any (b_removefile_by b1 w u) (b_removefile_by b2 w u);
  pa_symlink_by : forall w t u, P w -> T t -> P u -> both any (b_symlink_by b1 w t u) (b_symlink_by b2 w t u) }.
Hypothesis K : paired.
Hypothesis div_in : forall u n r, P u -> Nm n -> u_div u n = Ok r -> P r.
Variable Up : uri -> Prop.      (* parents that are no such URIs, but are directories *)
Hypothesis up_dir : forall u, Up u -> both (fun d => d = true) (u_isdir b1 u) (u_isdir b2 u).
Hypothesis split_in : forall u d n, P u -> Rt u -> u_split u = Ok (d, n) -> P d \/ Up d.
Hypothesis last_in : forall u, P u -> Nm (u_last u).
Hypothesis rest_in : forall u k, P u -> Nm (strip_p is_space (skipn k (u_path u))).

Lemma both_div u n : P u -> Nm n -> both P (lift (u_div u n)) (lift (u_div u n)).
Proof. intros p q. apply both_lift. intros r E. exact (div_in u n r p q E). Qed.
Lemma both_hooked {A} (Q : A -> Prop) n u m1 m2 : P u -> both Q m1 m2 -> both Q (hooked b1 n u m1) (hooked b2 n u m2).
Proof. intros p H. unfold hooked. apply (both_bind any); [now apply (pa_hook K)|]. now intros _ _. Qed.
Lemma both_exists u : P u -> both any (u_exists b1 u) (u_exists b2 u). Proof. intros p. apply both_hooked; [exact p|]. now apply (pa_exists K). Qed.
Lemma both_isfile u : P u -> both any (u_isfile b1 u) (u_isfile b2 u). Proof. intros p. apply both_hooked; [exact p|]. now apply (pa_isfile K). Qed.
Lemma both_isdir_rt u : P u -> both (fun _ => Rt u) (u_isdir b1 u) (u_isdir b2 u). Proof. intros p. apply both_hooked; [exact p|]. now apply (pa_isdir K). Qed.
Lemma both_isdir u : P u -> both any (u_isdir b1 u) (u_isdir b2 u). Proof. intros p. apply (both_any (fun _ => Rt u)). now apply both_isdir_rt. Qed.
Lemma both_b_isdir u : P u -> both any (b_isdir b1 u) (b_isdir b2 u). Proof. intros p. apply (both_any (fun _ => Rt u)). now apply (pa_isdir K). Qed.
Lemma both_islink u : P u -> both any (u_islink b1 u) (u_islink b2 u). Proof. intros p. apply both_hooked; [exact p|]. now apply (pa_islink K). Qed.
Lemma both_mkdir u : P u -> both any (u_mkdir b1 u) (u_mkdir b2 u). Proof. intros p. apply both_hooked; [exact p|]. now apply (pa_mkdir K). Qed.
Lemma both_listdir u : P u -> both (Forall Nm) (u_listdir b1 u) (u_listdir b2 u). Proof. intros p. apply both_hooked; [exact p|]. now apply (pa_listdir K). Qed.

Lemma both_fs_makedirs_up fuel : forall u, P u -> both any (fs_makedirs b1 fuel u) (fs_makedirs b2 fuel u).
Proof.
  induction fuel as [|f IH]; intros u p; cbn [fs_makedirs]; [apply both_raise|].
  apply (both_bind (fun _ => Rt u)); [now apply both_isdir_rt|]. intros d rt. apply both_if; [now apply both_ret|].
  apply (both_bind (fun pt => P (fst pt) \/ Up (fst pt))).
  - apply both_lift. intros [x y] E. exact (split_in u x y p rt E).
  - intros [x y] px. cbn [fst snd] in *. apply (both_bind (fun pd => pd = true \/ P x)).
    + destruct px as [px|px]; [apply (both_weak any); [now apply both_isdir|]; now right|]. apply (both_weak _ _ _ _ (up_dir x px)). now left.
    + intros pd [->|px']; apply (both_bind any).
      * now apply both_ret.
      * intros _ _. destruct y; [now apply both_ret|now apply both_mkdir].
      * apply both_if; [now apply both_ret|now apply IH].
      * intros _ _. destruct y; [now apply both_ret|now apply both_mkdir].
Qed.
Lemma both_makedirs_up fuel u : P u -> both any (u_makedirs b1 fuel u) (u_makedirs b2 fuel u).
Proof. intros p. apply both_hooked; [exact p|]. now apply both_fs_makedirs_up. Qed.
Lemma both_kinds top l : P top -> Forall Nm l -> both (fun dn => Forall Nm (fst dn) /\ Forall Nm (snd dn)) (kinds b1 top l) (kinds b2 top l).
Proof.
  intros p H. induction H as [|n l q H IH]; cbn [kinds]; [apply both_ret; split; constructor|].
  apply (both_bind P); [now apply both_div|]. intros x px. apply (both_bind any); [now apply both_b_isdir|]. intros d _.
  apply (both_bind _ _ _ _ _ _ IH). intros r [r1 r2]. apply both_ret. destruct d; cbn [fst snd]; split; auto.
Qed.
Lemma sorted_in l : Forall Nm l -> Forall Nm (sort_strs l).
Proof.
  intros H. apply Forall_forall. intros x I. apply (proj1 (Forall_forall _ _) H).
  assert (E : forall y z l', In z (insert_sorted y l') -> z = y \/ In z l').
  { intros y z l'. induction l' as [|w l' IH]; cbn [insert_sorted]; [intros [E|[]]; auto|]. destruct (str_ltb w y); cbn [In].
    - intros [E|E]; [auto|]. destruct (IH E); auto.
    - intros [E|E]; auto. }
  unfold sort_strs in I. revert I. clear H. induction l as [|y l IH]; cbn [fold_right]; [auto|]. intros I. apply E in I as [->|I]; cbn [In]; auto.
Qed.
Lemma both_walk_gen {Acc} (Q : Acc -> Prop) fuel td fl (body1 : Acc -> uri -> list str -> list str -> M S1 (Acc * list str)) body2 :
  (forall a u ds fs, Q a -> P u -> Forall Nm ds -> Forall Nm fs -> both (fun r => Q (fst r) /\ Forall Nm (snd r)) (body1 a u ds fs) (body2 a u ds fs)) ->
  forall acc top, Q acc -> P top -> both Q (walk_gen b1 fuel td fl body1 acc top) (walk_gen b2 fuel td fl body2 acc top).
Proof.
  intros B. induction fuel as [|f IH]; intros acc top q p; cbn [walk_gen]; [apply both_raise|].
  apply (both_bind (Forall Nm)); [now apply (pa_listdir K)|]. intros names H. apply (both_bind _ _ _ _ _ _ (both_kinds top _ p (sorted_in _ H))).
  intros dn [d1 d2]. apply (both_bind (fun ad => Q (fst ad) /\ Forall Nm (snd ad))).
  - apply both_if; [now apply B|]. apply both_ret. split; assumption.
  - intros ad [a1 a2]. apply (both_bind Q).
    + apply (both_fold Q Nm); [exact a2| |exact a1]. intros a n qa qn. apply (both_bind P); [now apply both_div|]. intros x px.
      apply (both_bind any); [now apply both_islink|]. intros l _. apply both_if; [now apply IH|now apply both_ret].
    + intros acc' q'. apply both_if; [now apply both_ret|]. apply (both_bind _ _ _ _ _ _ (B acc' top _ _ q' p d1 d2)). intros r [r1 _]. now apply both_ret.
Qed.
Definition walk_in (l : list (uri * list str * list str)) : Prop := Forall (fun x => P (fst (fst x)) /\ Forall Nm (snd (fst x)) /\ Forall Nm (snd x)) l.
Lemma both_walk fuel td fl u : P u -> both walk_in (u_walk b1 fuel td fl u) (u_walk b2 fuel td fl u).
Proof.
  intros p. apply both_hooked; [exact p|]. apply both_walk_gen; [|constructor|exact p].
  intros a r ds fs qa pr Hd Hf. apply both_ret. cbn [fst snd]. split; [|exact Hd]. apply Forall_app. split; [exact qa|]. constructor; [|constructor]. cbn [fst snd]. auto.
Qed.
Lemma both_remove_dir fuel u : P u -> both any (remove_dir_recursively b1 fuel u) (remove_dir_recursively b2 fuel u).
Proof.
  intros p. unfold remove_dir_recursively. apply (both_bind any).
  - apply both_walk_gen; [|exact I|exact p]. intros [] r ds fs _ pr Hd Hf. apply (both_bind any).
    + apply (both_map Nm); [exact Hf|]. intros n qn. apply (both_bind P); [now apply both_div|]. intros x px. now apply (pa_removefile K).
    + intros _ _. apply (both_bind any); [|intros _ _; apply both_ret; now split].
      apply (both_map Nm); [exact Hd|]. intros n qn. apply (both_bind P); [now apply both_div|]. intros x px.
      apply (both_bind any); [now apply (pa_islink K)|]. intros l _. apply both_if; [now apply (pa_removefile K)|now apply (pa_removedir K)].
  - intros _ _. apply (both_bind any); [now apply (pa_islink K)|]. intros l _. apply both_if; [now apply (pa_removefile K)|now apply (pa_removedir K)].
Qed.
Lemma both_str {A} u e : both (A := A) any (let! _ <- lift (u_str u); raise e) (let! _ <- lift (u_str u); raise e).
Proof. apply (both_bind any); [apply both_lift; now intros|]. intros _ _. apply both_raise. Qed.
Lemma both_remove fuel rc u : P u -> both any (u_remove b1 fuel rc u) (u_remove b2 fuel rc u).
Proof.
  intros p. apply both_hooked; [exact p|]. apply (both_bind any); [now apply (pa_islink K)|]. intros l _. apply both_if; [now apply (pa_removefile K)|].
  apply (both_bind any); [now apply (pa_exists K)|]. intros e _. apply both_if; [apply both_str|].
  apply (both_bind any); [now apply both_b_isdir|]. intros d _. apply both_if; [apply both_if; [now apply both_remove_dir|now apply (pa_removedir K)]|].
  apply (both_bind any); [now apply (pa_isfile K)|]. intros f _. apply both_if; [now apply (pa_removefile K)|now apply both_ret].
Qed.
Lemma both_copy_link u v : P u -> P v -> both any (copy_link b1 u v) (copy_link b2 u v).
Proof.
  intros p q. unfold copy_link. apply (both_bind any); [now apply (pa_islink K)|]. intros l _. apply both_if; [apply both_raise|].
  apply (both_bind any); [now apply both_isfile|]. intros f _. apply (both_bind any); [apply both_if; [now apply (pa_removefile_by K)|now apply both_ret]|].
  intros _ _. apply (both_bind T); [now apply (pa_readlink K)|]. intros t tt. now apply (pa_symlink_by K).
Qed.
Lemma both_copy_entry fl sm u v : P u -> P v -> both any (copy_entry b1 fl sm u v) (copy_entry b2 fl sm u v).
Proof.
  intros p q. unfold copy_entry. apply (both_bind any); [now apply both_islink|]. intros l _. apply both_if; [now apply both_copy_link|].
  apply (both_bind any); [now apply (pa_content K)|]. intros _ _. apply both_if; [now apply (pa_copystat K)|now apply both_ret].
Qed.
Lemma removed_in n l : Forall Nm l -> Forall Nm (remove_first n l).
Proof. induction 1; cbn [remove_first]; [constructor|]. destruct (str_eqb n x); [assumption|]. now constructor. Qed.
Lemma both_copy_step_up fuel ig fl sm n d root ds fs : P d -> P root -> Forall Nm ds -> Forall Nm fs ->
  both (Forall Nm) (copy_step b1 fuel ig fl sm n d root ds fs) (copy_step b2 fuel ig fl sm n d root ds fs).
Proof.
  intros p q Hd Hf. unfold copy_step. pose proof (rest_in root n q) as W. apply (both_bind P).
  - destruct (strip_p is_space (skipn n (u_path root))); [now apply both_ret|now apply both_div].
  - intros dbase pd. apply (both_bind (Forall Nm)).
    + apply (both_fold (Forall Nm) Nm); [exact Hd| |exact Hd]. intros a x qa qx. apply both_if; [apply both_ret; now apply removed_in|].
      apply (both_bind P); [now apply both_div|]. intros dd pdd. apply (both_bind P); [now apply both_div|]. intros sp psp.
      apply (both_bind any); [now apply both_islink|]. intros l _. apply (both_bind any); [apply both_if; [now apply both_copy_link|now apply both_makedirs_up]|].
      intros _ _. now apply both_ret.
    + intros ds' qd. apply (both_bind any); [|intros _ _; now apply both_ret]. apply (both_map Nm); [exact Hf|]. intros x qx.
      apply (both_bind P); [now apply both_div|]. intros sf psf. apply (both_bind P); [now apply both_div|]. intros df pdf. now apply both_copy_entry.
Qed.
Lemma both_aim (c : bool) u v : P u -> P v -> both P (if c then lift (u_div v (u_last u)) else ret v) (if c then lift (u_div v (u_last u)) else ret v).
Proof. intros p q. apply both_if; [|now apply both_ret]. apply both_div; auto. Qed.
Lemma both_copy_up fuel rc ig fl u v : P u -> P v -> both any (u_copy b1 fuel rc ig fl u v) (u_copy b2 fuel rc ig fl u v).
Proof.
  intros p q. apply both_hooked; [exact p|]. unfold fs_copy. apply (both_bind any); [now apply both_exists|]. intros e _. apply both_if; [apply both_str|].
  apply both_if.
  - apply (both_bind any); [now apply both_isfile|]. intros f _. apply both_if; [apply both_raise|].
    apply (both_bind any); [now apply both_isdir|]. intros dd _. apply (both_bind _ _ _ _ _ _ (both_aim dd u v p q)). intros w pw. now apply both_copy_entry.
  - apply (both_bind any); [now apply both_isdir|]. intros d _. apply both_if; [apply both_raise|].
    apply (both_bind any); [now apply both_isdir|]. intros dd _. apply (both_bind _ _ _ _ _ _ (both_aim dd u v p q)). intros w pw.
    apply (both_bind any); [now apply both_islink|]. intros l _. apply both_if; [now apply both_copy_link|].
    apply (both_bind any); [now apply both_makedirs_up|]. intros _ _. apply (both_bind any); [now apply (pa_hook K)|]. intros _ _.
    apply both_walk_gen; [|exact I|exact p]. intros [] r ds fs _ pr Hd Hf. apply (both_bind _ _ _ _ _ _ (both_copy_step_up fuel ig fl _ _ w r ds fs pw pr Hd Hf)).
    intros ds' q'. apply both_ret. now split.
Qed.
Lemma both_move_up fuel u v : P u -> P v -> both any (u_move b1 fuel u v) (u_move b2 fuel u v).
Proof.
  intros p q. apply both_hooked; [exact p|]. unfold fs_move. apply (both_bind any); [now apply both_isfile|]. intros f _.
  apply both_if; (apply (both_bind any); [now apply both_copy_up|]; intros _ _; now apply both_remove).
Qed.
Lemma both_glob fn u pat : P u -> both (Forall P) (u_glob b1 fn u pat) (u_glob b2 fn u pat).
Proof.
  intros p. apply both_hooked; [exact p|]. unfold fs_glob. apply (both_bind (Forall Nm)); [now apply both_listdir|]. intros l H.
  apply (both_fold (Forall P) Nm); [exact H| |constructor]. intros a x qa qx. apply both_if; [|now apply both_ret].
  apply (both_bind P); [now apply both_div|]. intros r pr. apply both_ret. apply Forall_app. split; [exact qa|now constructor].
Qed.
End Pair.

(** The same where every parent is such a URI *)
Section Closed.
Context {S1 S2 : Type}.
Variable R : S1 -> S2 -> Prop.
Variables (b1 : backend S1) (b2 : backend S2).
Variables (P : uri -> Prop) (Nm : str -> Prop) (T Rt : uri -> Prop).
Hypothesis K : paired R b1 b2 P Nm T Rt.
Hypothesis div_in : forall u n r, P u -> Nm n -> u_div u n = Ok r -> P r.
Hypothesis split_in : forall u d n, P u -> Rt u -> u_split u = Ok (d, n) -> P d.
Hypothesis last_in : forall u, P u -> Nm (u_last u).
Hypothesis rest_in : forall u k, P u -> Nm (strip_p is_space (skipn k (u_path u))).
Local Notation none := (fun _ : uri => False).
Lemma none_dir : forall u, none u -> both R (fun d => d = true) (u_isdir b1 u) (u_isdir b2 u). Proof. intros u []. Qed.
Lemma split_or : forall u d n, P u -> Rt u -> u_split u = Ok (d, n) -> P d \/ none d. Proof. intros u d n p r E. left. exact (split_in u d n p r E). Qed.
Lemma both_makedirs fuel u : P u -> both R any (u_makedirs b1 fuel u) (u_makedirs b2 fuel u).
Proof. exact (both_makedirs_up R b1 b2 P Nm T Rt K none none_dir split_or fuel u). Qed.
Lemma both_copy fuel rc ig fl u v : P u -> P v -> both R any (u_copy b1 fuel rc ig fl u v) (u_copy b2 fuel rc ig fl u v).
Proof. exact (both_copy_up R b1 b2 P Nm T Rt K div_in none none_dir split_or last_in rest_in fuel rc ig fl u v). Qed.
Lemma both_move fuel u v : P u -> P v -> both R any (u_move b1 fuel u v) (u_move b2 fuel u v).
Proof. exact (both_move_up R b1 b2 P Nm T Rt K div_in none none_dir split_or last_in rest_in fuel u v). Qed.
End Closed.
