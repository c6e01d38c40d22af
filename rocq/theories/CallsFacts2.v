(** Lemmas for C149: the methods, and the calls they make. *)
From Coq Require Import Sorting.Permutation Sorting.Sorted String Lia.
From Verif Require Import Str StrFacts Exc UriParse BaseUri Mem Generic Plug SpecPlug SpecCalls CallsFacts.
Local Open Scope string_scope.
Local Open Scope list_scope.

Section Facts.
Context {S F V : Type}.
Variables (truthy : V -> bool) (bytes_of : V -> option (list N)) (fnm : str -> str -> bool).
Variable c : own S F V.
Notation ev := (ev F V).
Notation fits := (fits c).
Notation bk := (class_backend truthy c).

Hint Resolve one_hook one_open one_read one_write one_listdir one_removefile one_removedir one_mkdir one_exists one_isfile one_isdir
  one_isexec one_set_exec one_islink one_readlink one_symlink one_info one_sync one_mtime one_copystat one_lock one_manipulate
  one_switch one_update one_log one_log_by_time : calls.

(** take a language apart, put one together *)
Ltac apart := repeat match goal with
  | H : exists _, _ |- _ => destruct H
  | H : _ /\ _ |- _ => destruct H
  | H : False |- _ => destruct H
  | x : unit |- _ => destruct x
  | H : if ?b then _ else _ |- _ => destruct b eqn:?
  end; subst; cbn in *.
Ltac start H := eapply (f_iff c _ _ _ _ H).

(** *** The questions with their hooks *)
Lemma f_q {A} n name u m (e : A -> ev) : one c m e -> fits n (fun a t => t = [hook name u; e a]) (c_hook c u (lit name) ;; m).
Proof.
  intros H. eapply f_iff; [|apply f_then'; [apply one_hook|intros ?; apply f_one; exact H]].
  intros a t. cbn. split; [intros ([] & t' & -> & ->); reflexivity|intros ->; exists tt; eexists; split; reflexivity].
Qed.
(** two calls, and what follows *)
Lemma f_q_then {A B} n name u m (e : A -> ev) (K : A -> B -> list ev -> Prop) k : one c m e -> (forall a, fits n (K a) (k a)) ->
  fits (Datatypes.S n) (fun b t => exists a t', K a b t' /\ t = hook name u :: e a :: t') (bind (c_hook c u (lit name) ;; m) k).
Proof.
  intros H Q. eapply f_ext with (m := c_hook c u (lit name) ;; bind m k).
  { intros s. unfold bind. destruct (c_hook c u (lit name) s) as [[]]; reflexivity. }
  eapply f_iff; [|apply f_then; [apply one_hook|intros ?; apply f_then'; [exact H|exact Q]]].
  intros b t. cbn. split.
  - intros ([] & t' & (a & t'' & R & ->) & ->). eauto.
  - intros (a & t' & R & ->). exists tt. eauto 6.
Qed.
Lemma f_q_then' {A B} n name u m (e : A -> ev) (K : A -> B -> list ev -> Prop) k : one c m e -> (forall a, fits n (K a) (k a)) ->
  fits n (fun b t => exists a t', K a b t' /\ t = hook name u :: e a :: t') (bind (c_hook c u (lit name) ;; m) k).
Proof. intros H Q. apply (f_le c _ (Datatypes.S n)); [lia|]. now apply f_q_then. Qed.

Lemma t_isdir {B} m n u (K : bool -> B -> list ev -> Prop) k : (forall a, fits n (K a) (k a)) ->
  fits (Datatypes.S n) (fun b t => exists a t', K a b t' /\ t = hook "isdir" u :: EIsdir u a :: t') (bind (u_isdir (bk m) u) k).
Proof. exact (f_q_then n "isdir" u _ _ K k (one_isdir c u)). Qed.
Lemma t_isdir' {B} m n u (K : bool -> B -> list ev -> Prop) k : (forall a, fits n (K a) (k a)) ->
  fits n (fun b t => exists a t', K a b t' /\ t = hook "isdir" u :: EIsdir u a :: t') (bind (u_isdir (bk m) u) k).
Proof. exact (f_q_then' n "isdir" u _ _ K k (one_isdir c u)). Qed.
Lemma t_isfile {B} m n u (K : bool -> B -> list ev -> Prop) k : (forall a, fits n (K a) (k a)) ->
  fits n (fun b t => exists a t', K a b t' /\ t = hook "isfile" u :: EIsfile u a :: t') (bind (u_isfile (bk m) u) k).
Proof. exact (f_q_then' n "isfile" u _ _ K k (one_isfile c u)). Qed.
Lemma t_islink {B} m n u (K : bool -> B -> list ev -> Prop) k : (forall a, fits n (K a) (k a)) ->
  fits n (fun b t => exists a t', K a b t' /\ t = hook "islink" u :: EIslink u a :: t') (bind (u_islink (bk m) u) k).
Proof. exact (f_q_then' n "islink" u _ _ K k (one_islink c u)). Qed.
Lemma t_exists {B} m n u (K : bool -> B -> list ev -> Prop) k : (forall a, fits n (K a) (k a)) ->
  fits n (fun b t => exists a t', K a b t' /\ t = hook "exists" u :: EExists u a :: t') (bind (u_exists (bk m) u) k).
Proof. exact (f_q_then' n "exists" u _ _ K k (one_exists c u)). Qed.
Lemma t_listdir {B} m n u (K : list str -> B -> list ev -> Prop) k : (forall a, fits n (K a) (k a)) ->
  fits n (fun b t => exists a t', K a b t' /\ t = hook "listdir" u :: EListdir u a :: t') (bind (u_listdir (bk m) u) k).
Proof. exact (f_q_then' n "listdir" u _ _ K k (one_listdir c u)). Qed.

(** *** makedirs *)
Definition rest (u : uri) (n : str) : list ev := match n with [] => [] | _ => [hook "mkdir" u; EMkdir u] end.
Lemma f_rest n u k m : fits k (fun (_ : unit) t => t = rest u n) (match n with [] => ret tt | _ => u_mkdir (bk m) u end).
Proof.
  destruct n.
  - eapply f_iff; [|apply f_ret]. cbn. intros [] t. tauto.
  - exact (f_q k "mkdir" u _ _ (one_mkdir c u)).
Qed.
Lemma f_makedirs m n u : fits n (fun _ t => makes u t) (fs_makedirs (bk m) n u).
Proof.
  revert u. induction n as [|n IH]; intros u; [apply f_0|]. cbn [fs_makedirs].
  eapply f_iff; [|apply t_isdir; intros d; apply f_if;
    [apply f_ret|apply f_lift; intros pt; apply t_isdir'; intros pd; apply f_bind;
      [apply f_if; [apply f_ret|apply IH]|intros ?; apply f_rest with (n := snd pt)]]].
  intros [] t. cbn. split.
  - intros ([|] & t' & H & ->); [destruct H as [_ ->]; apply mk_there|].
    destruct H as ([d x] & E & [|] & t2 & ([] & t3 & t4 & A & -> & ->) & ->); cbn in *.
    + destruct A as [_ ->]. destruct x; cbn; [now apply mk_slash|]. eapply mk_here; [exact E|discriminate].
    + destruct x; cbn; [rewrite app_nil_r; now apply mk_slash_deep|]. eapply mk_deep; [exact E|discriminate|exact A].
  - inversion 1; subst.
    + exists true, []. repeat split.
    + exists false. eexists. split; [|reflexivity]. eexists. split; [eassumption|]. exists true. eexists. split; [|reflexivity].
      exists tt, []. eexists. split; [easy|]. split; [reflexivity|]. cbn. destruct n0; [contradiction|reflexivity].
    + exists false. eexists. split; [|reflexivity]. eexists. split; [eassumption|]. exists false. eexists. split; [|reflexivity].
      exists tt. do 2 eexists. split; [eassumption|]. split; [reflexivity|]. cbn. destruct n0; [contradiction|reflexivity].
    + exists false. eexists. split; [|reflexivity]. eexists. split; [eassumption|]. exists true. eexists. split; [|reflexivity].
      exists tt, []. eexists. split; [easy|]. split; reflexivity.
    + exists false. eexists. split; [|reflexivity]. eexists. split; [eassumption|]. exists false. eexists. split; [|reflexivity].
      exists tt. do 2 eexists. split; [eassumption|]. split; [reflexivity|]. cbn. now rewrite app_nil_r.
Qed.
Lemma f_u_makedirs m n u : fits n (fun _ t => exists t', makes u t' /\ t = hook "makedirs" u :: t') (u_makedirs (bk m) n u).
Proof.
  unfold u_makedirs, hooked. eapply f_iff; [|apply f_then'; [apply one_hook|intros ?; apply f_makedirs]].
  intros [] t. cbn. split; [intros ([] & H); exact H|intros H; now exists tt].
Qed.

(** *** walk *)
Lemma f_kinds m n u ns : fits n (fun r t => told u ns (fst r) (snd r) t) (kinds (bk m) u ns).
Proof.
  induction ns as [|x ns IH]; cbn [kinds].
  - eapply f_iff; [|apply f_ret]. intros [ds fs] t. cbn. split; [intros [E ->]; inversion E; constructor|inversion 1; now subst].
  - eapply f_iff; [|apply f_lift; intros p; apply f_then'; [apply one_isdir|intros d; apply f_bind; [apply IH|intros r; apply f_ret]]].
    intros [ds fs] t. cbn. split.
    + intros (p & E & d & t' & ([ds1 fs1] & t1 & t2 & H & (R & ->) & ->) & ->). rewrite app_nil_r. cbn in *. destruct d; inversion R; subst; econstructor; eauto.
    + inversion 1; subst.
      * exists p. split; [easy|]. exists true. eexists. split; [|reflexivity]. eexists (_, _), _, []. cbn. split; [eassumption|]. split; [easy|]. now rewrite app_nil_r.
      * exists p. split; [easy|]. exists false. eexists. split; [|reflexivity]. eexists (_, _), _, []. cbn. split; [eassumption|]. split; [easy|]. now rewrite app_nil_r.
Qed.

Section Walk.
Context {Acc : Type}.
Variable comb : Acc -> list row -> Acc.
Hypothesis comb_nil : forall a, comb a [] = a.
Hypothesis comb_app : forall a x y, comb (comb a x) y = comb a (x ++ y).
Variables (fl : bool) (visit : uri -> list str -> list str -> list str -> list row -> list ev -> Prop).
Variable body : Acc -> uri -> list str -> list str -> M S (Acc * list str).
Variables m top : nat.
Hypothesis body_fits : forall acc u ds fs,
  fits top (fun ad t => exists rows, visit u ds fs (snd ad) rows t /\ fst ad = comb acc rows) (body acc u ds fs).

Lemma f_descents td n : (forall acc u, fits n (fun a t => exists rows, tour td fl visit u rows t /\ a = comb acc rows)
    (walk_gen (bk m) n td fl body acc u)) -> forall u ds acc,
  fits n (fun a t => exists rows, descents td fl visit u ds rows t /\ a = comb acc rows)
    (foldM (fun a name => let! path <- lift (u_div u name); let! l <- u_islink (bk m) path;
              if negb l || fl then walk_gen (bk m) n td fl body a path else ret a) acc ds).
Proof.
  intros IH u ds. induction ds as [|x ds ID]; intros acc; cbn [foldM].
  - eapply f_iff; [|apply f_ret]. intros a t. cbn. split.
    + intros [-> ->]. exists []. split; [constructor|now rewrite comb_nil].
    + intros (rows & H & ->). inversion H; subst. now rewrite comb_nil.
  - eapply f_iff; [|apply f_bind; [apply f_lift; intros p; apply t_islink;
      intros l; apply f_if; [apply IH|apply f_ret]|intros a; apply ID]].
    intros a t. cbn. split.
    + intros (a1 & t1 & t2 & (p & E & l & t3 & A & ->) & (rows & B & ->) & ->).
      destruct (negb l || fl) eqn:G.
      * destruct A as (r1 & A & ->). exists (r1 ++ rows). split; [|now rewrite comb_app].
        apply (de_in td fl visit u x ds p l r1 rows t3 t2 E); auto. destruct l, fl; auto.
      * destruct A as [-> ->]. exists rows. split; [|easy]. destruct l, fl; try discriminate. now apply de_link.
    + intros (rows & H & ->). inversion H; subst.
      * match goal with E : _ = false \/ fl = true |- _ => rename E into G end.
        exists (comb acc r1). eexists (_ :: _ :: _), _. split; [|split; [eexists; split; [eassumption|now rewrite comb_app]|]].
        -- exists p. split; [easy|]. exists l. eexists. split; [|reflexivity].
           replace (negb l || fl) with true by (destruct l, fl; destruct G; easy). eauto.
        -- reflexivity.
      * exists acc. eexists (_ :: _ :: []), _. split; [|split; [eexists; split; [eassumption|reflexivity]|reflexivity]].
        exists p. split; [easy|]. exists true, []. split; [|reflexivity]. cbn. now split.
Qed.
Lemma f_tour td n : (n <= top)%nat -> forall acc u,
  fits n (fun a t => exists rows, tour td fl visit u rows t /\ a = comb acc rows) (walk_gen (bk m) n td fl body acc u).
Proof.
  induction n as [|n IH]; intros L acc u; [apply f_0|]. cbn [walk_gen].
  assert (IH' := IH ltac:(lia)). clear IH.
  assert (BF : forall acc u ds fs, fits n (fun ad t => exists rows, visit u ds fs (snd ad) rows t /\ fst ad = comb acc rows) (body acc u ds fs))
    by (intros; apply (f_le c _ top); [lia|apply body_fits]).
  destruct td.
  - eapply f_iff; [|apply f_then; [apply one_listdir|intros names; apply f_bind; [apply f_kinds|intros dn; apply f_bind; [apply BF|
      intros ad; apply f_bind; [apply f_descents; exact IH'|intros acc'; apply f_ret]]]]].
    intros a t. cbn. split.
    + intros (names & t' & ([ds fs] & t1 & t2 & A & ([acc1 ds'] & t3 & t4 & (r1 & B & ->) & (acc' & t5 & t6 & (r2 & C & ->) & (-> & ->) & ->) & ->) & ->) & ->).
      cbn in *. rewrite app_nil_r. exists (r1 ++ r2). split; [|now rewrite comb_app].
      eapply to_down; eauto. now apply ordered_iff.
    + intros (rows & H & ->). inversion H; subst; [|discriminate].
      match goal with O : ordered _ _ |- _ => apply ordered_iff in O; subst end.
      exists names. eexists. split; [|reflexivity]. eexists (_, _). do 2 eexists. split; [eassumption|]. split; [|reflexivity].
      eexists (_, _). do 2 eexists. split; [eexists; split; [eassumption|reflexivity]|]. split; [|reflexivity].
      eexists. exists t3, []. split; [eexists; split; [eassumption|reflexivity]|]. split; [cbn; now rewrite comb_app|now rewrite app_nil_r].
  - eapply f_iff; [|apply f_then; [apply one_listdir|intros names; apply f_bind; [apply f_kinds|intros dn; apply f_bind; [apply f_ret|
      intros ad; apply f_bind; [apply f_descents; exact IH'|intros acc'; apply f_bind; [apply BF|intros ad'; apply f_ret]]]]]].
    intros a t. cbn. split.
    + intros (names & t' & ([ds fs] & t1 & t2 & A & (ad & t3 & t4 & (-> & ->) & (acc' & t5 & t6 & (r1 & C & ->) &
        ([acc2 ds'] & t7 & t8 & (r2 & D & E) & (-> & ->) & ->) & ->) & ->) & ->) & ->).
      cbn in *. subst. rewrite app_nil_r. exists (r1 ++ r2). split; [|now rewrite comb_app].
      eapply to_up; eauto. now apply ordered_iff.
    + intros (rows & H & ->). inversion H; subst; [discriminate|].
      match goal with O : ordered _ _ |- _ => apply ordered_iff in O; subst end.
      exists names. eexists. split; [|reflexivity]. eexists (_, _). do 2 eexists. split; [eassumption|]. split; [|reflexivity].
      eexists. exists []. eexists. split; [split; reflexivity|]. split; [|reflexivity]. cbn.
      eexists. do 2 eexists. split; [eexists; split; [eassumption|reflexivity]|]. split; [|reflexivity].
      eexists (_, _). exists t3, []. cbn. split; [eexists; split; [eassumption|reflexivity]|]. split; [cbn; now rewrite comb_app|now rewrite app_nil_r].
Qed.
End Walk.

Lemma f_walk m n td fl u : fits n (fun rows t => exists t', tour td fl shows u rows t' /\ t = hook "walk" u :: t') (u_walk (bk m) n td fl u).
Proof.
  unfold u_walk, hooked. eapply f_iff; [|apply f_then'; [apply one_hook|intros ?; apply (f_tour (@app row) (@app_nil_r row)
    (fun a x y => eq_sym (app_assoc a x y)) fl shows _ m n); [|lia]]].
  - intros rows t. cbn. split; [intros ([] & t' & (r & H & ->) & ->); eauto|intros (t' & H & ->); exists tt; eauto 6].
  - intros acc root ds fs. eapply f_iff; [|apply f_ret]. intros [a' d] t. cbn. split.
    + intros [E ->]. inversion E; subst. eexists. split; [constructor|reflexivity].
    + intros (rows & H & ->). inversion H; now subst.
Qed.

(** *** Removal *)
Lemma f_drops_files m n u fs : fits n (fun _ t => drops_files u fs t) (mapM_ (fun x => let! p <- lift (u_div u x); b_removefile (bk m) p) fs).
Proof.
  induction fs as [|x fs IH]; cbn [mapM_].
  - eapply f_iff; [|apply f_ret]. intros [] t. cbn. split; [intros [_ ->]; constructor|inversion 1; now subst].
  - eapply f_iff; [|apply f_bind; [apply f_lift; intros p; apply f_one, one_removefile|intros ?; apply IH]].
    intros [] t. cbn. split.
    + intros ([] & t1 & t2 & (p & E & ->) & H & ->). now apply df_cons.
    + inversion 1; subst. exists tt. eexists [_], _. split; [eexists; split; [eassumption|reflexivity]|]. split; [eassumption|reflexivity].
Qed.
Lemma f_drop n u : fits n (fun _ t => exists l, t = drop u l) (let! l <- c_islink c u; if l then c_removefile c u else c_removedir c u).
Proof.
  eapply f_iff; [|apply f_then'; [apply one_islink|intros l; apply f_if; apply f_one; [apply one_removefile|apply one_removedir]]].
  intros [] t. cbn. split.
  - intros (l & t' & H & ->). exists l. unfold drop. destruct l; now subst.
  - intros (l & ->). exists l. unfold drop. destruct l; eauto.
Qed.
Lemma f_drops_dirs m n u ds : fits n (fun _ t => drops_dirs u ds t) (mapM_ (fun x => let! d <- lift (u_div u x); let! l <- b_islink (bk m) d;
  if l then b_removefile (bk m) d else b_removedir (bk m) d) ds).
Proof.
  induction ds as [|x ds IH]; cbn [mapM_].
  - eapply f_iff; [|apply f_ret]. intros [] t. cbn. split; [intros [_ ->]; constructor|inversion 1; now subst].
  - eapply f_iff; [|apply f_bind; [apply f_lift; intros p; apply f_drop|intros ?; apply IH]].
    intros [] t. cbn -[drop]. split.
    + intros ([] & t1 & t2 & (p & E & l & ->) & H & ->). eapply dd_cons; eauto.
    + inversion 1; subst. exists tt. eexists (drop _ _), _. split; [eexists; split; [eassumption|eexists; reflexivity]|]. split; [eassumption|reflexivity].
Qed.
Lemma f_remove_tree m n u : fits n (fun _ t => exists rows t' l, tour false false clears u rows t' /\ t = t' ++ drop u l) (remove_dir_recursively (bk m) n u).
Proof.
  unfold remove_dir_recursively. eapply f_iff; [|apply f_bind; [apply (f_tour (fun _ _ => tt) (fun a => match a with tt => eq_refl end) (fun _ _ _ => eq_refl)
    false clears _ m n); [|lia]|intros ?; apply f_drop]].
  - intros [] t. cbn -[drop]. split.
    + intros ([] & t1 & t2 & (rows & H & _) & (l & ->) & ->). eauto.
    + intros (rows & t' & l & H & ->). exists tt. do 2 eexists. eauto 6.
  - intros [] root ds fs. eapply f_iff; [|apply f_bind; [apply f_drops_files|intros ?; apply f_bind; [apply f_drops_dirs|intros ?; apply f_ret]]].
    intros [[] d] t. cbn. split.
    + intros ([] & t1 & t2 & A & ([] & t3 & t4 & B & (E & ->) & ->) & ->). inversion E; subst. rewrite app_nil_r. exists []. split; [now constructor|easy].
    + intros (rows & H & _). inversion H; subst. exists tt. do 2 eexists. split; [eassumption|]. split; [|reflexivity].
      exists tt. do 2 eexists. split; [eassumption|]. split; [split; reflexivity|]. now rewrite app_nil_r.
Qed.
Lemma f_remove m n r u : fits n (fun _ t => removes r u t) (u_remove (bk m) n r u).
Proof.
  unfold u_remove, hooked.
  eapply f_iff; [|apply f_then'; [apply one_hook|intros ?; apply f_then'; [apply one_islink|intros l; apply f_if; [apply f_one, one_removefile|
    apply f_then'; [apply one_exists|intros e; apply f_if; [apply f_lift; intros ?; apply f_raise|apply f_then'; [apply one_isdir|intros d; apply f_if;
      [apply f_if; [apply f_remove_tree|apply f_one, one_removedir]|apply f_then'; [apply one_isfile|intros f; apply f_if; [apply f_one, one_removefile|apply f_ret]]]]]]]]]].
  intros [] t. cbn -[drop]. split.
  - intros ([] & t' & ([|] & t1 & H & ->) & ->); [subst; apply rm_link|].
    destruct H as ([|] & t2 & H & ->); cbn in H; [|now destruct H as (? & _ & [])].
    destruct H as ([|] & t3 & H & ->).
    + destruct r; [destruct H as (rows & t4 & l & H & ->); now apply rm_tree with (rows := rows)|subst; apply rm_dir].
    + destruct H as ([|] & t4 & H & ->); [subst; apply rm_file|destruct H as [_ ->]; apply rm_other].
  - inversion 1; subst; exists tt; eexists; (split; [|reflexivity]).
    + exists true. eexists. split; reflexivity.
    + exists false. eexists. split; [|reflexivity]. exists true. eexists. split; [|reflexivity]. cbn. exists false. eexists. split; [|reflexivity].
      exists true. eexists. split; reflexivity.
    + exists false. eexists. split; [|reflexivity]. exists true. eexists. split; [|reflexivity]. cbn. exists false. eexists. split; [|reflexivity].
      exists false. eexists. split; [|reflexivity]. now split.
    + exists false. eexists. split; [|reflexivity]. exists true. eexists. split; [|reflexivity]. cbn. exists true. eexists. split; reflexivity.
    + exists false. eexists. split; [|reflexivity]. exists true. eexists. split; [|reflexivity]. cbn -[drop]. exists true. eexists. split; [|reflexivity].
      do 3 eexists. split; [eassumption|reflexivity].
Qed.
End Facts.
