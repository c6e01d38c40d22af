(** Facts for C137-C142: what the methods of a connection do, from the methods its class defines. *)
From Verif Require Import Str Exc UriParse BaseUri Mem Generic Plug SpecPlug PlugFacts.

Section Facts.
Context {S F V : Type}.
Implicit Type c : own S F V.
Lemma needs_supports (o : pop V) m : In m (needs o) -> (m = MIslink \/ m = MReadlink \/ m = MSymlink) -> In MSupports (needs o).
Proof.
  destruct o; cbn [needs]; try (destruct rev); intros H D; repeat match goal with b : bool |- _ => destruct b end; cbn in *; intuition congruence.
Qed.
Ltac two f g := destruct f, g; try contradiction; auto.
Lemma same_ready c c' (o : pop V) : (forall m, In m (needs o) -> same_method c c' m) -> forall m, In m (needs o) -> ready (fun _ => True) (fun _ => True) c c' m.
Proof.
  intros H m q. pose proof (H m q) as X.
  assert (T : forall A (a b : M S A), (forall s, a s = b s) -> keep (fun _ => True) (fun _ => True) a b) by (intros A a b Y s _; auto).
  assert (SU : (m = MIslink \/ m = MReadlink \/ m = MSymlink) -> forall s, c_supports c s = c_supports c' s).
  { intros D s. pose proof (H _ (needs_supports o m q D)) as Y. cbn in Y. unfold c_supports, same0 in *. two (o_supports c) (o_supports c'). }
  destruct m; cbn [ready same_method] in *.
  - intros u n. apply T. intros s. unfold c_hook, same2 in *. two (o_hook c) (o_hook c').
  - intros u n. apply T. intros s. unfold c_open, same2 in *. two (o_open c) (o_open c').
  - intros f n. apply T. auto.
  - intros f n. apply T. auto.
  - intros f. apply T. auto.
  - intros u. apply T. intros s. unfold c_listdir, same1 in *. two (o_listdir c) (o_listdir c').
  - intros u. apply T. intros s. unfold c_removefile, same1 in *. two (o_removefile c) (o_removefile c').
  - intros u. apply T. intros s. unfold c_removedir, same1 in *. two (o_removedir c) (o_removedir c').
  - intros u. apply T. intros s. unfold c_mkdir, same1 in *. two (o_mkdir c) (o_mkdir c').
  - intros u. apply T. intros s. unfold c_exists, same1 in *. two (o_exists c) (o_exists c').
  - intros u. apply T. intros s. unfold c_isfile, same1 in *. two (o_isfile c) (o_isfile c').
  - intros u. apply T. intros s. unfold c_isdir, same1 in *. two (o_isdir c) (o_isdir c').
  - intros u x. apply T. intros s. unfold c_isexec, same2 in *. two (o_isexec c) (o_isexec c').
  - intros u x. apply T. intros s. unfold c_set_exec, same2 in *. two (o_set_exec c) (o_set_exec c').
  - exact Logic.I.
  - intros u. apply T. intros s. unfold c_islink, same1 in *. two (o_islink c) (o_islink c'). unfold bind. rewrite SU by auto. reflexivity.
  - intros u. apply T. intros s. unfold c_readlink, same1 in *. two (o_readlink c) (o_readlink c'). unfold bind. rewrite SU by auto. reflexivity.
  - intros u v. apply T. intros s. unfold c_symlink, same2 in *. two (o_symlink c) (o_symlink c'). unfold bind. rewrite SU by auto. reflexivity.
  - intros u i fl. apply T. intros s. unfold c_info, same3 in *. two (o_info c) (o_info c').
  - intros u i fl. apply T. intros s. unfold c_sync, same3 in *. two (o_sync c) (o_sync c').
  - intros u. apply T. intros s. unfold c_mtime, same1 in *. two (o_mtime c) (o_mtime c').
  - intros u v. apply T. intros s. unfold c_copystat, same2 in *. two (o_copystat c) (o_copystat c').
  - intros u i fl. apply T. intros s. unfold c_lock, same3 in *. two (o_lock c) (o_lock c').
  - intros u k. apply T. intros s. unfold c_manipulate, same2 in *. two (o_manipulate c) (o_manipulate c').
  - unfold same4 in X. destruct (o_internal_copy c), (o_internal_copy c'); try contradiction; [|exact Logic.I]. intros u v r i. apply T. auto.
  - destruct X as [X R]. intros u k. apply T. intros s. unfold c_switch, same2 in *. rewrite R. two (o_switch c) (o_switch c').
  - destruct X as [X R]. intros u k k'. apply T. intros s. unfold c_update, same3 in *. rewrite R. two (o_update c) (o_update c').
  - destruct X as [X R]. intros u k k'. apply T. intros s. unfold c_log, same3 in *. rewrite R. two (o_log c) (o_log c').
  - destruct X as [X R]. intros u k k'. apply T. intros s. unfold c_log_by_time, same3 in *. rewrite R. two (o_log_by_time c) (o_log_by_time c').
Qed.

(** One class *)
Section One.
Variable I : S -> Prop.
Variable E : exc -> Prop.
Hypothesis EK : forall e, e <> NotImplementedError -> E e.
Lemma sound_keep {A} (m : M S A) : sound I E m -> keep I E m m.
Proof. intros H s i. split; [reflexivity|]. now apply H. Qed.
Lemma raise_keep {A} e : E e -> keep I E (@raise S A e) (raise e). Proof. apply keep_raise. Qed.
(** The exceptions of missing methods are allowed, or the method is not missing *)
Definition has_or (P : Prop) (b : bool) : Prop := b = true \/ P.
Lemma has_keep {A} (o : option A) (B : Type) (f : A -> M S B) (e : exc) :
  has_or (E e) (given o) -> if_given o (fun a => sound I E (f a)) -> keep I E (match o with Some a => f a | None => raise e end) (match o with Some a => f a | None => raise e end).
Proof. intros [D|D] H; destruct o; cbn in *; try discriminate; try (now apply sound_keep); now apply raise_keep. Qed.

Definition ends (c : own S F V) (m : meth) : Prop :=
  match m with
  | MHook | MRead | MWrite | MExit | MSupports | MInternal | MLock | MManipulate => True
  | MIslink | MReadlink | MSymlink => has_or (E NotImplementedError) (defines c m) \/ linkless c
  | MSwitch | MUpdate | MLog | MLogByTime => has_or (E NotImplementedError) (defines c m) \/ o_revisioned c = false
  | _ => has_or (E NotImplementedError) (defines c m)
  end.
Lemma given_if {A} (o : option A) (P Q : A -> Prop) : if_given o P -> (forall a, P a -> Q a) -> if_given o Q.
Proof. destruct o; cbn; auto. Qed.
Lemma supports_keep c A (m n : M S A) : sound_method I E c MSupports -> (o_supports c = None -> E NotImplementedError) ->
  keep I E m m -> (keep I E n n \/ linkless c) ->
  keep I E (bind (c_supports c) (fun y => if negb y then m else n)) (bind (c_supports c) (fun y => if negb y then m else n)).
Proof.
  intros X D Hm Hn. cbn in X. unfold c_supports, linkless in *. destruct (o_supports c) as [f|].
  - cbn in X. intros s i. destruct (X s i) as (i' & r). unfold bind. destruct Hn as [Hn|L].
    + destruct (f s) as [[[]|e] s'] eqn:Q; cbn [fst snd negb] in *; [now apply Hn|now apply Hm|]. split; [reflexivity|]. split; [exact i'|]. intros e' [= <-]. now apply r.
    + specialize (L s). destruct (f s) as [[[]|e] s'] eqn:Q; cbn [fst snd negb] in *; [now elim L|now apply Hm|]. split; [reflexivity|]. split; [exact i'|]. intros e' [= <-]. now apply r.
  - apply keep_bind; [apply raise_keep; auto|]. intros []; cbn; auto. destruct Hn as [Hn|L]; [exact Hn|contradiction].
Qed.
Lemma sound_ready c (o : pop V) : (forall m, In m (needs o) -> sound_method I E c m) -> (forall m, In m (needs o) -> ends c m) -> forall m, In m (needs o) -> ready I E c c m.
Proof.
  intros H D m q. pose proof (H m q) as X. pose proof (D m q) as Y.
  assert (SU : (m = MIslink \/ m = MReadlink \/ m = MSymlink) -> sound_method I E c MSupports) by (intros Z; apply H; now apply (needs_supports o m)).
  destruct m; cbn [ready sound_method ends defines] in *.
  - intros u n. unfold c_hook. destruct (o_hook c); [apply sound_keep, X|apply keep_ret].
  - intros u n. unfold c_open. apply (has_keep _ _ (fun f => f u n)); [exact Y|]. eapply given_if; [exact X|]. auto.
  - intros f n. apply sound_keep, X.
  - intros f n. apply sound_keep, X.
  - intros f. apply sound_keep, X.
  - intros u. apply (has_keep _ _ (fun f => f u)); [exact Y|]. eapply given_if; [exact X|]. auto.
  - intros u. apply (has_keep _ _ (fun f => f u)); [exact Y|]. eapply given_if; [exact X|]. auto.
  - intros u. apply (has_keep _ _ (fun f => f u)); [exact Y|]. eapply given_if; [exact X|]. auto.
  - intros u. apply (has_keep _ _ (fun f => f u)); [exact Y|]. eapply given_if; [exact X|]. auto.
  - intros u. apply (has_keep _ _ (fun f => f u)); [exact Y|]. eapply given_if; [exact X|]. auto.
  - intros u. apply (has_keep _ _ (fun f => f u)); [exact Y|]. eapply given_if; [exact X|]. auto.
  - intros u. apply (has_keep _ _ (fun f => f u)); [exact Y|]. eapply given_if; [exact X|]. auto.
  - intros u x. apply (has_keep _ _ (fun f => f u x)); [exact Y|]. eapply given_if; [exact X|]. auto.
  - intros u x. apply (has_keep _ _ (fun f => f u x)); [exact Y|]. eapply given_if; [exact X|]. auto.
  - exact Logic.I.
  - intros u. unfold c_islink. destruct (o_islink c); [apply sound_keep, X|]. unfold has_or in Y. cbn in Y. apply supports_keep.
    + apply SU; auto.
    + unfold linkless in Y. intros q'. rewrite q' in Y. destruct Y as [[Y|Y]|Y]; [discriminate|exact Y|contradiction].
    + apply keep_ret.
    + destruct Y as [[Y|Y]|Y]; [discriminate|left; now apply raise_keep|now right].
  - intros u. unfold c_readlink. destruct (o_readlink c); [apply sound_keep, X|]. unfold has_or in Y. cbn in Y. apply supports_keep.
    + apply SU; auto.
    + unfold linkless in Y. intros q'. rewrite q' in Y. destruct Y as [[Y|Y]|Y]; [discriminate|exact Y|contradiction].
    + apply raise_keep. now apply EK.
    + destruct Y as [[Y|Y]|Y]; [discriminate|left; now apply raise_keep|now right].
  - intros u v. unfold c_symlink. destruct (o_symlink c); [apply sound_keep, X|]. unfold has_or in Y. cbn in Y. apply supports_keep.
    + apply SU; auto.
    + unfold linkless in Y. intros q'. rewrite q' in Y. destruct Y as [[Y|Y]|Y]; [discriminate|exact Y|contradiction].
    + apply raise_keep. now apply EK.
    + destruct Y as [[Y|Y]|Y]; [discriminate|left; now apply raise_keep|now right].
  - intros u i fl. apply (has_keep _ _ (fun f => f u i fl)); [exact Y|]. eapply given_if; [exact X|]. auto.
  - intros u i fl. apply (has_keep _ _ (fun f => f u i fl)); [exact Y|]. eapply given_if; [exact X|]. auto.
  - intros u. apply (has_keep _ _ (fun f => f u)); [exact Y|]. eapply given_if; [exact X|]. auto.
  - intros u v. apply (has_keep _ _ (fun f => f u v)); [exact Y|]. eapply given_if; [exact X|]. auto.
  - intros u i fl. apply (has_keep _ _ (fun f => f u i fl)); [right; now apply EK|]. eapply given_if; [exact X|]. auto.
  - intros u k. apply (has_keep _ _ (fun f => f u k)); [right; now apply EK|]. eapply given_if; [exact X|]. auto.
  - destruct (o_internal_copy c); [|exact Logic.I]. intros. apply sound_keep, X.
  - intros u k. unfold c_switch. destruct (o_switch c); [apply sound_keep, X|]. apply raise_keep. destruct (o_revisioned c); now apply EK.
  - intros u k k'. unfold c_update. destruct (o_update c); [apply sound_keep, X|]. apply raise_keep. unfold has_or in Y. cbn in Y.
    destruct (o_revisioned c); [intuition discriminate|now apply EK].
  - intros u k k'. unfold c_log. destruct (o_log c); [apply sound_keep, X|]. apply raise_keep. unfold has_or in Y. cbn in Y.
    destruct (o_revisioned c); [destruct k'; [intuition discriminate|now apply EK]|now apply EK].
  - intros u k k'. unfold c_log_by_time. destruct (o_log_by_time c); [apply sound_keep, X|]. apply raise_keep. unfold has_or in Y. cbn in Y.
    destruct (o_revisioned c); [intuition discriminate|now apply EK].
Qed.
End One.
End Facts.

(** ** Backends without links *)
Section Never.
Context {S : Type}.
Variable b : backend S.
Hypothesis NV : forall u s, fst (b_islink b u s) <> Ok true.
Definition eqm {A} (m m' : M S A) : Prop := forall s, m s = m' s.
Lemma eqm_refl {A} (m : M S A) : eqm m m. Proof. now intros s. Qed.
Lemma eqm_bind {A B} (m m' : M S A) (k k' : A -> M S B) : eqm m m' -> (forall a, eqm (k a) (k' a)) -> eqm (bind m k) (bind m' k').
Proof. intros H K s. unfold bind. rewrite (H s). destruct (m' s) as [[a|e] s']; [apply K|reflexivity]. Qed.
Lemma eqm_islink {A} p (k k' : bool -> M S A) : eqm (k false) (k' false) -> eqm (bind (u_islink b p) k) (bind (u_islink b p) k').
Proof.
  intros H s. unfold u_islink, hooked, bind. destruct (b_hook b p (lit "islink") s) as [[[]|e] s']; [|reflexivity].
  pose proof (NV p s'). destruct (b_islink b p s') as [[[]|e] s'']; cbn in *; [congruence|apply H|reflexivity].
Qed.
Lemma eqm_map {X} (f f' : X -> M S unit) l : (forall x, eqm (f x) (f' x)) -> eqm (mapM_ f l) (mapM_ f' l).
Proof. intros H. induction l; cbn [mapM_]; [apply eqm_refl|]. apply eqm_bind; auto. Qed.
Lemma eqm_fold {A X} (f f' : A -> X -> M S A) l : (forall a x, eqm (f a x) (f' a x)) -> forall a, eqm (foldM f a l) (foldM f' a l).
Proof. intros H. induction l; intros z; cbn [foldM]; [apply eqm_refl|]. apply eqm_bind; auto. Qed.
Lemma eqm_walk {Acc} td (body body' : Acc -> uri -> list str -> list str -> M S (Acc * list str)) :
  (forall a r d f, eqm (body a r d f) (body' a r d f)) -> forall n fl fl' a u, eqm (walk_gen b n td fl body a u) (walk_gen b n td fl' body' a u).
Proof.
  intros D n fl fl'. induction n as [|n IH]; intros a u; cbn [walk_gen]; [apply eqm_refl|]. apply eqm_bind; [apply eqm_refl|]. intros names.
  apply eqm_bind; [apply eqm_refl|]. intros dn. apply eqm_bind; [destruct td; [apply D|apply eqm_refl]|]. intros ad. apply eqm_bind.
  - apply eqm_fold. intros z x. apply eqm_bind; [apply eqm_refl|]. intros p. apply eqm_islink. apply IH.
  - intros z. destruct td; [apply eqm_refl|]. apply eqm_bind; [apply D|]. intros. apply eqm_refl.
Qed.
Lemma eqm_entry fl fl' same u v : eqm (copy_entry b fl same u v) (copy_entry b fl' same u v).
Proof. apply eqm_islink. cbn. apply eqm_refl. Qed.
Lemma eqm_step n ig fl fl' same k dr root dirs files : eqm (copy_step b n ig fl same k dr root dirs files) (copy_step b n ig fl' same k dr root dirs files).
Proof.
  unfold copy_step. apply eqm_bind; [apply eqm_refl|]. intros db. apply eqm_bind.
  - apply eqm_fold. intros ds x. destruct (str_in x ig); [apply eqm_refl|]. apply eqm_bind; [apply eqm_refl|]. intros dd. apply eqm_bind; [apply eqm_refl|]. intros sp.
    apply eqm_islink. apply eqm_refl.
  - intros ds. apply eqm_bind; [|intros; apply eqm_refl]. apply eqm_map. intros x. apply eqm_bind; [apply eqm_refl|]. intros y. apply eqm_bind; [apply eqm_refl|]. intros z.
    apply eqm_entry.
Qed.
Lemma eqm_copy n r ig fl fl' u v : eqm (fs_copy b n r ig fl u v) (fs_copy b n r ig fl' u v).
Proof.
  unfold fs_copy. apply eqm_bind; [apply eqm_refl|]. intros e. destruct (negb e); [apply eqm_refl|]. destruct (negb r).
  - apply eqm_bind; [apply eqm_refl|]. intros f. destruct (negb f); [apply eqm_refl|]. apply eqm_bind; [apply eqm_refl|]. intros dd. apply eqm_bind; [apply eqm_refl|].
    intros w. apply eqm_entry.
  - apply eqm_bind; [apply eqm_refl|]. intros d. destruct (negb d); [apply eqm_refl|]. apply eqm_bind; [apply eqm_refl|]. intros dd. apply eqm_bind; [apply eqm_refl|].
    intros dr. apply eqm_islink. cbn. apply eqm_bind; [apply eqm_refl|]. intros _. apply eqm_bind; [apply eqm_refl|]. intros _. apply eqm_walk. intros.
    apply eqm_bind; [apply eqm_step|]. intros. apply eqm_refl.
Qed.
End Never.
