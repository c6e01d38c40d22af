(** Facts for C137-C142. *)
From Verif Require Import Str Exc UriParse BaseUri Mem Generic Plug SpecPlug.

(** ** URIs do not raise NotImplementedError *)
Definition known {A} (r : res A) : Prop := forall e, r = Raise e -> e <> NotImplementedError.
Lemma known_ok {A} (a : A) : known (Ok a). Proof. now intros e. Qed.
Lemma known_raise {A} e : e <> NotImplementedError -> known (@Raise A e). Proof. intros H e' [= <-]. exact H. Qed.
Lemma known_bind {A B} (r : res A) (k : A -> res B) : known r -> (forall a, known (k a)) -> known (rbind r k).
Proof. intros H K. destruct r; cbn; [apply K|]. intros e' [= <-]. now apply (H e). Qed.
Ltac kn := repeat match goal with
  | |- known (Ok _) => apply known_ok
  | |- known (Raise _) => apply known_raise; discriminate
  | |- known (rbind _ _) => apply known_bind; [|intros ?]
  | |- known (match ?x with _ => _ end) => destruct x
  end.
Lemma known_query l d : known (parse_query_items l d).
Proof. revert d. induction l as [|x l IH]; intros d; cbn [parse_query_items]; kn. apply IH. Qed.
Lemma known_int s : known (py_int s). Proof. unfold py_int. kn. Qed.
Lemma known_urisplit s : known (urisplit s). Proof. unfold urisplit. kn. Qed.
Lemma known_parse s : known (uri_parse s).
Proof. unfold uri_parse. repeat first [apply known_urisplit | apply known_int | apply known_query | progress kn]. Qed.
Lemma known_mk cls t sep ex : known (mk_uri cls t sep ex).
Proof. unfold mk_uri. repeat first [apply known_parse | progress kn]. Qed.
Lemma known_split u : known (u_split u).
Proof. unfold u_split. repeat first [apply known_mk | progress kn]. Qed.
Lemma known_str u : known (u_str u). Proof. unfold u_str, parsed_str. kn. Qed.
Lemma known_quote s : known (Utf8.quote_plus s). Proof. unfold Utf8.quote_plus, Utf8.utf8_encode. kn. Qed.
Lemma known_items d : known (Utf8.urlencode_items d).
Proof. induction d as [|[k v] d IH]; cbn [Utf8.urlencode_items]; repeat first [apply IH | apply known_quote | progress kn]. Qed.
Lemma known_div u n : known (u_div u n).
Proof. unfold u_div, u_join, uri_from_parts, Utf8.urlencode. repeat first [apply known_mk | apply known_items | progress kn]. Qed.

(** ** Two computations that do the same, keep [I] and raise what [E] allows *)
Section Keep.
Context {S : Type}.
Variable I : S -> Prop.
Variable E : exc -> Prop.
Hypothesis EK : forall e, e <> NotImplementedError -> E e.
Definition keep {A} (m m' : M S A) : Prop :=
  forall s, I s -> m s = m' s /\ I (snd (m s)) /\ forall e, fst (m s) = Raise e -> E e.
Lemma keep_ret {A} (a : A) : keep (ret a) (ret a). Proof. intros s i. split; [reflexivity|]. split; [exact i|]. discriminate. Qed.
Lemma keep_raise {A} e : E e -> keep (@raise S A e) (raise e).
Proof. intros H s i. split; [reflexivity|]. split; [exact i|]. intros e' [= <-]. exact H. Qed.
Lemma keep_lift {A} (r : res A) : known r -> keep (lift r) (lift r).
Proof. intros H s i. split; [reflexivity|]. split; [exact i|]. intros e q. apply EK. now apply H. Qed.
Lemma keep_bind {A B} (m m' : M S A) (k k' : A -> M S B) : keep m m' -> (forall a, keep (k a) (k' a)) -> keep (bind m k) (bind m' k').
Proof.
  intros H K s i. destruct (H s i) as (q & i' & r). unfold bind. rewrite <- q. destruct (m s) as [[a|e] s']; cbn [fst snd] in *.
  - now apply K.
  - split; [reflexivity|]. split; [exact i'|]. intros e' [= <-]. now apply r.
Qed.
Lemma keep_if {A} (c : bool) (m m' n n' : M S A) : keep m m' -> keep n n' -> keep (if c then m else n) (if c then m' else n').
Proof. now destruct c. Qed.
Lemma keep_map {X} (f f' : X -> M S unit) l : (forall x, keep (f x) (f' x)) -> keep (mapM_ f l) (mapM_ f' l).
Proof. intros H. induction l; cbn [mapM_]; [apply keep_ret|]. apply keep_bind; auto. Qed.
Lemma keep_fold {A X} (f f' : A -> X -> M S A) l : (forall a x, keep (f a x) (f' a x)) -> forall a, keep (foldM f a l) (foldM f' a l).
Proof. intros H. induction l; intros z; cbn [foldM]; [apply keep_ret|]. apply keep_bind; auto. Qed.
Lemma ex_assert : E AssertionError. Proof. now apply EK. Qed.
Lemma ex_missing : E FileDoesNotExistError. Proof. now apply EK. Qed.
Lemma ex_fuel : E OutOfFuel. Proof. now apply EK. Qed.

Variables b b' : backend S.
Definition K0 := forall u n, keep (b_hook b u n) (b_hook b' u n).
Definition Kexists := forall u, keep (b_exists b u) (b_exists b' u).
Definition Kisfile := forall u, keep (b_isfile b u) (b_isfile b' u).
Definition Kisdir := forall u, keep (b_isdir b u) (b_isdir b' u).
Definition Kislink := forall u, keep (b_islink b u) (b_islink b' u).
Definition Klistdir := forall u, keep (b_listdir b u) (b_listdir b' u).
Definition Kremovefile := forall u, keep (b_removefile b u) (b_removefile b' u).
Definition Kremovedir := forall u, keep (b_removedir b u) (b_removedir b' u).
Definition Kmkdir := forall u, keep (b_mkdir b u) (b_mkdir b' u).
Definition Kreadlink := forall u, keep (b_readlink b u) (b_readlink b' u).
Definition Kcopystat := forall u v, keep (b_copystat b u v) (b_copystat b' u v).
Definition Kcontent := forall u v, keep (b_copy_content b u v) (b_copy_content b' u v).
Definition Kremovefile_by := forall w u, keep (b_removefile_by b w u) (b_removefile_by b' w u).
Definition Ksymlink_by := forall w t u, keep (b_symlink_by b w t u) (b_symlink_by b' w t u).
Hypothesis H0 : K0.

Lemma keep_hooked {A} n u (m m' : M S A) : keep m m' -> keep (hooked b n u m) (hooked b' n u m').
Proof. intros H. unfold hooked. apply keep_bind; [apply H0|]. auto. Qed.
Ltac kp := repeat match goal with
  | |- forall _, _ => intro
  | H : K0 |- keep (b_hook b _ _) _ => apply H
  | H : Kexists |- keep (b_exists b _) _ => apply H
  | H : Kisfile |- keep (b_isfile b _) _ => apply H
  | H : Kisdir |- keep (b_isdir b _) _ => apply H
  | H : Kislink |- keep (b_islink b _) _ => apply H
  | H : Klistdir |- keep (b_listdir b _) _ => apply H
  | H : Kremovefile |- keep (b_removefile b _) _ => apply H
  | H : Kremovedir |- keep (b_removedir b _) _ => apply H
  | H : Kmkdir |- keep (b_mkdir b _) _ => apply H
  | H : Kreadlink |- keep (b_readlink b _) _ => apply H
  | H : Kcopystat |- keep (b_copystat b _ _) _ => apply H
  | H : Kcontent |- keep (b_copy_content b _ _) _ => apply H
  | H : Kremovefile_by |- keep (b_removefile_by b _ _) _ => apply H
  | H : Ksymlink_by |- keep (b_symlink_by b _ _ _) _ => apply H
  | |- keep (ret _) _ => apply keep_ret
  | |- keep (raise _) _ => apply keep_raise; first [apply ex_assert | apply ex_missing | apply ex_fuel]
  | |- keep (lift (u_div _ _)) _ => apply keep_lift, known_div
  | |- keep (lift (u_str _)) _ => apply keep_lift, known_str
  | |- keep (lift (u_split _)) _ => apply keep_lift, known_split
  | |- keep (hooked b _ _ _) _ => apply keep_hooked
  | |- keep (bind _ _) _ => apply keep_bind
  | |- keep (mapM_ _ _) _ => apply keep_map
  | |- keep (foldM _ _ _) _ => apply keep_fold
  | |- keep (match ?x with _ => _ end) _ => destruct x
  | |- keep (u_exists b _) _ => unfold u_exists
  | |- keep (u_isfile b _) _ => unfold u_isfile
  | |- keep (u_isdir b _) _ => unfold u_isdir
  | |- keep (u_islink b _) _ => unfold u_islink
  | |- keep (u_listdir b _) _ => unfold u_listdir
  | |- keep (u_mkdir b _) _ => unfold u_mkdir
  end.
Lemma keep_makedirs : Kisdir -> Kmkdir -> forall n u, keep (u_makedirs b n u) (u_makedirs b' n u).
Proof.
  intros A B n u. unfold u_makedirs. apply keep_hooked. revert u. induction n as [|n IH]; intros u; cbn [fs_makedirs]; kp. apply IH.
Qed.
Lemma keep_kinds : Kisdir -> forall l u, keep (kinds b u l) (kinds b' u l).
Proof. intros A l. induction l as [|x l IH]; intros u; cbn [kinds]; kp. apply IH. Qed.
Lemma keep_walk {Acc} td fl (body body' : Acc -> uri -> list str -> list str -> M S (Acc * list str)) :
  Klistdir -> Kisdir -> Kislink -> (forall a r d f, keep (body a r d f) (body' a r d f)) ->
  forall n a u, keep (walk_gen b n td fl body a u) (walk_gen b' n td fl body' a u).
Proof.
  intros A B C D. induction n as [|n IH]; intros a u; cbn [walk_gen]; kp; try apply D; try apply IH. now apply keep_kinds.
Qed.
Lemma keep_u_walk td fl : Klistdir -> Kisdir -> Kislink -> forall n u, keep (u_walk b n td fl u) (u_walk b' n td fl u).
Proof. intros A B C n u. unfold u_walk. apply keep_hooked. apply keep_walk; auto. kp. Qed.
Lemma keep_glob fn : Klistdir -> forall u p, keep (u_glob b fn u p) (u_glob b' fn u p).
Proof. intros A u p. unfold u_glob, fs_glob. kp. Qed.
Lemma keep_rmdir : Klistdir -> Kisdir -> Kislink -> Kremovefile -> Kremovedir -> forall n u, keep (remove_dir_recursively b n u) (remove_dir_recursively b' n u).
Proof. intros A B C D F n u. unfold remove_dir_recursively. apply keep_bind; [|kp]. apply keep_walk; auto. kp. Qed.
Lemma keep_remove r : Kislink -> Kexists -> Kisdir -> Kisfile -> Kremovefile -> Kremovedir -> (r = true -> Klistdir) ->
  forall n u, keep (u_remove b n r u) (u_remove b' n r u).
Proof.
  intros A B C D F G L n u. unfold u_remove. destruct r; [|kp]. specialize (L eq_refl). kp. now apply keep_rmdir.
Qed.
Lemma keep_link : Kislink -> Kisfile -> Kremovefile_by -> Kreadlink -> Ksymlink_by -> forall u v, keep (copy_link b u v) (copy_link b' u v).
Proof. intros A B C D F u v. unfold copy_link. kp. Qed.
Definition Klinks (fl : bool) : Prop := if fl then True else Kisfile /\ Kremovefile_by /\ Kreadlink /\ Ksymlink_by.
Lemma keep_linked fl (c : bool) : Kislink -> Klinks fl -> forall u v (m m' : M S unit), keep m m' ->
  keep (if c && negb fl then copy_link b u v else m) (if c && negb fl then copy_link b' u v else m').
Proof.
  intros A L u v m m' H. destruct fl; [now rewrite Bool.andb_false_r|]. destruct L as (L1 & L2 & L3 & L4). destruct c; [|exact H]. now apply keep_link.
Qed.
Lemma keep_entry fl same : Kislink -> Klinks fl -> Kcontent -> Kcopystat -> forall u v, keep (copy_entry b fl same u v) (copy_entry b' fl same u v).
Proof. intros A L C D u v. unfold copy_entry. apply keep_bind; [kp|]. intros l. apply keep_linked; auto. kp. Qed.
Lemma keep_step n ig fl same k dr : Kislink -> Klinks fl -> Kcontent -> Kcopystat -> Kisdir -> Kmkdir ->
  forall root dirs files, keep (copy_step b n ig fl same k dr root dirs files) (copy_step b' n ig fl same k dr root dirs files).
Proof.
  intros A L C D G H root dirs files. unfold copy_step. apply keep_bind; [kp|]. intros db. apply keep_bind.
  - apply keep_fold. intros ds x. destruct (str_in x ig); [kp|]. apply keep_bind; [kp|]. intros dd. apply keep_bind; [kp|]. intros sp.
    apply keep_bind; [kp|]. intros l. apply keep_bind; [|kp]. apply keep_linked; auto. now apply keep_makedirs.
  - intros ds. apply keep_bind; [|kp]. kp. now apply keep_entry.
Qed.
Lemma keep_copy n (r : bool) ig fl : Kexists -> Kisdir -> Kislink -> Kcontent -> Kcopystat -> (if r then Kmkdir /\ Klistdir else Kisfile) -> Klinks fl ->
  forall u v, keep (fs_copy b n r ig fl u v) (fs_copy b' n r ig fl u v).
Proof.
  intros A B C D F G L u v. unfold fs_copy. apply keep_bind; [kp|]. intros e. destruct (negb e); [kp|]. destruct r.
  - destruct G as (G1 & G2). cbn [negb]. apply keep_bind; [kp|]. intros d. destruct (negb d); [kp|]. apply keep_bind; [kp|]. intros dd.
    apply keep_bind; [kp|]. intros dr. apply keep_bind; [kp|]. intros l. apply keep_linked; auto. apply keep_bind; [now apply keep_makedirs|].
    intros _. apply keep_bind; [kp|]. intros _. apply keep_walk; auto. intros a root dirs files. apply keep_bind; [now apply keep_step|]. kp.
  - cbn [negb]. apply keep_bind; [kp|]. intros f. destruct (negb f); [kp|]. apply keep_bind; [kp|]. intros dd. apply keep_bind; [kp|]. intros w. now apply keep_entry.
Qed.
End Keep.

(** ** Methods of a class *)
Section ClassKeep.
Context {S F V : Type}.
Variables (truthy : V -> bool) (bytes_of : V -> option (list N)) (fnm : str -> str -> bool).
Variable I : S -> Prop.
Variable E : exc -> Prop.
Hypothesis EK : forall e, e <> NotImplementedError -> E e.
Variables c c' : own S F V.
Notation keep := (keep I E).
(** The methods of the connections do the same *)
Definition ready (m : meth) : Prop :=
  match m with
  | MHook => forall u n, keep (c_hook c u n) (c_hook c' u n)
  | MOpen => forall u o, keep (c_open c u o) (c_open c' u o)
  | MRead => forall f n, keep (o_read c f n) (o_read c' f n)
  | MWrite => forall f v, keep (o_write c f v) (o_write c' f v)
  | MExit => forall f, keep (o_exit c f) (o_exit c' f)
  | MListdir => forall u, keep (c_listdir c u) (c_listdir c' u)
  | MRemovefile => forall u, keep (c_removefile c u) (c_removefile c' u)
  | MRemovedir => forall u, keep (c_removedir c u) (c_removedir c' u)
  | MMkdir => forall u, keep (c_mkdir c u) (c_mkdir c' u)
  | MExists => forall u, keep (c_exists c u) (c_exists c' u)
  | MIsfile => forall u, keep (c_isfile c u) (c_isfile c' u)
  | MIsdir => forall u, keep (c_isdir c u) (c_isdir c' u)
  | MIsexec => forall u m, keep (c_isexec c u m) (c_isexec c' u m)
  | MSetExec => forall u m, keep (c_set_exec c u m) (c_set_exec c' u m)
  | MSupports => True
  | MIslink => forall u, keep (c_islink c u) (c_islink c' u)
  | MReadlink => forall u, keep (c_readlink c u) (c_readlink c' u)
  | MSymlink => forall u v, keep (c_symlink c u v) (c_symlink c' u v)
  | MInfo => forall u i fl, keep (c_info c u i fl) (c_info c' u i fl)
  | MSync => forall u v o, keep (c_sync c u v o) (c_sync c' u v o)
  | MMtime => forall u, keep (c_mtime c u) (c_mtime c' u)
  | MCopystat => forall u v, keep (c_copystat c u v) (c_copystat c' u v)
  | MLock => forall u a b, keep (c_lock c u a b) (c_lock c' u a b)
  | MManipulate => forall u k, keep (c_manipulate c u k) (c_manipulate c' u k)
  | MInternal => match o_internal_copy c, o_internal_copy c' with
                 | Some f, Some f' => forall u v r i, keep (f u v r i) (f' u v r i)
                 | None, None => True
                 | _, _ => False
                 end
  | MSwitch => forall u b, keep (c_switch c u b) (c_switch c' u b)
  | MUpdate => forall u a b, keep (c_update c u a b) (c_update c' u a b)
  | MLog => forall u n k, keep (c_log c u n k) (c_log c' u n k)
  | MLogByTime => forall u a b, keep (c_log_by_time c u a b) (c_log_by_time c' u a b)
  end.
Lemma ready_with {A} (m m' : M S F) (k k' : F -> M S A) : ready MExit -> keep m m' -> (forall f, keep (k f) (k' f)) ->
  keep (with_file c m k) (with_file c' m' k').
Proof.
  intros X H K. unfold with_file. apply keep_bind; [exact H|]. intros f s i. destruct (K f s i) as (q & i' & r). rewrite <- q.
  destruct (k f s) as [x s']. cbn [fst snd] in *. destruct (X f s' i') as (q2 & i2 & r2). rewrite <- q2. destruct (o_exit c f s') as [[y|e] s'']; cbn [fst snd] in *.
  - split; [reflexivity|]. now split.
  - split; [reflexivity|]. split; [exact i2|]. intros e' [= <-]. now apply r2.
Qed.
Lemma ready_open u o : ready MHook -> ready MOpen -> keep (p_open c u o) (p_open c' u o).
Proof. intros A B. apply keep_bind; [apply A|]. intros _. apply B. Qed.
Lemma ready_content n u v : ready MHook -> ready MOpen -> ready MRead -> ready MWrite -> ready MExit ->
  keep (p_content truthy c n u v) (p_content truthy c' n u v).
Proof.
  intros A B R W X. unfold p_content. apply ready_with; [exact X|now apply ready_open|]. intros f. apply ready_with; [exact X|now apply ready_open|]. intros g.
  induction n as [|n IH]; cbn [p_copyfileobj]; [apply keep_raise; now apply EK|]. apply keep_bind; [apply R|]. intros x.
  destruct (truthy x); [|apply keep_ret]. apply keep_bind; [apply W|]. intros _. exact IH.
Qed.
Lemma ready_md5 n u : ready MHook -> ready MOpen -> ready MRead -> ready MExit -> keep (p_md5 truthy bytes_of c n u) (p_md5 truthy bytes_of c' n u).
Proof.
  intros A B R X. unfold p_md5. apply keep_bind; [apply A|]. intros _. apply ready_with; [exact X|now apply ready_open|]. intros f.
  generalize (@nil N). induction n as [|n IH]; intros fed; cbn [p_blocks]; [apply keep_raise; now apply EK|]. apply keep_bind; [apply R|]. intros x.
  destruct (truthy x); [|apply keep_ret]. destruct (bytes_of x); [apply IH|]. apply keep_raise. now apply EK.
Qed.
Lemma ready_ans {A} (k : A -> pans F V) (m m' : M S A) : keep m m' -> keep (ans k m) (ans k m').
Proof. intros H. apply keep_bind; [exact H|]. intros. apply keep_ret. Qed.
Lemma ready_asks {A} n u (k : A -> pans F V) (m m' : M S A) : ready MHook -> keep m m' -> keep (asks c n u k m) (asks c' n u k m').
Proof. intros A0 H. apply keep_bind; [apply A0|]. intros _. now apply ready_ans. Qed.

Lemma ready_copy n kn r ig fl u v : (forall m, In m (of_copy kn r fl) -> ready m) -> keep (p_copy truthy c n kn r ig fl u v) (p_copy truthy c' n kn r ig fl u v).
Proof.
  intros H. unfold p_copy.
  assert (A : ready MHook) by (apply H; cbn; tauto). apply keep_bind; [apply A|]. intros _.
  assert (C : keep (fs_copy (class_backend truthy c n) n r ig fl u v) (fs_copy (class_backend truthy c' n) n r ig fl u v)).
  { apply keep_copy; auto.
    - apply (H MExists). cbn; tauto.
    - apply (H MIsdir). cbn; tauto.
    - apply (H MIslink). cbn; tauto.
    - intros x y. apply ready_content; apply H; cbn; tauto.
    - apply (H MCopystat). cbn; tauto.
    - destruct r; [split|]; [apply (H MMkdir)|apply (H MListdir)|apply (H MIsfile)]; destruct kn; cbn; tauto.
    - destruct fl; [exact Logic.I|]. split; [|split; [|split]]; [apply (H MIsfile)|intros w; apply (H MRemovefile)|apply (H MReadlink)|intros w; apply (H MSymlink)]; destruct kn, r; cbn; tauto. }
  destruct kn.
  - assert (B : ready MInternal) by (apply H; cbn; tauto). cbn in B. destruct (o_internal_copy c), (o_internal_copy c'); try contradiction; auto.
  - destruct (o_internal_copy c), (o_internal_copy c'); exact C.
Qed.
Lemma ready_remove n r u : (forall m, In m (of_remove r) -> ready m) -> keep (u_remove (class_backend truthy c n) n r u) (u_remove (class_backend truthy c' n) n r u).
Proof.
  intros H. apply keep_remove; auto; [apply (H MHook)|apply (H MIslink)|apply (H MExists)|apply (H MIsdir)|apply (H MIsfile)|apply (H MRemovefile)|apply (H MRemovedir)|intros ->; apply (H MListdir)];
    cbn; tauto.
Qed.
Ltac pick H := first [solve [apply (H MCopystat); cbn; tauto] | solve [apply (H MMkdir); cbn; tauto] | solve [apply (H MExists); cbn; tauto] | solve [apply (H MIsfile); cbn; tauto] | solve [apply (H MIsdir); cbn; tauto] | solve [apply (H MIsexec); cbn; tauto] | solve [apply (H MSetExec); cbn; tauto] | solve [apply (H MIslink); cbn; tauto] | solve [apply (H MReadlink); cbn; tauto] | solve [apply (H MSymlink); cbn; tauto] | solve [apply (H MMtime); cbn; tauto] | solve [apply (H MListdir); cbn; tauto] | solve [apply (H MInfo); cbn; tauto] | solve [apply (H MSync); cbn; tauto] | solve [apply (H MLock); cbn; tauto] | solve [apply (H MManipulate); cbn; tauto] | solve [apply (H MSwitch); cbn; tauto] | solve [apply (H MUpdate); cbn; tauto] | solve [apply (H MLog); cbn; tauto] | solve [apply (H MLogByTime); cbn; tauto]].
Theorem run_keep n o : (forall m, In m (needs o) -> ready m) -> keep (run_pop truthy bytes_of fnm c n o) (run_pop truthy bytes_of fnm c' n o).
Proof.
  intros H. destruct o; cbn [run_pop needs] in *;
    try (apply ready_asks; [apply (H MHook); cbn; tauto|]; pick H).
  - apply ready_ans. now apply ready_copy.
  - apply ready_ans. unfold p_move. assert (A : ready MHook) by (apply H; cbn; tauto). apply keep_bind; [apply A|]. intros _.
    assert (C1 : forall m, In m (of_copy known0 false true) -> ready m) by (intros m q; apply H; rewrite !in_app_iff; tauto).
    assert (C2 : forall m, In m (of_copy known0 true true) -> ready m) by (intros m q; apply H; rewrite !in_app_iff; tauto).
    assert (C3 : forall m, In m (of_remove true) -> ready m) by (intros m q; apply H; rewrite !in_app_iff; tauto).
    assert (C4 : forall m, In m (of_remove false) -> ready m) by (intros m q; apply C3; cbn in *; tauto).
    apply keep_bind; [unfold u_isfile; apply keep_hooked; [exact A|apply (C1 MIsfile); destruct known0; cbn; tauto]|]. intros f.
    destruct f; (apply keep_bind; [now apply ready_copy|intros _; now apply ready_remove]).
  - apply ready_ans. now apply ready_remove.
  - apply ready_ans. apply ready_open; apply H; cbn; tauto.
  - apply ready_ans. apply keep_makedirs; auto; [apply (H MHook)|apply (H MIsdir)|apply (H MMkdir)]; cbn; tauto.
  - apply ready_ans. apply keep_u_walk; auto; [apply (H MHook)|apply (H MListdir)|apply (H MIsdir)|apply (H MIslink)]; cbn; tauto.
  - apply ready_ans. apply keep_glob; auto; [apply (H MHook)|apply (H MListdir)]; cbn; tauto.
  - apply ready_ans. apply ready_md5; apply H; cbn; tauto.
  - destruct rev; [|apply keep_raise; now apply EK]. apply ready_asks; [apply (H MHook); cbn; tauto|]; pick H.
  - destruct rev; [|apply keep_raise; now apply EK]. apply ready_asks; [apply (H MHook); cbn; tauto|]; pick H.
  - destruct rev; [|apply keep_raise; now apply EK]. apply ready_asks; [apply (H MHook); cbn; tauto|]; pick H.
  - destruct rev; [|apply keep_raise; now apply EK]. apply ready_asks; [apply (H MHook); cbn; tauto|]; pick H.
Qed.
End ClassKeep.
