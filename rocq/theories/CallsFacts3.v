(** Lemmas for C149: copies, md5 and glob, and the calls they make. *)
From Coq Require Import Sorting.Permutation Sorting.Sorted String Lia.
From Verif Require Import Str StrFacts Exc UriParse BaseUri Mem Generic Plug SpecPlug SpecCalls CallsFacts CallsFacts2.
Local Open Scope string_scope.
Local Open Scope list_scope.

Section Facts.
Context {S F V : Type}.
Variables (truthy : V -> bool) (bytes_of : V -> option (list N)) (fnm : str -> str -> bool).
Variable c : own S F V.
Notation ev := (ev F V).
Notation fits := (fits c).
Notation bk := (class_backend truthy c).

Lemma f_bind_at {A B} n a0 (L : list ev -> Prop) (K : B -> list ev -> Prop) (m : M S A) k : fits n (fun a t => L t /\ a = a0) m -> fits n K (k a0) ->
  fits n (fun b t => exists t1 t2, L t1 /\ K b t2 /\ t = t1 ++ t2) (bind m k).
Proof.
  intros [P Q] H. split.
  - intros s b s' R. unfold bind in R. destruct (m s) as [[a|] s1] eqn:E; [|discriminate]. apply P in E as (t1 & [E ->] & T1).
    apply H in R as (t2 & R & T2). exists (t1 ++ t2). split; [eauto|]. apply steps_app. eauto.
  - intros s b s' t (t1 & t2 & R1 & R2 & ->) T W. rewrite app_length in W. apply steps_app in T as (s1 & T1 & T2).
    unfold bind. rewrite (Q s a0 s1 t1 (conj R1 eq_refl) T1) by lia. apply (proj2 H s1 b s' t2); auto. lia.
Qed.

(** *** Contents *)
Lemma f_open n u o : fits n (fun f t => t = [hook "open" u; EOpen u o f]) (p_open c u o).
Proof. exact (f_q c n "open" u _ _ (one_open c u o)). Qed.
Lemma f_blocks n f g : fits n (fun _ t => blocks truthy f g t) (p_copyfileobj truthy c n f g).
Proof.
  induction n as [|n IH]; [apply f_0|]. cbn [p_copyfileobj].
  eapply f_iff; [|apply f_then; [apply one_read|intros v; apply f_if; [apply f_then'; [apply one_write|intros ?; apply IH]|apply f_ret]]].
  intros [] t. cbn. split.
  - intros (v & t' & H & ->). destruct (truthy v) eqn:E.
    + destruct H as ([] & t2 & H & ->). now apply bk_more.
    + destruct H as [_ ->]. now apply bk_end.
  - inversion 1; subst; exists v; eexists; (split; [|reflexivity]);
      match goal with E : truthy _ = _ |- _ => rewrite E end; [easy|]. exists tt. eexists. split; [eassumption|reflexivity].
Qed.
Lemma f_contents n u v : fits n (fun _ t => contents truthy u v t) (p_content truthy c n u v).
Proof.
  unfold p_content. eapply f_iff; [|apply f_with; [apply f_open|intros f; apply f_with; [apply f_open|intros g; apply f_blocks]]].
  intros [] t. cbn. split.
  - intros (f & t1 & t2 & -> & (g & t3 & t4 & -> & H & ->) & ->). cbn. rewrite <- app_assoc. now apply (co truthy u v f g t4).
  - inversion 1; subst. exists f. do 2 eexists. split; [reflexivity|]. split; [exists g; do 2 eexists; split; [reflexivity|split; [eassumption|reflexivity]]|].
    cbn. now rewrite <- app_assoc.
Qed.
Lemma f_relinks m n u v : fits n (fun _ t => relinks u v t) (copy_link (bk m) u v).
Proof.
  unfold copy_link. eapply f_iff; [|apply f_then'; [apply one_islink|intros l; apply f_if; [apply f_raise|apply t_isfile; intros f; apply f_bind;
    [apply f_if; [apply f_one, one_removefile|apply f_ret]|intros ?; apply f_then'; [apply one_readlink|intros t; apply f_one, one_symlink]]]]].
  intros [] t. cbn. split.
  - intros ([|] & t' & H & ->); cbn in H; [|easy]. destruct H as ([|] & t2 & ([] & t3 & t4 & A & (w & t5 & -> & ->) & ->) & ->).
    + subst. apply rl_over.
    + destruct A as [_ ->]. apply rl_new.
  - inversion 1; subst; exists true; eexists; (split; [|reflexivity]); cbn.
    + exists false. eexists. split; [|reflexivity]. exists tt, []. eexists. split; [easy|]. split; [do 2 eexists; split; reflexivity|reflexivity].
    + exists true. eexists. split; [|reflexivity]. exists tt. eexists [_], _. split; [reflexivity|]. split; [do 2 eexists; split; reflexivity|reflexivity].
Qed.
Lemma or_link l fl : l && negb fl = false <-> l = false \/ fl = true.
Proof. destruct l, fl; cbn; intuition congruence. Qed.
Lemma f_entry n fl same u v : fits n (fun _ t => entry truthy fl same u v t) (copy_entry (bk n) fl same u v).
Proof.
  unfold copy_entry. eapply f_iff; [|apply t_islink; intros l; apply f_if; [apply f_relinks|apply f_bind; [apply f_contents|
    intros ?; apply f_if; [apply f_one, one_copystat|apply f_ret]]]].
  intros [] t. cbn. split.
  - intros (l & t' & H & ->). destruct (l && negb fl) eqn:E.
    + destruct l, fl; try discriminate. now apply en_link.
    + destruct H as ([] & t1 & t2 & A & B & ->). apply or_link in E.
      replace t2 with (@stats F V same u v) by (unfold stats; destruct same; [easy|now destruct B]). now apply en_bytes.
  - inversion 1; subst.
    + exists true. eexists. split; [|reflexivity]. now cbn.
    + exists l. eexists. split; [|reflexivity]. match goal with E : _ \/ _ |- _ => apply or_link in E; rewrite E end.
      exists tt. do 2 eexists. split; [eassumption|]. split; [|reflexivity]. unfold stats. now destruct same.
Qed.

(** *** Trees *)
Lemma not_first ig n kept tl : (forall x, In x kept -> ~ In x ig) -> In n ig -> remove_first n (kept ++ n :: tl) = kept ++ tl.
Proof.
  intros K I. induction kept as [|x kept IH]; cbn.
  - now rewrite str_eqb_refl.
  - destruct (str_eqb n x) eqn:E.
    + apply str_eqb_eq in E. subst x. exfalso. apply (K n); [now left|easy].
    + f_equal. apply IH. intros y Y. apply K. now right.
Qed.
Lemma f_folders n fl ig u v : forall ds kept, (forall x, In x kept -> ~ In x ig) ->
  fits n (fun out t => exists ds', out = kept ++ ds' /\ folders fl ig u v ds ds' t)
    (foldM (fun ds folder =>
       if str_in folder ig then ret (remove_first folder ds)
       else let! ddir <- lift (u_div v folder); let! srcp <- lift (u_div u folder); let! l <- u_islink (bk n) srcp;
            (if l && negb fl then copy_link (bk n) srcp ddir else u_makedirs (bk n) n ddir) ;; ret ds) (kept ++ ds) ds).
Proof.
  induction ds as [|x ds IH]; intros kept K; cbn [foldM].
  - eapply f_iff; [|apply f_ret]. intros out t. cbn. split.
    + intros [-> ->]. exists []. split; [easy|constructor].
    + intros (ds' & -> & H). inversion H; now subst.
  - destruct (str_in x ig) eqn:I.
    + apply str_in_In in I. eapply f_ext with (m := foldM _ (remove_first x (kept ++ x :: ds)) ds).
      { intros s. reflexivity. }
      rewrite (not_first ig x kept ds K I). eapply f_iff; [|apply (IH kept K)].
      intros out t. cbn. split; intros (ds' & E & H); exists ds'; (split; [exact E|]); [now apply fo_out|].
      inversion H; subst; [easy|contradiction|contradiction].
    + assert (N : ~ In x ig) by (intros H; apply str_in_In in H; congruence).
      eapply f_iff; [|apply f_bind_at with (a0 := kept ++ x :: ds) (L := fun t => exists q p l t1, u_div v x = Ok q /\ u_div u x = Ok p /\
        (if l && negb fl then relinks p q t1 else exists t2, makes q t2 /\ t1 = hook "makedirs" q :: t2) /\ t = q_islink p l ++ t1)].
      2:{ eapply f_iff; [|apply f_lift; intros q; apply f_lift; intros p; apply t_islink; intros l; apply f_bind;
            [apply f_if; [apply f_relinks|apply f_u_makedirs]|intros ?; apply f_ret]].
          intros out t. cbn. split.
          - intros (q & E1 & p & E2 & l & t1 & ([] & t2 & t3 & A & (-> & ->) & ->) & ->). split; [|easy]. exists q, p, l, t2. rewrite app_nil_r. auto.
          - intros [(q & p & l & t1 & E1 & E2 & A & ->) ->]. exists q. split; [easy|]. exists p. split; [easy|]. exists l, t1. split; [|reflexivity].
            exists tt, t1, []. rewrite app_nil_r. auto. }
      2:{ replace (kept ++ x :: ds) with ((kept ++ [x]) ++ ds) by now rewrite <- app_assoc. apply IH.
          intros y Y. apply in_app_iff in Y as [Y|[<-|[]]]; [now apply K|easy]. }
      intros out t. cbn. split.
      * intros (t1 & t2 & (q & p & l & t3 & E1 & E2 & A & ->) & (ds' & -> & B) & ->). exists (x :: ds'). split; [now rewrite <- app_assoc|].
        destruct (l && negb fl) eqn:G.
        -- destruct l, fl; try discriminate. now apply (fo_link false ig u v x ds ds' p q t3 t2).
        -- apply or_link in G. destruct A as (t4 & A & ->). now apply (fo_dir fl ig u v x ds ds' p q l t4 t2).
      * intros (ds' & -> & H). inversion H; subst; [contradiction| |].
        -- do 2 eexists. split; [eexists q, p, true, _; split; [eassumption|]; split; [eassumption|]; split; [|reflexivity]; cbn; eassumption|].
           split; [eexists; split; [|eassumption]; now rewrite <- app_assoc|reflexivity].
        -- match goal with E : _ \/ _ |- _ => apply or_link in E end.
           do 2 eexists. split; [eexists q, p, l, _; split; [eassumption|]; split; [eassumption|]; split; [|reflexivity];
             match goal with E : _ && _ = false |- _ => rewrite E end; eexists; split; [eassumption|reflexivity]|].
           split; [eexists; split; [|eassumption]; now rewrite <- app_assoc|reflexivity].
Qed.
Lemma f_entries n fl same u v fs : fits n (fun _ t => entries truthy fl same u v fs t)
  (mapM_ (fun x => let! p <- lift (u_div u x); let! q <- lift (u_div v x); copy_entry (bk n) fl same p q) fs).
Proof.
  induction fs as [|x fs IH]; cbn [mapM_].
  - eapply f_iff; [|apply f_ret]. intros [] t. cbn. split; [intros [_ ->]; constructor|inversion 1; now subst].
  - eapply f_iff; [|apply f_bind; [apply f_lift; intros p; apply f_lift; intros q; apply f_entry|intros ?; apply IH]].
    intros [] t. cbn. split.
    + intros ([] & t1 & t2 & (p & E1 & q & E2 & A) & B & ->). eapply ne_cons; eauto.
    + inversion 1; subst. exists tt. do 2 eexists. split; [|split; [eassumption|reflexivity]]. eauto.
Qed.
Lemma f_step n ig fl same src dst u ds fs : fits n (fun ds' t => rebuilds truthy fl same ig src dst u ds fs ds' [] t)
  (copy_step (bk n) n ig fl same (length (u_path src) + 1) dst u ds fs).
Proof.
  unfold copy_step. set (w := strip_p is_space (skipn (length (u_path src) + 1) (u_path u))).
  eapply f_iff; [|apply f_bind with (L := fun v t => counterpart src dst u v /\ t = []); [|intros v; apply f_bind; [apply (f_folders n fl ig u v ds []); easy|
    intros ds'; apply f_bind; [apply f_entries|intros ?; apply f_ret]]]].
  - intros ds' t. cbn. split.
    + intros (v & t1 & t2 & (C & ->) & (d & t3 & t4 & (d' & -> & A) & ([] & t5 & t6 & B & (-> & ->) & ->) & ->) & ->). rewrite app_nil_r. cbn. now apply (rb _ _ _ _ _ _ u v).
    + inversion 1; subst. exists v, []. eexists. split; [easy|]. split; [|reflexivity]. do 3 eexists. split; [eexists; split; [reflexivity|eassumption]|].
      split; [|reflexivity]. exists tt. eexists. exists []. split; [eassumption|]. split; [easy|now rewrite app_nil_r].
  - assert (W : strip_p is_space (skipn (length (u_path src) + 1) (u_path u)) = w) by reflexivity. destruct w as [|x w].
    + eapply f_iff; [|apply f_ret]. intros v t. cbn. split.
      * intros [-> ->]. split; [now apply cp_top|easy].
      * intros [C ->]. inversion C; subst; [easy|contradiction].
    + eapply f_ext with (m := let! v <- lift (u_div dst (x :: w)); ret v). { intros s. unfold bind, lift. now destruct (u_div dst (x :: w)). }
      eapply f_iff; [|apply f_lift; intros v; apply f_ret]. intros v t. cbn. split.
      * intros (v' & E & -> & ->). split; [apply cp_in; rewrite W; easy|easy].
      * intros [C ->]. inversion C; subst; [congruence|]. rewrite W in *. eauto.
Qed.
Lemma f_target n src dst b : fits n (fun v t => target src dst b v /\ t = []) (if b then lift (u_div dst (u_last src)) else ret dst : M S uri).
Proof.
  destruct b.
  - eapply f_ext with (m := let! v <- lift (u_div dst (u_last src)); ret v). { intros s. unfold bind, lift. now destruct (u_div dst (u_last src)). }
    eapply f_iff; [|apply f_lift; intros v; apply f_ret]. intros v t. cbn. split.
    + intros (v' & E & -> & ->). split; [now apply ta_in|easy].
    + intros [C ->]. inversion C; subst. eauto.
  - eapply f_iff; [|apply f_ret]. intros v t. cbn. split; [intros [-> ->]; split; [constructor|easy]|intros [C ->]; inversion C; now subst].
Qed.
Lemma f_dups n r ig fl u v : fits n (fun _ t => dups truthy ig fl u v r t) (fs_copy (bk n) n r ig fl u v).
Proof.
  unfold fs_copy. fold (same_scheme u v).
  eapply f_iff; [|apply t_exists; intros e; apply f_if; [apply f_lift; intros ?; apply f_raise|apply f_if;
    [apply t_isfile; intros f; apply f_if; [apply f_raise|apply t_isdir'; intros b; apply f_bind; [apply f_target|intros w; apply f_entry]]|
     apply t_isdir'; intros d; apply f_if; [apply f_raise|apply t_isdir'; intros b; apply f_bind; [apply f_target|intros w; apply t_islink; intros l; apply f_if;
       [apply f_relinks|apply f_bind; [apply f_u_makedirs|intros ?; apply f_then'; [apply one_hook|intros ?;
          apply (f_tour truthy c (fun _ _ => tt) (fun a => match a with tt => eq_refl end) (fun _ _ _ => eq_refl) fl (rebuilds truthy fl (same_scheme u v) ig u w) _ n n); [|lia]]]]]]]]].
  2:{ intros [] root ds fs. eapply f_iff; [|apply f_bind; [apply f_step|intros ds'; apply f_ret]]. intros [[] d'] t. cbn. split.
      - intros (ds' & t1 & t2 & A & (E & ->) & ->). inversion E; subst. rewrite app_nil_r. eauto.
      - intros (rows & A & _). assert (rows = []) by (inversion A; now subst). subst. exists d', t, []. rewrite app_nil_r. auto. }
  intros [] t. cbn. split.
  - intros ([|] & t1 & H & ->); cbn in H; [|now destruct H as (? & _ & [])]. destruct r; cbn in H.
    + destruct H as ([|] & t2 & H & ->); cbn in H; [|easy]. destruct H as (b & t3 & (w & t4 & t5 & (T & ->) & (l & t6 & H & ->) & ->) & ->). cbn.
      destruct (l && negb fl) eqn:G.
      * destruct l, fl; try discriminate. now apply (du_link truthy ig false u v b w t6).
      * apply or_link in G. destruct H as ([] & t7 & t8 & (t9 & A & ->) & ([] & t10 & (rows & B & _) & ->) & ->).
        now apply (du_tree truthy ig fl u v b w l rows t9 t10).
    + destruct H as ([|] & t2 & H & ->); cbn in H; [|easy]. destruct H as (b & t3 & (w & t4 & t5 & (T & ->) & H & ->) & ->). cbn.
      now apply (du_file truthy ig fl u v b w t5).
  - inversion 1; subst; exists true; eexists; (split; [|reflexivity]); cbn.
    + exists true. eexists. split; [|reflexivity]. cbn. exists b. eexists. split; [|reflexivity]. exists w, []. eauto.
    + exists true. eexists. split; [|reflexivity]. cbn. exists b. eexists. split; [|reflexivity]. exists w, []. eexists. split; [easy|]. split; [|reflexivity].
      exists true. eexists. split; [|reflexivity]. now cbn.
    + exists true. eexists. split; [|reflexivity]. cbn. exists b. eexists. split; [|reflexivity]. exists w, []. eexists. split; [easy|]. split; [|reflexivity].
      exists l. eexists. split; [|reflexivity]. match goal with E : _ \/ _ |- _ => apply or_link in E; rewrite E end.
      exists tt. do 2 eexists. split; [eexists; split; [eassumption|reflexivity]|]. split; [|reflexivity]. exists tt. eexists. split; [|reflexivity]. eauto.
Qed.
Lemma f_clones n kn r ig fl u v : fits n (fun _ t => clones truthy (given (o_internal_copy c)) kn r ig fl u v t) (p_copy truthy c n kn r ig fl u v).
Proof.
  unfold p_copy. destruct (o_internal_copy c) as [f|] eqn:I; cbn [given]; [destruct kn|].
  - assert (O : one c (f u v r ig) (fun _ => EInternal u v r ig)). { intros s [] s'. cbn. rewrite I. cbn. tauto. }
    eapply f_iff; [|apply f_q; exact O]. intros [] t. cbn. split.
    + intros ->. now apply cn_own.
    + inversion 1; subst; [easy|discriminate].
  - eapply f_iff; [|apply f_then'; [apply one_hook|intros ?; apply f_dups]]. intros [] t. cbn. split.
    + intros ([] & t' & H & ->). now apply cn_all.
    + inversion 1; subst; [discriminate|]. exists tt. eauto.
  - eapply f_iff; [|apply f_then'; [apply one_hook|intros ?; apply f_dups]]. intros [] t. cbn. split.
    + intros ([] & t' & H & ->). now apply cn_all.
    + inversion 1; subst; [discriminate|]. exists tt. eauto.
Qed.

(** *** md5 and glob *)
Lemma f_feeds n f fed : fits n (fun r t => exists bs, r = fed ++ bs /\ feeds truthy bytes_of f bs t) (p_blocks truthy bytes_of c n f fed).
Proof.
  revert fed. induction n as [|n IH]; intros fed; [apply f_0|]. cbn [p_blocks].
  eapply f_iff; [|apply f_then with (K := fun v r t => if truthy v then exists b bs, bytes_of v = Some b /\ r = fed ++ b ++ bs /\
      feeds truthy bytes_of f bs t else r = fed /\ t = []); [apply one_read|intros v; apply f_if; [|apply f_ret]]].
  2:{ destruct (bytes_of v) as [b|].
      - eapply f_iff; [|apply IH]. intros r t. cbn. split.
        + intros (bs & -> & H). exists b, bs. rewrite app_assoc. auto.
        + intros (b' & bs & E & -> & H). inversion E; subst. exists bs. rewrite app_assoc. auto.
      - eapply f_iff; [|apply f_raise]. intros r t. cbn. split; [easy|]. intros (b & bs & E & _). discriminate. }
  intros r t. cbn. split.
  - intros (v & t' & H & ->). destruct (truthy v) eqn:E.
    + destruct H as (b & bs & B & -> & H). exists (b ++ bs). split; [easy|]. now apply fe_more.
    + destruct H as [-> ->]. exists []. rewrite app_nil_r. split; [easy|]. now apply fe_end.
  - intros (bs & -> & H). inversion H; subst; exists v; eexists; (split; [|reflexivity]); match goal with E : truthy _ = _ |- _ => rewrite E end.
    + now rewrite app_nil_r.
    + eauto.
Qed.
Lemma f_md5 n u : fits n (fun bs t => exists f t', feeds truthy bytes_of f bs t' /\ t = hook "md5" u :: opening u "rb" f ++ t' ++ [EExit f])
  (p_md5 truthy bytes_of c n u).
Proof.
  unfold p_md5. eapply f_iff; [|apply f_then'; [apply one_hook|intros ?; apply f_with; [apply f_open|intros f; apply f_feeds]]].
  intros bs t. cbn. split.
  - intros ([] & t1 & (f & t2 & t3 & -> & (b & -> & H) & ->) & ->). now exists f, t3.
  - intros (f & t' & H & ->). exists tt. eexists. split; [|reflexivity]. exists f. do 2 eexists. split; [reflexivity|]. split; [eauto|reflexivity].
Qed.
Lemma f_matching n u pat names acc : fits n (fun r t => (exists l, r = acc ++ l /\ matching fnm u pat names l) /\ t = [])
  (foldM (fun res f => if fnm f pat then let! p <- lift (u_div u f); ret (res ++ [p]) else ret res) acc names).
Proof.
  revert acc. induction names as [|x names IH]; intros acc; cbn [foldM].
  - eapply f_iff; [|apply f_ret]. intros r t. cbn. split.
    + intros [-> ->]. split; [|easy]. exists []. rewrite app_nil_r. split; [easy|constructor].
    + intros [(l & -> & H) ->]. inversion H; subst. now rewrite app_nil_r.
  - destruct (fnm x pat) eqn:E.
    + eapply f_ext with (m := let! p <- lift (u_div u x); foldM (fun res f => if fnm f pat then let! p <- lift (u_div u f); ret (res ++ [p]) else ret res) (acc ++ [p]) names).
      { intros s. unfold bind, lift, ret. now destruct (u_div u x). }
      eapply f_iff; [|apply f_lift; intros p; apply IH]. intros r t. cbn. split.
      * intros (p & D & (l & -> & H) & ->). split; [|easy]. exists (p :: l). rewrite <- app_assoc. split; [easy|]. now apply ma_yes.
      * intros [(l & -> & H) ->]. inversion H; subst; [congruence|]. exists p. split; [easy|]. split; [|easy]. exists l0. rewrite <- app_assoc. auto.
    + eapply f_iff; [|apply (IH acc)]. intros r t. cbn. split; intros [(l & -> & H) ->]; (split; [|easy]); exists l; (split; [easy|]).
      * now apply ma_no.
      * inversion H; subst; [easy|congruence].
Qed.
Lemma f_glob m n u pat : fits n (fun l t => exists names, matching fnm u pat names l /\ t = [hook "glob" u; hook "listdir" u; EListdir u names])
  (u_glob (bk m) fnm u pat).
Proof.
  unfold u_glob, hooked, fs_glob. eapply f_iff; [|apply f_then'; [apply one_hook|intros ?; apply t_listdir; intros names; apply f_matching]].
  intros l t. cbn. split.
  - intros ([] & t1 & (names & t2 & ((l' & -> & H) & ->) & ->) & ->). eauto.
  - intros (names & H & ->). exists tt. eexists. split; [|reflexivity]. exists names, []. split; [|reflexivity]. split; [eauto|easy].
Qed.
End Facts.
