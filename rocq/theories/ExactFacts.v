(** The complete rules of SpecExact.v hold of the model. *)
From Verif Require Import Str Exc Utf8 UriParse BaseUri StrFacts SpecUri Mem SpecMem SpecHandle SpecExact.
From Verif Require Import MemFacts MemFacts2 MemFacts3 MemFacts4 MemFacts5 MemFacts6 MemFacts7 HandleFacts.

Section S.
Variable s : mst.
Hypothesis W : wf s.
Let h := m_heap s.
Let t := view s.

Lemma elink_dec o : is_elink o \/ ~ is_elink o.
Proof.
  destruct o as [[d mt mo|mt mo|tg mt mo]|].
  - right. intros (? & ? & ? & E); discriminate E.
  - right. intros (? & ? & ? & E); discriminate E.
  - left. now exists tg, mt, mo.
  - right. intros (? & ? & ? & E); discriminate E.
Qed.

(** Either no link on the way has the last name, or there is one. *)
Lemma fresh_dec init n : fresh_last t init n \/ exists pre post d, init = pre ++ n :: post /\ leads t pre (Found d) /\ is_elink (t (d ++ [n])).
Proof.
  induction init as [|x init IH] using rev_ind.
  - left. intros pre post d E. destruct pre; discriminate E.
  - destruct IH as [F|(pre & post & d & -> & L & K)].
    + destruct (str_eqb x n) eqn:X.
      * apply str_eqb_eq in X. subst x. destruct (leads_total h init) as [o Lo].
        destruct (outcome_cases o) as [[d ->]|No].
        -- destruct (elink_dec (t (d ++ [n]))) as [K|K].
           ++ right. exists init, [], d. auto.
           ++ left. intros pre post d' E L. destruct (snoc_cases post) as [->|(po & y & ->)].
              ** apply snoc_inj in E as [<- _]. assert (Found d' = Found d) by (eapply leads_det; eauto; apply W). congruence.
              ** rewrite app_comm_cons, app_assoc in E. apply snoc_inj in E as [-> _]. eapply F; eauto.
        -- left. intros pre post d' E L. destruct (snoc_cases post) as [->|(po & y & ->)].
           ++ apply snoc_inj in E as [<- _]. exfalso. apply (No d'). eapply leads_det; eauto; apply W.
           ++ rewrite app_comm_cons, app_assoc in E. apply snoc_inj in E as [-> _]. eapply F; eauto.
      * left. intros pre post d' E L. destruct (snoc_cases post) as [->|(po & y & ->)].
        -- apply snoc_inj in E as [_ ->]. rewrite str_eqb_refl in X. discriminate.
        -- rewrite app_comm_cons, app_assoc in E. apply snoc_inj in E as [-> _]. eapply F; eauto.
    + right. exists pre, (post ++ [x]), d. rewrite <- app_assoc. auto.
Qed.

Lemma spots_total cs : exists sp, spots t cs sp.
Proof.
  destruct (snoc_cases cs) as [->|(init & n & ->)]; [eexists; apply sp_root|].
  destruct (fresh_dec init n) as [F|(pre & post & d & -> & L & K)].
  - destruct (leads_total h init) as [o Lo]. destruct (outcome_cases o) as [[d ->]|No].
    + destruct (edir_dec (t d)) as [D|D].
      * destruct (t (d ++ [n])) eqn:T.
        -- eexists. eapply sp_entry; eauto. congruence.
        -- eexists. eapply sp_absent; eauto.
      * eexists. eapply sp_notdir; eauto.
    + destruct (leads_total h (init ++ [n])) as [o' Lo']. eexists. eapply sp_lost; eauto.
  - eexists. rewrite <- app_assoc, <- app_comm_cons. eapply sp_same_name; eauto.
Qed.

Lemma spots_cases cs sp : spots t cs sp ->
  cs = [] /\ sp = Entry [] \/
  exists init n, cs = init ++ [n] /\
    (fresh_last t init n /\
     ((exists d, leads t init (Found d) /\ is_edir (t d) /\ (t (d ++ [n]) <> None /\ sp = Entry (d ++ [n]) \/ t (d ++ [n]) = None /\ sp = Absent (d ++ [n]))) \/
      (exists d, leads t init (Found d) /\ ~ is_edir (t d) /\ sp = Stuck NotDir) \/
      (exists o o', leads t init o /\ (forall d, o <> Found d) /\ leads t (init ++ [n]) o' /\ sp = Stuck o')) \/
     sp = Stuck NotDir /\ exists pre post d, init = pre ++ n :: post /\ leads t pre (Found d) /\ is_elink (t (d ++ [n]))).
Proof.
  intros S. destruct S as [|init n d F L D T|init n d F L D T|init n d F L D|init n o o' F L No L'|pre n post d L K].
  - now left.
  - right. exists init, n. split; auto. left. split; auto. left. exists d. auto.
  - right. exists init, n. split; auto. left. split; auto. left. exists d. auto.
  - right. exists init, n. split; auto. left. split; auto. right. left. exists d. auto.
  - right. exists init, n. split; auto. left. split; auto. right. right. exists o, o'. auto.
  - right. exists (pre ++ n :: post), n. rewrite <- app_assoc. split; auto. right. split; auto. exists pre, post, d. auto.
Qed.

Lemma spots_det cs a b : spots t cs a -> spots t cs b -> a = b.
Proof.
  intros A B. apply spots_cases in A, B.
  destruct A as [[-> ->]|(init & n & -> & A)].
  - destruct B as [[_ ->]|(init & n & E & _)]; auto. destruct init; discriminate E.
  - destruct B as [[E _]|(init' & n' & E & B)]; [destruct init; discriminate E|].
    apply snoc_inj in E as [<- <-].
    destruct A as [[F A]|[-> (pre & post & d & -> & L & K)]].
    + destruct B as [[_ B]|[_ (pre & post & d & -> & L & K)]]; [|exfalso; eapply F; eauto].
      destruct A as [(d & L & D & A)|[(d & L & D & ->)|(o & o' & L & No & L' & ->)]];
      destruct B as [(d' & M & D' & B)|[(d' & M & D' & ->)|(o2 & o2' & M & No2 & M' & ->)]].
      * assert (Found d = Found d') as [= ->] by (eapply leads_det; eauto; apply W). destruct A as [[A ->]|[A ->]], B as [[B ->]|[B ->]]; congruence.
      * assert (Found d = Found d') as [= ->] by (eapply leads_det; eauto; apply W). contradiction.
      * exfalso. apply (No2 d). eapply leads_det; eauto; apply W.
      * assert (Found d = Found d') as [= ->] by (eapply leads_det; eauto; apply W). contradiction.
      * reflexivity.
      * exfalso. apply (No2 d). eapply leads_det; eauto; apply W.
      * exfalso. apply (No d'). eapply leads_det; eauto; apply W.
      * exfalso. apply (No d'). eapply leads_det; eauto; apply W.
      * f_equal. eapply leads_det; eauto; apply W.
    + destruct B as [[F _]|[-> _]]; auto. exfalso; eapply F; eauto.
Qed.

Lemma leads_front a : forall b q, leads t (a ++ b) (Found q) -> exists d, leads t a (Found d).
Proof.
  intros b. induction b as [|x b IH] using rev_ind; intros q L.
  - rewrite app_nil_r in L. eauto.
  - rewrite app_assoc in L. destruct (leads_prefix s W _ _ _ L) as (d & L' & _). eauto.
Qed.

(** A link on the way with the name of the last component *)
Lemma loop_same_name throw n : forall a pre d i prev, leads t pre (Found d) -> phys h root_id d = Some i ->
  (exists pre' post d', a = pre' ++ n :: post /\ leads t (pre ++ pre') (Found d') /\ is_elink (t (d' ++ [n]))) ->
  steps_loop h throw (child h throw max_links) false n prev (Some i) (a ++ [n]) = Raise AttributeError.
Proof.
  induction a as [|x a IH]; intros pre d i prev L P (pre' & post & d' & E & L' & K); [destruct pre'; discriminate E|].
  cbn [app steps_loop]. destruct (h i) as [|es mt mo|] eqn:Hi; auto.
  assert (D : is_edir (t d)) by (eapply dir_tree; eauto).
  destruct (tree_snoc h d i es mt mo x P Hi) as [T _]. fold t in T. change (tree_of h) with t in T.
  destruct pre' as [|y pre'].
  - cbn in E. injection E as -> ->. rewrite app_nil_r in L'. assert (Found d = Found d') as [= <-] by (eapply leads_det; eauto; apply W).
    destruct K as (tg & mt' & mo' & K). rewrite T in K. unfold dhas. destruct (dget n es) as [j|] eqn:G; [|discriminate K]. cbn in K.
    rewrite str_eqb_refl. rewrite (child_plain h throw max_links i es mt mo n j false Hi G (or_introl eq_refl)). cbn [rbind].
    destruct (h j) eqn:Hj; try discriminate K. destruct post; cbn [app steps_loop]; rewrite Hj; reflexivity.
  - cbn in E. injection E as -> ->.
    assert (L1 : leads t ((pre ++ [y]) ++ pre') (Found d')) by (rewrite <- app_assoc; exact L').
    destruct (leads_front _ _ _ L1) as (d1 & L2).
    assert (T2 : t (d ++ [y]) <> None) by (eapply (leads_taken s W pre y d d1); eauto).
    rewrite T in T2. unfold dhas. destruct (dget y es) as [j|] eqn:G; [|easy].
    destruct (leads_phys _ _ W _ _ L2) as (k & Pk & _). change (m_heap s) with h in Pk.
    destruct (str_eqb y n) eqn:Y.
    + apply str_eqb_eq in Y. subst y. destruct (is_link (h j)) eqn:Lj.
      * rewrite (child_plain h throw max_links i es mt mo n j false Hi G (or_introl eq_refl)). cbn [rbind].
        destruct (h j) eqn:Hj; try discriminate Lj. destruct pre'; cbn [app steps_loop]; rewrite Hj; reflexivity.
      * rewrite (child_plain h throw max_links i es mt mo n j false Hi G (or_introl eq_refl)). cbn [rbind].
        assert (C := child_follow h _ W throw pre n d i es mt mo j (Found d1) L P Hi G L2).
        rewrite (child_plain h throw max_links i es mt mo n j true Hi G (or_intror Lj)) in C. cbn in C. rewrite Pk in C. injection C as ->.
        eapply (IH (pre ++ [n]) d1); eauto. exists pre', post, d'. auto.
    + rewrite (child_follow h _ W throw pre y d i es mt mo j (Found d1) L P Hi G L2). cbn [res_of rbind]. rewrite Pk.
      eapply (IH (pre ++ [y]) d1); eauto. exists pre', post, d'. auto.
Qed.
Lemma prev_same_name throw init n pre post d : init = pre ++ n :: post -> leads t pre (Found d) -> is_elink (t (d ++ [n])) ->
  get_node_prev h throw (init ++ [n]) false = Raise AttributeError.
Proof.
  intros -> L K. unfold get_node_prev. rewrite last_snoc. apply (loop_same_name throw n (pre ++ n :: post) [] [] root_id None).
  - apply root_found.
  - reflexivity.
  - exists pre, post, d. auto.
Qed.

Definition spot_res (throw : bool) (sp : spot) : res (option nat) :=
  match sp with
  | Entry p => Ok (phys h root_id p)
  | Absent _ => if throw then Raise (OSError ENOENT) else Ok None
  | Stuck o => res_of h throw o
  end.
Lemma stuck_not_found cs o : spots t cs (Stuck o) -> forall q, o <> Found q.
Proof.
  intros S q ->. apply spots_cases in S. destruct S as [[_ E]|(init & n & -> & [[F [A|[(d & L & D & E)|(o & o' & L & No & L' & E)]]]|[E _]])]; try discriminate E.
  - destruct A as (d & _ & _ & [[_ E]|[_ E]]); discriminate E.
  - injection E as <-. destruct (leads_prefix s W _ _ _ L') as (d & M & _). apply (No d). eapply leads_det; eauto; apply W.
Qed.
Lemma nofollow_spots u cs sp throw : addr u cs -> spots t cs sp -> get_node_for_path h throw u false = spot_res throw sp.
Proof.
  intros A S. apply spots_cases in S. destruct S as [[-> ->]|(init & n & -> & [[F [B|[(d & L & D & ->)|(o & o' & L & No & L' & ->)]]]|[-> (pre & post & d & E & L & K)]])].
  - unfold get_node_for_path. rewrite (proj1 (addr_nil u) A). reflexivity.
  - destruct B as (d & L & D & B). etransitivity; [exact (nofollow_found s W u init n d throw A F L D)|]. change (m_heap s) with h.
    assert (T : t (d ++ [n]) = option_map (fun i => entry_of (h i)) (phys h root_id (d ++ [n]))) by reflexivity.
    destruct B as [[B ->]|[B ->]]; cbn [spot_res]; rewrite T in B; destruct (phys h root_id (d ++ [n])); easy.
  - exact (nofollow_notdir s W u init n d throw A F L D).
  - exact (nofollow_fail s W u init n o o' throw A F L No L').
  - etransitivity; [exact (nofollow_eq s u init n throw A)|]. change (m_heap s) with h. rewrite (prev_same_name throw init n pre post d E L K). reflexivity.
Qed.

Lemma spots_entry cs p : spots t cs (Entry p) -> t p <> None.
Proof.
  intros S. apply spots_cases in S. destruct S as [[_ [= ->]]|(init & n & -> & [[F [B|[(d & L & D & E)|(o & o' & L & No & L' & E)]]]|[E _]])]; try discriminate E.
  - destruct (real_root _ _ W) as [(a & b & c & X)|(a & b & X)]; unfold t, view; rewrite X; discriminate.
  - destruct B as (d & L & D & [[B [= ->]]|[_ E]]); [exact B|discriminate E].
Qed.

(** The node an operation on attributes finds *)
Lemma reaches_run u cs f r : addr u cs -> reaches t cs f r ->
  match r with
  | At q => exists i, phys h root_id q = Some i /\ lookup_node u f s = (Ok i, s) /\ t q = Some (entry_of (h i))
  | Fail e => lookup_node u f s = (Raise e, s)
  end.
Proof.
  intros A R. destruct R as [q L|o L No|p S|p S|o S].
  - destruct (run_lookup_found s W u cs q A L) as (i & P & E & _). exists i. split; [exact P|]. split; [exact E|]. now apply view_node.
  - now apply run_lookup_fail with cs.
  - assert (N := spots_entry _ _ S). assert (E := nofollow_spots u cs _ true A S). cbn in E.
    assert (T : t p = option_map (fun i => entry_of (h i)) (phys h root_id p)) by reflexivity.
    destruct (phys h root_id p) as [i|] eqn:P; [|rewrite T in N; easy]. exists i. split; [reflexivity|]. split; [|exact T].
    unfold lookup_node, bind, lookup. change (m_heap s) with h. rewrite E. reflexivity.
  - assert (E := nofollow_spots u cs _ true A S). unfold lookup_node, bind, lookup. change (m_heap s) with h. now rewrite E.
  - assert (E := nofollow_spots u cs _ true A S). unfold lookup_node, bind, lookup. change (m_heap s) with h. rewrite E. cbn [spot_res].
    now rewrite (res_throw _ _ (stuck_not_found _ _ S)).
Qed.
Lemma reaches_total cs f : exists r, reaches t cs f r.
Proof.
  destruct f.
  - destruct (leads_total h cs) as [o L]. destruct (outcome_cases o) as [[q ->]|No]; eexists; [apply re_found; exact L|eapply re_fail; eauto].
  - destruct (spots_total cs) as [[p|p|o] S]; eexists; [eapply re_entry|eapply re_absent|eapply re_stuck]; eauto.
Qed.
Lemma reaches_det cs f a b : reaches t cs f a -> reaches t cs f b -> a = b.
Proof.
  intros A B. destruct A as [q L|o L No|p S|p S|o S]; inversion B as [q' L'|o' L' No'|p' S'|p' S'|o' S']; subst.
  - assert (Found q = Found q') by (eapply leads_det; eauto; apply W). congruence.
  - exfalso. apply (No' q). eapply leads_det; eauto; apply W.
  - exfalso. apply (No q'). eapply leads_det; eauto; apply W.
  - assert (o = o') by (eapply leads_det; eauto; apply W). congruence.
  - assert (X := spots_det _ _ _ S S'). congruence.
  - assert (X := spots_det _ _ _ S S'). congruence.
  - assert (X := spots_det _ _ _ S S'). congruence.
  - assert (X := spots_det _ _ _ S S'). congruence.
  - reflexivity.
  - assert (X := spots_det _ _ _ S S'). congruence.
  - assert (X := spots_det _ _ _ S S'). congruence.
  - assert (X := spots_det _ _ _ S S'). congruence.
  - assert (X := spots_det _ _ _ S S'). congruence.
Qed.
End S.
