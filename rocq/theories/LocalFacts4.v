(** copy() on the memory backend and on local files, side by side. *)
From Coq Require Import Lia Permutation Sorted.
From Verif Require Import Str Exc Utf8 UriParse BaseUri StrFacts UriFacts SpecUri UriFacts2 UriFacts3 UriFacts4 UriFacts5 UriFacts6.
From Verif Require Import Mem SpecMem MemFacts MemFacts2 MemFacts3 MemFacts4 MemFacts5 MemFacts6 MemFacts7 MemFacts8 MemFacts9 MemFacts10 MemFacts11 MemUri.
From Verif Require Import Generic SpecGen GenFacts1 GenFacts2 GenFacts3 GenFacts6 GenFacts8.
From Verif Require Import Misc Posix Local SpecLocal LocalFacts1 LocalFacts2 LocalFacts3.

Local Notation MB := mem_backend.
Local Notation LB := loc_backend.
Local Notation joined := (join_with [cSlash]).

Lemma file_div_path cs r : plain_path (cs ++ r) -> r <> [] -> u_div (file_uri cs) (joined r) = Ok (file_uri (cs ++ r)).
Proof.
  intros [H _] Hr. pose proof H as H0. apply Forall_app in H as [H1 H2].
  unfold u_div. change [joined r] with ([] ++ [joined r]).
  erewrite (join_made (file_uri cs) (lit "file") NoAuth (flat_map (fun c => cSlash :: c) cs)
              (match cs with [] => 1 | _ => 0 end) [] None [] (joined r) (abs_path (cs ++ r))); auto using empty_query_ok, no_query_enc.
  - now rewrite file_gtext.
  - cbn [file_uri u_p]. f_equal. destruct cs; [reflexivity|]. cbn [repeat]. now rewrite app_nil_r.
  - now apply nts_flat, plain_names.
  - constructor.
  - rewrite abs_path_ne by (intros E; apply app_eq_nil in E; tauto). rewrite flat_map_app.
    transitivity (flat_map (fun c => cSlash :: c) cs ++ cSlash :: joined r); [f_equal; now apply flat_joined|reflexivity].
  - now apply file_loc.
Qed.

(** No name begins or ends with a blank. *)
Definition tidy (s : mst) : Prop := forall q, view s q <> None -> Forall unpadded q.
Definition tidied (s s' : mst) : Prop := tidy s -> tidy s'.
Lemma tidied_adds (C : list str -> Prop) s s' : adds C (view s) (view s') -> (forall q, C q -> Forall unpadded q) -> tidied s s'.
Proof. intros H K Ht q Hq. destruct (H q Hq); auto. Qed.
Lemma tidied_refl s : tidied s s. Proof. now intros H. Qed.
Lemma tidied_trans s s' s'' : tidied s s' -> tidied s' s'' -> tidied s s''. Proof. intros H1 H2 H. auto. Qed.

Lemma copy_entry_sim fl sm s x ca cb : twin s x -> plain_path ca -> plain_path cb -> cb <> [] ->
  sim (fun _ _ s' => adds (fun q => q = cb) (view s) (view s'))
      (copy_entry MB fl sm (mem_uri ca) (mem_uri cb) s) (copy_entry LB fl sm (file_uri ca) (file_uri cb) x).
Proof.
  intros T Ga Gb Nb. unfold copy_entry.
  eapply sim_bind; [now apply (u_islink_sim s x T ca Ga)|]. intros a b s' x' T' (-> & -> & ->). cbv beta. cbn [andb].
  eapply sim_bind; [now apply (copy_content_sim s x' T' ca cb Ga Gb)|]. intros ? ? s1 x1 T1 [_ H1]. cbv beta.
  destruct sm; [|now apply sim_ret].
  eapply sim_weaken; [now apply (copystat_sim s1 x1 T1 ca cb Ga Gb)|]. intros ? ? s2 H2.
  eapply adds_trans; [exact H1|]. eapply adds_weaken; [exact H2|]. cbv beta; tauto.
Qed.

Section Step.
Variables (fuel : nat) (ignore : list str) (fl sm : bool) (ca cd : list str).
Hypothesis Nca : ca <> [].
Hypothesis Ncd : cd <> [].
Hypothesis Gca : plain_path ca.
Hypothesis Gcd : plain_path cd.
Hypothesis Ucd : Forall unpadded cd.
Lemma remove_first_incl n l : incl (remove_first n l) l.
Proof.
  induction l as [|m l IH]; cbn; [apply incl_refl|]. destruct (str_eqb n m); [apply incl_tl, incl_refl|].
  intros y [->|H]; [now left|right; auto].
Qed.
Lemma copy_step_sim s0 s x r dirs files : let cs := ca ++ r in
  twin s x -> tidy s0 -> tidied s0 s -> plain_path cs -> is_edir (view s0 cs) ->
  (forall n, In n dirs \/ In n files -> plain_path (cs ++ [n]) /\ view s0 (cs ++ [n]) <> None) ->
  sim (fun p p' s' => p = p' /\ incl p dirs /\ tidied s s')
      (copy_step MB fuel ignore fl sm (length (abs_path ca) + 1) (mem_uri cd) (mem_uri cs) dirs files s)
      (copy_step LB fuel ignore fl sm (length (abs_path ca) + 1) (file_uri cd) (file_uri cs) dirs files x).
Proof.
  intros cs T T0 E0 G D H. unfold copy_step.
  rewrite (file_path cs), (good_path_path cs) by now apply plain_good. unfold cs. rewrite skip_source by auto.
  assert (Ur : Forall unpadded (cd ++ r)).
  { apply Forall_app. split; auto. assert (U : Forall unpadded cs) by (apply T0; destruct D as (? & ? & D); congruence).
    now apply Forall_app in U. }
  assert (Nr : Forall name_ok r) by (destruct G as [G _]; apply plain_names in G; now apply Forall_app in G).
  rewrite joined_strip by (auto; now apply Forall_app in Ur).
  assert (Gd : plain_path (cd ++ r)) by (apply (plain_put cd ca); auto).
  assert (Dn : forall n, plain_path (cs ++ [n]) -> plain_path ((cd ++ r) ++ [n])).
  { intros n K. apply (plain_put _ cs); auto. now destruct cd. }
  assert (Un : forall n, In n dirs \/ In n files -> Forall unpadded ((cd ++ r) ++ [n])).
  { intros n K. apply Forall_app. split; auto. destruct (H n K) as [_ V]. apply T0 in V. now apply Forall_app in V. }
  assert (Hb : exists kd kl, (forall A (k : uri -> M mst A), bind (match joined r with [] => ret (mem_uri cd) | _ => lift (u_div (mem_uri cd) (joined r)) end) k s = k kd s) /\
                             (forall A (k : uri -> M pst A), bind (match joined r with [] => ret (file_uri cd) | _ => lift (u_div (file_uri cd) (joined r)) end) k x = k kl x) /\
                             kd = mem_uri (cd ++ r) /\ kl = file_uri (cd ++ r)).
  { exists (mem_uri (cd ++ r)), (file_uri (cd ++ r)). split; [|split; auto].
    - intros A k. destruct (list_eq_dec (list_eq_dec N.eq_dec) r []) as [->|N]; [now rewrite app_nil_r|].
      rewrite mem_div_path by (auto; now apply plain_names, Gd). destruct (joined r) eqn:Ej; [|reflexivity].
      now destruct (joined_ne r Nr N).
    - intros A k. destruct (list_eq_dec (list_eq_dec N.eq_dec) r []) as [->|N]; [now rewrite app_nil_r|].
      rewrite file_div_path by auto. destruct (joined r) eqn:Ej; [|reflexivity].
      now destruct (joined_ne r Nr N). }
  destruct Hb as (kd & kl & -> & -> & -> & ->).
  eapply (sim_bind (fun p p' s' => (p = p' /\ incl p dirs) /\ tidied s s')).
  - apply (fold_sim tidied tidied_refl tidied_trans (fun p p' => p = p' /\ incl p dirs) _ _ s); auto using tidied_refl, incl_refl.
    intros a b n s1 x1 In1 T1 E1 [<- Ia]. cbv beta.
    destruct (str_in n ignore).
    { apply sim_ret; auto. split; [|apply tidied_refl]. split; auto. eapply incl_tran; [apply remove_first_incl|exact Ia]. }
    destruct (H n (or_introl In1)) as [Gn Vn].
    eapply sim_lift; [now apply mem_div', Dn|now apply file_div', Dn|].
    eapply sim_lift; [now apply mem_div'|now apply file_div'|].
    eapply sim_bind; [now apply u_islink_sim|]. intros ? ? s' x2 T2 (-> & -> & ->). cbv beta. cbn [andb].
    eapply sim_bind; [now apply u_makedirs_sim, Dn|]. intros ? ? s2 x3 T3 A3. cbv beta in A3 |- *.
    apply sim_ret; auto. split; auto. eapply tidied_adds; [exact A3|].
    intros q [z Ez]. pose proof (Un n (or_introl In1)) as U. rewrite Ez in U. now apply Forall_app in U.
  - intros ds ds' s1 x1 T1 [[<- Id] E1]. cbv beta.
    eapply (sim_bind (fun _ _ s' => tidied s1 s')).
    + apply (map_sim tidied tidied_refl tidied_trans _ _ s1); auto using tidied_refl.
      intros n s2 x2 In2 T2 E2. cbv beta. destruct (H n (or_intror In2)) as [Gn Vn].
      eapply sim_lift; [now apply mem_div'|now apply file_div'|].
      eapply sim_lift; [now apply mem_div', Dn|now apply file_div', Dn|].
      eapply sim_weaken; [apply copy_entry_sim; auto using snoc_ne|]. intros ? ? s3 A3.
      eapply tidied_adds; [exact A3|]. intros q ->. apply Un. now right.
    + intros ? ? s2 x2 T2 E2. cbv beta in E2 |- *. apply sim_ret; auto. split; auto. split; auto. eapply tidied_trans; eauto.
Qed.
End Step.

Section Copy.
Variables (fuel : nat) (ignore : list str) (fl : bool) (ca cb : list str).
Hypothesis Gca : plain_path ca.
Hypothesis Gcb : plain_path cb.
Hypothesis Gin : forall i n, ca = i ++ [n] -> plain_path (cb ++ [n]).

Lemma copy_file_sim s x : twin s x ->
  sim (fun _ _ _ => True) (u_copy MB fuel false ignore fl (mem_uri ca) (mem_uri cb) s) (u_copy LB fuel false ignore fl (file_uri ca) (file_uri cb) x).
Proof.
  intros T. apply hook_sim; auto. unfold fs_copy.
  eapply sim_bind; [now apply (u_exists_sim s x T ca Gca)|]. intros a b s' x' T' (-> & -> & E). cbv beta.
  destruct b; cbn [negb]; [|now apply sim_missing].
  eapply sim_bind; [now apply (u_isfile_sim s x' T' ca Gca)|]. intros a b s' x1 T1 (-> & -> & E1). cbv beta.
  destruct b; cbn [negb]; [|eapply sim_raise; [reflexivity|reflexivity|exact T1]].
  symmetry in E1. apply ffile_file in E1.
  destruct (snoc_cases ca) as [->|(i & n & Eca)].
  { exfalso. destruct (root_dir s (tw_wf _ _ T)) as (mt & mo & R). destruct E1 as (? & ? & ? & E1). congruence. }
  assert (Nn : name_ok n) by (pose proof Gca as K; rewrite Eca in K; now apply plain_snoc in K as [_ [K _]]).
  eapply sim_bind; [now apply (u_isdir_sim s x1 T1 cb Gcb)|]. intros a b s' x2 T2 (-> & -> & E2). cbv beta.
  rewrite Eca. rewrite mem_last, file_last by auto. rewrite <- Eca.
  destruct b.
  - eapply sim_lift; [apply mem_div'; eauto|apply file_div'; eauto|]. cbv beta.
    eapply sim_weaken; [apply copy_entry_sim; eauto using snoc_ne|auto].
  - change (sim (fun _ _ _ => True) (copy_entry MB fl true (mem_uri ca) (mem_uri cb) s) (copy_entry LB fl true (file_uri ca) (file_uri cb) x2)).
    eapply sim_weaken; [apply copy_entry_sim; auto|auto].
    intros ->. destruct (root_dir s (tw_wf _ _ T)) as (mt & mo & R). rewrite R in E2. discriminate.
Qed.

Lemma copy_dir_sim s x : twin s x -> ca <> [] -> tidy s -> Forall unpadded cb ->
  sim (fun _ _ _ => True) (u_copy MB fuel true ignore fl (mem_uri ca) (mem_uri cb) s) (u_copy LB fuel true ignore fl (file_uri ca) (file_uri cb) x).
Proof.
  intros T Nca Ht Ub. apply hook_sim; auto. unfold fs_copy.
  eapply sim_bind; [now apply (u_exists_sim s x T ca Gca)|]. intros a b s' x' T' (-> & -> & E). cbv beta.
  destruct b; cbn [negb]; [|now apply sim_missing].
  eapply sim_bind; [now apply (u_isdir_sim s x' T' ca Gca)|]. intros a b s' x1 T1 (-> & -> & E1). cbv beta.
  destruct b; cbn [negb]; [|eapply sim_raise; [reflexivity|reflexivity|exact T1]].
  symmetry in E1. apply fdir_dir in E1.
  destruct (snoc_cases ca) as [->|(i & n & Eca)]; [easy|].
  assert (Nn : name_ok n) by (pose proof Gca as K; rewrite Eca in K; now apply plain_snoc in K as [_ [K _]]).
  assert (Uc : Forall unpadded ca) by (apply Ht; destruct E1 as (? & ? & E1); congruence).
  eapply sim_bind; [now apply (u_isdir_sim s x1 T1 cb Gcb)|]. intros a b s' x2 T2 (-> & -> & E2). cbv beta.
  rewrite Eca. rewrite mem_last, file_last by auto. rewrite <- Eca.
  assert (K : forall cd x3, twin s x3 -> cd <> [] -> plain_path cd -> Forall unpadded cd ->
    sim (fun _ _ _ => True)
      ((let! l <- u_islink MB (mem_uri ca);
        if l && negb fl then copy_link MB (mem_uri ca) (mem_uri cd)
        else u_makedirs MB fuel (mem_uri cd) ;;
             b_hook MB (mem_uri ca) (lit "walk") ;;
             walk_gen MB fuel true fl
               (fun (_ : unit) root dirs files =>
                  let! ds <- copy_step MB fuel ignore fl true (length (u_path (mem_uri ca)) + 1) (mem_uri cd) root dirs files;
                  ret (tt, ds)) tt (mem_uri ca)) s)
      ((let! l <- u_islink LB (file_uri ca);
        if l && negb fl then copy_link LB (file_uri ca) (file_uri cd)
        else u_makedirs LB fuel (file_uri cd) ;;
             b_hook LB (file_uri ca) (lit "walk") ;;
             walk_gen LB fuel true fl
               (fun (_ : unit) root dirs files =>
                  let! ds <- copy_step LB fuel ignore fl true (length (u_path (file_uri ca)) + 1) (file_uri cd) root dirs files;
                  ret (tt, ds)) tt (file_uri ca)) x3)).
  { clear x2 T2. intros cd x2 T2 Ncd Gcd Ucd.
    eapply sim_bind; [now apply (u_islink_sim s x2 T2 ca Gca)|]. intros ? ? s' x3 T3 (-> & -> & ->). cbv beta. cbn [andb].
    eapply sim_bind; [now apply (u_makedirs_sim fuel s x3 cd T3 Gcd)|]. intros ? ? s1 x4 T4 A4. cbv beta in A4 |- *.
    rewrite (bind_ok _ _ s1 tt s1) by (apply silent_mem; [apply T4|now apply plain_good]).
    rewrite (bind_ok _ _ x4 tt x4) by reflexivity.
    assert (Ht1 : tidy s1).
    { apply (tidied_adds _ _ _ A4); auto. intros q [z Ez]. rewrite Ez in Ucd. now apply Forall_app in Ucd. }
    rewrite (file_path ca), (good_path_path ca) by now apply plain_good.
    set (body := fun (_ : unit) (root : uri) dirs files => let! ds <- copy_step MB _ _ _ _ _ _ root dirs files; ret (tt, ds)).
    set (body' := fun (_ : unit) (root : uri) dirs files => let! ds <- copy_step LB _ _ _ _ _ _ root dirs files; ret (tt, ds)).
    pose proof (walk_sim (fun _ _ => True) tidied tidied_refl tidied_trans s1 ca body body') as Ws.
    match type of Ws with ?P -> _ => assert (Bd : P) end;
      [|specialize (Ws Bd true fl fuel [] s1 x4 tt tt); cbv zeta in Ws; rewrite app_nil_r in Ws;
        eapply sim_weaken; [apply Ws; auto using tidied_refl|auto]].
    intros s2 s3 x5 [] [] r dirs files cs T5 E2' E3 G5 D5 H5 _ _.
    eapply sim_bind; [apply (copy_step_sim fuel ignore fl true ca cd Nca Ncd Gcd Ucd s2 s3 x5 r dirs files); auto|].
    intros ds ds' s4 x6 T6 (<- & Id & E4). cbv beta. apply sim_ret; auto. }
  destruct b.
  - eapply sim_lift; [apply mem_div'; eauto|apply file_div'; eauto|]. cbv beta. apply K; eauto using snoc_ne.
    apply Forall_app. split; auto. rewrite Eca in Uc. now apply Forall_app in Uc.
  - change (sim (fun _ _ _ => True) ?a ?b) with (sim (fun (_ _ : unit) (_ : mst) => True) a b).
    apply (K cb x2); auto.
    intros ->. destruct (root_dir s (tw_wf _ _ T)) as (mt & mo & R). rewrite R in E2. discriminate.
Qed.
End Copy.
