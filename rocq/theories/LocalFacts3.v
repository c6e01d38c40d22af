(** The operations of fs.py on the memory backend and on local files, side by side. *)
From Coq Require Import Lia Permutation Sorted.
From Verif Require Import Str Exc Utf8 UriParse BaseUri StrFacts UriFacts SpecUri UriFacts2 UriFacts3 UriFacts4 UriFacts5 UriFacts6.
From Verif Require Import Mem SpecMem MemFacts MemFacts2 MemFacts3 MemFacts4 MemFacts5 MemFacts6 MemFacts7 MemFacts8 MemFacts9 MemFacts10 MemFacts11 MemUri.
From Verif Require Import Generic SpecGen GenFacts1 GenFacts2 GenFacts3 GenFacts6 GenFacts8.
From Verif Require Import Misc Posix Local SpecLocal LocalFacts1 LocalFacts2.

Local Notation MB := mem_backend.
Local Notation LB := loc_backend.
Local Notation joined := (join_with [cSlash]).

Lemma hook_sim {A B} (R : A -> B -> mst -> Prop) name cs (m : M mst A) (l : M pst B) s x : twin s x -> plain_path cs ->
  sim R (m s) (l x) -> sim R (hooked MB name (mem_uri cs) m s) (hooked LB name (file_uri cs) l x).
Proof. intros T G H. rewrite run_hooked; [exact H|apply T|now apply plain_good]. Qed.
Lemma sim_lift {A B C D} (R : C -> D -> mst -> Prop) rm rl (a : A) (b : B) (k : A -> M mst C) (k' : B -> M pst D) s x :
  rm = Ok a -> rl = Ok b -> sim R (k a s) (k' b x) -> sim R (bind (lift rm) k s) (bind (lift rl) k' x).
Proof. now intros -> ->. Qed.
Lemma file_str cs : exists x, u_str (file_uri cs) = Ok x.
Proof. eexists. reflexivity. Qed.
Lemma sim_missing {A B} (R : A -> B -> mst -> Prop) cs s x : twin s x ->
  sim R (bind (lift (u_str (mem_uri cs))) (fun _ => raise FileDoesNotExistError) s)
        (bind (lift (u_str (file_uri cs))) (fun _ => raise FileDoesNotExistError) x).
Proof.
  intros T. destruct (mem_str cs) as [a Ea]. destruct (file_str cs) as [b Eb].
  apply (sim_lift R _ _ a b); auto. eapply sim_raise; [reflexivity|reflexivity|exact T].
Qed.

Lemma plain_snoc cs n : plain_path (cs ++ [n]) -> plain_path cs /\ plain_name n.
Proof.
  intros G. split; [now apply plain_app in G|]. destruct G as [H _]. apply Forall_app in H as [_ H]. now inversion H.
Qed.
Lemma mem_div' cs n : plain_path (cs ++ [n]) -> u_div (mem_uri cs) n = Ok (mem_uri (cs ++ [n])).
Proof. intros G. apply mem_div, plain_names, G. Qed.
Lemma file_div' cs n : plain_path (cs ++ [n]) -> u_div (file_uri cs) n = Ok (file_uri (cs ++ [n])).
Proof. intros G. apply file_div, G. Qed.
Lemma plain_put a b r : a <> [] -> plain_path a -> plain_path (b ++ r) -> plain_path (a ++ r).
Proof.
  intros N [H1 H2] [H3 _]. split.
  - apply Forall_app. split; auto. now apply Forall_app in H3.
  - destruct a as [|c a]; [easy|]. intros c' cs' [= <- _]. now apply (H2 c a).
Qed.

(** *** Loops *)
Section Loops.
Variable Ev : mst -> mst -> Prop.
Hypothesis Er : forall s, Ev s s.
Hypothesis Et : forall s s' s'', Ev s s' -> Ev s' s'' -> Ev s s''.
Lemma fold_sim {A B X} (RA : A -> B -> Prop) (f : A -> X -> M mst A) (g : B -> X -> M pst B) s0 l :
  (forall a b n s x, In n l -> twin s x -> Ev s0 s -> RA a b -> sim (fun a b s' => RA a b /\ Ev s s') (f a n s) (g b n x)) ->
  forall a b s x, twin s x -> Ev s0 s -> RA a b -> sim (fun a b s' => RA a b /\ Ev s s') (foldM f a l s) (foldM g b l x).
Proof.
  induction l as [|n l IH]; intros H a b s x T E0 Ra; cbn [foldM].
  - apply sim_ret; auto.
  - eapply sim_bind; [apply H; auto; now left|]. intros a1 b1 s1 x1 T1 [Ra1 E1]. cbv beta.
    eapply sim_weaken; [apply IH; eauto|].
    + intros; apply H; auto. now right.
    + intros ? ? s2 [? ?]. eauto.
Qed.
Lemma map_sim {X} (f : X -> M mst unit) (g : X -> M pst unit) s0 l :
  (forall n s x, In n l -> twin s x -> Ev s0 s -> sim (fun _ _ s' => Ev s s') (f n s) (g n x)) ->
  forall s x, twin s x -> Ev s0 s -> sim (fun _ _ s' => Ev s s') (mapM_ f l s) (mapM_ g l x).
Proof.
  induction l as [|n l IH]; intros H s x T E0; cbn [mapM_].
  - apply sim_ret; auto.
  - eapply sim_bind; [apply H; auto; now left|]. intros a1 b1 s1 x1 T1 E1. cbv beta in E1 |- *.
    eapply (sim_weaken (fun _ _ s' => Ev s1 s')); [apply IH; eauto|].
    + intros; apply H; auto. now right.
    + intros ? ? s2 ?. eauto.
Qed.
End Loops.

Section Base.
Variables (s : mst) (x : pst) (T : twin s x) (cs : list str) (G : plain_path cs).
Lemma u_isdir_sim : sim (tested s cs fdir) (u_isdir MB (mem_uri cs) s) (u_isdir LB (file_uri cs) x).
Proof. apply hook_sim; auto. now apply isdir_sim. Qed.
Lemma u_isfile_sim : sim (tested s cs ffile) (u_isfile MB (mem_uri cs) s) (u_isfile LB (file_uri cs) x).
Proof. apply hook_sim; auto. now apply isfile_sim. Qed.
Lemma u_exists_sim : sim (tested s cs (fun _ => true)) (u_exists MB (mem_uri cs) s) (u_exists LB (file_uri cs) x).
Proof. apply hook_sim; auto. now apply exists_sim. Qed.
Lemma u_islink_sim : sim (fun a b s' => a = false /\ b = false /\ s' = s) (u_islink MB (mem_uri cs) s) (u_islink LB (file_uri cs) x).
Proof. apply hook_sim; auto. now apply islink_sim. Qed.
Lemma fdir_dir : match view s cs with Some e => fdir e | None => false end = true <-> is_edir (view s cs).
Proof.
  split.
  - destruct (view s cs) as [[]|] eqn:E; try discriminate. intros _. eexists; eauto.
  - intros (mt & mo & E). now rewrite E.
Qed.
Lemma ffile_file : match view s cs with Some e => ffile e | None => false end = true -> is_efile (view s cs).
Proof. destruct (view s cs) as [[]|] eqn:E; try discriminate. intros _. do 3 eexists; eauto. Qed.
End Base.

(** *** makedirs *)
Definition prefix_of (cs q : list str) : Prop := exists r, cs = q ++ r.
Lemma adds_refl C t : adds C t t. Proof. intros q H. now left. Qed.
Lemma adds_trans C t t' t'' : adds C t t' -> adds C t' t'' -> adds C t t''.
Proof. intros H1 H2 q H. destruct (H2 q H) as [K|K]; auto. Qed.
Lemma adds_weaken (C C' : list str -> Prop) t t' : adds C t t' -> (forall q, C q -> C' q) -> adds C' t t'.
Proof. intros H K q Hq. destruct (H q Hq); auto. Qed.
Lemma makedirs_sim fuel : forall s x cs, twin s x -> plain_path cs ->
  sim (fun _ _ s' => adds (prefix_of cs) (view s) (view s')) (fs_makedirs MB fuel (mem_uri cs) s) (fs_makedirs LB fuel (file_uri cs) x).
Proof.
  induction fuel as [|fuel IH]; intros s x cs T G.
  - eapply sim_raise; [reflexivity|reflexivity|exact T].
  - cbn [fs_makedirs]. eapply sim_bind; [now apply u_isdir_sim|].
    intros a b s' x' T' (-> & -> & E). cbv beta. destruct b.
    + apply sim_ret; auto. apply adds_refl.
    + destruct (snoc_cases cs) as [->|(i & n & ->)].
      { exfalso. destruct (root_dir s (tw_wf _ _ T)) as (mt & mo & R). rewrite R in E. discriminate. }
      destruct (plain_snoc _ _ G) as [Gi Gn].
      eapply sim_lift; [apply mem_split, plain_names, G|apply file_split, G|]. cbn [fst snd].
      eapply sim_bind; [now apply u_isdir_sim|]. intros a b s1 x1 T1 (-> & -> & E1). cbv beta.
      eapply (sim_bind (fun _ _ s' => adds (prefix_of (i ++ [n])) (view s) (view s'))).
      * destruct b; [apply sim_ret; auto; apply adds_refl|]. eapply sim_weaken; [now apply IH|].
        intros ? ? s2 H. eapply adds_weaken; [exact H|]. intros q [r ->]. exists (r ++ [n]). now rewrite app_assoc.
      * intros ? ? s2 x2 T2 H2. cbv beta.
        pose proof (name_ne _ (pn_name _ Gn)) as Hne. destruct n as [|c0 n0]; [easy|].
        eapply sim_weaken; [apply hook_sim; auto; apply mkdir_sim; auto; intros Ec; now apply app_eq_nil in Ec|].
        intros ? ? s3 H3. eapply adds_trans; [exact H2|]. eapply adds_weaken; [exact H3|].
        intros q ->. exists []. now rewrite app_nil_r.
Qed.
Lemma u_makedirs_sim fuel s x cs : twin s x -> plain_path cs ->
  sim (fun _ _ s' => adds (prefix_of cs) (view s) (view s')) (u_makedirs MB fuel (mem_uri cs) s) (u_makedirs LB fuel (file_uri cs) x).
Proof. intros T G. apply hook_sim; auto. now apply makedirs_sim. Qed.

(** *** walk *)
Lemma kinds_sim s cs : plain_path cs -> forall names x, twin s x -> (forall n, In n names -> plain_path (cs ++ [n])) ->
  sim (fun a b s' => a = b /\ s' = s /\ incl (fst a) names /\ incl (snd a) names /\
                     forall n, In n (snd a) -> ~ is_edir (view s (cs ++ [n])))
      (kinds MB (mem_uri cs) names s) (kinds LB (file_uri cs) names x).
Proof.
  intros G. induction names as [|n names IH]; intros x T H; cbn [kinds].
  - apply sim_ret; auto. cbn [fst snd]. repeat split; auto using incl_refl.
  - assert (Gn : plain_path (cs ++ [n])) by (apply H; now left).
    eapply sim_lift; [now apply mem_div'|now apply file_div'|].
    eapply sim_bind; [apply (isdir_sim s x T (cs ++ [n])); auto|]. intros a b s' x' T' (-> & -> & E). cbv beta.
    eapply sim_bind; [apply IH; auto; intros; apply H; now right|].
    intros [d f] r' s' x2 T2 (<- & -> & H1 & H2 & H3). cbv beta. cbn [fst snd] in *.
    apply sim_ret; auto. destruct b; cbn [fst snd].
    + repeat split; auto; [|intros m Hm; right; auto].
      intros m [->|Hm]; [now left|right; auto].
    + repeat split; auto; [intros m Hm; right; auto| |].
      * intros m [->|Hm]; [now left|right; auto].
      * intros m [->|Hm]; auto. intros D. apply fdir_dir in D. congruence.
Qed.

Section Walk.
Context {A B : Type}.
Variables (RA : A -> B -> Prop) (Ev : mst -> mst -> Prop).
Hypothesis Er : forall s, Ev s s.
Hypothesis Et : forall s s' s'', Ev s s' -> Ev s' s'' -> Ev s s''.
Variables (sI : mst) (top : list str).
Variable body : A -> uri -> list str -> list str -> M mst (A * list str).
Variable body' : B -> uri -> list str -> list str -> M pst (B * list str).
Hypothesis Body : forall s0 s x a b r dirs files, let cs := top ++ r in
  twin s x -> Ev sI s0 -> Ev s0 s -> plain_path cs -> is_edir (view s0 cs) ->
  (forall n, In n dirs \/ In n files -> plain_path (cs ++ [n]) /\ view s0 (cs ++ [n]) <> None) ->
  (forall n, In n files -> ~ is_edir (view s0 (cs ++ [n]))) -> RA a b ->
  sim (fun p p' s' => RA (fst p) (fst p') /\ snd p = snd p' /\ incl (snd p) dirs /\ Ev s s')
      (body a (mem_uri cs) dirs files s) (body' b (file_uri cs) dirs files x).

Lemma walk_sim td fl fuel : forall r s x a b, let cs := top ++ r in
  twin s x -> Ev sI s -> plain_path cs -> RA a b ->
  sim (fun a b s' => RA a b /\ Ev s s')
      (walk_gen MB fuel td fl body a (mem_uri cs) s) (walk_gen LB fuel td fl body' b (file_uri cs) x).
Proof.
  induction fuel as [|fuel IH]; intros r s x a b cs T E0 G Ra.
  - eapply sim_raise; [reflexivity|reflexivity|exact T].
  - cbn [walk_gen]. eapply sim_bind; [apply (listdir_sim s x T cs G)|].
    intros names names' s' x' T' (<- & -> & Hs & _ & D & Hn). cbv beta. rewrite Hs.
    assert (Hp : forall n, In n names -> plain_path (cs ++ [n]) /\ view s (cs ++ [n]) <> None).
    { intros n H. apply Hn in H. split; auto. now apply (mi_names _ _ (tw_mirror _ _ T')). }
    eapply sim_bind; [apply kinds_sim; auto; intros n H; now apply Hp|].
    intros [dirs files] dn' s' x1 T1 (<- & -> & I1 & I2 & Nf). cbv beta. cbn [fst snd] in *.
    assert (Hdf : forall n, In n dirs \/ In n files -> plain_path (cs ++ [n]) /\ view s (cs ++ [n]) <> None).
    { intros n [H|H]; apply Hp; auto. }
    eapply (sim_bind (fun p p' s' => RA (fst p) (fst p') /\ snd p = snd p' /\ incl (snd p) dirs /\ Ev s s')).
    { destruct td.
      - apply (Body s s x1 a b r dirs files); auto.
      - apply sim_ret; auto. cbn [fst snd]. repeat split; auto using incl_refl. }
    intros [a1 ds] [b1 ds'] s1 x2 T2 (Ra1 & Eds & Ids & E1). cbn [fst snd] in *. subst ds'. cbv beta.
    eapply (sim_bind (fun a b s' => RA a b /\ Ev s1 s')).
    { apply (fold_sim Ev Er Et RA _ _ s1); auto.
      intros a2 b2 n s2 x3 In2 T3 E2 Ra2. cbv beta.
      assert (Gn : plain_path (cs ++ [n])) by (apply Hdf; left; auto).
      eapply sim_lift; [now apply mem_div'|now apply file_div'|].
      eapply sim_bind; [apply u_islink_sim; eauto|]. intros l l' s' x4 T4 (-> & -> & ->). cbv beta. cbn [negb orb].
      unfold cs in *. rewrite <- app_assoc in *. apply IH; eauto. }
    intros a2 b2 s2 x3 T3 [Ra2 E2]. cbv beta. destruct td.
    + apply sim_ret; eauto.
    + eapply sim_bind; [apply (Body s s2 x3 a2 b2 r dirs files); eauto|].
      intros p p' s3 x4 T4 (Ra3 & _ & _ & E3). cbv beta. apply sim_ret; auto. split; eauto.
Qed.
End Walk.

Definition same_place (u v : uri) : Prop := exists cs, mem_at cs u /\ file_at cs v.
Lemma same_place_made cs : plain_path cs -> same_place (mem_uri cs) (file_uri cs).
Proof.
  intros G. exists cs. split; [|split; auto; apply file_uri_eq, G].
  split; [now apply plain_good|]. apply mem_uri_eq, plain_names, G.
Qed.
Lemma u_walk_sim s x td fl fuel cs : twin s x -> plain_path cs ->
  sim (fun a b s' => Forall2 (fun p q => same_place (fst (fst p)) (fst (fst q)) /\ snd (fst p) = snd (fst q) /\ snd p = snd q) a b /\ s = s')
      (u_walk MB fuel td fl (mem_uri cs) s) (u_walk LB fuel td fl (file_uri cs) x).
Proof.
  intros T G. apply hook_sim; auto. rewrite <- (app_nil_r cs).
  apply (walk_sim (Forall2 (fun p q => same_place (fst (fst p)) (fst (fst q)) /\ snd (fst p) = snd (fst q) /\ snd p = snd q))
           eq (@eq_refl _) (@eq_trans _) s); auto; [|now rewrite app_nil_r].
  intros s0 s1 x1 a b r dirs files c T1 E1 E2 G1 D H1 H2 Ra. apply sim_ret; auto. cbn [fst snd]. repeat split; auto using incl_refl.
  apply Forall2_app; auto. constructor; auto. cbn [fst snd]. auto using same_place_made.
Qed.

(** *** remove *)
Definition shrunk (s s' : mst) : Prop := shrinks (view s) (view s').
Lemma shrunk_refl s : shrunk s s. Proof. apply shrinks_refl. Qed.
Lemma shrunk_trans s s' s'' : shrunk s s' -> shrunk s' s'' -> shrunk s s''. Proof. apply shrinks_trans. Qed.
Lemma shrunk_notdir s s' p : shrunk s s' -> ~ is_edir (view s p) -> ~ is_edir (view s' p).
Proof. intros H N D. destruct (H p) as [E|E]; rewrite E in D; auto. now destruct D as (? & ? & ?). Qed.
Lemma snoc_ne {X} (l : list X) n : l ++ [n] <> []. Proof. now destruct l. Qed.

Lemma unlink_or_rmdir_sim s x cs : twin s x -> plain_path cs -> cs <> [] ->
  sim (fun _ _ s' => shrunk s s')
      ((let! l <- b_islink MB (mem_uri cs); if l then b_removefile MB (mem_uri cs) else b_removedir MB (mem_uri cs)) s)
      ((let! l <- b_islink LB (file_uri cs); if l then b_removefile LB (file_uri cs) else b_removedir LB (file_uri cs)) x).
Proof.
  intros T G N. eapply sim_bind; [apply (islink_sim s x T cs G)|].
  intros a b s' x' T' (-> & -> & ->). cbv beta iota. now apply (removedir_sim s x' T' cs G).
Qed.
Lemma rmtree_sim fuel s x cs : twin s x -> plain_path cs -> cs <> [] ->
  sim (fun _ _ s' => shrunk s s') (remove_dir_recursively MB fuel (mem_uri cs) s) (remove_dir_recursively LB fuel (file_uri cs) x).
Proof.
  intros T G N. unfold remove_dir_recursively.
  eapply (sim_bind (fun (_ _ : unit) s' => True /\ shrunk s s')).
  - rewrite <- (app_nil_r cs).
    apply (walk_sim (fun _ _ => True) shrunk shrunk_refl shrunk_trans s); auto using shrunk_refl; [|now rewrite app_nil_r].
    intros s0 s1 x1 [] [] r dirs files c T1 E0 E1 G1 D H1 H2 _.
    eapply (sim_bind (fun _ _ s' => shrunk s1 s')).
    { apply (map_sim shrunk shrunk_refl shrunk_trans _ _ s1); auto using shrunk_refl.
      intros n s2 x2 In2 T2 E2. cbv beta.
      assert (Gn : plain_path (c ++ [n])) by (apply H1; auto).
      eapply sim_lift; [now apply mem_div'|now apply file_div'|].
      apply (removefile_sim s2 x2 T2 (c ++ [n]) Gn). apply (shrunk_notdir s0); [eapply shrunk_trans; eauto|]. now apply H2. }
    intros ? ? s2 x2 T2 E2. cbv beta in E2 |- *.
    eapply (sim_bind (fun _ _ s' => shrunk s2 s')).
    { apply (map_sim shrunk shrunk_refl shrunk_trans _ _ s2); auto using shrunk_refl.
      intros n s3 x3 In3 T3 E3. cbv beta.
      assert (Gn : plain_path (c ++ [n])) by (apply H1; auto).
      eapply sim_lift; [now apply mem_div'|now apply file_div'|].
      apply unlink_or_rmdir_sim; auto using snoc_ne. }
    intros ? ? s3 x3 T3 E3. cbv beta in E3 |- *. apply sim_ret; auto. cbn [fst snd]. repeat split; auto using incl_refl.
    eapply shrunk_trans; eauto.
  - intros [] [] s1 x1 T1 [_ E1]. cbv beta. eapply sim_weaken; [now apply unlink_or_rmdir_sim|].
    intros ? ? s2 E2. eapply shrunk_trans; eauto.
Qed.
Lemma remove_sim fuel rc s x cs : twin s x -> plain_path cs -> cs <> [] ->
  sim (fun _ _ s' => shrunk s s') (u_remove MB fuel rc (mem_uri cs) s) (u_remove LB fuel rc (file_uri cs) x).
Proof.
  intros T G N. apply hook_sim; auto.
  eapply sim_bind; [apply (islink_sim s x T cs G)|]. intros a b s' x' T' (-> & -> & ->). cbv beta iota.
  eapply sim_bind; [apply (exists_sim s x' T' cs G)|]. intros a b s' x1 T1 (-> & -> & E). cbv beta.
  destruct b; cbn [negb]; [|now apply sim_missing].
  eapply sim_bind; [apply (isdir_sim s x1 T1 cs G)|]. intros a b s' x2 T2 (-> & -> & E2). cbv beta.
  destruct b.
  - destruct rc; [now apply rmtree_sim|]. now apply (removedir_sim s x2 T2 cs G).
  - eapply sim_bind; [apply (isfile_sim s x2 T2 cs G)|]. intros a b s' x3 T3 (-> & -> & E3). cbv beta.
    destruct b; [|apply sim_ret; auto; apply shrunk_refl].
    apply (removefile_sim s x3 T3 cs G). intros D. apply fdir_dir in D. congruence.
Qed.

(** *** glob *)
Lemma glob_sim fn pat s x cs : twin s x -> plain_path cs ->
  sim (fun a b s' => Forall2 same_place a b /\ s = s') (u_glob MB fn (mem_uri cs) pat s) (u_glob LB fn (file_uri cs) pat x).
Proof.
  intros T G. apply hook_sim; auto. unfold fs_glob.
  eapply sim_bind; [apply hook_sim; auto; apply (listdir_sim s x T cs G)|].
  intros names names' s' x' T' (<- & -> & _ & _ & D & Hn). cbv beta.
  apply (fold_sim eq (@eq_refl _) (@eq_trans _) (Forall2 same_place) _ _ s); auto.
  intros a b n s1 x1 I1 T1 <- Ra. cbv beta. destruct (fn n pat); [|apply sim_ret; auto].
  assert (Gn : plain_path (cs ++ [n])) by (apply (mi_names _ _ (tw_mirror _ _ T1)); now apply Hn).
  eapply sim_lift; [now apply mem_div'|now apply file_div'|]. cbv beta. apply sim_ret; auto. split; auto.
  apply Forall2_app; auto. constructor; auto. now apply same_place_made.
Qed.
