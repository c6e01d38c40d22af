(** walk() of a local tree with links. *)
From Coq Require Import Lia Sorted.
From Verif Require Import Str Exc Utf8 UriParse BaseUri StrFacts UriFacts SpecUri UriFacts2 UriFacts3 UriFacts4 UriFacts5 UriFacts6.
From Verif Require Import Mem SpecMem MemFacts MemUri MemFacts10 GenFacts1 GenFacts4 GenFacts5 WalkFacts.
From Verif Require Import Generic SpecGen.
From Verif Require Import Misc Posix Local SpecLocal SpecLinks LocalFacts1 LocalFacts3 LocalFacts6 LocalFacts7 LocalFacts18 LocalFacts19.

Local Notation LB := loc_backend.

Section S.
Variable x : pst.
Hypothesis So : sound x.
Local Notation T := (p_tree x).
Variable cs : list str.
Variable follow : bool.
Variable ignore : list str.
Local Notation enters := (enters x follow ignore cs).

Variable q0 : list str.
Hypothesis G0 : plain_path cs.
Hypothesis D0 : dir_through x cs q0.
Hypothesis H : forall r q n, enters r q -> pget (q ++ [n]) T <> None -> plain_path ((cs ++ r) ++ [n]).

Lemma through_det p q q' : dir_through x p q -> dir_through x p q' -> q = q'.
Proof. intros (? & ? & E) (? & ? & E'). congruence. Qed.
Lemma enters_through r q : enters r q -> plain_path (cs ++ r) /\ dir_through x (cs ++ r) q.
Proof.
  induction 1 as [q D|r q n q' V (IG & ID) N Ni D F].
  - rewrite app_nil_r. auto.
  - rewrite app_assoc. split; [eapply H; eauto|auto].
Qed.
Lemma through_dir p q : plain_path p -> dir_through x p q -> is_dir_at x q.
Proof.
  intros P (mo & mt & E). rewrite plook_abs in E by (auto; apply P). apply walk_on in E as (b & _ & G & _). exists mo, mt. exact G.
Qed.
Lemma dir_b_through p : is_dir_b x p = true <-> leads_to_dir x p.
Proof.
  unfold is_dir_b, tests. split.
  - destruct (plook x true (abs_path p)) as [[q [| mo mt |]|]|] eqn:E; try discriminate. intros _. now exists q, mo, mt.
  - intros (q & mo & mt & ->). reflexivity.
Qed.

Definition kids_at (q : list str) : list str := sort_strs (pchildren q T).
Lemma kids_sorted q : StronglySorted slt (kids_at q).
Proof. apply sort_strict, children_nodup, (so_nodup x So). Qed.
Lemma kids_in q n : In n (kids_at q) <-> pget (q ++ [n]) T <> None.
Proof. unfold kids_at. rewrite sort_In. apply children_get, (so_nodup x So). Qed.
Lemma listdir_through p q : plain_path p -> dir_through x p q -> loc_listdir (file_uri p) x = (Ok (kids_at q), x).
Proof.
  intros P (mo & mt & E). unfold loc_listdir, os_listdir. rewrite local_path by auto.
  unfold bind. rewrite E. reflexivity.
Qed.
Definition kids_of (r : list str) : list str :=
  match fst (loc_listdir (file_uri (cs ++ r)) x) with Ok l => l | Raise _ => [] end.
Definition isd_of (r : list str) : bool := is_dir_b x (cs ++ r).
Definition isl_of (r : list str) : bool := tests x false is_plink (abs_path (cs ++ r)).

Lemma enters_kids r q : enters r q -> loc_listdir (file_uri (cs ++ r)) x = (Ok (kids_of r), x) /\ StronglySorted slt (kids_of r) /\
  forall n, In n (kids_of r) <-> pget (q ++ [n]) T <> None.
Proof.
  intros V. apply enters_through in V as (G & D). pose proof (listdir_through _ _ G D) as E.
  unfold kids_of. rewrite E. cbn [fst]. split; auto. split; [apply kids_sorted|apply kids_in].
Qed.
Lemma isdir_run p : plain_path p -> loc_isdir (file_uri p) x = (Ok (is_dir_b x p), x).
Proof. intros P. unfold loc_isdir, path_isdir. rewrite local_path by auto. apply test_run. Qed.
Lemma enters_isl r q n : enters r q -> pget (q ++ [n]) T <> None ->
  u_islink LB (file_uri ((cs ++ r) ++ [n])) x = (Ok (isl_of (r ++ [n])), x) /\ (isl_of (r ++ [n]) = true <-> is_link_at x (q ++ [n])).
Proof.
  intros V N. pose proof (H r q n V N) as G. destruct (enters_through r q V) as (_ & mo & mt & D).
  split.
  - unfold u_islink, hooked. erewrite bind_ok by reflexivity. cbn [b_islink LB]. unfold loc_islink, path_islink. rewrite local_path by auto.
    unfold isl_of. rewrite app_assoc. apply test_run.
  - unfold isl_of, tests. rewrite app_assoc. destruct (pget (q ++ [n]) T) as [e|] eqn:E; [|easy].
    rewrite (look_in x So (cs ++ r) q mo mt n (pp_names _ G) D false e E) by auto.
    unfold is_link_at. destruct e as [d m1 m2|m1 m2|tg]; cbn [is_plink]; split; try discriminate; try (intros [? Z]; congruence); auto.
    intros _. now exists tg.
Qed.

Definition vis (r : list str) : Prop := exists q, enters r q.
Definition dirs_of (r : list str) : list str := ds kids_of isd_of r.
Definition files_of (r : list str) : list str := fs kids_of isd_of r.
Definition keep_of (r : list str) : list str := filter (fun n => negb (str_in n ignore)) (dirs_of r).
Lemma keep_in r n : In n (keep_of r) <-> In n (dirs_of r) /\ ~ In n ignore.
Proof.
  unfold keep_of. rewrite filter_In. rewrite <- (str_in_In n ignore). destruct (str_in n ignore); cbn; intuition congruence.
Qed.
Lemma lists_of r q : enters r q -> lists x (cs ++ r) q (dirs_of r) (files_of r).
Proof.
  intros V. destruct (enters_kids r q V) as (_ & SS & Ik). unfold dirs_of, files_of, ds, fs.
  split; [now apply ss_filter|]. split; [now apply ss_filter|].
  split; intros n; rewrite filter_In, Ik, <- app_assoc, <- dir_b_through; unfold isd_of.
  - tauto.
  - destruct (is_dir_b x (cs ++ r ++ [n])); cbn; intuition congruence.
Qed.
Lemma enter_vis r n : vis r -> In n (enter follow isl_of keep_of r) -> vis (r ++ [n]).
Proof.
  intros [q V] Hn. apply filter_In in Hn as [Hn Hl]. apply keep_in in Hn as [Hn Ni]. destruct (lists_of r q V) as (_ & _ & Hd & _). apply Hd in Hn as [N (q' & D')].
  exists q'. eapply en_down; eauto. destruct (enters_isl r q n V N) as [_ E].
  destruct follow; [now left|right]. rewrite orb_false_r in Hl. intros El. apply E in El. now rewrite El in Hl.
Qed.
Lemma steps_vis r : steps follow isl_of keep_of [] r <-> vis r.
Proof.
  induction r as [|n r IH] using rev_ind.
  - split; [intros _; exists q0; now constructor|easy].
  - rewrite steps_snoc, IH. cbn [app]. split.
    + intros [V Hn]. now apply enter_vis.
    + intros [q' V]. remember (r ++ [n]) as y. destruct V as [? ?|r' q n' q' V N Ni D F]; [now destruct r|].
      apply app_inj_tail in Heqy as [-> ->]. split; [now exists q|]. apply filter_In. split.
      * apply keep_in. split; auto. apply (lists_of r q V). split; auto. now exists q'.
      * destruct (enters_isl r q n V N) as [_ E]. destruct F as [->|F]; [apply orb_true_r|].
        destruct (isl_of (r ++ [n])); auto. exfalso. apply F. now apply E.
Qed.

Variable fuel : nat.
Hypothesis Hf : forall r q, enters r q -> (length r < fuel)%nat.
Lemma fits_top : fits follow isl_of keep_of fuel [].
Proof. apply fits_spec. intros y Hy. apply steps_vis in Hy as [q V]. eauto. Qed.

Definition triple (r : list str) : uri * list str * list str := (file_uri (cs ++ r), dirs_of r, files_of r).
Lemma keep_all : ignore = [] -> forall r, keep_of r = dirs_of r.
Proof. intros E r. unfold keep_of. rewrite E. cbn. induction (dirs_of r) as [|y l IH]; cbn; congruence. Qed.
Theorem local_triples td : ignore = [] ->
  exists l : list (list str * list str * list str),
    u_walk LB fuel td follow (file_uri cs) x = (Ok (map (fun y => (file_uri (cs ++ fst (fst y)), snd (fst y), snd y)) l), x) /\
    StronglySorted (visit_before td) (map (fun y => fst (fst y)) l) /\
    (forall r, In r (map (fun y => fst (fst y)) l) <-> exists q, enters r q) /\
    (forall r dirs files q, In (r, dirs, files) l -> enters r q -> lists x (cs ++ r) q dirs files).
Proof.
  intros Hi. pose proof (keep_all Hi) as Ka. pose (rs := roots follow isl_of keep_of td fuel []).
  exists (map (fun r => (r, dirs_of r, files_of r)) rs). rewrite !map_map. cbn [fst snd]. rewrite map_id.
  assert (Eq : u_walk LB fuel td follow (file_uri cs) x = (Ok (map triple rs), x)).
  { unfold u_walk, hooked. erewrite bind_ok by reflexivity.
    rewrite <- (app_nil_r cs) at 1.
    rewrite (WalkFacts.fuse LB file_uri (fun _ s' => s' = x) cs follow vis kids_of isd_of isl_of keep_of) with (rs := rs) (L := []) (R := []).
    - fold rs. assert (X : forall l a, foldM (WalkFacts.step file_uri cs kids_of isd_of
        (fun acc root dirs files => ret (acc ++ [(root, dirs, files)], dirs))) a l x = (Ok (a ++ map triple l), x)).
      { induction l as [|r l IHl]; intros a; [cbn; now rewrite app_nil_r|]. rewrite foldM_cons.
        erewrite bind_ok by reflexivity. cbn [fst]. rewrite IHl. cbn [map]. now rewrite <- app_assoc. }
      apply (X rs []).
    - intros L s' r -> [q V]. destruct (enters_kids r q V) as (E & SS & _). auto using sort_id.
    - intros r n [q V] Hn. apply (enters_kids r q V) in Hn. apply file_div'. now apply (H r q).
    - intros L s' r n -> [q V] Hn. apply (enters_kids r q V) in Hn. cbn [b_isdir LB]. rewrite isdir_run by now apply (H r q).
      unfold isd_of. now rewrite app_assoc.
    - intros L s' r n -> [q V] Hn. apply (enters_kids r q V) in Hn. now apply (enters_isl r q).
    - apply enter_vis.
    - intros r n V Hn. rewrite Ka in Hn. now apply filter_In in Hn.
    - intros L r R s' a _ -> V. cbn. rewrite Ka. auto.
    - intros _ r. apply Ka.
    - cbn [app]. now rewrite app_nil_r.
    - reflexivity.
    - exists q0. now constructor.
    - apply fits_top. }
  split; [exact Eq|]. split; [|split].
  - apply (roots_sorted follow isl_of keep_of vis); [|apply enter_vis|exists q0; now constructor].
    intros r [q V]. apply ss_filter, ss_filter. now apply (lists_of r q).
  - intros r. unfold rs. rewrite roots_in. cbn [app]. split.
    + intros (y & -> & Hy & _). now apply steps_vis.
    + intros [q V]. exists r. split; auto. split; [apply steps_vis; now exists q|eauto].
  - intros r dirs files q Hin V. apply in_map_iff in Hin as (r' & E & _). injection E as <- <- <-. now apply lists_of.
Qed.
End S.

(** Without following links, from a directory given by its own path. *)
Lemma enters_real x q : sound x -> is_dir_at x q -> (forall r, pget (q ++ r) (p_tree x) <> None -> plain_path (q ++ r)) ->
  forall r y, enters x false [] q r y <-> y = q ++ r /\ is_dir_at x (q ++ r).
Proof.
  intros So D G.
  assert (Th : forall r, is_dir_at x (q ++ r) -> dir_through x (q ++ r) (q ++ r)).
  { intros r (mo & mt & E). exists mo, mt. apply look_at; auto; try discriminate. apply G. congruence. }
  intros r y. split.
  - induction 1 as [y (mo & mt & E)|r y n y' V [-> IH] N _ (mo & mt & E) F].
    + rewrite app_nil_r. split; auto. destruct (Th []) as (? & ? & E'); [now rewrite app_nil_r|]. rewrite app_nil_r in E'. congruence.
    + destruct F as [F|F]; [discriminate|]. destruct (pget ((q ++ r) ++ [n]) (p_tree x)) as [e|] eqn:Ee; [|easy].
      assert (P : plain_path ((q ++ r) ++ [n])) by (rewrite <- app_assoc; apply G; rewrite app_assoc; congruence).
      rewrite (look_at x So true _ e) in E; auto; [|apply P|].
      * injection E as <- ->. rewrite app_assoc. split; auto. exists mo, mt. exact Ee.
      * destruct e; try discriminate. intros _. exfalso. apply F. now exists target.
  - intros [-> Dr]. induction r as [|n r IH] using rev_ind.
    + rewrite app_nil_r in *. constructor. specialize (Th []). rewrite app_nil_r in Th. auto.
    + assert (Dr' : is_dir_at x (q ++ r)) by (destruct Dr as (? & ? & E); apply (so_up x So (q ++ r) n); rewrite <- app_assoc; congruence).
      apply en_down with (q := q ++ r); auto; rewrite <- ?app_assoc; auto.
      * destruct Dr as (? & ? & ->). discriminate.
      * right. intros [? El]. destruct Dr as (? & ? & Dr). congruence.
Qed.
