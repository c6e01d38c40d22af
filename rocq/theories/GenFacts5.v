(** walk() on the memory backend. *)
From Verif Require Import Str Exc Utf8 UriParse BaseUri StrFacts Utf8Facts SpecUri Mem SpecMem MemOps Generic SpecGen.
From Verif Require Import UriFacts2 UriFacts3 MemFacts MemFacts2 MemFacts3 MemFacts4 MemFacts5 MemFacts6 MemFacts7 MemFacts8 MemFacts9 MemUri MemFacts10 MemFacts11 GenFacts1 GenFacts2 GenFacts3 GenFacts4.
From Coq Require Import Sorted.

Local Notation B := mem_backend.

(** ** The list of visited directories *)
Section Roots.
Variables (follow : bool) (isl : list str -> bool) (keep : list str -> list str).
Local Notation enter := (enter follow isl keep).
Local Notation roots := (roots follow isl keep).
Local Notation fits := (fits follow isl keep).

Fixpoint steps (r x : list str) : Prop :=
  match x with
  | [] => True
  | n :: x' => In n (enter r) /\ steps (r ++ [n]) x'
  end.
Lemma steps_snoc x n : forall r, steps r (x ++ [n]) <-> steps r x /\ In n (enter (r ++ x)).
Proof.
  induction x as [|a x IH]; intros r; cbn [steps app].
  - rewrite app_nil_r. tauto.
  - rewrite IH. rewrite <- app_assoc. cbn. tauto.
Qed.
Lemma fits_spec fuel : forall r, fits fuel r <-> forall x, steps r x -> (length x < fuel)%nat.
Proof.
  induction fuel as [|f IH]; intros r; cbn [GenFacts4.fits].
  - split; [easy|]. intros H. specialize (H [] Logic.I). cbn in H. lia.
  - split.
    + intros H [|n x] Hx; cbn; [lia|]. destruct Hx as [Hn Hx]. specialize (H n Hn). rewrite IH in H. specialize (H x Hx). lia.
    + intros H n Hn. apply IH. intros x Hx. specialize (H (n :: x) (conj Hn Hx)). cbn in H. lia.
Qed.
Lemma roots_in td fuel : forall r x, In x (roots td fuel r) <-> exists y, x = r ++ y /\ steps r y /\ (length y < fuel)%nat.
Proof.
  induction fuel as [|f IH]; intros r x; cbn [GenFacts4.roots].
  - split; [easy|]. intros (y & _ & _ & H). lia.
  - set (below := concat _). assert (Hb : In x below <-> exists n y, x = r ++ n :: y /\ In n (enter r) /\ steps (r ++ [n]) y /\ (length y < f)%nat).
    { unfold below. rewrite in_concat. split.
      - intros (l & Hl & Hx). apply in_map_iff in Hl as (n & <- & Hn). apply IH in Hx as (y & -> & Hy & L).
        exists n, y. rewrite <- app_assoc. auto.
      - intros (n & y & -> & Hn & Hy & L). exists (roots td f (r ++ [n])). split; [apply in_map_iff; eauto|].
        apply IH. exists y. rewrite <- app_assoc. auto. }
    assert (E : In x below \/ x = r <-> exists y, x = r ++ y /\ steps r y /\ (length y < S f)%nat).
    { rewrite Hb. split.
      - intros [(n & y & -> & Hn & Hy & L)| ->].
        + exists (n :: y). cbn. repeat split; auto. lia.
        + exists []. rewrite app_nil_r. cbn. repeat split. lia.
      - intros ([|n y] & -> & Hy & L); [right; apply app_nil_r|left]. destruct Hy as [Hn Hy]. exists n, y.
        cbn in L. repeat split; auto. lia. }
    rewrite <- E. destruct td; cbn; [|rewrite in_app_iff; cbn]; intuition auto.
Qed.

Lemma ss_app {A} (R : A -> A -> Prop) l1 l2 : StronglySorted R l1 -> StronglySorted R l2 ->
  (forall x y, In x l1 -> In y l2 -> R x y) -> StronglySorted R (l1 ++ l2).
Proof.
  intros H1 H2 H. induction H1 as [|a l S1 IH F]; cbn; auto. constructor.
  - apply IH. intros x y Hx. apply H. now right.
  - apply Forall_app. split; auto. apply Forall_forall. intros y Hy. apply H; auto. now left.
Qed.
Lemma roots_sorted (ok : list str -> Prop) td (Hs : forall r, ok r -> StronglySorted slt (enter r)) (Hok : forall r n, ok r -> In n (enter r) -> ok (r ++ [n])) :
  forall fuel r, ok r -> StronglySorted (visit_before td) (roots td fuel r).
Proof.
  induction fuel as [|f IH]; intros r Hr; cbn [GenFacts4.roots]; [constructor|].
  assert (Bl : StronglySorted (visit_before td) (concat (map (fun n => roots td f (r ++ [n])) (enter r)))).
  { assert (X : forall l, StronglySorted slt l -> (forall n, In n l -> ok (r ++ [n])) ->
       StronglySorted (visit_before td) (concat (map (fun n => roots td f (r ++ [n])) l))).
    { induction 1 as [|n l Sl IHl F]; intros Hl; cbn; [constructor|]. apply ss_app.
      - apply IH, Hl. now left.
      - apply IHl. intros m Hm. apply Hl. now right.
      - intros x y Hx Hy. apply roots_in in Hx as (x' & -> & _). apply in_concat in Hy as (l' & Hl' & Hy).
        apply in_map_iff in Hl' as (m & <- & Hm). apply roots_in in Hy as (y' & -> & _).
        right. exists r, n, m, x', y'. rewrite <- !app_assoc. repeat split. rewrite Forall_forall in F. now apply F. }
    apply X; [now apply Hs|]. intros n Hn. now apply Hok. }
  assert (Lt : forall x, In x (concat (map (fun n => roots td f (r ++ [n])) (enter r))) -> exists n z, x = r ++ n :: z).
  { intros x Hx. apply in_concat in Hx as (l' & Hl' & Hx). apply in_map_iff in Hl' as (m & <- & Hm).
    apply roots_in in Hx as (y' & -> & _). exists m, y'. now rewrite <- app_assoc. }
  destruct td.
  - constructor; auto. apply Forall_forall. intros x Hx. left. auto.
  - apply ss_app; auto; [constructor; constructor|]. intros x y Hx [<-|[]]. left. auto.
Qed.
End Roots.

Lemma visit_before_irrefl td x : ~ visit_before td x x.
Proof.
  intros [(n & z & H)|(c & a & b & x' & y' & E1 & E2 & L)].
  - assert (X : x = x ++ n :: z) by (now destruct td). apply (f_equal (@length _)) in X. rewrite app_length in X. cbn in X. lia.
  - rewrite E2 in E1. apply app_inv_head in E1. injection E1 as -> _. unfold slt in L. now rewrite str_ltb_irrefl in L.
Qed.
Lemma visit_before_NoDup td l : StronglySorted (visit_before td) l -> NoDup l.
Proof.
  induction 1 as [|x l S IH F]; constructor; auto. intros H. rewrite Forall_forall in F. now apply (visit_before_irrefl td x), F.
Qed.

Lemma ss_filter {A} (R : A -> A -> Prop) f l : StronglySorted R l -> StronglySorted R (filter f l).
Proof.
  induction 1 as [|x l S IH F]; cbn; [constructor|]. destruct (f x); auto. constructor; auto.
  apply Forall_forall. intros y Hy. apply filter_In in Hy as [Hy _]. rewrite Forall_forall in F. auto.
Qed.

Section S.
Variable s : mst.
Variable W : wf s.
Variable Q : silent s.
Local Notation t := (view s).
Variable cs : list str.
Variable follow : bool.
Variable ignore : list str.
Local Notation visits := (visits t follow ignore cs).

Definition kids_of (r : list str) : list str :=
  match fst (mem_listdir (mem_uri (cs ++ r)) s) with Ok l => l | Raise _ => [] end.
Definition isd_of (r : list str) : bool :=
  match fst (mem_isdir (mem_uri (cs ++ r)) s) with Ok b => b | Raise _ => false end.
Definition isl_of (r : list str) : bool :=
  match fst (mem_islink (mem_uri (cs ++ r)) s) with Ok b => b | Raise _ => false end.

Variable q0 : list str.
Hypothesis G0 : good_path cs.
Hypothesis L0 : leads t cs (Found q0).
Hypothesis D0 : is_edir (t q0).
Hypothesis H : forall r q n, visits r q -> t (q ++ [n]) <> None ->
  good_path ((cs ++ r) ++ [n]) /\ fresh_last t (cs ++ r) n /\ exists o, leads t ((cs ++ r) ++ [n]) o /\ answers o.

Lemma visits_leads r q : visits r q -> good_path (cs ++ r) /\ leads t (cs ++ r) (Found q) /\ is_edir (t q).
Proof.
  induction 1 as [q L D|r q n q' V (IG & IL & ID) N Ni L D F].
  - rewrite app_nil_r. auto.
  - rewrite app_assoc. split; [eapply H; eauto|auto].
Qed.
Lemma visits_det r q q' : visits r q -> visits r q' -> q = q'.
Proof.
  intros V V'. apply visits_leads in V as (_ & L & _). apply visits_leads in V' as (_ & L' & _).
  pose proof (leads_det (m_heap s) (m_next s) W _ _ _ L L') as E. now injection E.
Qed.
Lemma visits_kids r q : visits r q -> mem_listdir (mem_uri (cs ++ r)) s = (Ok (kids_of r), s) /\ StronglySorted slt (kids_of r) /\
  forall n, In n (kids_of r) <-> t (q ++ [n]) <> None.
Proof.
  intros V. apply visits_leads in V as (G & L & D). destruct (run_listing s (cs ++ r) q W G L D) as (l & El & _ & SS & Il).
  unfold kids_of. rewrite El. auto.
Qed.
Lemma visits_isd r q n : visits r q -> t (q ++ [n]) <> None ->
  mem_isdir (mem_uri ((cs ++ r) ++ [n])) s = (Ok (isd_of (r ++ [n])), s) /\ (isd_of (r ++ [n]) = true <-> to_dir t ((cs ++ r) ++ [n])).
Proof.
  intros V N. destruct (H r q n V N) as (G & F & o & L & A). destruct (isdir_answers s W _ o G L A) as [b E].
  unfold isd_of. rewrite app_assoc. rewrite E. cbn [fst]. split; auto. split.
  - intros ->. destruct o as [q'| | | | |].
    + exists q'. split; auto. destruct (edir_dec (t q')) as [D|D]; auto.
      rewrite (isdir_file s W _ q') in E; auto. discriminate.
    + rewrite (isdir_none s W _ Missing) in E; auto. discriminate.
    + exfalso. apply A. cbn; auto.
    + exfalso. apply A. cbn; auto.
    + rewrite (isdir_none s W _ Loop) in E; auto. discriminate.
    + exfalso. apply A. cbn; auto.
  - intros (q' & L' & D'). rewrite (isdir_found s W _ q') in E; auto. now injection E.
Qed.
Lemma visits_isl r q n : visits r q -> t (q ++ [n]) <> None ->
  u_islink B (mem_uri ((cs ++ r) ++ [n])) s = (Ok (isl_of (r ++ [n])), s) /\ isl_of (r ++ [n]) = entry_is_link (t (q ++ [n])).
Proof.
  intros V N. destruct (H r q n V N) as (G & F & _). destruct (visits_leads r q V) as (_ & L & D).
  assert (E : mem_islink (mem_uri ((cs ++ r) ++ [n])) s = (Ok (entry_is_link (t (q ++ [n]))), s)) by now apply run_islink with (d := q).
  unfold isl_of. rewrite app_assoc, E. split; auto. unfold u_islink. rewrite run_hooked by auto. exact E.
Qed.

Definition vis (r : list str) : Prop := exists q, visits r q.
Definition dirs_of (r : list str) : list str := ds kids_of isd_of r.
Definition files_of (r : list str) : list str := fs kids_of isd_of r.
Definition keep_of (r : list str) : list str := filter (fun n => negb (str_in n ignore)) (dirs_of r).
Lemma keep_in r n : In n (keep_of r) <-> In n (dirs_of r) /\ ~ In n ignore.
Proof.
  unfold keep_of. rewrite filter_In. rewrite <- (str_in_In n ignore). destruct (str_in n ignore); cbn; intuition congruence.
Qed.

Lemma listed_of r q : visits r q -> listed t (cs ++ r) q (dirs_of r) (files_of r).
Proof.
  intros V. destruct (visits_kids r q V) as (_ & SS & Ik). unfold dirs_of, files_of, ds, fs.
  split; [now apply ss_filter|]. split; [now apply ss_filter|].
  split; intros n; rewrite filter_In, Ik; split; intros [N X]; split; auto; destruct (visits_isd r q n V N) as (_ & E); rewrite <- E in *; auto.
  - intros Y. rewrite Y in X. discriminate.
  - now destruct (isd_of (r ++ [n])).
Qed.
Lemma enter_vis r n : vis r -> In n (enter follow isl_of keep_of r) -> vis (r ++ [n]).
Proof.
  intros [q V] Hn. apply filter_In in Hn as [Hn Hl]. apply keep_in in Hn as [Hn Ni]. destruct (listed_of r q V) as (_ & _ & Hd & _). apply Hd in Hn as [N (q' & L' & D')].
  exists q'. eapply v_down; eauto. destruct (visits_isl r q n V N) as [_ E]. rewrite E in Hl.
  destruct follow; [now left|right]. rewrite orb_false_r in Hl. intros (? & ? & ? & El). rewrite El in Hl. discriminate.
Qed.
Lemma steps_vis r : steps follow isl_of keep_of [] r <-> vis r.
Proof.
  induction r as [|n r IH] using rev_ind.
  - split; [intros _; exists q0; now constructor|easy].
  - rewrite steps_snoc, IH. cbn [app]. split.
    + intros [V Hn]. now apply enter_vis.
    + intros [q' V]. remember (r ++ [n]) as x. destruct V as [? ?|r' q n' q' V N Ni L D F]; [now destruct r|].
      apply snoc_inj in Heqx as [-> ->]. split; [now exists q|]. apply filter_In. split.
      * apply keep_in. split; auto. apply (listed_of r q V). split; auto. now exists q'.
      * destruct (visits_isl r q n V N) as [_ E]. rewrite E. destruct F as [->|F]; [apply orb_true_r|].
        destruct (t (q ++ [n])) as [[| |]|]; cbn; auto. exfalso. apply F. now repeat eexists.
Qed.

(** What walk_gen needs to know, for states with the same source. *)
Variable fuel : nat.
Hypothesis Hf : forall r q, visits r q -> (length r < fuel)%nat.
Lemma fits_top : fits follow isl_of keep_of fuel [].
Proof. apply fits_spec. intros x Hx. apply steps_vis in Hx as [q V]. eauto. Qed.

Definition triple (r : list str) : uri * list str * list str := (mem_uri (cs ++ r), dirs_of r, files_of r).

Lemma keep_all : ignore = [] -> forall r, keep_of r = dirs_of r.
Proof. intros E r. unfold keep_of. rewrite E. cbn. induction (dirs_of r) as [|x l IH]; cbn; congruence. Qed.
Theorem walk_triples td : ignore = [] ->
  exists l : list (list str * list str * list str),
    u_walk B fuel td follow (mem_uri cs) s = (Ok (map (fun x => (mem_uri (cs ++ fst (fst x)), snd (fst x), snd x)) l), s) /\
    StronglySorted (visit_before td) (map (fun x => fst (fst x)) l) /\
    (forall r, In r (map (fun x => fst (fst x)) l) <-> exists q, visits r q) /\
    (forall r dirs files q, In (r, dirs, files) l -> visits r q -> listed t (cs ++ r) q dirs files).
Proof.
  intros Hi. pose proof (keep_all Hi) as Ka. pose (rs := roots follow isl_of keep_of td fuel []).
  exists (map (fun r => (r, dirs_of r, files_of r)) rs). rewrite !map_map. cbn [fst snd]. rewrite map_id.
  assert (Eq : u_walk B fuel td follow (mem_uri cs) s = (Ok (map triple rs), s)).
  { unfold u_walk. rewrite run_hooked by auto.
    rewrite <- (app_nil_r cs) at 1.
    rewrite (fuse (fun _ s' => s' = s) cs follow vis kids_of isd_of isl_of keep_of) with (rs := rs) (L := []) (R := []).
    - fold rs. assert (X : forall l a, foldM (step cs kids_of isd_of
        (fun acc root dirs files => ret (acc ++ [(root, dirs, files)], dirs))) a l s = (Ok (a ++ map triple l), s)).
      { induction l as [|r l IHl]; intros a; [cbn; now rewrite app_nil_r|]. rewrite foldM_cons.
        erewrite bind_ok by reflexivity. cbn [fst]. rewrite IHl. cbn [map]. now rewrite <- app_assoc. }
      apply (X rs []).
    - intros L s' r -> [q V]. destruct (visits_kids r q V) as (E & SS & _). auto using sort_id.
    - intros r n [q V] Hn. apply (visits_kids r q V) in Hn. now apply (H r q).
    - intros L s' r n -> [q V] Hn. apply (visits_kids r q V) in Hn. now apply (visits_isd r q).
    - intros L s' r n -> [q V] Hn. apply (visits_kids r q V) in Hn. now apply (visits_isl r q).
    - apply enter_vis.
    - intros r n V Hn. rewrite Ka in Hn. now apply filter_In in Hn.
    - intros L r R s' a _ -> V. cbn. rewrite Ka. auto.
    - intros _ r. apply Ka.
    - cbn [app]. now rewrite app_nil_r.
    - reflexivity.
    - exists q0. now constructor.
    - apply fits_top. }
  split; [exact Eq|]. split; [|split].
  - apply (roots_sorted follow isl_of keep_of vis); [|apply enter_vis|exists q0; now constructor].
    intros r [q V]. apply ss_filter, ss_filter. now apply (listed_of r q).
  - intros r. unfold rs. rewrite roots_in. cbn [app]. split.
    + intros (y & -> & Hy & _). now apply steps_vis.
    + intros [q V]. exists r. split; auto. split; [apply steps_vis; now exists q|eauto].
  - intros r dirs files q Hin V. apply in_map_iff in Hin as (r' & E & _). injection E as <- <- <-. now apply listed_of.
Qed.
End S.

(** Without following links, from a directory given by its own path. *)
Lemma visits_real s q : wf s -> is_edir (view s q) ->
  forall r x, visits (view s) false [] q r x <-> x = q ++ r /\ is_edir (view s (q ++ r)).
Proof.
  intros W D r x. split.
  - induction 1 as [x L Dx|r x n x' V [-> IH] N _ L Dx F].
    + rewrite app_nil_r. split; auto.
      assert (L' : leads (view s) q (Found q)) by now apply (resolves_dir (m_heap s)).
      pose proof (leads_det (m_heap s) (m_next s) W _ _ _ L L') as E. now injection E.
    + destruct F as [F|F]; [discriminate|]. rewrite app_assoc.
      destruct (entry_cases (view s ((q ++ r) ++ [n]))) as [Ne|[Ef|[Ed|El]]]; try contradiction.
      * exfalso. assert (L' : leads (view s) ((q ++ r) ++ [n]) (Found ((q ++ r) ++ [n]))) by (apply (resolves_entry (m_heap s)); auto).
        pose proof (leads_det (m_heap s) (m_next s) W _ _ _ L L') as E. injection E as ->.
        destruct Dx as (? & ? & Dx), Ef as (? & ? & ? & Ef). congruence.
      * split; auto. assert (L' : leads (view s) ((q ++ r) ++ [n]) (Found ((q ++ r) ++ [n]))) by now apply (resolves_dir (m_heap s)).
        pose proof (leads_det (m_heap s) (m_next s) W _ _ _ L L') as E. now injection E.
  - intros [-> Dr]. induction r as [|n r IH] using rev_ind.
    + rewrite app_nil_r. constructor; auto. now apply (resolves_dir (m_heap s)).
    + assert (Dr' : is_edir (view s (q ++ r))).
      { apply (tree_parent (m_heap s) (q ++ r) n). unfold view in Dr. rewrite <- app_assoc. destruct Dr as (? & ? & ->). discriminate. }
      apply v_down with (q := q ++ r); auto; rewrite <- ?app_assoc; auto.
      * destruct Dr as (? & ? & ->). discriminate.
      * now apply (resolves_dir (m_heap s)).
      * right. intros (? & ? & ? & El). destruct Dr as (? & ? & Dr). congruence.
Qed.

Lemma walk_real s q td fuel : wf s -> silent s -> is_edir (view s q) ->
  (forall r, view s (q ++ r) <> None -> good_path (q ++ r)) ->
  (forall r, is_elink (view s (q ++ r)) -> exists o, leads (view s) (q ++ r) o /\ answers o) ->
  (m_next s <= fuel)%nat ->
  exists l : list (list str * list str * list str),
    u_walk B fuel td false (mem_uri q) s = (Ok (map (fun x => (mem_uri (q ++ fst (fst x)), snd (fst x), snd x)) l), s) /\
    StronglySorted (visit_before td) (map (fun x => fst (fst x)) l) /\
    (forall r, In r (map (fun x => fst (fst x)) l) <-> is_edir (view s (q ++ r))) /\
    (forall r dirs files, In (r, dirs, files) l -> listed (view s) (q ++ r) (q ++ r) dirs files).
Proof.
  intros W Q D G A Hf.
  assert (Gq : good_path q) by (rewrite <- (app_nil_r q); apply G; rewrite app_nil_r; destruct D as (? & ? & ->); discriminate).
  destruct (walk_triples s W Q q false [] q Gq) with (fuel := fuel) (td := td) as (l & E & S & I & Ls).
  - now apply (resolves_dir (m_heap s)).
  - exact D.
  - intros r x n V N. apply visits_real in V as [-> Dr]; auto. split; [|split].
    + rewrite <- app_assoc in *. now apply G.
    + now apply (fresh_dir (m_heap s) (m_next s)).
    + destruct (entry_cases (view s ((q ++ r) ++ [n]))) as [Ne|[Ef|[Ed|El]]]; try contradiction.
      * eexists. split; [apply (resolves_entry (m_heap s)); left; exact Ef|cbv; intuition discriminate].
      * eexists. split; [apply (resolves_entry (m_heap s)); right; exact Ed|cbv; intuition discriminate].
      * rewrite <- app_assoc in *. now apply A.
  - intros r x V. apply visits_real in V as [-> Dr]; auto.
    assert (N : view s (q ++ r) <> None) by (destruct Dr as (? & ? & ->); discriminate).
    apply depth_bound in N; auto. rewrite app_length in N. lia.
  - reflexivity.
  - exists l. split; [exact E|]. split; [exact S|]. split.
    + intros r. rewrite I. split; [intros [x V]; now apply visits_real in V|]. intros Dr. exists (q ++ r). now apply visits_real.
    + intros r dirs files Hin. apply Ls; auto. apply visits_real; auto. split; auto.
      assert (V : exists x, visits (view s) false [] q r x) by (apply I; apply in_map_iff; now exists (r, dirs, files)).
      destruct V as [x V]. now apply visits_real in V.
Qed.
