(** Path lookup follows the specification [resolves]. *)
From Verif Require Import Str Exc Utf8 UriParse BaseUri StrFacts Mem SpecUri SpecMem MemFacts.

Lemma flat_join c w cs : flat_map (fun x : str => c :: x) (w :: cs) = c :: join_with [c] (w :: cs).
Proof.
  revert w; induction cs as [|w' cs IH]; intros w.
  - cbn. now rewrite app_nil_r.
  - change (flat_map (fun x => c :: x) (w :: w' :: cs)) with ((c :: w) ++ flat_map (fun x => c :: x) (w' :: cs)).
    rewrite IH. rewrite (join_with_cons [c] w (w' :: cs)) by discriminate. reflexivity.
Qed.

Lemma addr_path u cs :
  addr u cs <-> exists p, mem_path u = Ok p /\ ((p = [] /\ cs = []) \/ (p <> [] /\ cs = steps_of p)).
Proof.
  unfold addr, mem_path, steps_of. split.
  - intros (P & F & N). rewrite P. destruct cs as [|w cs].
    + exists []. split; [reflexivity|]. now left.
    + unfold abs_path. rewrite flat_join, N.eqb_refl. exists (join_with [cSlash] (w :: cs)). split; auto.
      right. rewrite split_join by easy. split; auto.
      destruct cs as [|w' cs]; [|rewrite join_with_cons by easy; now destruct w].
      cbn. intros ->. easy.
  - intros (p & P & H). destruct (u_path u) as [|c r]; [discriminate|].
    destruct (N.eqb_spec c cSlash) as [->|]; [|discriminate]. injection P as ->.
    destruct H as [[-> ->]|[Hp ->]]; [repeat split; [constructor|easy]|].
    repeat split.
    + destruct (split_on cSlash p) as [|w ws] eqn:E; [now apply split_on_nonnil in E|].
      unfold abs_path. rewrite flat_join, <- E. now rewrite join_split.
    + apply split_on_no_sep.
    + intros E. apply Hp. rewrite <- (join_split cSlash p), E. reflexivity.
Qed.
Lemma addr_nil u : addr u [] <-> mem_path u = Ok [].
Proof.
  rewrite addr_path. split.
  - intros (p & P & [[-> _]|[_ H]]); auto. symmetry in H. now apply split_on_nonnil in H.
  - intros H. exists []. auto.
Qed.
Lemma addr_cons u c cs : addr u (c :: cs) <-> exists p, mem_path u = Ok p /\ p <> [] /\ steps_of p = c :: cs.
Proof.
  rewrite addr_path. split.
  - intros (p & P & [[_ H]|[Hp H]]); [discriminate|]. eauto.
  - intros (p & P & Hp & H). exists p. split; auto.
Qed.
Lemma addr_inj u cs cs' : addr u cs -> addr u cs' -> cs = cs'.
Proof.
  rewrite !addr_path. intros (p & P & H) (p' & P' & H'). rewrite P in P'. injection P' as <-.
  destruct H as [[H ->]|[H ->]], H' as [[H' ->]|[H' ->]]; congruence.
Qed.
Lemma addr_none u : (forall cs, ~ addr u cs) <-> mem_path u = Raise AssertionError.
Proof.
  split.
  - intros H. destruct (mem_path u) as [p|e] eqn:E.
    + exfalso. destruct p as [|c p]; [apply (H []), addr_nil, E|].
      apply (H (steps_of (c :: p))), addr_path. exists (c :: p). split; auto. right. split; [discriminate|auto].
    + unfold mem_path in E. destruct (u_path u); [congruence|]. destruct (N.eqb n cSlash); congruence.
  - intros H cs A. apply addr_path in A as (p & P & _). congruence.
Qed.

Definition res_of (h : nat -> node) (throw : bool) (o : outcome) : res (option nat) :=
  match o with
  | Found q => Ok (phys h root_id q)
  | Missing => if throw then Raise (OSError ENOENT) else Ok None
  | Dead => if throw then Raise (OSError ENOENT) else Raise AttributeError
  | NotDir => Raise AttributeError
  | Loop => Raise (OSError ELOOP)
  | BadLink => Raise AssertionError
  end.
Definition rmap {A B} (f : A -> B) (r : res A) : res B := match r with Ok a => Ok (f a) | Raise e => Raise e end.

Section R.
Variables (h : nat -> node) (next : nat).
Hypothesis W : wfh h next.
Let t := tree_of h.

Lemma tree_dir d i : phys h root_id d = Some i -> is_edir (t d) -> exists es mt mo, h i = NDir es mt mo.
Proof.
  intros P (mt & mo & H). unfold t, tree_of in H. rewrite P in H. cbn in H. destruct (h i); try discriminate. eauto.
Qed.
Lemma dir_tree d i es mt mo : phys h root_id d = Some i -> h i = NDir es mt mo -> is_edir (t d).
Proof. intros P H. unfold t, tree_of. rewrite P. cbn. rewrite H. repeat eexists. Qed.
Lemma tree_snoc d i es mt mo n :
  phys h root_id d = Some i -> h i = NDir es mt mo ->
  t (d ++ [n]) = option_map (fun j => entry_of (h j)) (dget n es) /\ phys h root_id (d ++ [n]) = dget n es.
Proof. intros P H. unfold t, tree_of. rewrite phys_snoc, P, H. auto. Qed.

(** What is found is a place that exists and is not a link. *)
Definition real (q : list str) : Prop := is_efile (t q) \/ is_edir (t q).
Lemma real_phys q : real q -> exists i, phys h root_id q = Some i /\ is_link (h i) = false.
Proof.
  unfold real, t, tree_of. destruct (phys h root_id q) as [i|]; cbn.
  - intros H. exists i. split; auto. destruct (h i); auto.
    destruct H as [(?&?&?&H)|(?&?&H)]; discriminate.
  - intros [(?&?&?&H)|(?&?&H)]; discriminate.
Qed.
Lemma real_root : real [].
Proof. right. unfold t, tree_of. cbn. destruct (wf_root _ _ W) as (es & mt & mo & ->). repeat eexists. Qed.

Lemma resolves_real k d steps o : resolves t k d steps o -> real d -> forall q, o = Found q -> real q.
Proof.
  induction 1; intros Hd q' E; try discriminate; auto.
  - injection E as <-. auto.
  - apply IHresolves2; auto. apply (IHresolves1 real_root q). auto.
  - subst. cbn in *. intuition discriminate.
Qed.

Definition get_at (throw : bool) (k : nat) (target : uri) : res (option nat) :=
  rlet p <- mem_path target;
  match p with
  | [] => Ok (Some root_id)
  | _ => let steps := steps_of p in
         rlet pc <- steps_loop h throw (child h throw k) true (last steps []) None (Some root_id) steps;
         Ok (snd pc)
  end.
Lemma child_link throw k i n es mt mo j target mt' mo' :
  h i = NDir es mt mo -> dget n es = Some j -> h j = NLink target mt' mo' ->
  child h throw (S k) i n true
  = rlet nd <- get_at throw k target;
    match nd with None => Ok None | Some j => if is_link (h j) then Raise AssertionError else Ok (Some j) end.
Proof.
  intros E G F. cbn [child]. rewrite E, G, F. unfold get_at. now destruct (mem_path target).
Qed.
Lemma rmap_bind {A B} (f : A -> B) (r : res A) : (rlet x <- r; Ok (f x)) = rmap f r.
Proof. now destruct r. Qed.
Lemma get_at_spec throw k target cs o :
  addr target cs -> resolves t k [] cs o ->
  (forall lastp prev i, phys h root_id [] = Some i -> real [] ->
     rmap snd (steps_loop h throw (child h throw k) true lastp prev (Some i) cs) = res_of h throw o) ->
  get_at throw k target = res_of h throw o.
Proof.
  intros Ha R IH. unfold get_at. destruct cs as [|c cs].
  - apply addr_nil in Ha. rewrite Ha. cbn [rbind]. inversion R; subst. reflexivity.
  - apply addr_cons in Ha as (p & Hp & Hne & Hs). rewrite Hp. cbn [rbind].
    destruct p as [|c0 p]; [easy|]. rewrite Hs, rmap_bind. apply IH; auto using real_root.
Qed.
Lemma same_if (b : bool) : (if b then true else true) = true.
Proof. now destruct b. Qed.

(** One step through a link, given what its target resolves to. *)
Lemma step_link throw k d n rest lastp prev i target mt mo cs o :
  phys h root_id d = Some i -> is_edir (t d) -> t (d ++ [n]) = Some (ELink target mt mo) -> addr target cs ->
  resolves t k [] cs o ->
  (forall lastp prev i, phys h root_id [] = Some i -> real [] ->
     rmap snd (steps_loop h throw (child h throw k) true lastp prev (Some i) cs) = res_of h throw o) ->
  steps_loop h throw (child h throw (S k)) true lastp prev (Some i) (n :: rest)
  = rlet nd <- res_of h throw o; steps_loop h throw (child h throw (S k)) true lastp (Some i) nd rest.
Proof.
  intros P Hd Hl Ha R IH.
  destruct (tree_dir _ _ P Hd) as (es & mt' & mo' & E). destruct (tree_snoc _ _ _ _ _ n P E) as [T1 T2].
  cbn [steps_loop]. rewrite E. unfold dhas. rewrite T1 in Hl.
  destruct (dget n es) as [j|] eqn:G; [|discriminate]. rewrite same_if.
  cbn in Hl. destruct (h j) eqn:F; try discriminate. injection Hl as -> _ _.
  rewrite (child_link _ _ _ _ _ _ _ _ _ _ _ E G F), (get_at_spec _ _ _ _ _ Ha R IH).
  destruct o as [q| | | | |]; cbn [res_of rbind]; try (destruct throw; reflexivity).
  assert (Rq : real q) by (eapply resolves_real; [exact R|apply real_root|reflexivity]).
  destruct (real_phys _ Rq) as (z & Pz & Lz). rewrite Pz. now rewrite Lz.
Qed.

Lemma steps_resolve throw k d steps o :
  resolves t k d steps o -> forall lastp prev i, phys h root_id d = Some i -> real d ->
  rmap snd (steps_loop h throw (child h throw k) true lastp prev (Some i) steps) = res_of h throw o.
Proof.
  intros R. induction R as
    [k d|k d n rest Hn|k d n rest Hd Hm|k d n rest o Hd Hr R IH|d n rest Hd Hl
    |k d n rest target mt mo Hd Hl Ha|k d n rest target mt mo cs q o Hd Hl Ha R1 IH1 R2 IH2
    |k d n target mt mo cs Hd Hl Ha R IH|k d n m rest target mt mo cs Hd Hl Ha R IH
    |k d n rest target mt mo cs o Hd Hl Ha R IH Ho]; intros lastp prev i P Rd.
  - cbn. now rewrite P.
  - cbn. destruct (h i) eqn:E; auto. exfalso. apply Hn. eapply dir_tree; eauto.
  - destruct (tree_dir _ _ P Hd) as (es & mt & mo & E). destruct (tree_snoc _ _ _ _ _ n P E) as [T1 T2].
    rewrite T1 in Hm. cbn [steps_loop]. rewrite E. unfold dhas. destruct (dget n es); [discriminate|]. destruct throw; reflexivity.
  - destruct (tree_dir _ _ P Hd) as (es & mt & mo & E). destruct (tree_snoc _ _ _ _ _ n P E) as [T1 T2].
    cbn [steps_loop]. rewrite E. unfold dhas. unfold real in IH. rewrite T1 in *. destruct (dget n es) as [j|] eqn:G.
    + rewrite same_if.
      assert (C : child h throw k i n true = Ok (Some j)).
      { destruct k; cbn; rewrite E, G; destruct (h j) eqn:F; auto; cbn in Hr; rewrite F in Hr;
        destruct Hr as [(?&?&?&Hr)|(?&?&Hr)]; discriminate. }
      rewrite C. cbn [rbind]. apply IH; auto.
    + destruct Hr as [(?&?&?&Hr)|(?&?&Hr)]; discriminate.
  - destruct (tree_dir _ _ P Hd) as (es & mt & mo & E). destruct (tree_snoc _ _ _ _ _ n P E) as [T1 T2].
    cbn [steps_loop]. rewrite E. unfold dhas. rewrite T1 in Hl. destruct Hl as (tg & m1 & m2 & Hl).
    destruct (dget n es) as [j|] eqn:G; [|discriminate]. rewrite same_if.
    cbn. rewrite E, G. cbn in Hl. destruct (h j); try discriminate. reflexivity.
  - destruct (tree_dir _ _ P Hd) as (es & mt' & mo' & E). destruct (tree_snoc _ _ _ _ _ n P E) as [T1 T2].
    cbn [steps_loop]. rewrite E. unfold dhas. rewrite T1 in Hl.
    destruct (dget n es) as [j|] eqn:G; [|discriminate]. rewrite same_if.
    cbn [child]. rewrite E, G. cbn in Hl. destruct (h j); try discriminate. injection Hl as -> _ _.
    apply addr_none in Ha. now rewrite Ha.
  - rewrite (step_link _ _ _ _ _ _ _ _ _ _ _ _ _ P Hd Hl Ha R1 IH1). cbn [res_of rbind].
    assert (Rq : real q) by (eapply resolves_real; [exact R1|apply real_root|reflexivity]).
    destruct (real_phys _ Rq) as (z & Pz & Lz). rewrite Pz. apply IH2; auto.
  - rewrite (step_link _ _ _ _ _ _ _ _ _ _ _ _ _ P Hd Hl Ha R IH). destruct throw; reflexivity.
  - rewrite (step_link _ _ _ _ _ _ _ _ _ _ _ _ _ P Hd Hl Ha R IH). destruct throw; reflexivity.
  - rewrite (step_link _ _ _ _ _ _ _ _ _ _ _ _ _ P Hd Hl Ha R IH).
    cbn in Ho. destruct Ho as [<-|[<-|[<-|[<-|[]]]]]; try reflexivity. destruct throw; reflexivity.
Qed.

(** Every list of names leads somewhere. *)
Lemma entry_cases o : o = None \/ is_efile o \/ is_edir o \/ is_elink o.
Proof. destruct o as [[]|]; [right; left|right; right; left|right; right; right|left; auto]; repeat eexists. Qed.
Lemma edir_dec o : is_edir o \/ ~ is_edir o.
Proof. destruct o as [[]|]; try (right; intros (?&?&?); discriminate). left. repeat eexists. Qed.

Lemma resolves_total k d steps : exists o, resolves t k d steps o.
Proof.
  revert d steps. induction k as [k IHk] using lt_wf_ind. intros d steps. revert d.
  induction steps as [|n rest IH]; intros d; [exists (Found d); constructor|].
  destruct (edir_dec (t d)) as [Hd|Hd]; [|exists NotDir; now constructor].
  destruct (entry_cases (t (d ++ [n]))) as [H|[H|[H|H]]].
  - exists Missing. now constructor.
  - destruct (IH (d ++ [n])) as [o Ho]. exists o. apply rs_step; auto.
  - destruct (IH (d ++ [n])) as [o Ho]. exists o. apply rs_step; auto.
  - destruct k as [|k]; [exists Loop; now apply rs_loop|].
    destruct H as (target & mt & mo & Hl).
    destruct (mem_path target) as [p|e] eqn:M.
    + assert (A : exists cs, addr target cs).
      { destruct p as [|c p]; [exists []; now apply addr_nil|]. exists (steps_of (c :: p)).
        apply addr_path. exists (c :: p). split; auto. right. split; [discriminate|auto]. }
      destruct A as [cs A]. destruct (IHk k (Nat.lt_succ_diag_r k) [] cs) as [o Ho].
      destruct o as [q| | | | |].
      * destruct (IH q) as [o' Ho']. exists o'. eapply rs_link; eauto.
      * destruct rest as [|m rest]; [exists Missing; eapply rs_link_missing; eauto|].
        exists Dead. eapply rs_link_dead; eauto.
      * exists Dead. eapply rs_link_fails; eauto. cbn; auto.
      * exists NotDir. eapply rs_link_fails; eauto. cbn; auto.
      * exists Loop. eapply rs_link_fails; eauto. cbn; auto.
      * exists BadLink. eapply rs_link_fails; eauto. cbn; auto.
    + exists BadLink. eapply rs_badlink; eauto. apply addr_none. 
      unfold mem_path in *. destruct (u_path target); [congruence|]. destruct (N.eqb n0 cSlash); congruence.
Qed.

End R.
