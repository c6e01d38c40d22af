(** Removing entries, attributes, listings. *)
From Verif Require Import Str Exc Utf8 UriParse BaseUri StrFacts Mem SpecUri SpecMem MemFacts MemFacts2 MemFacts3 MemFacts4 MemFacts5.
From Coq Require Import Sorted.

Definition nonempty (x : str) : bool := match x with [] => false | _ => true end.
Lemma filter_id {A} (f : A -> bool) l : Forall (fun x => f x = true) l -> filter f l = l.
Proof. induction 1; cbn; auto. rewrite H. now f_equal. Qed.
Lemma nonempty_steps_addr u cs p : addr u cs -> mem_path u = Ok p -> nonempty_steps p = filter nonempty cs.
Proof.
  intros A P. apply addr_path in A as (p' & P' & H). rewrite P in P'. injection P' as <-.
  destruct H as [[-> ->]|[_ ->]]; reflexivity.
Qed.
Lemma proper_filter cs : Forall (fun c => c <> []) cs -> filter nonempty cs = cs.
Proof. intros H. apply filter_id. eapply Forall_impl; [|exact H]. now intros [|]. Qed.
Lemma regular_steps t u cs p : regular t u cs -> mem_path u = Ok p -> nonempty_steps p = cs.
Proof. intros [A N _] P. rewrite (nonempty_steps_addr _ _ _ A P). now apply proper_filter. Qed.
Lemma regular_path t u cs : regular t u cs -> exists p, mem_path u = Ok p /\ nonempty_steps p = cs.
Proof.
  intros R. assert (A := rg_addr _ _ _ R). apply addr_path in A as (p & P & _). exists p. split; auto.
  eapply regular_steps; eauto.
Qed.

Section O.
Variable s : mst.
Hypothesis W : wf s.
Local Notation h := (m_heap s).
Local Notation t := (view s).

Lemma run_del i n es mt mo :
  h i = NDir es mt mo -> dhas n es = true -> del_child i n s = (Ok tt, deleted s i n es mt mo).
Proof. intros E H. unfold del_child, bind, get_node_obj. now rewrite E, H. Qed.
Lemma deleted_spec d i n es mt mo :
  phys h root_id d = Some i -> h i = NDir es mt mo ->
  wf (deleted s i n es mt mo) /\ cut_at t (view (deleted s i n es mt mo)) (d ++ [n]) /\
  same_rest s (deleted s i n es mt mo) /\ files_kept s (deleted s i n es mt mo).
Proof.
  intros P E. assert (Hi := phys_root_lt _ _ _ _ W P). split; [|split; [|split; [|split]]]; cbn.
  - eapply wfh_del; eauto.
  - eapply tree_del; eauto.
  - repeat split.
  - lia.
  - intros j Hj Hd. rewrite heap_set_other; auto. intros ->. now rewrite E in Hd.
Qed.

(** The directory is not found. *)
Lemma prev_noplace f throw init n e :
  (exists d, e = AttributeError /\ leads t init (Found d) /\ ~ is_edir (t d)) \/
  (exists o, e = err_of o /\ leads t init o /\ forall d, o <> Found d) ->
  (f = true \/ fresh_last t init n) -> throw = true ->
  get_node_prev h throw (init ++ [n]) f = Raise e.
Proof.
  intros H F ->. destruct H as [(d & -> & R & Hd)|(o & -> & R & N)].
  - destruct (leads_phys _ _ W _ _ R) as (i & P & L & B).
    rewrite (prev_notdir _ _ W f true init n d i); auto. destruct (h i) eqn:E; auto. exfalso. apply Hd. eapply dir_tree; eauto.
  - rewrite (prev_fail _ _ W f true init n o); auto. unfold get_node_prev. rewrite last_snoc, loop_app.
    assert (Y := steps_resolve _ _ W true max_links _ _ _ R n None root_id eq_refl (real_root _ _ W)).
    rewrite (res_throw _ _ N) in Y.
    destruct (steps_loop h true (child h true max_links) true n None (Some root_id) init); [discriminate|].
    cbn in Y. congruence.
Qed.

Ltac inv_place H := inversion H as [A|init n d A R Hd Hn|init n d A R Hd Hn|init n d A R Hd|init n o A R N|B]; subst.
Lemma same_snoc u cs init n : regular t u cs -> addr u (init ++ [n]) -> cs = init ++ [n] /\ fresh_last t init n /\ u_last u = n.
Proof.
  intros Rg A. assert (E : cs = init ++ [n]) by (eapply addr_inj; [apply Rg|exact A]). subst. split; auto.
  now apply (rg_last _ _ _ Rg).
Qed.

Lemma removefile_taken u cs p :
  regular t u cs -> place t u (Taken p) ->
  exists s', mem_removefile u s = (Ok tt, s') /\ wf s' /\ cut_at t (view s') p /\ same_rest s s' /\ files_kept s s'.
Proof.
  intros Rg Pl. inv_place Pl. destruct (same_snoc _ _ _ _ Rg A) as (-> & Hn1 & Hl).
  destruct (regular_path _ _ _ Rg) as (p & P & E).
  destruct (place_dir s W init n d R Hd) as (i & es & mt & mo & Pi & F & B & T1 & T2).
  unfold mem_removefile, bind, lift. rewrite P, E. rewrite (prev_entry _ _ W false true init n d i es mt mo); auto.
  rewrite T2 in Hn. destruct (dget n es) as [j|] eqn:G; [|easy].
  rewrite (child_plain _ true max_links i es mt mo n j false); auto. cbn [rbind fst]. rewrite Hl.
  assert (Hh : dhas n es = true) by (unfold dhas; now rewrite G).
  exists (deleted s i n es mt mo). split; [now apply run_del|]. now apply deleted_spec.
Qed.
Lemma removefile_top u : addr u [] -> mem_removefile u s = (Ok tt, s).
Proof. intros A. apply addr_nil in A. unfold mem_removefile, bind, lift. now rewrite A. Qed.
Lemma removefile_free u cs p : regular t u cs -> place t u (Free p) -> mem_removefile u s = (Raise (OSError ENOENT), s).
Proof.
  intros Rg Pl. inv_place Pl. destruct (same_snoc _ _ _ _ Rg A) as (-> & Hn1 & Hl).
  destruct (regular_path _ _ _ Rg) as (p & P & E).
  destruct (place_dir s W init n d R Hd) as (i & es & mt & mo & Pi & F & B & T1 & T2).
  unfold mem_removefile, bind, lift. rewrite P, E. rewrite (prev_entry _ _ W false true init n d i es mt mo); auto.
  rewrite T2 in Hn. destruct (dget n es) as [j|] eqn:G; easy.
Qed.
Lemma removefile_noplace u cs e : regular t u cs -> place t u (NoPlace e) -> mem_removefile u s = (Raise e, s).
Proof.
  intros Rg Pl. inv_place Pl.
  - destruct (same_snoc _ _ _ _ Rg A) as (-> & Hn1 & Hl). destruct (regular_path _ _ _ Rg) as (p & P & E). unfold mem_removefile, bind, lift. rewrite P, E.
    rewrite (prev_noplace false true init n AttributeError); eauto 8.
  - destruct (same_snoc _ _ _ _ Rg A) as (-> & Hn1 & Hl). destruct (regular_path _ _ _ Rg) as (p & P & E). unfold mem_removefile, bind, lift. rewrite P, E.
    rewrite (prev_noplace false true init n (err_of o)); eauto 8.
  - exfalso. eapply B. apply Rg.
Qed.

Lemma empty_dir q i es mt mo : phys h root_id q = Some i -> h i = NDir es mt mo -> (es = [] <-> forall m, t (q ++ [m]) = None).
Proof.
  intros P E. split.
  - intros -> m. change (tree_of h (q ++ [m]) = None). now destruct (tree_snoc _ _ _ _ _ _ m P E) as [-> _].
  - intros H. destruct es as [|[m j] es]; auto. specialize (H m).
    destruct (tree_snoc _ _ _ _ _ _ m P E) as [T _]. change (tree_of h (q ++ [m]) = None) in H. rewrite T in H.
    cbn in H. now rewrite str_eqb_refl in H.
Qed.

Lemma run_removedir u cs init n d i es mt mo j o :
  regular t u cs -> addr u (init ++ [n]) -> leads t init (Found d) ->
  phys h root_id d = Some i -> h i = NDir es mt mo -> dget n es = Some j -> leads t (init ++ [n]) o ->
  mem_removedir u s =
  match res_of h true o with
  | Ok (Some q) => match h q with
                   | NDir [] _ _ => (Ok tt, deleted s i n es mt mo)
                   | NDir _ _ _ => (Raise (OSError ENOTEMPTY), s)
                   | _ => (Raise AttributeError, s)
                   end
  | Ok None => (Raise AttributeError, s)
  | Raise e => (Raise e, s)
  end.
Proof.
  intros Rg A R P E G R2. destruct (same_snoc _ _ _ _ Rg A) as (-> & Hn1 & Hl).
  destruct (regular_path _ _ _ Rg) as (p & Pp & Es). unfold mem_removedir, bind, lift. rewrite Pp, Es.
  rewrite (prev_entry _ _ W true true init n d i es mt mo); auto. rewrite G.
  rewrite (child_follow _ _ W true init n d i es mt mo j o); auto.
  destruct (res_of h true o) as [[q|]|] eqn:RO; cbn [rbind fst].
  - rewrite Hl. rewrite (child_follow _ _ W true init n d i es mt mo j o); auto. rewrite RO. cbn [need].
    unfold get_node_obj. destruct (h q) as [|[|] ? ?|]; auto.
    apply run_del; auto. unfold dhas. now rewrite G.
  - exfalso. destruct o; try discriminate. destruct (leads_phys _ _ W _ _ R2) as (z & Pz & _).
    cbn in RO. congruence.
  - reflexivity.
Qed.
Lemma removedir_empty u cs p q :
  regular t u cs -> place t u (Taken p) -> leads t cs (Found q) -> is_edir (t q) -> (forall m, t (q ++ [m]) = None) ->
  exists s', mem_removedir u s = (Ok tt, s') /\ wf s' /\ cut_at t (view s') p /\ same_rest s s' /\ files_kept s s'.
Proof.
  intros Rg Pl Rq Hq He. inv_place Pl. destruct (same_snoc _ _ _ _ Rg A) as (-> & Hn1 & Hl).
  destruct (place_dir s W init n d R Hd) as (i & es & mt & mo & Pi & F & B & T1 & T2).
  rewrite T2 in Hn. destruct (dget n es) as [j|] eqn:G; [|easy].
  rewrite (run_removedir u (init ++ [n]) init n d i es mt mo j (Found q)); auto.
  destruct (leads_phys _ _ W _ _ Rq) as (z & Pz & Lz & Bz). cbn [res_of]. rewrite Pz.
  destruct (tree_dir _ _ _ Pz Hq) as (es' & mt' & mo' & E'). rewrite E'.
  rewrite (proj2 (empty_dir q z es' mt' mo' Pz E') He).
  exists (deleted s i n es mt mo). split; auto. now apply deleted_spec.
Qed.
Lemma removedir_full u cs p q m :
  regular t u cs -> place t u (Taken p) -> leads t cs (Found q) -> is_edir (t q) -> t (q ++ [m]) <> None ->
  mem_removedir u s = (Raise (OSError ENOTEMPTY), s).
Proof.
  intros Rg Pl Rq Hq He. inv_place Pl. destruct (same_snoc _ _ _ _ Rg A) as (-> & Hn1 & Hl).
  destruct (place_dir s W init n d R Hd) as (i & es & mt & mo & Pi & F & B & T1 & T2).
  rewrite T2 in Hn. destruct (dget n es) as [j|] eqn:G; [|easy].
  rewrite (run_removedir u (init ++ [n]) init n d i es mt mo j (Found q)); auto.
  destruct (leads_phys _ _ W _ _ Rq) as (z & Pz & Lz & Bz). cbn [res_of]. rewrite Pz.
  destruct (tree_dir _ _ _ Pz Hq) as (es' & mt' & mo' & E'). rewrite E'.
  destruct es'; auto. exfalso. apply He. now apply (proj1 (empty_dir q z [] mt' mo' Pz E')).
Qed.
Lemma removedir_top u : addr u [] -> mem_removedir u s = (Ok tt, s).
Proof. intros A. apply addr_nil in A. unfold mem_removedir, bind, lift. now rewrite A. Qed.
(** Anything else raises and changes nothing. *)
Lemma removedir_raise u cs :
  regular t u cs -> forall e s', mem_removedir u s = (Raise e, s') -> s' = s.
Proof.
  intros Rg e s'. destruct (regular_path _ _ _ Rg) as (p & P & E). unfold mem_removedir, bind, lift. rewrite P, E.
  destruct (get_node_prev h true cs true) as [[[i|] c]|]; cbn [fst]; try congruence.
  - destruct (child h true max_links i (u_last u) true) as [[j|]|] eqn:G; cbn [need]; try congruence.
    unfold get_node_obj. destruct (h j) as [|[|] ? ?|]; unfold raise; try congruence.
    unfold del_child, bind, get_node_obj. destruct (h i); unfold raise; try congruence.
    destruct (dhas (u_last u) entries); unfold upd; congruence.
  - unfold ret. congruence.
Qed.

(** *** Listing *)
Lemma listdir_run u cs o p : addr u cs -> mem_path u = Ok p -> leads t (filter nonempty cs) o ->
  mem_listdir u s = match res_of h true o with
                    | Ok (Some i) => match h i with
                                     | NDir es _ _ => (Ok (sort_strs (map fst es)), s)
                                     | _ => (Raise AttributeError, s)
                                     end
                    | Ok None => (Raise AttributeError, s)
                    | Raise e => (Raise e, s)
                    end.
Proof.
  intros A P R. unfold mem_listdir, bind, lift. rewrite P, (nonempty_steps_addr _ _ _ A P).
  rewrite (get_node_spec _ _ W true _ _ R). destruct (res_of h true o) as [[i|]|]; auto. cbn [need].
  unfold get_node_obj. destruct (h i); reflexivity.
Qed.
Lemma listdir_spec u cs q :
  addr u cs -> leads t (filter nonempty cs) (Found q) -> is_edir (t q) ->
  exists l, mem_listdir u s = (Ok l, s) /\ StronglySorted slt l /\ forall n, In n l <-> t (q ++ [n]) <> None.
Proof.
  intros A R Hq. assert (A' := A). apply addr_path in A' as (p & P & _). rewrite (listdir_run _ _ _ _ A P R).
  destruct (leads_phys _ _ W _ _ R) as (i & Pi & L & B). cbn [res_of]. rewrite Pi.
  destruct (tree_dir _ _ _ Pi Hq) as (es & mt & mo & E). rewrite E. eexists. split; [reflexivity|]. split.
  - apply sort_strict. eapply wf_names; eauto.
  - intros n. rewrite sort_In. destruct (tree_snoc _ _ _ _ _ _ n Pi E) as [T _].
    unfold view. rewrite T. rewrite <- dhas_In. unfold dhas. destruct (dget n es); cbn; intuition easy.
Qed.
Lemma listdir_fail u cs o :
  addr u cs -> leads t (filter nonempty cs) o -> (forall q, o <> Found q) -> mem_listdir u s = (Raise (err_of o), s).
Proof.
  intros A R N. assert (A' := A). apply addr_path in A' as (p & P & _). rewrite (listdir_run _ _ _ _ A P R).
  now rewrite res_throw.
Qed.
Lemma listdir_file u cs q :
  addr u cs -> leads t (filter nonempty cs) (Found q) -> ~ is_edir (t q) -> mem_listdir u s = (Raise AttributeError, s).
Proof.
  intros A R Hq. assert (A' := A). apply addr_path in A' as (p & P & _). rewrite (listdir_run _ _ _ _ A P R).
  destruct (leads_phys _ _ W _ _ R) as (i & Pi & L & B). cbn [res_of]. rewrite Pi.
  destruct (h i) eqn:E; auto. exfalso. apply Hq. eapply dir_tree; eauto.
Qed.

(** *** Attributes *)
Lemma entry_at_run u f q : entry_at t u f q ->
  exists i, phys h root_id q = Some i /\ lookup_node u f s = (Ok i, s) /\ i < m_next s.
Proof.
  intros H. inversion H as [q' (cs & A & R)|cs q' Rg Pl|A]; subst.
  - destruct (run_lookup_found s W u cs q A R) as (i & P & L & B & _). eauto.
  - inv_place Pl. destruct (same_snoc _ _ _ _ Rg A) as (-> & Hn1 & Hl).
    destruct (place_dir s W init n d R Hd) as (i & es & mt & mo & Pi & F & B & T1 & T2).
    rewrite T2 in Hn. destruct (dget n es) as [j|] eqn:G; [|easy]. exists j. split; [auto|]. split.
    + unfold lookup_node, lookup, bind. rewrite (nofollow_found s W u init n d true A Hn1 R Hd). now rewrite T1.
    + eapply phys_root_lt; eauto.
  - exists root_id. split; auto. split; [|apply W]. apply addr_nil in A.
    unfold lookup_node, lookup, bind, get_node_for_path. now rewrite A.
Qed.
Lemma entry_at_view u f q : entry_at t u f q -> t q <> None.
Proof.
  intros H. apply entry_at_run in H as (i & P & _). unfold view, tree_of. now rewrite P.
Qed.

Lemma set_attrs_entries n mt mo : dir_entries (set_attrs n mt mo) = dir_entries n.
Proof. now destruct n. Qed.
Lemma set_attrs_entry n mt mo : entry_of (set_attrs n mt mo) = with_attrs (entry_of n) mt mo.
Proof. now destruct n. Qed.
Lemma view_node q i : phys h root_id q = Some i -> t q = Some (entry_of (h i)).
Proof. intros P. unfold view, tree_of. now rewrite P. Qed.
Lemma node_attrs n : node_mtime n = e_mtime (entry_of n) /\ node_mode n = e_mode (entry_of n) /\ node_size n = e_size (entry_of n).
Proof. now destruct n. Qed.

Lemma upd_attrs q i mt mo :
  phys h root_id q = Some i ->
  exists s', upd i (set_attrs (h i) mt mo) s = (Ok tt, s') /\ wf s' /\
    put_at t (view s') q (with_attrs (entry_of (h i)) mt mo) /\ same_rest s s' /\ m_next s' = m_next s /\
    (forall j, j <> i -> m_heap s' j = h j).
Proof.
  intros P. assert (B := phys_root_lt _ _ _ _ W P). eexists. split; [reflexivity|]. split; [|split; [|split; [|split]]]; cbn.
  - apply wfh_set; auto. apply set_attrs_entries.
  - rewrite <- set_attrs_entry. eapply tree_set; eauto. apply set_attrs_entries.
  - repeat split.
  - reflexivity.
  - intros j Hj. now apply heap_set_other.
Qed.

Lemma info_spec u f q e : entry_at t u f q -> t q = Some e ->
  mem_info u f s = (Ok (mkBunch (e_mtime e) (e_mode e) (e_size e)), s).
Proof.
  intros H He. destruct (entry_at_run _ _ _ H) as (i & P & L & B). rewrite (view_node _ _ P) in He. injection He as <-.
  unfold mem_info, bind. rewrite L. unfold get_node_obj, ret. destruct (node_attrs (h i)) as (-> & -> & ->). reflexivity.
Qed.
Lemma set_info_spec u f q e mode mtime : entry_at t u f q -> t q = Some e ->
  exists s', mem_set_info u mode mtime f s = (Ok tt, s') /\ wf s' /\ same_rest s s' /\
    put_at t (view s') q (with_attrs e (match mtime with Some x => x | None => e_mtime e end)
                                       (match mode with Some x => x | None => e_mode e end)).
Proof.
  intros H He. destruct (entry_at_run _ _ _ H) as (i & P & L & B). rewrite (view_node _ _ P) in He. injection He as <-.
  unfold mem_set_info, bind. rewrite L. unfold get_node_obj. destruct (node_attrs (h i)) as (-> & -> & _).
  edestruct (upd_attrs q i) as (s' & E & X1 & X2 & X3 & _); eauto 6.
Qed.
Lemma mtime_spec u q e : denotes t u (Found q) -> t q = Some e -> mem_mtime u s = (Ok (e_mtime e), s).
Proof.
  intros H He. destruct (entry_at_run _ _ _ (ea_follow _ _ _ H)) as (i & P & L & B). rewrite (view_node _ _ P) in He. injection He as <-.
  unfold mem_mtime, bind. rewrite L. unfold get_node_obj, ret. now destruct (node_attrs (h i)) as (-> & _ & _).
Qed.
Lemma copystat_spec u v q r e e' : denotes t u (Found q) -> denotes t v (Found r) -> t q = Some e -> t r = Some e' ->
  exists s', mem_copystat u v s = (Ok tt, s') /\ wf s' /\ same_rest s s' /\
    put_at t (view s') r (with_attrs e' (e_mtime e) (e_mode e)).
Proof.
  intros H H' He He'. destruct (entry_at_run _ _ _ (ea_follow _ _ _ H)) as (i & P & L & B).
  destruct (entry_at_run _ _ _ (ea_follow _ _ _ H')) as (j & P' & L' & B').
  rewrite (view_node _ _ P) in He. injection He as <-. rewrite (view_node _ _ P') in He'. injection He' as <-.
  unfold mem_copystat, bind. rewrite L, L'. unfold get_node_obj. destruct (node_attrs (h i)) as (-> & -> & _).
  edestruct (upd_attrs r j) as (s' & E & X1 & X2 & X3 & _); eauto 6.
Qed.
(** Attribute operations on something not found. *)
Lemma attrs_fail u cs o : addr u cs -> leads t cs o -> (forall q, o <> Found q) ->
  mem_info u true s = (Raise (err_of o), s) /\ mem_mtime u s = (Raise (err_of o), s) /\
  forall mode mtime, mem_set_info u mode mtime true s = (Raise (err_of o), s).
Proof.
  intros A R N. assert (L := run_lookup_fail s W u cs o A R N).
  repeat split; intros; unfold mem_info, mem_mtime, mem_set_info, bind; now rewrite L.
Qed.
End O.
