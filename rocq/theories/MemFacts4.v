(** The operations of the memory backend, in terms of the tree. *)
From Verif Require Import Str Exc Utf8 UriParse BaseUri StrFacts Mem SpecUri SpecMem MemFacts MemFacts2 MemFacts3.

Lemma same_rest_refl s : same_rest s s.
Proof. repeat split. Qed.
Lemma same_rest_trans a b c : same_rest a b -> same_rest b c -> same_rest a c.
Proof. unfold same_rest. intuition congruence. Qed.

Lemma not_found o : (forall q, o <> Found q) -> forall h throw, res_of h throw o = Raise (err_of o) \/ throw = false.
Proof. intros H h throw. destruct throw; auto. left. destruct o; cbn; auto. now destruct (H q). Qed.
Lemma res_throw h o : (forall q, o <> Found q) -> res_of h true o = Raise (err_of o).
Proof. intros H. destruct o; cbn; auto. now destruct (H q). Qed.
Lemma outcome_cases o : (exists q, o = Found q) \/ (forall q, o <> Found q).
Proof. destruct o; [left; eauto|right; intros q; discriminate..]. Qed.

Section O.
Variable s : mst.
Hypothesis W : wf s.
Local Notation h := (m_heap s).
Local Notation t := (view s).

Lemma run_lookup_found u cs q :
  addr u cs -> leads t cs (Found q) ->
  exists i, phys h root_id q = Some i /\ lookup_node u true s = (Ok i, s) /\ i < m_next s /\ is_link (h i) = false.
Proof.
  intros A R. destruct (leads_phys _ _ W _ _ R) as (i & P & L & B). exists i. repeat split; auto.
  unfold lookup_node, lookup, bind. rewrite (lookup_spec _ _ W true _ _ _ A R). cbn [res_of]. now rewrite P.
Qed.
Lemma run_lookup_fail u cs o :
  addr u cs -> leads t cs o -> (forall q, o <> Found q) -> lookup_node u true s = (Raise (err_of o), s).
Proof.
  intros A R N. unfold lookup_node, lookup, bind. rewrite (lookup_spec _ _ W true _ _ _ A R). now rewrite res_throw.
Qed.
Lemma run_lookup_bad u f : (forall cs, ~ addr u cs) -> lookup_node u f s = (Raise AssertionError, s).
Proof. intros H. unfold lookup_node, lookup, bind. now rewrite lookup_bad. Qed.

(** Without following the last link. *)
Lemma nofollow_eq u init n throw :
  addr u (init ++ [n]) -> get_node_for_path h throw u false = rmap snd (get_node_prev h throw (init ++ [n]) false).
Proof.
  intros A. unfold get_node_for_path.
  assert (X : exists p, mem_path u = Ok p /\ p <> [] /\ steps_of p = init ++ [n]).
  { apply addr_path in A as (p & P & [[_ E]|[Hp E]]); [now destruct init|eauto]. }
  destruct X as (p & P & Hp & E). rewrite P. cbn [rbind]. destruct p; [easy|]. rewrite E.
  unfold get_node. apply rmap_bind.
Qed.
Lemma nofollow_found u init n d throw :
  addr u (init ++ [n]) -> fresh_last t init n -> leads t init (Found d) -> is_edir (t d) ->
  get_node_for_path h throw u false
  = match phys h root_id (d ++ [n]) with
    | Some j => Ok (Some j)
    | None => if throw then Raise (OSError ENOENT) else Ok None
    end.
Proof.
  intros A N R Hd. rewrite (nofollow_eq _ _ _ _ A). destruct (leads_phys _ _ W _ _ R) as (i & P & L & B).
  destruct (tree_dir _ _ _ P Hd) as (es & mt & mo & E).
  rewrite (prev_entry _ _ W false throw init n d i es mt mo); auto.
  destruct (tree_snoc _ _ _ _ _ _ n P E) as [_ ->]. destruct (dget n es) as [j|] eqn:G; [|now destruct throw].
  rewrite (child_plain _ throw max_links i es mt mo n j false); auto.
Qed.
Lemma nofollow_notdir u init n d throw :
  addr u (init ++ [n]) -> fresh_last t init n -> leads t init (Found d) -> ~ is_edir (t d) ->
  get_node_for_path h throw u false = Raise AttributeError.
Proof.
  intros A N R Hd. rewrite (nofollow_eq _ _ _ _ A). destruct (leads_phys _ _ W _ _ R) as (i & P & L & B).
  rewrite (prev_notdir _ _ W false throw init n d i); auto.
  destruct (h i) eqn:E; auto. exfalso. apply Hd. eapply dir_tree; eauto.
Qed.
Lemma nofollow_fail u init n o o' throw :
  addr u (init ++ [n]) -> fresh_last t init n -> leads t init o -> (forall d, o <> Found d) -> leads t (init ++ [n]) o' ->
  get_node_for_path h throw u false = res_of h throw o'.
Proof.
  intros A N R F R'. rewrite (nofollow_eq _ _ _ _ A). rewrite (prev_fail _ _ W false throw init n o); auto.
  rewrite <- (get_node_spec _ _ W throw _ _ R'). unfold get_node. symmetry. apply rmap_bind.
Qed.

(** The parent directory of a new entry. *)
Lemma addr_snoc_path u init n :
  addr u (init ++ [n]) -> exists p, mem_path u = Ok p /\ p <> [] /\ steps_of p = init ++ [n].
Proof. intros A. apply addr_path in A as (p & P & [[_ E]|[Hp E]]); [now destruct init|eauto]. Qed.
Lemma run_parent p init n o :
  steps_of p = init ++ [n] -> leads t init o ->
  parent_node p s = (rlet x <- res_of h true o; need x, s).
Proof.
  intros E R. unfold parent_node, bind. rewrite E, removelast_last.
  rewrite (get_node_spec _ _ W true _ _ R). now destruct (res_of h true o).
Qed.

(** *** Tests *)
Definition quiet (f : node -> bool) (o : outcome) : res bool :=
  match o with
  | Found q => match phys h root_id q with Some i => Ok (f (h i)) | None => Ok false end
  | Missing | Loop => Ok false
  | Dead | NotDir => Raise AttributeError
  | BadLink => Raise AssertionError
  end.
Lemma run_quiet u cs o (f : node -> bool) (b : bool) :
  addr u cs -> leads t cs o ->
  match get_node_for_path h false u true with
  | Ok None => (Ok false, s)
  | Ok (Some i) => (Ok (f (h i)), s)
  | Raise (OSError ELOOP) => (Ok false, s)
  | Raise (OSError _) => (Ok b, s)
  | Raise e => (Raise e, s)
  end = (quiet f o, s).
Proof.
  intros A R. rewrite (lookup_spec _ _ W false _ _ _ A R).
  destruct o; cbn; try reflexivity. destruct (leads_phys _ _ W _ _ R) as (i & P & L & B). now rewrite P.
Qed.
Lemma root_found : leads t [] (Found []).
Proof. constructor. Qed.
Lemma addr_nil_or u cs : addr u cs -> (cs = [] /\ mem_path u = Ok []) \/ (cs <> [] /\ exists c p, mem_path u = Ok (c :: p)).
Proof.
  intros A. apply addr_path in A as (p & P & [[-> ->]|[Hp E]]); auto.
  right. destruct p; [easy|]. split; [|eauto]. intros ->. symmetry in E. now apply split_on_nonnil in E.
Qed.
Lemma leads_root o : leads t [] o -> o = Found [].
Proof. intros H. inversion H. reflexivity. Qed.

Lemma isdir_spec u cs o : addr u cs -> leads t cs o -> mem_isdir u s = (quiet is_dir o, s).
Proof.
  intros A R. unfold mem_isdir. destruct (addr_nil_or _ _ A) as [[-> P]|(N & c & p & P)]; unfold bind, lift; rewrite P.
  - apply leads_root in R as ->. cbn. destruct (wf_root _ _ W) as (es & mt & mo & E). now rewrite E.
  - eapply run_quiet; eauto.
Qed.
Lemma isfile_spec u cs o : addr u cs -> leads t cs o -> mem_isfile u s = (quiet is_file o, s).
Proof.
  intros A R. unfold mem_isfile. destruct (addr_nil_or _ _ A) as [[-> P]|(N & c & p & P)]; unfold bind, lift; rewrite P.
  - apply leads_root in R as ->. cbn. destruct (wf_root _ _ W) as (es & mt & mo & E). now rewrite E.
  - eapply run_quiet; eauto.
Qed.
Lemma exists_spec u cs o : addr u cs -> leads t cs o -> mem_exists u s = (quiet (fun _ => true) o, s).
Proof.
  intros A R. unfold mem_exists. destruct (addr_nil_or _ _ A) as [[-> P]|(N & c & p & P)]; unfold bind, lift; rewrite P.
  - apply leads_root in R as ->. reflexivity.
  - exact (run_quiet u cs o (fun _ => true) true A R).
Qed.
Lemma tests_bad u : (forall cs, ~ addr u cs) ->
  mem_isdir u s = (Raise AssertionError, s) /\ mem_isfile u s = (Raise AssertionError, s) /\
  mem_exists u s = (Raise AssertionError, s) /\ mem_islink u s = (Raise AssertionError, s).
Proof.
  intros H. apply addr_none in H. unfold mem_isdir, mem_isfile, mem_exists, mem_islink, bind, lift. now rewrite H.
Qed.

Definition entry_is_link (o : option entry) : bool := match o with Some (ELink _ _ _) => true | _ => false end.
Lemma islink_root u : addr u [] -> mem_islink u s = (Ok false, s).
Proof. intros A. apply addr_nil in A. unfold mem_islink, bind, lift. now rewrite A. Qed.
Lemma islink_run u init n : addr u (init ++ [n]) ->
  mem_islink u s = (match get_node_for_path h false u false with
                    | Ok None => Ok false
                    | Ok (Some i) => Ok (is_link (h i))
                    | Raise e => Raise e
                    end, s).
Proof.
  intros A. destruct (addr_snoc_path _ _ _ A) as (p & P & Hp & E). unfold mem_islink, bind, lift. rewrite P.
  destruct p; [easy|]. unfold lookup. destruct (get_node_for_path h false u false) as [[i|]|]; reflexivity.
Qed.
Lemma islink_found u init n d :
  addr u (init ++ [n]) -> fresh_last t init n -> leads t init (Found d) -> is_edir (t d) ->
  mem_islink u s = (Ok (entry_is_link (t (d ++ [n]))), s).
Proof.
  intros A N R Hd. rewrite (islink_run _ _ _ A), (nofollow_found _ _ _ _ false A N R Hd).
  unfold t, view, tree_of. destruct (phys h root_id (d ++ [n])) as [j|]; cbn; auto. now destruct (h j).
Qed.
Lemma islink_notdir u init n d :
  addr u (init ++ [n]) -> fresh_last t init n -> leads t init (Found d) -> ~ is_edir (t d) ->
  mem_islink u s = (Raise AttributeError, s).
Proof. intros A N R Hd. now rewrite (islink_run _ _ _ A), (nofollow_notdir _ _ _ _ false A N R Hd). Qed.
Lemma islink_fail u init n o o' :
  addr u (init ++ [n]) -> fresh_last t init n -> leads t init o -> (forall d, o <> Found d) -> leads t (init ++ [n]) o' ->
  mem_islink u s = (match o' with Missing => Ok false | Dead => Raise AttributeError | _ => Raise (err_of o') end, s).
Proof.
  intros A N R F R'. rewrite (islink_run _ _ _ A), (nofollow_fail _ _ _ _ _ false A N R F R').
  destruct o' as [q| | | | |]; try reflexivity. exfalso.
  (* a path below something not found is not found *)
  assert (X := get_node_spec _ _ W true _ _ R'). unfold get_node, get_node_prev in X. rewrite last_snoc, loop_app in X.
  assert (Y := steps_resolve _ _ W true max_links _ _ _ R n None root_id eq_refl (real_root _ _ W)).
  rewrite (res_throw _ _ F) in Y.
  destruct (steps_loop h true (child h true max_links) true n None (Some root_id) init); [discriminate|]. cbn in X, Y.
  destruct (leads_phys _ _ W _ _ R') as (i & P & _). rewrite P in X. discriminate.
Qed.
Lemma leads_prefix init n q : leads t (init ++ [n]) (Found q) -> exists d, leads t init (Found d) /\ is_edir (t d).
Proof.
  intros R'. destruct (leads_total h init) as [o R].
  assert (X := get_node_spec _ _ W true _ _ R'). unfold get_node, get_node_prev in X. rewrite last_snoc, loop_app in X.
  assert (Y := steps_resolve _ _ W true max_links _ _ _ R n None root_id eq_refl (real_root _ _ W)).
  destruct (leads_phys _ _ W _ _ R') as (i & P & _). cbn [res_of] in X. rewrite P in X.
  destruct (outcome_cases o) as [[d ->]|F].
  - exists d. split; auto. destruct (leads_phys _ _ W _ _ R) as (j & Pj & _). cbn [res_of] in Y. rewrite Pj in Y.
    destruct (steps_loop h true (child h true max_links) true n None (Some root_id) init) as [[pp cc]|]; [|discriminate Y].
    cbn in Y. injection Y as ->.
    destruct (h j) eqn:E; [exfalso| |exfalso].
    + destruct pp; cbn in X; rewrite E in X; discriminate.
    + eapply dir_tree; eauto.
    + destruct pp; cbn in X; rewrite E in X; discriminate.
  - rewrite (res_throw _ _ F) in Y.
    destruct (steps_loop h true (child h true max_links) true n None (Some root_id) init); [discriminate|]. discriminate.
Qed.
End O.
