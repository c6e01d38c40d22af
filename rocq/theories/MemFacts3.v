(** Lookups of URIs: with and without following the last link, and of the parent directory. *)
From Verif Require Import Str Exc Utf8 UriParse BaseUri StrFacts Mem SpecUri SpecMem MemFacts MemFacts2.

Section L.
Variables (h : nat -> node) (throw : bool).
Variable ch : nat -> str -> bool -> res (option nat).

Lemma loop_app f l prev c a b :
  steps_loop h throw ch f l prev (Some c) (a ++ b)
  = match steps_loop h throw ch f l prev (Some c) a with
    | Ok (None, None) => Ok (None, None)
    | Ok (p, c') => steps_loop h throw ch f l p c' b
    | Raise e => Raise e
    end.
Proof.
  revert prev c; induction a as [|x a IH]; intros prev c; [now destruct prev|].
  cbn [app steps_loop]. destruct (h c); auto. destruct (dhas x entries); [|now destruct throw].
  destruct (ch c x _) as [[c'|]|e]; cbn [rbind]; auto.
  destruct a as [|y a]; cbn [app steps_loop]; auto.
Qed.
Lemma loop_follow f l l' prev cur a :
  ~ In l a -> steps_loop h throw ch f l prev cur a = steps_loop h throw ch true l' prev cur a.
Proof.
  revert prev cur; induction a as [|x a IH]; intros prev cur Hl; auto. cbn [steps_loop].
  destruct cur; auto. destruct (h n); auto. destruct (dhas x entries); auto.
  assert (E : str_eqb x l = false) by (apply str_eqb_neq; intros ->; apply Hl; now left).
  rewrite E, same_if. destruct (ch n x true); auto. cbn [rbind]. apply IH. intros H. apply Hl. now right.
Qed.
Lemma loop_last l l' prev cur a :
  steps_loop h throw ch true l prev cur a = steps_loop h throw ch true l' prev cur a.
Proof.
  revert prev cur; induction a as [|x a IH]; intros prev cur; auto. cbn [steps_loop].
  destruct cur; auto. destruct (h n); auto. destruct (dhas x entries); auto.
  rewrite !same_if. destruct (ch n x true); auto. cbn [rbind]. apply IH.
Qed.
End L.

Lemma last_snoc (l : list str) x : last (l ++ [x]) [] = x.
Proof. apply last_last. Qed.

Section R.
Variables (h : nat -> node) (next : nat).
Hypothesis W : wfh h next.
Let t := tree_of h.

Lemma res_found throw o i : res_of h throw o = Ok (Some i) -> exists q, o = Found q /\ phys h root_id q = Some i.
Proof. destruct o; cbn; try discriminate; try (destruct throw; discriminate). intros [= H]. eauto. Qed.

Lemma get_node_spec throw cs o : leads t cs o -> get_node h throw cs true = res_of h throw o.
Proof.
  intros R. unfold get_node, get_node_prev. rewrite rmap_bind.
  eapply steps_resolve; eauto. apply real_root with (next := next); auto.
Qed.
Lemma lookup_spec throw u cs o : addr u cs -> leads t cs o -> get_node_for_path h throw u true = res_of h throw o.
Proof.
  intros A R. unfold get_node_for_path. destruct cs as [|c cs].
  - apply addr_nil in A. rewrite A. cbn [rbind]. unfold leads in R. inversion R; subst. reflexivity.
  - apply addr_cons in A as (p & P & Hp & S). rewrite P. cbn [rbind]. destruct p as [|x p]; [easy|].
    rewrite S. now apply get_node_spec.
Qed.
Lemma lookup_bad throw u f : (forall cs, ~ addr u cs) -> get_node_for_path h throw u f = Raise AssertionError.
Proof. intros H. apply addr_none in H. unfold get_node_for_path. now rewrite H. Qed.

Lemma leads_total cs : exists o, leads t cs o.
Proof. apply resolves_total. Qed.
Lemma leads_det cs o o' : leads t cs o -> leads t cs o' -> o = o'.
Proof.
  intros H H'.
  assert (E1 := get_node_spec true cs o H). rewrite (get_node_spec true cs o' H') in E1.
  assert (E2 := get_node_spec false cs o H). rewrite (get_node_spec false cs o' H') in E2.
  destruct o, o'; cbn in E1, E2; try congruence.
  - f_equal. injection E1 as E1.
    assert (real h q) as Hq by (eapply resolves_real; [exact W|exact H|apply real_root with (next := next); auto|reflexivity]).
    destruct (real_phys _ _ Hq) as (i & Hi & _). eapply phys_inj; eauto. congruence.
Qed.
Lemma leads_real cs q : leads t cs (Found q) -> is_efile (t q) \/ is_edir (t q).
Proof. intros H. eapply resolves_real; [exact W|exact H|apply real_root with (next := next); auto|reflexivity]. Qed.
Lemma leads_phys cs q : leads t cs (Found q) -> exists i, phys h root_id q = Some i /\ is_link (h i) = false /\ i < next.
Proof.
  intros H. apply leads_real in H. apply real_phys in H as (i & P & L). exists i. repeat split; auto.
  eapply phys_root_lt; eauto.
Qed.

(** Links named like the last component do not matter when there are none. *)
Lemma resolves_app k d0 init rest0 d o :
  resolves t k d0 init (Found d) -> resolves t k d rest0 o -> resolves t k d0 (init ++ rest0) o.
Proof.
  intros R. remember (Found d) as o' eqn:Eo. revert d Eo.
  induction R as
    [k d0|k d0 x rest Hx|k d0 x rest Hd0 Hm|k d0 x rest o' Hd0 Hr R IH|d0 x rest Hd0 Hl
    |k d0 x rest target mt mo Hd0 Hl Ha|k d0 x rest target mt mo cs q o' Hd0 Hl Ha R1 IH1 R2 IH2
    |k d0 x target mt mo cs Hd0 Hl Ha R IH|k d0 x m rest target mt mo cs Hd0 Hl Ha R IH
    |k d0 x rest target mt mo cs o' Hd0 Hl Ha R IH Ho]; intros d Eo H; try discriminate.
  - injection Eo as <-. cbn. auto.
  - cbn. apply rs_step; eauto.
  - cbn. eapply rs_link; eauto.
  - subst o'. cbn in Ho. intuition discriminate.
Qed.
Lemma leads_step pre d x o : leads t pre (Found d) -> resolves t 32 d [x] o -> leads t (pre ++ [x]) o.
Proof. intros R. now apply resolves_app. Qed.
Lemma loop_fresh f throw n l : forall a pre d i prev,
  leads t pre (Found d) -> phys h root_id d = Some i -> fresh_last t (pre ++ a) n ->
  steps_loop h throw (child h throw max_links) f n prev (Some i) a
  = steps_loop h throw (child h throw max_links) true l prev (Some i) a.
Proof.
  induction a as [|x a IH]; intros pre d i prev R P F; auto. cbn [steps_loop].
  destruct (h i) as [|es mt mo|] eqn:E; auto. destruct (dhas x es) eqn:G; auto.
  assert (D : is_edir (t d)) by (eapply dir_tree; eauto).
  assert (C : child h throw max_links i x (if str_eqb x n then f else true) = child h throw max_links i x true).
  { destruct (str_eqb x n) eqn:X; auto. destruct f; auto. apply str_eqb_eq in X. subst x.
    unfold dhas in G. destruct (dget n es) as [j|] eqn:G2; [|discriminate].
    assert (L : is_link (h j) = false).
    { destruct (is_link (h j)) eqn:L; auto. exfalso. apply (F pre a d eq_refl R).
      destruct (tree_snoc h d i es mt mo n P E) as [T _]. unfold t. rewrite T, G2. cbn.
      destruct (h j) as [| |tg mt' mo']; try discriminate. now exists tg, mt', mo'. }
    destruct max_links; unfold child; fold (child h throw); rewrite E, G2; destruct (h j); auto; discriminate. }
  rewrite C, same_if. destruct (resolves_total h 32 d [x]) as [o Ro].
  assert (K := steps_resolve h next W throw max_links _ _ _ Ro l prev i P (or_intror D)).
  cbn [steps_loop] in K. rewrite E, G, same_if in K.
  destruct (child h throw max_links i x true) as [nd|e]; auto. cbn [rbind] in K |- *. cbn in K.
  destruct nd as [j|].
  - symmetry in K. apply res_found in K as (q & -> & Pq). apply (IH (pre ++ [x]) q); auto.
    + eapply leads_step; eauto.
    + now rewrite <- app_assoc.
  - destruct a; auto.
Qed.

(** The directory that holds the last name. *)
Lemma prev_spec f throw init n d i :
  leads t init (Found d) -> phys h root_id d = Some i -> (f = true \/ fresh_last t init n) ->
  get_node_prev h throw (init ++ [n]) f
  = steps_loop h throw (child h throw max_links) f n (match init with [] => None | _ => Some i end) (Some i) [n]
  \/ exists j, get_node_prev h throw (init ++ [n]) f
  = steps_loop h throw (child h throw max_links) f n (Some j) (Some i) [n].
Proof.
  intros R P F. unfold get_node_prev. rewrite last_snoc, loop_app.
  replace (steps_loop h throw (child h throw max_links) f n None (Some root_id) init)
    with (steps_loop h throw (child h throw max_links) true [] None (Some root_id) init).
  2:{ destruct F as [->|F]; [apply loop_last|symmetry]. apply (loop_fresh f throw n [] init [] []); auto. constructor. }
  assert (E := steps_resolve h next W throw max_links _ _ _ R [] None root_id eq_refl (real_root h next W)).
  cbn [res_of] in E. rewrite P in E.
  destruct (steps_loop h throw (child h throw max_links) true [] None (Some root_id) init) as [[p c]|] eqn:L; [|discriminate E].
  cbn in E. injection E as ->. destruct p as [j|]; [right; eauto|].
  left. destruct init as [|x init]; [reflexivity|].
  exfalso. clear -L. revert L.
  assert (G : forall a prev c r, steps_loop h throw (child h throw max_links) true [] prev (Some c) a = Ok (None, Some r) -> prev = None).
  { induction a as [|y a IH]; intros prev c r; cbn [steps_loop]; [congruence|].
    destruct (h c); try discriminate. destruct (dhas y entries); [|destruct throw; discriminate].
    destruct (child h throw max_links c y _) as [[c'|]|]; cbn [rbind]; try discriminate.
    - intros H. apply IH in H. discriminate.
    - destruct a; cbn; discriminate. }
  cbn [steps_loop]. destruct (h root_id); try discriminate. destruct (dhas x entries); [|destruct throw; discriminate].
  destruct (child h throw max_links root_id x _) as [[c'|]|]; cbn [rbind]; try discriminate.
  - intros H. apply G in H. discriminate.
  - destruct init; cbn; discriminate.
Qed.

(** Not following the last link, or following it: the pair (directory, entry). *)
Lemma prev_entry f throw init n d i es mt mo :
  leads t init (Found d) -> phys h root_id d = Some i -> h i = NDir es mt mo -> (f = true \/ fresh_last t init n) ->
  get_node_prev h throw (init ++ [n]) f
  = match dget n es with
    | Some j => rlet c <- child h throw max_links i n f; Ok (Some i, c)
    | None => if throw then Raise (OSError ENOENT) else Ok (None, None)
    end.
Proof.
  intros R P E F.
  assert (G : forall p, steps_loop h throw (child h throw max_links) f n p (Some i) [n]
     = match dget n es with
       | Some j => rlet c <- child h throw max_links i n f; Ok (Some i, c)
       | None => if throw then Raise (OSError ENOENT) else Ok (None, None)
       end).
  { intros p. cbn [steps_loop]. rewrite E, str_eqb_refl. unfold dhas. destruct (dget n es); auto. }
  destruct (prev_spec f throw init n d i R P F) as [->|[j ->]]; apply G.
Qed.
Lemma prev_notdir f throw init n d i :
  leads t init (Found d) -> phys h root_id d = Some i -> dir_entries (h i) = None -> (f = true \/ fresh_last t init n) ->
  get_node_prev h throw (init ++ [n]) f = Raise AttributeError.
Proof.
  intros R P E F.
  assert (G : forall p, steps_loop h throw (child h throw max_links) f n p (Some i) [n] = Raise AttributeError).
  { intros p. cbn [steps_loop]. now destruct (h i). }
  destruct (prev_spec f throw init n d i R P F) as [->|[j ->]]; apply G.
Qed.
(** When the directory itself is not found, following makes no difference. *)
Lemma prev_fail f throw init n o :
  leads t init o -> (forall d, o <> Found d) -> (f = true \/ fresh_last t init n) ->
  get_node_prev h throw (init ++ [n]) f = get_node_prev h throw (init ++ [n]) true.
Proof.
  intros R N F. destruct F as [->|F]; auto. unfold get_node_prev. rewrite last_snoc, !loop_app.
  rewrite (loop_fresh f throw n n init [] [] root_id None) by (auto; constructor).
  assert (E := steps_resolve h next W throw max_links _ _ _ R n None root_id eq_refl (real_root h next W)).
  destruct (steps_loop h throw (child h throw max_links) true n None (Some root_id) init) as [[p c]|] eqn:L; auto.
  destruct c as [c|]; [|destruct p; auto].
  cbn in E. exfalso. symmetry in E. apply res_found in E as (q & -> & _). eapply N; eauto.
Qed.

(** A child that is not a link, or that is not followed. *)
Lemma child_plain throw k i es mt mo n j f :
  h i = NDir es mt mo -> dget n es = Some j -> (f = false \/ is_link (h j) = false) ->
  child h throw k i n f = Ok (Some j).
Proof. intros E G F. destruct k; cbn; rewrite E, G; destruct (h j), f; auto; destruct F; discriminate. Qed.
(** A child in general: the place the name leads to. *)
Lemma child_follow throw init n d i es mt mo j o :
  leads t init (Found d) -> phys h root_id d = Some i -> h i = NDir es mt mo -> dget n es = Some j ->
  leads t (init ++ [n]) o -> child h throw max_links i n true = res_of h throw o.
Proof.
  intros R P E G R2. assert (X := get_node_spec throw _ _ R2). unfold get_node in X.
  rewrite (prev_entry true throw init n d i es mt mo) in X by auto. rewrite G in X.
  destruct (child h throw max_links i n true); auto.
Qed.

(** Leading on by one name. *)
Lemma leads_app init d rest o :
  leads t init (Found d) -> resolves t 32 d rest o -> leads t (init ++ rest) o.
Proof. apply resolves_app. Qed.
Lemma leads_snoc init n d o :
  leads t init (Found d) -> resolves t 32 d [n] o -> leads t (init ++ [n]) o.
Proof. apply resolves_app. Qed.
Lemma leads_snoc_plain init n d :
  leads t init (Found d) -> is_edir (t d) -> is_efile (t (d ++ [n])) \/ is_edir (t (d ++ [n])) ->
  leads t (init ++ [n]) (Found (d ++ [n])).
Proof. intros R Hd Hn. eapply leads_snoc; eauto. apply rs_step; auto. constructor. Qed.
End R.
