(** What programs see of a tree of memory files (for property C151): names in directories contain no slash; and a link
    to the root under a new name gives every entry a path that no callback and no repeated name spoils. *)
From Verif Require Import Str Exc Utf8 UriParse BaseUri StrFacts Mem MemOps SpecUri SpecMem MemFacts MemFacts2 MemFacts3 MemFacts4 MemFacts5 MemFacts6 MemFacts7 MemFacts8 MemFacts9.
From Verif Require Import UriFacts2 Generic SpecGen Fnmatch UriOps MemUri GenFacts1 Prog.

(** ** Names contain no slash *)
Definition slashless (c : str) : Prop := ~ In cSlash c.
Definition names_in (n : node) : list str := match n with NDir es _ _ => map fst es | _ => [] end.
(** Every name after is one from before, or contains no slash. *)
Definition names_ok (s s' : mst) : Prop := forall i n, In n (names_in (m_heap s' i)) -> In n (names_in (m_heap s i)) \/ slashless n.
Lemma nok_refl s : names_ok s s. Proof. intros i n H; auto. Qed.
Lemma nok_trans a b c : names_ok a b -> names_ok b c -> names_ok a c.
Proof. intros H K i n J. destruct (K i n J) as [J'|]; auto. Qed.
Lemma nok_heap s s' : m_heap s' = m_heap s -> names_ok s s'.
Proof. intros E i n. rewrite E. auto. Qed.
Definition nk {A} (m : M mst A) : Prop := forall s, names_ok s (snd (m s)).
Lemma nk_pure {A} (m : M mst A) : pure m -> nk m.
Proof. intros P s. rewrite P. apply nok_refl. Qed.
Lemma nk_bind {A B} (m : M mst A) (k : A -> M mst B) : nk m -> (forall a, nk (k a)) -> nk (bind m k).
Proof.
  intros Hm Hk s. unfold bind. specialize (Hm s). destruct (m s) as [[a|e] s']; cbn [snd] in *; auto. eapply nok_trans; [exact Hm|apply Hk].
Qed.
Lemma nok_set s i n : (forall x, In x (names_in n) -> In x (names_in (m_heap s i)) \/ slashless x) -> names_ok s (snd (upd i n s)).
Proof.
  intros H j x. unfold upd, set_heap, heap_set. cbn. destruct (Nat.eqb j i) eqn:E; auto. apply Nat.eqb_eq in E. subst. apply H.
Qed.
Lemma names_attrs n a b : names_in (set_attrs n a b) = names_in n.
Proof. now destruct n. Qed.
Lemma nk_get_upd i (F : node -> node) : (forall n, names_in (F n) = names_in n) -> nk (let! n <- get_node_obj i; upd i (F n)).
Proof. intros H s. unfold bind, get_node_obj. apply nok_set. intros x. rewrite H. auto. Qed.
Lemma nk_leaf i n : names_in n = [] -> nk (upd i n).
Proof. intros E s. apply nok_set. rewrite E. intros x []. Qed.
Lemma nk_alloc n : names_in n = [] -> nk (alloc n).
Proof.
  intros E s j x. unfold alloc, heap_set. cbn. destruct (Nat.eqb j (m_next s)) eqn:Q; auto. rewrite E. intros [].
Qed.
Lemma dset_names {A} k (v : A) d x : In x (map fst (dset k v d)) -> In x (map fst d) \/ x = k.
Proof.
  induction d as [|[a b] d IH]; cbn; [intuition|]. destruct (str_eqb k a) eqn:E; cbn; intuition auto.
Qed.
Lemma ddel_names {A} k (d : dict A) x : In x (map fst (ddel k d)) -> In x (map fst d).
Proof. induction d as [|[a b] d IH]; cbn; auto. destruct (str_eqb k a); cbn; intuition auto. Qed.
Lemma nk_create i n j : slashless n -> nk (create_child i n j).
Proof.
  intros N s. unfold create_child, bind, get_node_obj. destruct (m_heap s i) as [|es mt mo|] eqn:E; try apply nok_refl.
  apply nok_set. rewrite E. cbn. intros x H. apply dset_names in H as [H| ->]; auto.
Qed.
Lemma nk_del i n : nk (del_child i n).
Proof.
  intros s. unfold del_child, bind, get_node_obj. destruct (m_heap s i) as [|es mt mo|] eqn:E; try apply nok_refl. destruct (dhas n es); [|apply nok_refl].
  apply nok_set. rewrite E. cbn. intros x H. apply ddel_names in H. auto.
Qed.
Lemma last_slashless p : slashless (last (steps_of p) []).
Proof.
  unfold steps_of. pose proof (split_on_no_sep cSlash p) as F. pose proof (split_on_nonnil cSlash p) as N.
  destruct (split_on cSlash p) as [|a l] using rev_ind; [easy|]. rewrite last_snoc. apply Forall_app in F as [_ F]. now inversion F.
Qed.
Ltac nkt := repeat first
  [ apply nk_create; apply last_slashless | apply nk_del | apply nk_alloc; reflexivity | apply nk_leaf; reflexivity
  | apply nk_get_upd; intros; apply names_attrs
  | apply nk_pure; solve [apply pure_ret|apply pure_raise|apply pure_lift|apply pure_get|apply pure_obj|apply pure_lookup_node|apply pure_parent|apply pure_info|apply pure_get_file|easy]
  | match goal with |- nk (match ?x with _ => _ end) => destruct x end
  | apply nk_bind; [|intros ?] ].
Lemma nk_read i z : nk (file_read i z).
Proof. unfold file_read, set_file. nkt. Qed.
Lemma nk_write i d : nk (file_write i d).
Proof. unfold file_write, set_file. nkt. Qed.
Lemma nk_seek i a b : nk (file_seek i a b).
Proof. unfold file_seek, set_file. nkt. Qed.
Lemma nk_line i : nk (file_readline i).
Proof. unfold file_readline, set_file. nkt. Qed.
Lemma nk_set_info u a b f : nk (mem_set_info u a b f).
Proof. unfold mem_set_info. apply nk_bind; [apply nk_pure, pure_lookup_node|intros i]. apply (nk_get_upd i (fun n => set_attrs n _ _)). intros; apply names_attrs. Qed.
Lemma nk_op o : nk (run_op o).
Proof.
  destruct o; cbn [run_op]; unfold drop; try (intros s; now apply nok_heap);
    try (apply nk_bind; [|intros ?; apply nk_pure, pure_ret]);
    try (apply nk_pure; solve [apply pure_exists|apply pure_isfile|apply pure_isdir|apply pure_islink|apply pure_readlink|apply pure_listdir|apply pure_info|apply pure_mtime|apply pure_isexec]).
  - unfold mem_mkdir. nkt.
  - unfold mem_symlink. nkt.
  - unfold mem_removefile. nkt.
  - unfold mem_removedir. nkt.
  - apply nk_set_info.
  - unfold mem_copystat. do 2 (apply nk_bind; [apply nk_pure, pure_lookup_node|intros ?]). apply nk_bind; [apply nk_pure, pure_obj|intros n].
    apply (nk_get_upd _ (fun d => set_attrs d _ _)). intros; apply names_attrs.
  - unfold mem_set_exec. apply nk_bind; [apply nk_pure, pure_info|intros ?]. apply nk_set_info.
  - unfold mem_manip_mtime. apply nk_bind; [apply nk_pure, pure_lookup_node|intros ?]. apply (nk_get_upd _ (fun n => set_attrs n _ _)). intros; apply names_attrs.
  - unfold mem_manip_callback. apply nk_bind; [apply nk_pure, pure_lift|intros ? s]. now apply nok_heap.
  - unfold mem_open. destruct (match options with None => true | Some _ => _ end).
    + unfold open_for_read. apply nk_bind; [nkt|intros ?]. apply nk_bind; [apply nk_seek|intros ?; nkt].
    + destruct options as [o|]; [|nkt]. destruct (has_char 119 o); [unfold open_for_write, file_reset; nkt|]. destruct (has_char 97 o); [|nkt].
      unfold open_for_append. do 2 (apply nk_bind; [nkt|intros ?]). apply nk_bind; [apply nk_seek|intros ?; nkt].
  - unfold h_read. destruct (negb _); [nkt|]. apply nk_bind; [apply nk_read|intros ?; nkt].
  - unfold h_write. apply nk_bind; [nkt|intros [t|b]]; [nkt|apply nk_write].
  - apply nk_seek.
  - unfold h_tell, file_tell. nkt.
  - unfold h_truncate, file_truncate, set_file. nkt.
  - unfold h_readline. apply nk_bind; [apply nk_line|intros ?; nkt].
  - unfold h_next. apply nk_bind; [apply nk_line|intros ?; nkt].
  - unfold h_close, file_close, set_file. nkt.
Qed.
Lemma reachable_names s : reachable s -> forall i n, In n (names_in (m_heap s i)) -> slashless n.
Proof.
  intros (now & ep & l & ->). assert (B : forall i n, In n (names_in (m_heap (init_mem now ep) i)) -> slashless n).
  { intros i n. cbn. intros []. }
  revert B. generalize (init_mem now ep). induction l as [|o l IH]; intros s B; [exact B|]. cbn. apply IH. intros i n H. apply nk_op in H as [H|H]; eauto.
Qed.
(** No place of a tree has a slash in a name. *)
Lemma reachable_slashless s : reachable s -> forall p, view s p <> None -> Forall slashless p.
Proof.
  intros R p. unfold view, tree_of. destruct (phys (m_heap s) root_id p) as [k|] eqn:E; [|easy]. intros _. revert k E.
  generalize root_id. induction p as [|n p IH]; intros i k E; [constructor|]. cbn in E.
  destruct (m_heap s i) as [|es mt mo|] eqn:Hi; try discriminate. destruct (dget n es) as [j|] eqn:G; [|discriminate]. constructor; [|eapply IH; eauto].
  apply (reachable_names s R i). rewrite Hi. cbn. apply dget_In in G. apply (in_map fst) in G. exact G.
Qed.

(** ** Looking at an entry by way of a link to the root *)
Lemma new_name (L : list str) : exists l, hd_error l = Some 65%N /\ slashless l /\ ~ In l L.
Proof.
  assert (B : exists n, forall x, In x L -> length x < n).
  { induction L as [|a L [n IH]]; [exists 0; intros x []|]. exists (S (length a + n)). intros x [<-|H]; [lia|]. apply IH in H. lia. }
  destruct B as [n B]. exists (repeat 65%N (S n)). split; [reflexivity|]. split.
  - intros H. apply repeat_spec in H. discriminate H.
  - intros H. apply B in H. rewrite repeat_length in H. lia.
Qed.
Lemma uri_addr l p : hd_error l = Some 65%N -> slashless l -> Forall slashless p -> addr (mem_uri (l :: p)) (l :: p).
Proof.
  intros H L F. destruct l as [|a l]; [discriminate|]. injection H as ->. split; [|split; [now constructor|discriminate]].
  unfold u_path. cbn [mem_uri u_cls]. unfold base_path. cbn [mem_uri u_p parse_of p_path]. destruct (prefixb (lit "/.") (abs_path ((65%N :: l) :: p))) eqn:E; [discriminate E|reflexivity].
Qed.

Section Link.
Variables (s : mst) (l : str).
Hypotheses (W : wf s) (Si : silent s) (Ll : slashless l) (Lh : hd_error l = Some 65%N) (Lf : view s [l] = None).
Local Notation lk := (ELink (mem_uri []) (m_now s) 0).
Lemma l_addr p : Forall slashless p -> addr (mem_uri (l :: p)) (l :: p).
Proof. now apply uri_addr. Qed.
Lemma root_addr : addr (mem_uri []) [].
Proof. split; [reflexivity|]. split; [constructor|discriminate]. Qed.
Lemma root_edir s0 : wf s0 -> is_edir (view s0 []).
Proof. intros W0. destruct (wf_root _ _ W0) as (es & mt & mo & E). exists mt, mo. unfold view, tree_of. cbn. now rewrite E. Qed.

Lemma link_made : exists s', hooked mem_backend "symlink" (mem_uri []) (mem_symlink (mem_uri []) (mem_uri [l])) s = (Ok tt, s') /\
  wf s' /\ silent s' /\ m_now s' = m_now s /\ put_at (view s) (view s') [l] lk.
Proof.
  assert (P : place (view s) (mem_uri [l]) (Free ([] ++ [l]))).
  { apply (pl_free _ _ [] l []); [apply l_addr; constructor|constructor|now apply root_edir|exact Lf]. }
  destruct (make_free s W (mem_uri [l]) (fun s => NLink (mem_uri []) (m_now s) 0) [l] P) as (s' & E & W' & U & R & _); [intros es D; discriminate D|].
  exists s'. split.
  - unfold hooked. erewrite bind_ok by (apply (silent_hook s _ _ _ Si root_addr)). now rewrite symlink_make.
  - split; [exact W'|]. split; [eapply silent_rest; eauto|]. split; [apply R|exact U].
Qed.

Section Made.
Variable s' : mst.
Hypotheses (W' : wf s') (Si' : silent s') (N' : m_now s' = m_now s) (Pu : put_at (view s) (view s') [l] lk).
Lemma same_at p : (forall r, p <> l :: r) -> view s' p = view s p.
Proof. intros H. apply Pu. apply H. Qed.
Lemma below_none r : view s (l :: r) = None.
Proof.
  destruct (view s (l :: r)) eqn:E; [|reflexivity]. exfalso. assert (X : view s (l :: r) <> None) by (rewrite E; discriminate). clear E.
  induction r as [|n r IH] using rev_ind; [now apply X|]. apply IH. apply (tree_parent (m_heap s) (l :: r) n) in X. destruct X as (a & b & X). unfold view. now rewrite X.
Qed.
Lemma dir_not_below p : is_edir (view s p) -> forall r, p <> l :: r.
Proof. intros (a & b & D) r ->. now rewrite below_none in D. Qed.
Lemma dir_same p : is_edir (view s p) -> is_edir (view s' p).
Proof. intros D. rewrite same_at; [exact D|now apply dir_not_below]. Qed.
Lemma dir_prefix a b : is_edir (view s (a ++ b)) -> is_edir (view s a).
Proof.
  induction b as [|x b IH] using rev_ind; [now rewrite app_nil_r|]. intros D. apply IH. rewrite app_assoc in D. destruct D as (mt & mo & D).
  apply (tree_parent (m_heap s) _ x). unfold view in D. rewrite D. discriminate.
Qed.
Lemma by_link p o : resolves (view s') 32 [] p o -> leads (view s') (l :: p) o.
Proof.
  intros R. eapply rs_link with (cs := []) (q := []); [now apply root_edir| |apply root_addr|constructor|exact R]. apply Pu.
Qed.
Lemma by_link_dir p : is_edir (view s p) -> leads (view s') (l :: p) (Found p).
Proof. intros D. apply by_link. apply (resolves_dir (m_heap s')). now apply dir_same. Qed.
Lemma by_link_fresh init n : is_edir (view s init) -> n <> l -> fresh_last (view s') (l :: init) n.
Proof.
  intros D N pre post d E L. destruct pre as [|x pre]; [cbn in E; congruence|]. cbn in E. injection E as <- ->.
  assert (Dp : is_edir (view s pre)) by (eapply dir_prefix; eauto).
  assert (d = pre). { pose proof (leads_det _ _ W' _ _ _ L (by_link_dir pre Dp)) as E. now injection E. }
  subst d. assert (Dn : is_edir (view s (pre ++ [n]))) by (apply (dir_prefix _ post); now rewrite <- app_assoc).
  apply dir_same in Dn. destruct Dn as (a & b & Dn). intros (c & e & f & K). congruence.
Qed.

(** The node at a place other than the root *)
Lemma look_node init n : is_edir (view s init) -> Forall slashless (init ++ [n]) -> n <> l ->
  lookup_node (mem_uri (l :: init ++ [n])) false s' = match phys (m_heap s') root_id (init ++ [n]) with Some j => (Ok j, s') | None => (Raise (OSError ENOENT), s') end.
Proof.
  intros D F N. unfold lookup_node, lookup, bind.
  rewrite (nofollow_found s' W' (mem_uri (l :: init ++ [n])) (l :: init) n init true (l_addr _ F) (by_link_fresh _ _ D N) (by_link_dir _ D) (dir_same _ D)).
  destruct (phys _ _ _); reflexivity.
Qed.
Lemma same_place init n : is_edir (view s init) -> n <> l -> view s' (init ++ [n]) = view s (init ++ [n]).
Proof.
  intros D N. apply same_at. intros r E. destruct init as [|x init]; [now injection E|]. injection E as -> _. now apply (dir_not_below _ D init).
Qed.
Lemma hook_ok p name : Forall slashless p -> mem_hook (mem_uri (l :: p)) name s' = (Ok tt, s').
Proof. intros F. eapply silent_hook; [exact Si'|apply l_addr, F]. Qed.

Definition bunch_of (e : entry) : bunch :=
  match e with EFile d mt mo => mkBunch mt mo (N.of_nat (length d)) | EDir mt mo => mkBunch mt mo 0 | ELink _ mt mo => mkBunch mt mo 8 end.
Lemma see_info init n : is_edir (view s init) -> Forall slashless (init ++ [n]) -> n <> l ->
  hooked mem_backend "info" (mem_uri (l :: init ++ [n])) (mem_info (mem_uri (l :: init ++ [n])) false) s'
  = (match view s (init ++ [n]) with Some e => Ok (bunch_of e) | None => Raise (OSError ENOENT) end, s').
Proof.
  intros D F N. unfold hooked. erewrite bind_ok by (apply (hook_ok _ (lit "info") F)). unfold mem_info, bind. rewrite (look_node init n D F N), <- (same_place init n D N).
  unfold view, tree_of. destruct (phys (m_heap s') root_id (init ++ [n])) as [j|]; [|reflexivity]. cbn. unfold get_node_obj, ret. destruct (m_heap s' j); reflexivity.
Qed.
Lemma see_root : hooked mem_backend "info" (mem_uri [l]) (mem_info (mem_uri [l]) true) s'
  = (match view s [] with Some e => Ok (bunch_of e) | None => Raise (OSError ENOENT) end, s').
Proof.
  unfold hooked. erewrite bind_ok by (apply (hook_ok [] (lit "info") (Forall_nil _))).
  destruct (run_lookup_found s' W' (mem_uri [l]) [l] [] (l_addr [] (Forall_nil _))) as (i & P & L & _); [apply by_link; constructor|].
  unfold mem_info, bind. rewrite L. rewrite <- (same_at []) by discriminate. unfold view, tree_of. cbn in P. injection P as <-. cbn. unfold get_node_obj, ret. destruct (m_heap s' root_id); reflexivity.
Qed.
Lemma see_link : hooked mem_backend "info" (mem_uri [l]) (mem_info (mem_uri [l]) false) s' = (Ok (mkBunch (m_now s) 0 8), s').
Proof.
  unfold hooked. erewrite bind_ok by (apply (hook_ok [] (lit "info") (Forall_nil _))).
  assert (V : view s' [l] = Some lk) by apply Pu.
  unfold mem_info, lookup_node, lookup, bind.
  rewrite (nofollow_found s' W' (mem_uri [l]) [] l [] true (l_addr [] (Forall_nil _))); [| |constructor|now apply root_edir].
  2:{ intros pre post d E. now destruct pre. }
  cbn [app]. unfold view, tree_of in V. destruct (phys (m_heap s') root_id [l]) as [j|]; [|discriminate]. cbn in V |- *. unfold get_node_obj, ret. destruct (m_heap s' j); try discriminate.
  cbn in V. injection V as -> -> ->. reflexivity.
Qed.
Lemma see_target init n e : is_edir (view s init) -> Forall slashless (init ++ [n]) -> n <> l -> view s (init ++ [n]) = Some e ->
  hooked mem_backend "readlink" (mem_uri (l :: init ++ [n])) (mem_readlink (mem_uri (l :: init ++ [n]))) s'
  = (match e with ELink tg _ _ => Ok tg | _ => Raise (OSError EINVAL) end, s').
Proof.
  intros D F N V. unfold hooked. erewrite bind_ok by (apply (hook_ok _ (lit "readlink") F)). unfold mem_readlink, bind at 1, lift.
  destruct (addr_nil_or _ _ (l_addr _ F)) as [[E _]|[_ (c & q & M)]]; [discriminate|]. rewrite M. unfold bind. rewrite (look_node init n D F N).
  rewrite <- (same_place init n D N) in V. unfold view, tree_of in V. destruct (phys (m_heap s') root_id (init ++ [n])) as [j|]; [|discriminate]. cbn in V. injection V as <-.
  unfold get_node_obj. destruct (m_heap s' j); reflexivity.
Qed.
Lemma by_link_entry p : is_efile (view s p) \/ is_edir (view s p) -> (forall r, p <> l :: r) -> leads (view s') (l :: p) (Found p).
Proof. intros R H. apply by_link. apply (resolves_entry (m_heap s')). change (tree_of (m_heap s')) with (view s'). now rewrite same_at. Qed.
Lemma see_dir p : is_edir (view s p) -> Forall slashless p -> u_open (mem_uri (l :: p)) (Some (lit "rb")) s' = (Raise AttributeError, s').
Proof.
  intros D F. unfold u_open. erewrite bind_ok by (apply (hook_ok _ (lit "open") F)).
  change (mem_open (mem_uri (l :: p)) (Some (lit "rb"))) with (open_for_read (mem_uri (l :: p)) true). apply (open_read_dir s' W' _ _ p); [|now apply dir_same].
  exists (l :: p). split; [now apply l_addr|]. now apply by_link_dir.
Qed.
Lemma see_data init n data mt mo : Forall slashless (init ++ [n]) -> n <> l -> is_edir (view s init) -> view s (init ++ [n]) = Some (EFile data mt mo) ->
  exists hd s2 s3, u_open (mem_uri (l :: init ++ [n])) (Some (lit "rb")) s' = (Ok hd, s2) /\ h_read hd (-1) s2 = (Ok (VBytes data), s3).
Proof.
  intros F N D V. unfold u_open.
  change (mem_open (mem_uri (l :: init ++ [n])) (Some (lit "rb"))) with (open_for_read (mem_uri (l :: init ++ [n])) true).
  assert (V' : view s' (init ++ [n]) = Some (EFile data mt mo)) by now rewrite same_place.
  destruct (open_read s' W' (mem_uri (l :: init ++ [n])) true (init ++ [n]) data mt mo) as (s2 & hd & f & E & Eh & O & Ed & Ep & _); [|exact V'|].
  { exists (l :: init ++ [n]). split; [now apply l_addr|]. apply by_link, (resolves_entry (m_heap s')). change (tree_of (m_heap s')) with (view s'). rewrite V'. left. now exists data, mt, mo. }
  destruct (run_read s2 (h_node hd) f (op_file _ _ _ _ _ _ O) (-1)%Z) as (s3 & R & _).
  exists hd, s2, s3. split.
  - erewrite bind_ok by (apply (hook_ok _ (lit "open") F)). exact E.
  - unfold h_read. rewrite Eh. cbn [h_readable negb h_node]. unfold bind. rewrite R. unfold lift, proxy_decode. cbn [h_binary]. rewrite Ed, Ep. reflexivity.
Qed.
End Made.
End Link.
