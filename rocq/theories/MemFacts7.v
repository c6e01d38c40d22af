(** Files and handles. *)
From Verif Require Import Str Exc Utf8 UriParse BaseUri StrFacts Mem SpecUri SpecMem MemFacts MemFacts2 MemFacts3 MemFacts4 MemFacts5 MemFacts6.

Lemma snoc_cases {A} (l : list A) : l = [] \/ exists init n, l = init ++ [n].
Proof. induction l as [|x l IH] using rev_ind; eauto. Qed.

(** ** Trees of the same shape *)
Definition same_kind (e e' : entry) : Prop :=
  match e, e' with
  | EFile _ _ _, EFile _ _ _ => True
  | EDir _ _, EDir _ _ => True
  | ELink a _ _, ELink b _ _ => a = b
  | _, _ => False
  end.
Definition grows (t t' : tree) : Prop := forall p e, t p = Some e -> exists e', t' p = Some e' /\ same_kind e e'.
Definition same_shape (t t' : tree) : Prop := grows t t' /\ forall p, t p = None -> t' p = None.

Lemma same_kind_refl e : same_kind e e.
Proof. now destruct e. Qed.
Lemma same_kind_trans a b c : same_kind a b -> same_kind b c -> same_kind a c.
Proof. destruct a, b, c; cbn; try easy; congruence. Qed.
Lemma same_kind_sym a b : same_kind a b -> same_kind b a.
Proof. destruct a, b; cbn; auto. Qed.
Lemma grows_refl t : grows t t.
Proof. intros p e H. exists e. split; auto. apply same_kind_refl. Qed.
Lemma grows_trans a b c : grows a b -> grows b c -> grows a c.
Proof.
  intros H K p e E. destruct (H _ _ E) as (e1 & E1 & K1). destruct (K _ _ E1) as (e2 & E2 & K2).
  exists e2. split; auto. eapply same_kind_trans; eauto.
Qed.
Lemma grows_same t t' : same_tree t t' -> grows t t'.
Proof. intros H p e E. exists e. rewrite H. split; auto. apply same_kind_refl. Qed.
Lemma same_shape_same t t' : same_tree t t' -> same_shape t t'.
Proof. intros H. split; [now apply grows_same|]. intros p. now rewrite H. Qed.
Lemma same_shape_sym t t' : same_shape t t' -> same_shape t' t.
Proof.
  intros [G N]. split.
  - intros p e' E'. destruct (t p) as [e|] eqn:E.
    + destruct (G _ _ E) as (e2 & E2 & K). rewrite E' in E2. injection E2 as <-. exists e. split; auto. now apply same_kind_sym.
    + rewrite (N _ E) in E'. discriminate.
  - intros p E'. destruct (t p) as [e|] eqn:E; auto. destruct (G _ _ E) as (e2 & E2 & K). congruence.
Qed.
Lemma same_shape_trans a b c : same_shape a b -> same_shape b c -> same_shape a c.
Proof. intros [G N] [G' N']. split; [eapply grows_trans; eauto|]. auto. Qed.
Lemma put_new_grows t t' p e : put_at t t' p e -> t p = None -> grows t t'.
Proof.
  intros [A B] N q e0 E. exists e0. rewrite B; [|congruence]. split; auto. apply same_kind_refl.
Qed.
Lemma put_same_shape t t' p e e0 : put_at t t' p e -> t p = Some e0 -> same_kind e0 e -> same_shape t t'.
Proof.
  intros [A B] E0 K. split.
  - intros q e1 E. destruct (list_eq_dec (list_eq_dec N.eq_dec) q p) as [->|D].
    + exists e. split; auto. now replace e1 with e0 by congruence.
    + exists e1. rewrite B; auto. split; auto. apply same_kind_refl.
  - intros q E. rewrite B; auto. congruence.
Qed.
Lemma same_kind_attrs e mt mo : same_kind e (with_attrs e mt mo).
Proof. now destruct e. Qed.

Lemma kind_dir o o' : (forall e, o = Some e -> exists e', o' = Some e' /\ same_kind e e') -> is_edir o -> is_edir o'.
Proof. intros H (mt & mo & ->). destruct (H _ eq_refl) as ([| |] & -> & K); try easy. now exists mtime, mode. Qed.
Lemma kind_file o o' : (forall e, o = Some e -> exists e', o' = Some e' /\ same_kind e e') -> is_efile o -> is_efile o'.
Proof. intros H (d & mt & mo & ->). destruct (H _ eq_refl) as ([| |] & -> & K); try easy. now exists data, mtime, mode. Qed.
Lemma kind_link o o' tg mt mo : (forall e, o = Some e -> exists e', o' = Some e' /\ same_kind e e') ->
  o = Some (ELink tg mt mo) -> exists mt' mo', o' = Some (ELink tg mt' mo').
Proof. intros H ->. destruct (H _ eq_refl) as ([| |] & -> & K); try easy. cbn in K. subst. eauto. Qed.

Lemma resolves_grows t t' k d steps o : grows t t' -> resolves t k d steps o ->
  forall q, o = Found q -> resolves t' k d steps o.
Proof.
  intros G. induction 1; intros q' Eq; try discriminate Eq; try (subst; cbn in *; intuition discriminate).
  - constructor.
  - apply rs_step; eauto.
    + eapply kind_dir; eauto.
    + destruct H0; [left; eapply kind_file|right; eapply kind_dir]; eauto.
  - destruct (kind_link _ (t' (d ++ [n])) _ _ _ (fun e => G (d ++ [n]) e) H0) as (mt' & mo' & E').
    eapply rs_link; eauto. eapply kind_dir; eauto.
Qed.
Lemma resolves_shape t t' k d steps o : same_shape t t' -> resolves t k d steps o -> resolves t' k d steps o.
Proof.
  intros S. assert (G := proj1 S). assert (N := proj2 S). assert (G' := proj1 (same_shape_sym _ _ S)).
  assert (Dn : forall p, is_edir (t p) -> is_edir (t' p)) by (intros; eapply kind_dir; eauto).
  assert (Ln : forall p tg mt mo, t p = Some (ELink tg mt mo) -> exists mt' mo', t' p = Some (ELink tg mt' mo'))
    by (intros; eapply kind_link; eauto).
  induction 1.
  - constructor.
  - apply rs_notdir. intros C. apply H. eapply kind_dir; eauto.
  - apply rs_missing; auto.
  - apply rs_step; auto. destruct H0; [left; eapply kind_file|right; eapply kind_dir]; eauto.
  - apply rs_loop; auto. destruct H0 as (tg & mt & mo & E). destruct (Ln _ _ _ _ E) as (mt' & mo' & E'). now exists tg, mt', mo'.
  - destruct (Ln _ _ _ _ H0) as (mt' & mo' & E'). eapply rs_badlink; eauto.
  - destruct (Ln _ _ _ _ H0) as (mt' & mo' & E'). eapply rs_link; eauto.
  - destruct (Ln _ _ _ _ H0) as (mt' & mo' & E'). eapply rs_link_missing; eauto.
  - destruct (Ln _ _ _ _ H0) as (mt' & mo' & E'). eapply rs_link_dead; eauto.
  - destruct (Ln _ _ _ _ H0) as (mt' & mo' & E'). eapply rs_link_fails; eauto.
Qed.
Lemma denotes_grows t t' u q : grows t t' -> denotes t u (Found q) -> denotes t' u (Found q).
Proof. intros G (cs & A & R). exists cs. split; auto. eapply resolves_grows; eauto. Qed.
Lemma denotes_shape t t' u o : same_shape t t' -> denotes t u o -> denotes t' u o.
Proof. intros G (cs & A & R). exists cs. split; auto. eapply resolves_shape; eauto. Qed.
Lemma leads_grows t t' cs q : grows t t' -> leads t cs (Found q) -> leads t' cs (Found q).
Proof. intros G R. eapply resolves_grows; eauto. Qed.
Lemma leads_shape t t' cs o : same_shape t t' -> leads t cs o -> leads t' cs o.
Proof. intros G R. eapply resolves_shape; eauto. Qed.
Lemma place_shape t t' u sl : same_shape t t' -> place t u sl -> place t' u sl.
Proof.
  intros S. assert (G := proj1 S). assert (N := proj2 S). assert (G' := proj1 (same_shape_sym _ _ S)).
  assert (N' := proj2 (same_shape_sym _ _ S)).
  intros [A|init n d A R D E|init n d A R D E|init n d A R D|init n o A R F|B].
  - now constructor.
  - eapply pl_free; eauto using leads_shape. eapply kind_dir; eauto.
  - eapply pl_taken; eauto using leads_shape. eapply kind_dir; eauto.
  - eapply pl_notdir; eauto using leads_shape. intros C. apply D. eapply kind_dir; eauto.
  - eapply pl_fail; eauto using leads_shape.
  - now constructor.
Qed.
Lemma regular_shape t t' u cs : same_shape t t' -> regular t u cs -> regular t' u cs.
Proof.
  intros S [A N L]. constructor; auto. intros init n E. destruct (L init n E) as [F U]. split; auto.
  intros pre post d E2 R (tg & mt & mo & K). apply (F pre post d E2).
  - eapply leads_shape; [|exact R]. now apply same_shape_sym.
  - destruct (kind_link (t' (d ++ [n])) (t (d ++ [n])) tg mt mo) as (mt' & mo' & K'); auto.
    + intros e. apply (same_shape_sym _ _ S).
    + now exists tg, mt', mo'.
Qed.
Lemma entry_at_shape t t' u f q : same_shape t t' -> entry_at t u f q -> entry_at t' u f q.
Proof.
  intros S [q' D|cs q' R P|A].
  - constructor. eapply denotes_shape; eauto.
  - eapply ea_self; [eapply regular_shape|eapply place_shape]; eauto.
  - now constructor.
Qed.

(** ** Heap extensionality *)
Lemma wfh_ext h h' next : (forall j, h' j = h j) -> wfh h next -> wfh h' next.
Proof.
  intros E [A B C D F G]. constructor; auto.
  - now rewrite E.
  - intros i es mt mo n j Hi. rewrite E. eauto.
  - intros i es mt mo Hi. rewrite E. eauto.
  - intros i i' es es' mt mo mt' mo' n n' j Hi Hi'. rewrite !E. eauto.
  - intros i. rewrite E. auto.
Qed.
Lemma tree_ext h h' : (forall j, h' j = h j) -> same_tree (tree_of h) (tree_of h').
Proof.
  intros E q. unfold tree_of. rewrite (phys_ext h h'); [|intros; now rewrite E].
  destruct (phys h root_id q); cbn; auto. now rewrite E.
Qed.

(** ** Changing one file object *)
Record file_upd (s s' : mst) (i : nat) (f f' : file) : Prop := {
  fu_old : m_heap s i = NFile f;
  fu_new : m_heap s' i = NFile f';
  fu_else : forall j, j <> i -> m_heap s' j = m_heap s j;
  fu_next : m_next s' = m_next s;
  fu_rest : same_rest s s' }.

Lemma file_upd_trans a b c i f g k : file_upd a b i f g -> file_upd b c i g k -> file_upd a c i f k.
Proof.
  intros [A1 A2 A3 A4 A5] [B1 B2 B3 B4 B5]. constructor; auto.
  - intros j Hj. now rewrite B3, A3.
  - congruence.
  - eapply same_rest_trans; eauto.
Qed.
Lemma file_upd_heap s s' i f f' : file_upd s s' i f f' -> forall j, m_heap s' j = heap_set (m_heap s) i (NFile f') j.
Proof.
  intros U j. unfold heap_set. destruct (Nat.eqb j i) eqn:E.
  - apply Nat.eqb_eq in E. subst. apply U.
  - apply Nat.eqb_neq in E. now apply U.
Qed.
Lemma file_alloc s i f : wf s -> m_heap s i = NFile f -> i < m_next s.
Proof.
  intros W E. destruct (Nat.lt_ge_cases i (m_next s)) as [|L]; auto.
  apply (wf_free _ _ W) in L. now rewrite E in L.
Qed.
Lemma file_upd_phys s s' i f f' p : file_upd s s' i f f' -> phys (m_heap s') root_id p = phys (m_heap s) root_id p.
Proof.
  intros U. apply phys_ext. intros j. rewrite (file_upd_heap _ _ _ _ _ U). apply set_entries. now rewrite (fu_old _ _ _ _ _ U).
Qed.
Lemma file_upd_wf s s' i f f' : wf s -> file_upd s s' i f f' -> wf s'.
Proof.
  intros W U. unfold wf. rewrite (fu_next _ _ _ _ _ U). eapply wfh_ext; [apply (file_upd_heap _ _ _ _ _ U)|].
  apply wfh_set; auto.
  - now rewrite (fu_old _ _ _ _ _ U).
  - intros _. eapply file_alloc; eauto. apply U.
Qed.
Lemma file_upd_put s s' i f f' q : wf s -> file_upd s s' i f f' -> phys (m_heap s) root_id q = Some i ->
  put_at (view s) (view s') q (EFile (f_data f') (f_mtime f') (f_mode f')).
Proof.
  intros W U P. assert (T := tree_ext _ _ (file_upd_heap _ _ _ _ _ U)).
  destruct (tree_set _ _ i (NFile f') q W) as [X Y]; auto.
  - now rewrite (fu_old _ _ _ _ _ U).
  - split; [unfold view; now rewrite T|]. intros r Hr. unfold view. rewrite T. now apply Y.
Qed.
Lemma file_upd_view s s' i f f' p : file_upd s s' i f f' ->
  view s' p = match phys (m_heap s) root_id p with
              | Some j => if Nat.eqb j i then Some (EFile (f_data f') (f_mtime f') (f_mode f')) else view s p
              | None => None
              end.
Proof.
  intros U. unfold view, tree_of. rewrite (file_upd_phys _ _ _ _ _ _ U).
  destruct (phys (m_heap s) root_id p) as [j|]; cbn; auto. rewrite (file_upd_heap _ _ _ _ _ U). unfold heap_set.
  now destruct (Nat.eqb j i).
Qed.
(** Only the position changed. *)
Lemma file_upd_quiet s s' i f f' : file_upd s s' i f f' ->
  f_data f' = f_data f -> f_mtime f' = f_mtime f -> f_mode f' = f_mode f -> same_tree (view s) (view s').
Proof.
  intros U D T Mo p. rewrite (file_upd_view _ _ _ _ _ _ U). unfold view, tree_of.
  destruct (phys (m_heap s) root_id p) as [j|] eqn:P; auto. cbn. destruct (Nat.eqb j i) eqn:E; auto.
  apply Nat.eqb_eq in E. subst. rewrite (fu_old _ _ _ _ _ U). cbn. congruence.
Qed.
Lemma file_upd_shape s s' i f f' : file_upd s s' i f f' -> same_shape (view s) (view s').
Proof.
  intros U. split.
  - intros p e E. rewrite (file_upd_view _ _ _ _ _ _ U). unfold view, tree_of in E |- *.
    destruct (phys (m_heap s) root_id p) as [j|] eqn:P; [|discriminate]. cbn in E |- *. injection E as <-.
    destruct (Nat.eqb j i) eqn:J.
    + apply Nat.eqb_eq in J. subst. rewrite (fu_old _ _ _ _ _ U). eexists. split; [reflexivity|]. exact I.
    + eexists. split; [reflexivity|]. apply same_kind_refl.
  - intros p E. rewrite (file_upd_view _ _ _ _ _ _ U). unfold view, tree_of in E.
    now destruct (phys (m_heap s) root_id p).
Qed.

(** ** Single operations on a file object *)
Definition fset (f : file) (data : list N) (pos : nat) (mt : Z) : file :=
  mkFile (f_path f) data pos mt (f_mode f) (f_lock f).
Lemma fset_fset f d p m d' p' m' : fset (fset f d p m) d' p' m' = fset f d' p' m'.
Proof. reflexivity. Qed.
Lemma fset_same f : fset f (f_data f) (f_pos f) (f_mtime f) = f.
Proof. now destruct f. Qed.

Section F.
Variable s : mst.
Variable i : nat.
Variable f : file.
Hypothesis E : m_heap s i = NFile f.

Lemma upd_file f' : exists s', upd i (NFile f') s = (Ok tt, s') /\ file_upd s s' i f f'.
Proof.
  eexists. split; [reflexivity|]. constructor; cbn; auto.
  - apply heap_set_same.
  - intros j Hj. now apply heap_set_other.
  - repeat split.
Qed.
Lemma file_upd_refl : file_upd s s i f f.
Proof. constructor; auto. apply same_rest_refl. Qed.
Lemma run_get : get_file i s = (Ok f, s).
Proof. unfold get_file, bind, get_node_obj. now rewrite E. Qed.
Lemma run_set d p m : exists s', set_file i d p m f s = (Ok tt, s') /\ file_upd s s' i f (fset f d p m).
Proof. apply upd_file. Qed.
Lemma run_read z : exists s', file_read i z s = (Ok (fst (bio_read (f_data f) (f_pos f) z)), s') /\
  file_upd s s' i f (fset f (f_data f) (snd (bio_read (f_data f) (f_pos f) z)) (f_mtime f)).
Proof.
  unfold file_read, bind. rewrite run_get. destruct (bio_read (f_data f) (f_pos f) z) as [o p].
  destruct (run_set (f_data f) p (f_mtime f)) as (s' & R & U). rewrite R. exists s'. split; [reflexivity|exact U].
Qed.
Lemma run_write d : exists s', file_write i d s = (Ok tt, s') /\
  file_upd s s' i f (fset f (fst (bio_write (f_data f) (f_pos f) d)) (snd (bio_write (f_data f) (f_pos f) d)) (m_now s)).
Proof.
  unfold file_write, bind. rewrite run_get. destruct (bio_write (f_data f) (f_pos f) d) as [o p].
  cbn [get]. destruct (run_set o p (m_now s)) as (s' & R & U). exists s'. split; [exact R|exact U].
Qed.
Lemma run_seek to wh : match bio_seek (f_data f) (f_pos f) to wh with
  | Ok p => exists s', file_seek i to wh s = (Ok tt, s') /\ file_upd s s' i f (fset f (f_data f) p (f_mtime f))
  | Raise e => file_seek i to wh s = (Raise e, s)
  end.
Proof.
  unfold file_seek, bind, lift. rewrite run_get. destruct (bio_seek (f_data f) (f_pos f) to wh); auto. apply run_set.
Qed.
Lemma run_readline : let out := line_of (skipn (f_pos f) (f_data f)) in
  exists s', file_readline i s = (Ok out, s') /\ file_upd s s' i f (fset f (f_data f) (f_pos f + length out) (f_mtime f)).
Proof.
  cbn zeta. unfold file_readline, bind. rewrite run_get.
  destruct (run_set (f_data f) (f_pos f + length (line_of (skipn (f_pos f) (f_data f)))) (f_mtime f)) as (s' & R & U).
  rewrite R. exists s'. split; [reflexivity|exact U].
Qed.
Lemma run_reset : exists s', file_reset i s = (Ok tt, s') /\
  file_upd s s' i f (mkFile (f_path f) [] 0 (m_now s) 0 (m_epoch s, f_path f)).
Proof. unfold file_reset, bind. rewrite run_get. apply upd_file. Qed.
Lemma run_close : exists s', file_close i s = (Ok tt, s') /\ file_upd s s' i f (fset f (f_data f) 0 (f_mtime f)).
Proof. unfold file_close, bind. rewrite run_get. apply run_set. Qed.
Lemma run_truncate pos :
  let z := match pos with Some z => z | None => Z.of_nat (f_pos f) end in
  if (z <? 0)%Z then file_truncate i pos s = (Raise ValueError, s)
  else exists s', file_truncate i pos s = (Ok (Z.to_nat z), s') /\
       file_upd s s' i f (fset f (firstn (Z.to_nat z) (f_data f)) (f_pos f) (f_mtime f)).
Proof.
  cbn zeta. unfold file_truncate, bind. rewrite run_get.
  destruct (match pos with Some z => z | None => Z.of_nat (f_pos f) end <? 0)%Z; auto.
  edestruct run_set as (s' & R & U). rewrite R. exists s'. split; [reflexivity|exact U].
Qed.
End F.

(** Writing at the end. *)
Lemma bio_write_end data d : bio_write data (length data) d = (data ++ d, length (data ++ d)).
Proof.
  unfold bio_write. destruct d as [|x d].
  - now rewrite app_nil_r.
  - rewrite Nat.sub_diag. cbn [repeat]. rewrite app_nil_r, firstn_all, skipn_all2 by lia.
    rewrite app_nil_r, app_length. f_equal.
Qed.
Lemma writes_end (hd : handle) ds : forall s f, m_heap s (h_node hd) = NFile f -> f_pos f = length (f_data f) ->
  exists s', mapM_ (fun d => h_write hd (VBytes d)) ds s = (Ok tt, s') /\
    file_upd s s' (h_node hd) f (fset f (f_data f ++ concat ds) (length (f_data f ++ concat ds))
                                      (match ds with [] => f_mtime f | _ => m_now s end)).
Proof.
  induction ds as [|d ds IH]; intros s f E P; cbn [mapM_ concat].
  - exists s. split; auto. rewrite app_nil_r, <- P, fset_same. now apply file_upd_refl.
  - unfold bind at 1. unfold h_write. unfold bind at 1. cbn [proxy_encode lift]. unfold lift.
    destruct (run_write s (h_node hd) f E d) as (s1 & R1 & U1). rewrite R1. rewrite P, bio_write_end in U1. cbn [fst snd] in U1.
    destruct (IH s1 _ (fu_new _ _ _ _ _ U1) eq_refl) as (s2 & R2 & U2). exists s2. split; auto.
    eapply file_upd_trans; [exact U1|]. cbn [fset f_data f_mtime] in U2. rewrite fset_fset in U2. rewrite app_assoc.
    assert (Nw : m_now s1 = m_now s) by apply (fu_rest _ _ _ _ _ U1).
    destruct ds; [exact U2|]. rewrite Nw in U2. exact U2.
Qed.

(** ** Opening *)
Record opened (s s' : mst) (u : uri) (hd : handle) (q : list str) (f : file) : Prop := {
  op_wf : wf s';
  op_rest : same_rest s s';
  op_phys : phys (m_heap s') root_id q = Some (h_node hd);
  op_file : m_heap s' (h_node hd) = NFile f;
  op_at : denotes (view s') u (Found q) }.

Section O.
Variable s : mst.
Hypothesis W : wf s.
Local Notation h := (m_heap s).
Local Notation t := (view s).

Lemma efile_node q data mt mo : t q = Some (EFile data mt mo) ->
  exists i f, phys h root_id q = Some i /\ h i = NFile f /\ f_data f = data /\ f_mtime f = mt /\ f_mode f = mo.
Proof.
  unfold view, tree_of. destruct (phys h root_id q) as [i|] eqn:P; [|discriminate]. cbn.
  destruct (h i) as [f| |] eqn:E; cbn; try discriminate. intros H; injection H as <- <- <-. exists i, f. auto.
Qed.

Lemma open_read u b q data mt mo :
  denotes t u (Found q) -> t q = Some (EFile data mt mo) ->
  exists s' hd f, open_for_read u b s = (Ok hd, s') /\ hd = mkHandle (h_node hd) true b /\ opened s s' u hd q f /\
    f_data f = data /\ f_pos f = 0%nat /\ f_mtime f = mt /\ f_mode f = mo /\ same_tree t (view s').
Proof.
  intros D Q. destruct (efile_node _ _ _ _ Q) as (i & f & P & E & <- & <- & <-).
  assert (D' := D). destruct D' as (cs & A & R).
  destruct (run_lookup_found s W u cs q A R) as (i' & P' & L & B & _). rewrite P in P'. injection P' as <-.
  unfold open_for_read, bind. rewrite L. assert (K := run_seek s i f E 0 0). cbn [bio_seek Z.eqb Z.ltb Z.compare Z.to_nat] in K.
  destruct K as (s' & K & U). rewrite K. exists s', (mkHandle i true b), (fset f (f_data f) 0 (f_mtime f)). split; [reflexivity|]. split; [reflexivity|].
  split; [|repeat split; auto].
  - constructor.
    + eapply file_upd_wf; eauto.
    + apply U.
    + rewrite (file_upd_phys _ _ _ _ _ _ U). exact P.
    + apply U.
    + eapply denotes_shape; eauto. eapply file_upd_shape; eauto.
  - eapply file_upd_quiet; eauto.
Qed.
Lemma open_read_dir u b q : denotes t u (Found q) -> is_edir (t q) -> open_for_read u b s = (Raise AttributeError, s).
Proof.
  intros (cs & A & R) Q. destruct (run_lookup_found s W u cs q A R) as (i & P & L & B & _).
  destruct (tree_dir _ _ _ P Q) as (es & mt & mo & E).
  unfold open_for_read, bind. rewrite L. unfold file_seek, bind, get_file, bind, get_node_obj. now rewrite E.
Qed.
Lemma open_read_fail u b cs o : addr u cs -> leads t cs o -> (forall q, o <> Found q) ->
  open_for_read u b s = (Raise (err_of o), s) /\ open_for_append u b s = (Raise (err_of o), s).
Proof.
  intros A R N. assert (L := run_lookup_fail s W u cs o A R N). unfold open_for_read, open_for_append, bind. now rewrite L.
Qed.

Lemma file_len_pos data : data <> [] -> file_len data = length data.
Proof. unfold file_len. destruct data; [easy|]. cbn. lia. Qed.
Lemma open_append u b q data mt mo :
  denotes t u (Found q) -> t q = Some (EFile data mt mo) ->
  exists s' hd f, open_for_append u b s = (Ok hd, s') /\ hd = mkHandle (h_node hd) false b /\ opened s s' u hd q f /\
    f_data f = data /\ f_pos f = file_len data /\ f_mtime f = mt /\ f_mode f = mo /\ same_tree t (view s').
Proof.
  intros D Q. destruct (efile_node _ _ _ _ Q) as (i & f & P & E & <- & <- & <-).
  assert (D' := D). destruct D' as (cs & A & R).
  destruct (run_lookup_found s W u cs q A R) as (i' & P' & L & B & _). rewrite P in P'. injection P' as <-.
  unfold open_for_append, bind. rewrite L. rewrite (run_get s i f E).
  assert (K := run_seek s i f E (Z.of_nat (file_len (f_data f))) 0). unfold bio_seek in K.
  replace (Z.of_nat (file_len (f_data f)) <? 0)%Z with false in K by (symmetry; apply Z.ltb_ge; lia). rewrite Nat2Z.id in K. cbn [Z.eqb] in K.
  destruct K as (s' & K & U). rewrite K. exists s', (mkHandle i false b), (fset f (f_data f) (file_len (f_data f)) (f_mtime f)). split; [reflexivity|]. split; [reflexivity|].
  split; [|repeat split; auto].
  - constructor.
    + eapply file_upd_wf; eauto.
    + apply U.
    + rewrite (file_upd_phys _ _ _ _ _ _ U). exact P.
    + apply U.
    + eapply denotes_shape; eauto. eapply file_upd_shape; eauto.
  - eapply file_upd_quiet; eauto.
Qed.

(** Opening for writing, by what is at the place. *)
Lemma open_write_free u b p : place t u (Free p) -> ~ addr u [] ->
  exists s' hd f, open_for_write u b s = (Ok hd, s') /\ hd = mkHandle (h_node hd) false b /\ opened s s' u hd p f /\
    f_data f = [] /\ f_pos f = 0%nat /\ f_mtime f = m_now s /\ f_mode f = 0%Z /\
    put_at t (view s') p (EFile [] (m_now s) 0) /\ files_kept s s'.
Proof.
  intros Pl NR. inversion Pl as [|init n d A R Hd Hn| | | |]; subst.
  destruct (addr_snoc_path _ _ _ A) as (p & P & Np & Es).
  destruct (place_dir s W init n d R Hd) as (i & es & mt & mo & Pi & F & B & T1 & T2).
  rewrite T2 in Hn. destruct (dget n es) eqn:G; [discriminate|].
  assert (Hh : dhas n es = false) by (unfold dhas; now rewrite G).
  unfold open_for_write, bind, lift. rewrite P. rewrite (run_parent s W p init n (Found d) Es R). cbn [res_of rbind]. rewrite Pi. cbn [need].
  unfold node_has, bind, get_node_obj. rewrite Es, last_snoc, F. cbn [ret]. rewrite Hh. cbn [get].
  assert (RA := run_add s i n (new_file p (m_now s) (m_epoch s)) es mt mo B F). unfold bind in RA.
  destruct (added_spec s W d i n (new_file p (m_now s) (m_epoch s)) es mt mo Pi F Hh) as (X1 & X2 & X3 & X4 & X5 & X6).
  { intros ? D; discriminate D. }
  destruct (alloc (new_file p (m_now s) (m_epoch s)) s) as [[j|] s1] eqn:AL; [|discriminate].
  rewrite RA. assert (j = m_next s) by (unfold alloc in AL; congruence). subst j.
  eexists _, _, (mkFile p [] 0 (m_now s) 0 (m_epoch s, p)). split; [reflexivity|]. split; [reflexivity|]. split; [|repeat split; eauto].
  - constructor; eauto. exists (init ++ [n]). split; auto.
    assert (Gr : grows t (view (added s i n (new_file p (m_now s) (m_epoch s))))).
    { eapply put_new_grows; eauto. }
    eapply leads_snoc_plain with (d := d); eauto.
    + eapply leads_grows; eauto.
    + eapply kind_dir; [|exact Hd]. intros e. apply Gr.
    + left. exists [], (m_now s), 0%Z. exact (proj1 X2).
  - apply X2.
  - apply X2.
  - apply X4.
  - apply X4.
Qed.

Lemma run_write_taken u b init n d i es mt mo j o :
  addr u (init ++ [n]) -> leads t init (Found d) -> phys h root_id d = Some i -> h i = NDir es mt mo -> dget n es = Some j ->
  leads t (init ++ [n]) o ->
  open_for_write u b s =
  match res_of h true o with
  | Ok (Some c) => if is_dir (h c) then (Raise (OSError EISDIR), s)
                   else (file_reset c ;; ret (mkHandle c false b)) s
  | Ok None => (Raise AttributeError, s)
  | Raise e => (Raise e, s)
  end.
Proof.
  intros A R P F G R2. destruct (addr_snoc_path _ _ _ A) as (p & Pp & Np & Es).
  unfold open_for_write, bind, lift. rewrite Pp. rewrite (run_parent s W p init n (Found d) Es R). cbn [res_of rbind]. rewrite P. cbn [need].
  unfold node_has, bind, get_node_obj. rewrite Es, last_snoc, F. cbn [ret].
  assert (Hh : dhas n es = true) by (unfold dhas; now rewrite G). rewrite Hh.
  rewrite (child_follow _ _ W true init n d i es mt mo j o); auto.
  destruct (res_of h true o) as [[c|]|]; auto. now destruct (is_dir (h c)).
Qed.
Lemma leads_taken init n d q : leads t init (Found d) -> leads t (init ++ [n]) (Found q) -> is_edir (t d) /\ t (d ++ [n]) <> None.
Proof.
  intros R R2. destruct (leads_prefix s W _ _ _ R2) as (d' & R' & D'). assert (E := leads_det _ _ W _ _ _ R R'). injection E as <-.
  split; auto. intros N. assert (R3 : leads t (init ++ [n]) Missing) by (eapply leads_snoc; eauto; now apply rs_missing).
  assert (C := leads_det _ _ W _ _ _ R2 R3). discriminate.
Qed.
Lemma open_write_file u b q data mt0 mo0 : denotes t u (Found q) -> t q = Some (EFile data mt0 mo0) ->
  exists s' hd f, open_for_write u b s = (Ok hd, s') /\ hd = mkHandle (h_node hd) false b /\ opened s s' u hd q f /\
    f_data f = [] /\ f_pos f = 0%nat /\ f_mtime f = m_now s /\ f_mode f = 0%Z /\
    put_at t (view s') q (EFile [] (m_now s) 0).
Proof.
  intros D Q. assert (D' := D). destruct D' as (cs & A & R2). destruct (efile_node _ _ _ _ Q) as (c & f & P & E & _).
  destruct (snoc_cases cs) as [->|(init & n & ->)].
  { apply leads_root in R2. injection R2 as ->. cbn in P. injection P as <-.
    destruct (wf_root _ _ W) as (es & mt & mo & E'). congruence. }
  destruct (leads_prefix s W _ _ _ R2) as (d & R & Hd).
  destruct (leads_taken _ _ _ _ R R2) as [_ Hn].
  destruct (place_dir s W init n d R Hd) as (i & es & mt & mo & Pi & F & B & T1 & T2).
  rewrite T2 in Hn. destruct (dget n es) as [j|] eqn:G; [|easy].
  rewrite (run_write_taken u b init n d i es mt mo j (Found q) A R Pi F G R2). cbn [res_of]. rewrite P, E. cbn [is_dir].
  destruct (run_reset s c f E) as (s' & K & U). unfold bind. rewrite K.
  exists s', (mkHandle c false b), (mkFile (f_path f) [] 0 (m_now s) 0 (m_epoch s, f_path f)). split; [reflexivity|]. split; [reflexivity|]. split; [|repeat split; auto].
  - constructor.
    + eapply file_upd_wf; eauto.
    + apply U.
    + rewrite (file_upd_phys _ _ _ _ _ _ U). exact P.
    + apply U.
    + eapply denotes_shape; eauto. eapply file_upd_shape; eauto.
  - eapply (file_upd_put _ _ _ _ _ q) in U; eauto. apply U.
  - eapply (file_upd_put _ _ _ _ _ q) in U; eauto. apply U.
Qed.
Lemma open_write_dir u b q cs : addr u cs -> cs <> [] -> leads t cs (Found q) -> is_edir (t q) -> open_for_write u b s = (Raise (OSError EISDIR), s).
Proof.
  intros A Hc R2 Hq.
  destruct (snoc_cases cs) as [->|(init & n & ->)].
  { easy. }
  destruct (leads_prefix s W _ _ _ R2) as (d & R & Hd).
  destruct (leads_taken _ _ _ _ R R2) as [_ Hn].
  destruct (place_dir s W init n d R Hd) as (i & es & mt & mo & Pi & F & B & T1 & T2).
  rewrite T2 in Hn. destruct (dget n es) as [j|] eqn:G; [|easy].
  rewrite (run_write_taken u b init n d i es mt mo j (Found q) A R Pi F G R2). cbn [res_of].
  destruct (leads_phys _ _ W _ _ R2) as (z & Pz & Lz & Bz). rewrite Pz.
  destruct (tree_dir _ _ _ Pz Hq) as (es' & mt' & mo' & E'). now rewrite E'.
Qed.
Lemma open_write_noplace u b e : place t u (NoPlace e) -> open_for_write u b s = (Raise e, s).
Proof.
  intros Pl. inversion Pl as [| | |init n d A R Hd|init n o A R N|B]; subst.
  - destruct (addr_snoc_path _ _ _ A) as (p & Pp & Np & Es).
    unfold open_for_write, bind, lift. rewrite Pp. rewrite (run_parent s W p init n (Found d) Es R). cbn [res_of rbind].
    destruct (leads_phys _ _ W _ _ R) as (z & Pz & Lz & Bz). rewrite Pz. cbn [need].
    unfold node_has, bind, get_node_obj. destruct (h z) eqn:E; auto. exfalso. apply Hd. eapply dir_tree; eauto.
  - destruct (addr_snoc_path _ _ _ A) as (p & Pp & Np & Es).
    unfold open_for_write, bind, lift. rewrite Pp. rewrite (run_parent s W p init n o Es R). now rewrite res_throw.
  - apply addr_none in B. unfold open_for_write, bind, lift. now rewrite B.
Qed.
(** A link with a missing or looping target. *)
Lemma open_write_dead u b p cs o : place t u (Taken p) -> addr u cs -> leads t cs o -> (forall q, o <> Found q) ->
  open_for_write u b s = (Raise (err_of o), s).
Proof.
  intros Pl A R2 N. inversion Pl as [| |init n d A' R Hd Hn| | |]; subst.
  assert (cs = init ++ [n]) by (eapply addr_inj; eauto). subst.
  destruct (place_dir s W init n d R Hd) as (i & es & mt & mo & Pi & F & B & T1 & T2).
  rewrite T2 in Hn. destruct (dget n es) as [j|] eqn:G; [|easy].
  rewrite (run_write_taken u b init n d i es mt mo j o A R Pi F G R2). now rewrite res_throw.
Qed.
End O.
