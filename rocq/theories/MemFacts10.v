(** The property lemmas about the memory backend: whole programs of several operations. *)
From Verif Require Import Str Exc Utf8 UriParse BaseUri StrFacts Utf8Facts SpecUri Mem SpecMem SpecFile MemOps.
From Verif Require Import MemFacts MemFacts2 MemFacts3 MemFacts4 MemFacts5 MemFacts6 MemFacts7 MemFacts8 MemFacts9.
From Coq Require Import Sorted.

(** Nothing lies below a missing entry. *)
Lemma below_none s p r : view s p = None -> view s (p ++ r) = None.
Proof.
  unfold view, tree_of. intros H. rewrite phys_app. destruct (phys (m_heap s) root_id p); [discriminate|reflexivity].
Qed.

Lemma not_root u p s : place (view s) u (Free p) -> addr u [] -> False.
Proof.
  intros H A. inversion H as [ |init n d A' L D N E| | | | ]; subst.
  pose proof (addr_inj _ _ _ A A') as E. now destruct init.
Qed.

(** ** Opening for writing *)

Lemma open_writable s u b p : wf s -> writable (view s) u p ->
  exists s' hd f, open_for_write u b s = (Ok hd, s') /\ hd = mkHandle (h_node hd) false b /\ opened s s' u hd p f /\
    f_data f = [] /\ f_pos f = 0%nat /\ f_mtime f = m_now s /\ f_mode f = 0%Z /\
    put_at (view s) (view s') p (EFile [] (m_now s) 0).
Proof.
  intros W [p' P|q D (d & mt & mo & E)].
  - destruct (open_write_free s W u b p' P) as (s' & hd & f & A); [intros A; eapply not_root; eauto|].
    exists s', hd, f. tauto.
  - destruct (open_write_file s W u b q d mt mo D E) as (s' & hd & f & A). exists s', hd, f. tauto.
Qed.

(** If it can be opened at all, and is not the root, then it is of that kind. *)
Lemma open_write_inv s u b hd s' : wf s -> ~ addr u [] -> open_for_write u b s = (Ok hd, s') ->
  exists p, writable (view s) u p.
Proof.
  intros W R H. destruct (place_total s u) as [sl P]. destruct sl as [|p|p|e].
  - inversion P; now destruct R.
  - exists p. now constructor.
  - inversion P as [| |init n d A L D N E| | |]; subst.
    destruct (leads_total (m_heap s) (init ++ [n])) as [o O].
    destruct (outcome_cases o) as [[q ->]|F].
    + destruct (leads_real _ _ W _ _ O) as [K|K].
      * exists q. apply wr_file; auto. now exists (init ++ [n]).
      * rewrite (open_write_dir s W u b q (init ++ [n])) in H; auto; [discriminate|now destruct init].
    + rewrite (open_write_dead s W u b (d ++ [n]) (init ++ [n]) o) in H; auto. discriminate.
  - rewrite (open_write_noplace s W u b e P) in H. discriminate.
Qed.

Lemma mem_open_write u o : has_char 114 o = false -> has_char 119 o = true -> mem_open u (Some o) = open_for_write u (has_char 98 o).
Proof. intros H1 H2. unfold mem_open. now rewrite H1, H2. Qed.
Lemma mem_open_append u o : has_char 114 o = false -> has_char 119 o = false -> has_char 97 o = true ->
  mem_open u (Some o) = open_for_append u (has_char 98 o).
Proof. intros H1 H2 H3. unfold mem_open. now rewrite H1, H2, H3. Qed.
Lemma mem_open_read u o : match o with None => True | Some o => has_char 114 o = true end ->
  mem_open u o = open_for_read u (match o with Some o => has_char 98 o | None => false end).
Proof. intros H. unfold mem_open. destruct o as [o|]; [now rewrite H|reflexivity]. Qed.

(** with u.open(mode) as f: for d in ds: f.write(d) *)
Definition write_all (u : uri) (mode : str) (ds : list pyval) : M mst handle :=
  let! hd <- mem_open u (Some mode);
  mapM_ (h_write hd) ds ;; ret hd.
(** with u.open(mode) as f: return f.read() *)
Definition read_all (u : uri) (mode : option str) : M mst pyval :=
  let! hd <- mem_open u mode; h_read hd (-1).

Lemma mapM_map {A B S} (f : A -> M S unit) (g : B -> A) l s : mapM_ f (map g l) s = mapM_ (fun x => f (g x)) l s.
Proof. revert s; induction l as [|x l IH]; intros s; [reflexivity|]. cbn [map mapM_]. unfold bind. destruct (f (g x) s) as [[a|e] s']; auto. Qed.

Lemma write_all_run s u b p ds o : wf s -> writable (view s) u p -> has_char 114 o = false -> has_char 119 o = true ->
  b = has_char 98 o ->
  exists s' hd f, write_all u o (map VBytes ds) s = (Ok hd, s') /\ hd = mkHandle (h_node hd) false b /\ opened s s' u hd p f /\
    f_data f = concat ds /\ f_pos f = length (concat ds) /\ f_mtime f = m_now s /\ f_mode f = 0%Z /\
    put_at (view s) (view s') p (EFile (concat ds) (m_now s) 0).
Proof.
  intros W Wr O1 O2 ->. destruct (open_writable s u (has_char 98 o) p W Wr) as (s1 & hd & f & E & Eh & Op & D & P & M1 & M2 & Pt).
  destruct (writes_end hd ds s1 f (op_file _ _ _ _ _ _ Op)) as (s2 & E2 & U); [now rewrite D, P|].
  exists s2, hd. eexists. split.
  { unfold write_all. rewrite mem_open_write by auto. unfold bind at 1. rewrite E.
    unfold bind. rewrite mapM_map, E2. reflexivity. }
  split; [exact Eh|].
  assert (W1 : wf s1) by apply Op.
  pose proof (file_upd_put _ _ _ _ _ p W1 U (op_phys _ _ _ _ _ _ Op)) as Pt2.
  assert (R : m_now s1 = m_now s) by (destruct (op_rest _ _ _ _ _ _ Op) as (A & _); exact A).
  split; [|split; [|split; [|split; [|split]]]].
  - split.
    + eapply file_upd_wf; eauto.
    + eapply same_rest_trans; [apply Op|apply U].
    + rewrite (file_upd_phys _ _ _ _ _ _ U). apply Op.
    + apply U.
    + eapply denotes_shape; [eapply file_upd_shape; exact U|apply Op].
  - cbn [fset f_data]. now rewrite D.
  - cbn [fset f_pos]. now rewrite D.
  - cbn [fset f_mtime]. rewrite R, M1. now destruct ds.
  - exact M2.
  - destruct Pt as [Pa Pb]. destruct Pt2 as [Qa Qb]. cbn [fset f_data f_mtime f_mode] in Qa. rewrite D, M2, R, M1 in Qa.
    split; [rewrite Qa; now destruct ds|]. intros q N. now rewrite Qb, Pb.
Qed.

Lemma read_all_run s u m q data mt mo : wf s -> denotes (view s) u (Found q) -> view s q = Some (EFile data mt mo) ->
  match m with None => True | Some o => has_char 114 o = true end ->
  exists s', read_all u m s = (proxy_decode (mkHandle 0 true (match m with Some o => has_char 98 o | None => false end)) data, s') /\
    wf s' /\ same_tree (view s) (view s').
Proof.
  intros W D E Hm. set (b := match m with Some o => has_char 98 o | None => false end).
  destruct (open_read s W u b q data mt mo D E) as (s1 & hd & f & E1 & Eh & Op & D1 & P1 & _ & _ & T1).
  destruct (run_read s1 (h_node hd) f (op_file _ _ _ _ _ _ Op) (-1)) as (s2 & E2 & U).
  exists s2. split; [|split].
  - unfold read_all. rewrite mem_open_read by auto. fold b. unfold bind at 1. rewrite E1.
    unfold h_read. rewrite Eh. cbn [h_readable negb h_node]. unfold bind. rewrite E2. unfold lift, bio_read.
    rewrite P1, D1. cbn [Z.ltb Z.compare skipn fst]. reflexivity.
  - eapply file_upd_wf; [apply Op|exact U].
  - eapply same_tree_trans; [exact T1|]. eapply file_upd_quiet; [exact U|reflexivity..].
Qed.

(** ** Writing, then reading *)
Lemma put_here t t' p e : put_at t t' p e -> t' p = Some e. Proof. now intros [H _]. Qed.

Lemma write_read s u p ds wm rm : wf s -> writable (view s) u p ->
  has_char 114 wm = false -> has_char 119 wm = true -> has_char 114 rm = true -> has_char 98 rm = true ->
  exists s', (write_all u wm (map VBytes ds) ;; read_all u (Some rm)) s = (Ok (VBytes (concat ds)), s') /\
    put_at (view s) (view s') p (EFile (concat ds) (m_now s) 0).
Proof.
  intros W Wr A B C D. destruct (write_all_run s u _ p ds wm W Wr A B eq_refl) as (s1 & hd & f & E & _ & Op & _ & _ & _ & _ & Pt).
  destruct (read_all_run s1 u (Some rm) p (concat ds) (m_now s) 0) as (s2 & E2 & W2 & T).
  - apply Op. - apply Op. - eapply put_here; eauto. - exact C.
  - exists s2. split.
    + unfold bind. rewrite E, E2. cbn. unfold proxy_decode. cbn [h_binary]. now rewrite D.
    + destruct Pt as [P1 P2]. split; [now rewrite T|]. intros q N. rewrite T. now apply P2.
Qed.

(** Text. *)
Lemma encode_enc t : forallb scalar t = true -> utf8_encode t = Ok (flat_map enc1 t).
Proof. intros H. unfold utf8_encode. now rewrite H. Qed.

Lemma write_text_run wm hd ts : has_char 98 wm = false -> h_binary hd = has_char 98 wm -> Forall text_ok ts ->
  forall s, mapM_ (h_write hd) (map VStr ts) s = mapM_ (h_write hd) (map VBytes (map (flat_map enc1) ts)) s.
Proof.
  intros B Hb. induction ts as [|t ts IH]; intros HF s; [reflexivity|]. inversion HF as [|? ? Ht Hts]; subst.
  cbn [map mapM_]. unfold bind. assert (E : h_write hd (VStr t) s = h_write hd (VBytes (flat_map enc1 t)) s).
  { unfold h_write, proxy_encode. rewrite Hb, B. unfold bind, lift. now rewrite encode_enc. }
  rewrite E. destruct (h_write hd (VBytes (flat_map enc1 t)) s) as [[a|e] s']; auto.
Qed.
Lemma open_write_binary s u b hd s' : open_for_write u b s = (Ok hd, s') -> h_binary hd = b.
Proof.
  unfold open_for_write, bind, lift. destruct (mem_path u) as [p|]; [|discriminate].
  destruct (parent_node p s) as [[nd|] s1]; [|discriminate].
  destruct (node_has nd _ s1) as [[pr|] s2]; [|discriminate]. destruct pr.
  - destruct (child _ _ _ _ _ _) as [o|]; [|discriminate]. destruct (match o with Some c => _ | None => false end); [discriminate|].
    destruct (need o) as [c|]; [|discriminate]. destruct (file_reset c s2) as [[[]|] s3]; [|discriminate].
    intros E. now injection E as <- _.
  - cbn [get]. destruct (alloc _ s2) as [[i|] s3]; [|discriminate]. destruct (create_child nd _ i s3) as [[[]|] s4]; [|discriminate].
    intros E. now injection E as <- _.
Qed.
Lemma write_text s u wm ts : has_char 114 wm = false -> has_char 119 wm = true -> has_char 98 wm = false -> Forall text_ok ts ->
  write_all u wm (map VStr ts) s = write_all u wm (map VBytes (map (flat_map enc1) ts)) s.
Proof.
  intros A B C HF. unfold write_all. rewrite mem_open_write by auto. unfold bind at 1 3.
  destruct (open_for_write u (has_char 98 wm) s) as [[hd|e] s'] eqn:E; auto.
  unfold bind. rewrite (write_text_run wm hd ts); auto. rewrite (open_write_binary _ _ _ _ _ E); auto.
Qed.
Lemma concat_enc ts : concat (map (flat_map enc1) ts) = flat_map enc1 (concat ts).
Proof. induction ts as [|t ts IH]; [reflexivity|]. cbn. now rewrite flat_map_app, IH. Qed.
Lemma concat_scalar ts : Forall text_ok ts -> text_ok (concat ts).
Proof. induction 1 as [|t ts H _ IH]; [reflexivity|]. cbn. unfold text_ok in *. now rewrite forallb_app, H, IH. Qed.

Lemma text_roundtrip s u p ts wm : wf s -> writable (view s) u p ->
  has_char 114 wm = false -> has_char 119 wm = true -> has_char 98 wm = false -> Forall text_ok ts ->
  exists hd s1 s2 s3 b, write_all u wm (map VStr ts) s = (Ok hd, s1) /\
    utf8_encode (concat ts) = Ok b /\
    read_all u (Some (lit "rb")) s1 = (Ok (VBytes b), s2) /\
    read_all u (Some (lit "r")) s2 = (Ok (VStr (concat ts)), s3) /\
    put_at (view s) (view s1) p (EFile b (m_now s) 0).
Proof.
  intros W Wr A B C HF. rewrite write_text by auto.
  destruct (write_all_run s u _ p (map (flat_map enc1) ts) wm W Wr A B eq_refl) as (s1 & hd & f & E & _ & Op & _ & _ & _ & _ & Pt).
  rewrite concat_enc in Pt. pose proof (concat_scalar _ HF) as Hs.
  destruct (read_all_run s1 u (Some (lit "rb")) p (flat_map enc1 (concat ts)) (m_now s) 0) as (s2 & E2 & W2 & T).
  - apply Op. - apply Op. - eapply put_here; eauto. - reflexivity.
  - destruct (read_all_run s2 u (Some (lit "r")) p (flat_map enc1 (concat ts)) (m_now s) 0) as (s3 & E3 & W3 & T3); auto.
    + eapply denotes_shape; [apply same_shape_same; exact T|apply Op].
    + rewrite T. eapply put_here; eauto.
    + exists hd, s1, s2, s3, (flat_map enc1 (concat ts)).
      split; [exact E|]. split; [now apply encode_enc|]. split; [exact E2|]. split; [|exact Pt].
      rewrite E3. unfold proxy_decode. change (has_char 98 (lit "r")) with false. cbn [h_binary].
      now rewrite decode_enc.
Qed.

(** ** Reading in pieces *)
Definition read_sizes (u : uri) (m : str) (zs : list Z) : M mst (list pyval) :=
  let! hd <- mem_open u (Some m); read_seq hd zs.
Lemma read_sizes_run s u q data mt mo m zs : wf s -> denotes (view s) u (Found q) -> view s q = Some (EFile data mt mo) ->
  has_char 114 m = true -> has_char 98 m = true ->
  exists s', read_sizes u m zs s = (Ok (map VBytes (fst (slices data zs))), s') /\ same_tree (view s) (view s').
Proof.
  intros W D E A B. destruct (open_read s W u true q data mt mo D E) as (s1 & hd & f & E1 & Eh & Op & D1 & P1 & _ & _ & T1).
  destruct (read_seq_spec (h_node hd) true zs s1 f) as (s2 & pos & E2 & U & _); auto; [apply Op|].
  exists s2. split.
  - unfold read_sizes. rewrite mem_open_read, B by auto. unfold bind. rewrite E1, Eh. cbn [h_node].
    rewrite E2, P1, D1. reflexivity.
  - eapply same_tree_trans; [exact T1|]. eapply file_upd_quiet; [exact U|reflexivity..].
Qed.

(** ** Appending *)
Lemma append_run s u q data mt mo ds m : wf s -> denotes (view s) u (Found q) -> view s q = Some (EFile data mt mo) ->
  data <> [] -> has_char 114 m = false -> has_char 119 m = false -> has_char 97 m = true ->
  exists s' hd, write_all u m (map VBytes ds) s = (Ok hd, s') /\
    put_at (view s) (view s') q (EFile (data ++ concat ds) (match ds with [] => mt | _ => m_now s end) mo).
Proof.
  intros W D E N A B C.
  destruct (open_append s W u (has_char 98 m) q data mt mo D E) as (s1 & hd & f & E1 & Eh & Op & D1 & P1 & M1 & M2 & T1).
  destruct (writes_end hd ds s1 f (op_file _ _ _ _ _ _ Op)) as (s2 & E2 & U).
  { rewrite P1, D1. now apply file_len_pos. }
  exists s2, hd. split.
  - unfold write_all. rewrite mem_open_append by auto. unfold bind at 1. rewrite E1.
    unfold bind. rewrite mapM_map, E2. reflexivity.
  - assert (R : m_now s1 = m_now s) by (destruct (op_rest _ _ _ _ _ _ Op) as (Q & _); exact Q).
    pose proof (file_upd_put _ _ _ _ _ q (op_wf _ _ _ _ _ _ Op) U (op_phys _ _ _ _ _ _ Op)) as [Pa Pb].
    cbn [fset f_data f_mtime f_mode] in Pa. rewrite D1, M1, M2, R in Pa. split; [exact Pa|].
    intros r Nr. rewrite Pb by auto. apply T1.
Qed.

(** ** Handles opened for writing are not readable *)
Lemma open_write_unreadable s u b hd s' : open_for_write u b s = (Ok hd, s') -> h_readable hd = false.
Proof.
  unfold open_for_write, bind, lift. destruct (mem_path u) as [p|]; [|discriminate].
  destruct (parent_node p s) as [[nd|] s1]; [|discriminate].
  destruct (node_has nd _ s1) as [[pr|] s2]; [|discriminate]. destruct pr.
  - destruct (child _ _ _ _ _ _) as [o|]; [|discriminate]. destruct (match o with Some c => _ | None => false end); [discriminate|].
    destruct (need o) as [c|]; [|discriminate]. destruct (file_reset c s2) as [[[]|] s3]; [|discriminate].
    intros E. now injection E as <- _.
  - cbn [get]. destruct (alloc _ s2) as [[i|] s3]; [|discriminate]. destruct (create_child nd _ i s3) as [[[]|] s4]; [|discriminate].
    intros E. now injection E as <- _.
Qed.
Lemma open_append_unreadable s u b hd s' : open_for_append u b s = (Ok hd, s') -> h_readable hd = false.
Proof.
  unfold open_for_append, bind. destruct (lookup_node u true s) as [[i|] s1]; [|discriminate].
  destruct (get_file i s1) as [[f|] s2]; [|discriminate]. destruct (file_seek i _ _ s2) as [[[]|] s3]; [|discriminate].
  intros E. now injection E as <- _.
Qed.
Lemma unreadable s u o hd s1 : has_char 114 o = false -> mem_open u (Some o) s = (Ok hd, s1) -> h_readable hd = false.
Proof.
  intros A. unfold mem_open. rewrite A. destruct (has_char 119 o).
  - apply open_write_unreadable.
  - destruct (has_char 97 o); [apply open_append_unreadable|discriminate].
Qed.
Lemma unreadable_read hd z s : h_readable hd = false -> h_read hd z s = (Raise (OSError EBADF), s).
Proof. intros H. unfold h_read. now rewrite H. Qed.

(** ** Lines *)
Definition lines_of (u : uri) (m : option str) (fuel : nat) : M mst (list pyval) :=
  let! hd <- mem_open u m; h_lines fuel hd.
Lemma lines_bytes s u q data mt mo m fuel : wf s -> denotes (view s) u (Found q) -> view s q = Some (EFile data mt mo) ->
  has_char 114 m = true -> has_char 98 m = true -> (length data < fuel)%nat ->
  exists s' ls, lines_of u (Some m) fuel s = (Ok (map VBytes ls), s') /\ is_lines data ls /\ same_tree (view s) (view s').
Proof.
  intros W D E A B F. destruct (open_read s W u true q data mt mo D E) as (s1 & hd & f & E1 & Eh & Op & D1 & P1 & _ & _ & T1).
  destruct (h_lines_spec (h_node hd) fuel s1 f true) as (s2 & pos & E2 & U); auto.
  { apply Op. } { rewrite D1, P1. exact F. }
  exists s2, (split_lines fuel data). split; [|split].
  - unfold lines_of. rewrite mem_open_read, B by auto. unfold bind. rewrite E1, Eh. cbn [h_node].
    rewrite E2, P1, D1. reflexivity.
  - now apply split_lines_spec.
  - eapply same_tree_trans; [exact T1|]. eapply file_upd_quiet; [exact U|reflexivity..].
Qed.
Lemma lines_text s u q t mt mo m fuel : wf s -> denotes (view s) u (Found q) ->
  view s q = Some (EFile (flat_map enc1 t) mt mo) -> text_ok t ->
  match m with None => True | Some o => has_char 114 o = true /\ has_char 98 o = false end -> (length t < fuel)%nat ->
  exists s' ls, lines_of u m fuel s = (Ok (map VStr ls), s') /\ is_lines t ls /\ same_tree (view s) (view s').
Proof.
  intros W D E Ht Hm F.
  destruct (open_read s W u false q (flat_map enc1 t) mt mo D E) as (s1 & hd & f & E1 & Eh & Op & D1 & P1 & _ & _ & T1).
  destruct (h_lines_text (h_node hd) fuel s1 f true t) as (s2 & pos & E2 & U); auto.
  { apply Op. } { now rewrite D1, P1. }
  exists s2, (split_lines fuel t). split; [|split].
  - unfold lines_of. rewrite mem_open_read by (destruct m; tauto).
    replace (match m with Some o => has_char 98 o | None => false end) with false by (destruct m; [symmetry; apply Hm|auto]).
    unfold bind. rewrite E1, Eh. cbn [h_node]. exact E2.
  - now apply split_lines_spec.
  - eapply same_tree_trans; [exact T1|]. eapply file_upd_quiet; [exact U|reflexivity..].
Qed.

(** ** readlink, and links to a target *)
Lemma readlink_spec s u cs p tg mt mo : wf s -> regular (view s) u cs -> place (view s) u (Taken p) ->
  view s p = Some (ELink tg mt mo) -> mem_readlink u s = (Ok tg, s).
Proof.
  intros W R P E. destruct (entry_at_run s W u false p) as (i & Pi & Li & _); [eapply ea_self; eauto|].
  inversion P as [| |init n d A L D N Ep| | |]; subst.
  destruct (addr_snoc_path u init n A) as (pp & Mp & Np & _).
  unfold mem_readlink. unfold bind at 1, lift at 1. rewrite Mp. destruct pp as [|c pp]; [congruence|].
  unfold bind. rewrite Li. unfold get_node_obj. unfold view, tree_of in E. rewrite Pi in E. cbn in E.
  destruct (m_heap s i); try discriminate. now injection E as -> _ _.
Qed.

(** What a path leads to is unique. *)
Lemma resolves_det t k d steps o : resolves t k d steps o -> forall o', resolves t k d steps o' -> o = o'.
Proof.
  assert (X : forall d n tg tg' mt mt' mo mo', t (d ++ [n]) = Some (ELink tg mt mo) -> t (d ++ [n]) = Some (ELink tg' mt' mo') -> tg = tg')
    by congruence.
  intros R. induction R as
    [k d|k d n rest Hn|k d n rest Hd Hm|k d n rest o Hd Hr R IH|d n rest Hd Hl
    |k d n rest target mt mo Hd Hl Ha|k d n rest target mt mo cs q o Hd Hl Ha R1 IH1 R2 IH2
    |k d n target mt mo cs Hd Hl Ha R IH|k d n m rest target mt mo cs Hd Hl Ha R IH
    |k d n rest target mt mo cs o Hd Hl Ha R IH Ho]; intros o' R'; inversion R'; subst; auto;
  repeat match goal with
  | H : is_efile _ \/ is_edir _ |- _ => destruct H as [H|H]
  | H : is_efile _ |- _ => destruct H as (? & ? & ? & H)
  | H : is_elink _ |- _ => destruct H as (? & ? & ? & H)
  | H : t ?p = Some (ELink ?a _ _), H' : t ?p = Some (ELink ?b _ _) |- _ =>
      tryif constr_eq a b then fail else (pose proof (X _ _ _ _ _ _ _ _ H H'); subst)
  | H : addr ?u ?a, H' : addr ?u ?b |- _ =>
      tryif constr_eq a b then fail else (pose proof (addr_inj _ _ _ H H'); subst)
  | H : forall cs, ~ addr ?u cs, H' : addr ?u _ |- _ => destruct (H _ H')
  | H : ~ is_edir ?x, H' : is_edir ?x |- _ => destruct (H H')
  end;
  try (match goal with H : is_edir (t (_ ++ _)) |- _ => destruct H as (? & ? & H) end);
  try congruence; auto.
  all: match goal with IH : forall o', resolves _ _ _ ?cs o' -> ?x = o', R : resolves _ _ _ ?cs ?y |- _ =>
         assert_fails (constr_eq x y); pose proof (IH _ R) as EE end.
  1: { injection EE as ->. auto. }
  all: try (subst; cbn in *; intuition discriminate).
Qed.
Lemma loop_less t k cs : (exists o, resolves t k [] cs o) -> resolves t (S k) [] cs Loop -> resolves t k [] cs Loop.
Proof.
  intros [o O] H. destruct (match o with Loop => true | _ => false end) eqn:E; [now destruct o|].
  assert (N : o <> Loop) by (intros ->; discriminate).
  pose proof (resolves_more _ _ _ _ _ O N) as O2. now destruct N; eapply resolves_det; eauto.
Qed.

(** A path that is found, cut in two. *)
Lemma resolves_split t k : forall a d0 b q, resolves t k d0 (a ++ b) (Found q) ->
  exists d, resolves t k d0 a (Found d) /\ resolves t k d b (Found q).
Proof.
  induction a as [|n a IH]; intros d0 b q R; [exists d0; split; [constructor|exact R]|].
  cbn [app] in R. inversion R; subst.
  - match goal with H : resolves _ _ _ (a ++ b) _ |- _ => destruct (IH _ _ _ H) as (d & A & B) end.
    exists d. split; auto. now apply rs_step.
  - match goal with H : resolves _ _ _ (a ++ b) _ |- _ => destruct (IH _ _ _ H) as (d & A & B) end.
    exists d. split; auto. eapply rs_link; eauto.
  - cbn in *. intuition discriminate.
Qed.
Lemma resolves_has t k d n rest q : resolves t k d (n :: rest) (Found q) -> t (d ++ [n]) <> None.
Proof.
  intros R. inversion R; subst; try congruence.
  match goal with H : _ \/ _ |- _ => destruct H as [(? & ? & ? & E)|(? & ? & E)]; congruence end.
Qed.
Lemma fresh_grows t t' init n d : grows t t' -> leads t init (Found d) -> fresh_last t init n -> fresh_last t' init n.
Proof.
  intros G L F pre post d' -> L'. destruct (resolves_split _ _ _ _ _ _ L) as (d2 & A & B).
  assert (E : Found d' = Found d2) by (eapply resolves_det; [exact L'|eapply leads_grows; eauto]).
  injection E as ->. pose proof (resolves_has _ _ _ _ _ _ B) as Hn.
  destruct (t (d2 ++ [n])) as [e|] eqn:Ee; [|congruence].
  destruct (G _ _ Ee) as (e' & Ee' & K). rewrite Ee'. intros (a & b & c & El). injection El as ->.
  apply (F pre post d2 eq_refl A). rewrite Ee. destruct e; try easy. red. eauto.
Qed.

Lemma symlink_run s target u cs p : wf s -> regular (view s) u cs -> place (view s) u (Free p) ->
  exists s', mem_symlink target u s = (Ok tt, s') /\ wf s' /\
    put_at (view s) (view s') p (ELink target (m_now s) 0) /\
    regular (view s') u cs /\ place (view s') u (Taken p) /\
    mem_islink u s' = (Ok true, s') /\ mem_readlink u s' = (Ok target, s') /\
    forall ct k o, addr target ct -> (k <= 31)%nat -> resolves (view s') k [] ct o -> o <> Loop -> leads (view s') cs o.
Proof.
  intros W R P. destruct (make_free s W u (fun s => NLink target (m_now s) 0) p P) as (s' & E & W' & Pt & _); [intros es Hes; discriminate Hes|].
  rewrite symlink_make. exists s'. split; [exact E|]. split; [exact W'|]. split; [exact Pt|].
  inversion P as [|init n d A L D N Ep| | | |]; subst.
  destruct (same_snoc s u cs init n R A) as (-> & F & Lu).
  assert (G : grows (view s) (view s')) by (eapply put_new_grows; eauto).
  assert (L' : leads (view s') init (Found d)) by (eapply leads_grows; eauto).
  assert (D' : is_edir (view s' d)).
  { destruct D as (mt & mo & D). destruct (G _ _ D) as (e' & De & K). destruct e'; try easy. rewrite De. red. eauto. }
  assert (F' : fresh_last (view s') init n) by (eapply fresh_grows; eauto).
  assert (R' : regular (view s') u (init ++ [n])).
  { split; try apply R. intros i0 n0 E0. apply snoc_inj in E0 as [<- <-]. auto. }
  pose proof (put_here _ _ _ _ Pt) as Hp. cbn [entry_of] in Hp.
  assert (P' : place (view s') u (Taken (d ++ [n]))).
  { eapply pl_taken; eauto. rewrite Hp. discriminate. }
  split; [exact R'|]. split; [exact P'|]. split; [|split].
  - rewrite (islink_found s' W' u init n d); auto. now rewrite Hp.
  - eapply readlink_spec; eauto.
  - intros ct k o At Hk Ro No. eapply leads_snoc; eauto.
    apply (link_follow _ 31 d n target (m_now s) 0 ct o); auto. eapply resolves_le; eauto.
Qed.

(** ** Loops *)
Lemma loop_tests s u cs : wf s -> addr u cs -> leads (view s) cs Loop ->
  mem_exists u s = (Ok false, s) /\ mem_isfile u s = (Ok false, s) /\ mem_isdir u s = (Ok false, s) /\
  mem_info u true s = (Raise (OSError ELOOP), s) /\ mem_mtime u s = (Raise (OSError ELOOP), s) /\
  (forall o, match o with None => True | Some o => has_char 114 o = true end -> mem_open u o s = (Raise (OSError ELOOP), s)) /\
  (forall o, has_char 114 o = false -> has_char 119 o = false -> has_char 97 o = true ->
     mem_open u (Some o) s = (Raise (OSError ELOOP), s)) /\
  (Forall (fun c => c <> []) cs -> mem_listdir u s = (Raise (OSError ELOOP), s)).
Proof.
  intros W A L. assert (N : forall q, Loop <> Found q) by discriminate.
  rewrite (exists_spec s W u cs Loop), (isfile_spec s W u cs Loop), (isdir_spec s W u cs Loop) by auto.
  destruct (attrs_fail s W u cs Loop A L N) as (A1 & A2 & _).
  do 3 (split; [reflexivity|]). split; [exact A1|]. split; [exact A2|]. split; [|split].
  - intros o Ho. rewrite mem_open_read by auto. apply (open_read_fail s W u _ cs Loop); auto.
  - intros o H1 H2 H3. rewrite mem_open_append by auto. apply (open_read_fail s W u _ cs Loop); auto.
  - intros Hn. apply (listdir_fail s W u cs Loop); auto. now rewrite proper_filter.
Qed.
Lemma arrow_taken s u p p' : wf s -> addr u p -> arrow (view s) p p' -> place (view s) u (Taken p).
Proof.
  intros W A Ar. destruct (arrow_snoc (m_heap s) (m_next s) W p p') as (d & n & -> & D); auto.
  eapply pl_taken; eauto.
  - apply (resolves_dir (m_heap s)); auto.
  - destruct Ar as (tg & mt & mo & E & _). rewrite E. discriminate.
Qed.
Lemma loop_write s u p p' o : wf s -> addr u p -> arrow (view s) p p' -> leads (view s) p Loop ->
  has_char 114 o = false -> has_char 119 o = true -> mem_open u (Some o) s = (Raise (OSError ELOOP), s).
Proof.
  intros W A Ar L H1 H2. rewrite mem_open_write by auto.
  apply (open_write_dead s W u _ p p Loop); auto; [|discriminate]. eapply arrow_taken; eauto.
Qed.

(** ** Execute bits *)
Lemma mask_bits mo m k : Z.land k exec_mask = k -> Z.land (Z.lor (Z.land mo (Z.lnot exec_mask)) m) k = Z.land m k.
Proof.
  intros Hk. apply Z.bits_inj'. intros i Hi. rewrite !Z.land_spec, Z.lor_spec, Z.land_spec, Z.lnot_spec by auto.
  pose proof (f_equal (fun z => Z.testbit z i) Hk) as K. cbn beta in K. rewrite Z.land_spec in K.
  destruct (Z.testbit mo i), (Z.testbit exec_mask i), (Z.testbit m i), (Z.testbit k i); auto.
Qed.
Lemma mask_keep mo m : Z.land m exec_mask = m -> Z.land (Z.lor (Z.land mo (Z.lnot exec_mask)) m) (Z.lnot exec_mask) = Z.land mo (Z.lnot exec_mask).
Proof.
  intros Hk. apply Z.bits_inj'. intros i Hi. rewrite !Z.land_spec, Z.lor_spec, Z.land_spec, Z.lnot_spec by auto.
  pose proof (f_equal (fun z => Z.testbit z i) Hk) as K. cbn beta in K. rewrite Z.land_spec in K.
  destruct (Z.testbit mo i), (Z.testbit exec_mask i), (Z.testbit m i); auto.
Qed.
Lemma set_exec_run s u q e m : wf s -> denotes (view s) u (Found q) -> view s q = Some e ->
  exists s', mem_set_exec u m s = (Ok tt, s') /\ wf s' /\ denotes (view s') u (Found q) /\
    put_at (view s) (view s') q (with_attrs e (e_mtime e) (Z.lor (Z.land (e_mode e) (Z.lnot exec_mask)) m)).
Proof.
  intros W D E. pose proof (ea_follow _ _ _ D) as At.
  destruct (set_info_spec s W u true q e (Some (Z.lor (Z.land (e_mode e) (Z.lnot exec_mask)) m)) None At E) as (s' & Es & W' & _ & Pt).
  exists s'. split; [|split; [exact W'|split; [|exact Pt]]].
  - unfold mem_set_exec, bind. rewrite (info_spec s W u true q e At E). cbn [i_mode]. exact Es.
  - eapply denotes_shape; [|exact D]. eapply put_same_shape; [exact Pt|exact E|apply same_kind_attrs].
Qed.
Lemma isexec_run s u q e k : wf s -> denotes (view s) u (Found q) -> view s q = Some e ->
  mem_isexec u k s = (Ok (negb (Z.land (e_mode e) k =? 0)%Z), s).
Proof. intros W D E. unfold mem_isexec, bind. now rewrite (info_spec s W u true q e (ea_follow _ _ _ D) E). Qed.
Lemma with_attrs_mode e mt mo : e_mode (with_attrs e mt mo) = mo. Proof. now destruct e. Qed.
Lemma with_attrs_mtime e mt mo : e_mtime (with_attrs e mt mo) = mt. Proof. now destruct e. Qed.
Lemma with_attrs_size e mt mo : e_size (with_attrs e mt mo) = e_size e. Proof. now destruct e. Qed.

(** ** Trailing slashes *)
Lemma slash_steps u v cs p q : addr u cs -> addr v (cs ++ [[]]) -> mem_path u = Ok p -> mem_path v = Ok q -> nonempty_steps p = nonempty_steps q.
Proof.
  intros A B P Q. rewrite (nonempty_steps_addr _ _ _ A P), (nonempty_steps_addr _ _ _ B Q), filter_app. cbn [filter nonempty].
  now rewrite app_nil_r.
Qed.
Lemma addr_some u cs : addr u cs -> exists p, mem_path u = Ok p.
Proof. intros A. destruct (addr_nil_or _ _ A) as [[_ H]|[_ (c & p & H)]]; eauto. Qed.
Lemma slash_listdir u v cs s : addr u cs -> addr v (cs ++ [[]]) -> mem_listdir u s = mem_listdir v s.
Proof.
  intros A B. destruct (addr_some _ _ A) as [p P], (addr_some _ _ B) as [q Q].
  pose proof (slash_steps _ _ _ _ _ A B P Q) as E. unfold mem_listdir. unfold bind at 1 4, lift at 1 3. rewrite P, Q.
  unfold bind. now rewrite E.
Qed.
Lemma slash_remove u v cs s : addr u cs -> addr v (cs ++ [[]]) -> u_last u = u_last v ->
  mem_removefile u s = mem_removefile v s /\ mem_removedir u s = mem_removedir v s.
Proof.
  intros A B L. destruct (addr_some _ _ A) as [p P], (addr_some _ _ B) as [q Q].
  pose proof (slash_steps _ _ _ _ _ A B P Q) as E. unfold mem_removefile, mem_removedir.
  split; unfold bind at 1; unfold lift at 1; rewrite P; symmetry; unfold bind at 1; unfold lift at 1; rewrite Q, E, L; reflexivity.
Qed.
