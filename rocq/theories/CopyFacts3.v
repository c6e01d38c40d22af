(** The rules of SpecCopy.v hold of the model: copies and moves. *)
From Verif Require Import Str Exc Utf8 UriParse BaseUri StrFacts SpecUri Mem SpecMem SpecHandle SpecExact SpecCopy Generic SpecGen.
From Verif Require Import MemFacts MemFacts2 MemFacts3 MemFacts4 MemFacts5 MemFacts6 MemFacts7 MemFacts9 MemFacts10 HandleFacts GenFacts1 GenFacts6 ExactFacts ExactFacts2 ExactFacts3 CopyFacts CopyFacts2.
Local Notation B := mem_backend.

Section S.
Variable s : mst.
Hypothesis W : wf s.
Hypothesis Q : silent s.
Let t := view s.

(** *** Links *)
Definition room (w : uri) : M mst unit := let! f <- u_isfile B w; (if f then b_removefile_by B w w else ret tt).
Lemma run_room w r t' : makes_room t w r t' -> ends s (room w s) r t'.
Proof.
  unfold room. cbn [b_removefile_by mem_backend]. destruct 1 as [e t' T S|t' T S|f r t' T U C].
  - rewrite (bind_raise _ _ s e s) by now apply run_isfile. apply ends_here; auto using same_tree_sym.
  - rewrite (bind_ok _ _ s false s) by now apply run_isfile. apply ends_here; auto using same_tree_sym.
  - rewrite (bind_ok _ _ s true s) by now apply run_isfile. apply effect_ends with f; auto using safe_removefile.
    apply run_unlinks; auto. destruct (tests_at s _ _ _ T) as (cs & _ & A & _). eauto.
Qed.
Lemma room_total w : exists r t', makes_room t w r t'.
Proof.
  destruct (tests_total s is_file_e w) as [[[]|e] T].
  - destruct (unlinks_total s W w) as [f U]. destruct (tests_at s _ _ _ T) as (cs & _ & A & _).
    assert (H := run_unlinks s W w f U (ex_intro _ cs A)). eexists _, _. eapply mr_file; eauto. exact (has_changes _ _ _ H).
  - exists (Ok tt), t. now apply mr_free.
  - exists (Raise e), t. now apply mr_lost.
Qed.
End S.

Section S2.
Variable s : mst.
Hypothesis W : wf s.
Hypothesis Q : silent s.
Let t := view s.
Lemma copy_link_room u w : mem_islink u s = (Ok true, s) ->
  copy_link B u w s = (room w ;; (let! x <- mem_readlink u; mem_symlink x w)) s.
Proof.
  intros E. unfold copy_link. rewrite (bind_ok _ _ s true s) by exact E. cbn [negb]. unfold room, bind. cbn [b_removefile_by b_symlink_by b_readlink mem_backend].
  destruct (u_isfile B w s) as [[[]|] s1]; reflexivity.
Qed.
Lemma run_relinks u w r t' : links t u (Ok true) -> relinks t (m_now s) u w r t' -> ends s (copy_link B u w s) r t'.
Proof.
  intros L R. assert (Au : exists cs, addr u cs /\ mem_islink u s = (Ok true, s)).
  { inversion L as [cs sp A S E|]. exists cs. split; [exact A|]. rewrite (exact_islink s W u cs sp A S). now fold t; rewrite E. }
  destruct Au as (cs & A & El). rewrite copy_link_room by exact El.
  destruct R as [e t' M|t1 x e t' M G T S|t1 x a sl r t' M G T P C]; destruct (run_room s W Q w _ _ M) as (s1 & E1 & W1 & R1 & S1).
  - erewrite bind_raise by exact E1. exists s1. auto.
  - erewrite bind_ok by exact E1. apply ends_then with s1; [exact R1|]. rewrite (bind_raise _ _ s1 e s1).
    + apply ends_here; auto. intros q. now rewrite S1, S.
    + apply goes_same with (t' := view s1) in G; [|exact S1]. inversion G as [cs' x' A' G'|N]; subst; [|now destruct (N cs)].
      rewrite (exact_readlink s1 W1 u cs' x A' G'). now rewrite (target_same t1 (view s1) S1), T.
  - erewrite bind_ok by exact E1. apply ends_then with s1; [exact R1|]. rewrite (bind_ok _ _ s1 a s1).
    + apply effect_ends with (make_rule (ELink a (m_now s) 0) sl); auto using safe_symlink.
      * rewrite <- (rest_now _ _ R1). apply exact_symlink; auto. now apply place_same with t1.
      * eapply changes_same; [exact S1| |exact C]. apply same_tree_refl.
    + apply goes_same with (t' := view s1) in G; [|exact S1]. inversion G as [cs' x' A' G'|N]; subst; [|now destruct (N cs)].
      rewrite (exact_readlink s1 W1 u cs' x A' G'). now rewrite (target_same t1 (view s1) S1), T.
Qed.
Lemma relinks_total u w : exists r t', relinks t (m_now s) u w r t'.
Proof.
  destruct (room_total s W w) as (r & t1 & M). destruct (run_room s W Q w r t1 M) as (s1 & E1 & W1 & R1 & S1).
  assert (M1 : makes_room t w r (view s1)).
  { destruct M as [e t' T S|t' T S|f r t' T U C].
    - apply mr_lost; auto. intros q. now rewrite S1, S.
    - apply mr_free; auto. intros q. now rewrite S1, S.
    - eapply mr_file; eauto. eapply changes_same; [|exact S1|exact C]. apply same_tree_refl. }
  destruct r as [[]|e]; [|exists (Raise e), (view s1); now apply rl_full].
  destruct (goes_total s1 W1 u false) as [x G]. destruct (target_rule (view s1) x) as [a|e] eqn:T.
  - destruct (place_total s1 w) as [sl P]. eexists _, _. eapply rl_make; eauto. apply (has_changes s1 (mem_symlink a w s1)).
    rewrite <- (rest_now _ _ R1). now apply exact_symlink.
  - exists (Raise e), (view s1). eapply rl_gone; eauto. apply same_tree_refl.
Qed.

(** *** Data *)
Definition data_of (q p : list str) (d d0 : list N) : Prop := (p <> q -> d = d0) /\ (p = q -> d = []).
Lemma opening_wb w r : opening t (m_now s) (Some (lit "wb")) w r ->
  match r with
  | Refused _ => True
  | Opens p start mode => start = mkO [] 0 (m_now s) /\ mode = 0%Z /\ (t p = None \/ is_efile (t p)) /\ exists cs, addr w cs
  end.
Proof.
  destruct 1 as [cs r A R|N]; [|exact I]. destruct R; try exact I; try discriminate; (split; [reflexivity|]); (split; [reflexivity|]); (split; [auto|eauto]).
Qed.
Lemma run_content u cu q d0 mt mo w r : addr u cu -> leads t cu (Found q) -> t q = Some (EFile d0 mt mo) ->
  opening t (m_now s) (Some (lit "wb")) w r ->
  match r with
  | Refused e => exists s1, mem_copy_content u w s = (Raise e, s1) /\ wf s1 /\ same_rest s s1 /\ same_tree t (view s1)
  | Opens p _ _ => exists s1 d, mem_copy_content u w s = (Ok tt, s1) /\ wf s1 /\ same_rest s s1 /\ put_at t (view s1) p (EFile d (m_now s) 0) /\ data_of q p d d0
  end.
Proof.
  intros Au L Tq O. unfold mem_copy_content.
  destruct (open_read s W u true q d0 mt mo (ex_intro _ cu (conj Au L)) Tq) as (s1 & h1 & f1 & R1 & H1 & O1 & D1 & P1 & T1 & M1 & S1).
  assert (E1 : u_open u (Some (lit "rb")) s = (Ok h1, s1)) by (rewrite (run_u_open s u cu); auto).
  erewrite (bind_ok _ _ s) by exact E1. assert (W1 : wf s1) by apply O1.
  assert (Q1 : silent s1) by (eapply silent_rest; eauto; apply O1).
  assert (Nw1 : m_now s1 = m_now s) by apply (op_rest _ _ _ _ _ _ O1).
  assert (O' : opening (view s1) (m_now s1) (Some (lit "wb")) w r) by (rewrite Nw1; now apply opening_same with t).
  pose proof (run_opening s1 W1 Q1 _ _ _ O') as F. pose proof (opening_wb _ _ O) as K. destruct r as [e|p start mode]; cbn [open_fact] in F.
  { rewrite (bind_raise _ _ s1 e s1) by exact F. exists s1. split; [reflexivity|]. split; [exact W1|]. split; [apply O1|exact S1]. }
  destruct K as (-> & -> & Kp & cw & Aw). destruct F as (h2 & s2 & E2 & H2 & B2 & [W2 Re2 Ph2 (f2 & F2 & X2 & Mo2) Pt2]). unfold ofl in X2. injection X2 as D2 P2 T2. cbn [o_data o_mtime] in Pt2.
  assert (R2 : open_for_write w true s1 = (Ok h2, s2)) by (rewrite <- E2, (run_u_open s1 w cw) by auto; reflexivity).
  rewrite (bind_ok _ _ s1 h2 s2) by exact E2. destruct (open_write_files w true s1 h2 s2 W1 R2) as [K1 K2].
  pose proof (K2 _ _ (op_phys _ _ _ _ _ _ O1)) as A1. destruct (list_eq_dec (list_eq_dec N.eq_dec) p q) as [->|Npq].
  - assert (Eh : h_node h1 = h_node h2) by congruence. rewrite <- Eh in F2. rewrite (bind_ok _ _ s2 f2 s2) by now apply run_get.
    destruct (run_read s2 (h_node h1) f2 F2 8192) as (s3 & R3 & U3). unfold bio_read in R3, U3. rewrite D2, P2 in R3, U3. cbn in R3, U3.
    assert (E3 : copyfileobj (S (length (f_data f2))) h1 h2 8192 s2 = (Ok tt, s3)).
    { cbn [copyfileobj]. unfold h_read. rewrite H1. cbn [h_readable negb h_node]. erewrite bind_ok; [|erewrite bind_ok by exact R3; reflexivity]. reflexivity. }
    assert (Sm : same_tree (view s2) (view s3)) by (eapply file_upd_quiet; eauto).
    exists s3, []. split; [exact E3|]. split; [eapply file_upd_wf; eauto|]. split.
    + eapply same_rest_trans; [apply O1|]. eapply same_rest_trans; [apply Re2|]. apply U3.
    + split; [|split; [congruence|auto]]. eapply put_same_l; [exact S1|]. destruct Pt2 as [X Y]. split; [now rewrite Sm|]. intros z Hz. rewrite Sm. auto.
  - assert (Np : h_node h1 <> h_node h2) by (intros E; apply Npq; rewrite E in A1; exact (phys_inj _ _ p q _ W2 Ph2 A1)).
    assert (F1 : m_heap s2 (h_node h1) = NFile f1) by (apply K1; auto; apply O1).
    rewrite (bind_ok _ _ s2 f1 s2) by now apply run_get.
    destruct (copy_loop h1 h2) with (fuel := S (length (f_data f1))) (s := s2) (fi := f1) (fj := f2) as (s3 & pos & mt3 & R3 & U3 & M3); auto.
    { now rewrite H1. } { now rewrite H1. } { now rewrite P2, D2. } { rewrite P1. cbn [skipn]. lia. }
    exists s3, d0. split; [exact R3|]. apply two_split in U3 as (sm & Ua & Ub); auto.
    assert (Nw2 : m_now s2 = m_now s1) by apply Re2.
    assert (Wm : wf sm) by (eapply file_upd_wf; eauto).
    assert (Em : same_tree (view s2) (view sm)) by (eapply file_upd_quiet; eauto).
    assert (Pm : phys (m_heap sm) root_id p = Some (h_node h2)) by (rewrite (file_upd_phys _ _ _ _ _ _ Ua); apply Ph2).
    pose proof (file_upd_put _ _ _ _ _ p Wm Ub Pm) as Pb. cbn [f_data f_mtime f_mode fset] in Pb.
    rewrite M3 in Pb by congruence. rewrite D2, P1, D1, Mo2, Nw2, Nw1 in Pb. cbn [skipn app] in Pb.
    split; [eapply file_upd_wf; eauto|]. split.
    { eapply same_rest_trans; [apply O1|]. eapply same_rest_trans; [apply Re2|]. eapply same_rest_trans; [apply Ua|apply Ub]. }
    split; [|split; [auto|congruence]]. eapply put_same_l; [exact S1|]. eapply put_put; [exact Pt2|]. eapply put_same_l; [exact Em|exact Pb].
Qed.
Definition data_copy (same : bool) (u w : uri) : M mst unit := mem_copy_content u w ;; (if same then mem_copystat u w else ret tt).
Lemma put_eq t0 a b p e : put_at t0 a p e -> put_at t0 b p e -> same_tree a b.
Proof. intros [A1 A2] [B1 B2] q. destruct (list_eq_dec (list_eq_dec N.eq_dec) q p) as [->|N]; [congruence|]. rewrite A2, B2; auto. Qed.
Lemma data_det q p d d' d0 : data_of q p d d0 -> data_of q p d' d0 -> d = d'.
Proof. intros [A1 A2] [B1 B2]. destruct (list_eq_dec (list_eq_dec N.eq_dec) p q) as [E|N]; [rewrite A2, B2|rewrite A1, B1]; auto. Qed.

Lemma stat_after u cu q d0 mt mo w p start mode s1 d : addr u cu -> leads t cu (Found q) -> t q = Some (EFile d0 mt mo) ->
  opening t (m_now s) (Some (lit "wb")) w (Opens p start mode) -> wf s1 -> put_at t (view s1) p (EFile d (m_now s) 0) ->
  exists e, view s1 q = Some e /\ reaches (view s1) cu true (At q).
Proof.
  intros Au L Tq O W1 P1. destruct (opening_wb _ _ O) as (_ & _ & Kp & _).
  assert (L1 : leads (view s1) cu (Found q)).
  { eapply put_grows; [exact P1| |exact L]. destruct Kp as [K|(a & b & c & K)]; [now left|]. right. eexists. split; [exact K|exact I]. }
  assert (X : view s1 q <> None).
  { destruct (leads_real _ _ W1 _ _ L1) as [(a & b & c & K)|(a & b & K)]; unfold view; rewrite K; discriminate. }
  destruct (view s1 q) as [e|] eqn:E; [|congruence]. exists e. split; [reflexivity|]. now apply re_found.
Qed.
Lemma run_writes u cu q d0 mt mo same w r t' : addr u cu -> leads t cu (Found q) -> t q = Some (EFile d0 mt mo) ->
  writes t (m_now s) q same w r t' -> ends s (data_copy same u w s) r t'.
Proof.
  intros Au L Tq X. unfold data_copy. destruct X as [e t' O S|p start mode d t' O -> (d1 & mt1 & mo1 & T1 & C1) P|p start mode d t1 x e r t' O -> (d1 & mt1 & mo1 & T1 & C1) P Te G C].
  - destruct (run_content u cu q d0 mt mo w _ Au L Tq O) as (s1 & E & W1 & R1 & S1). erewrite bind_raise by exact E. exists s1.
    split; [reflexivity|]. split; [exact W1|]. split; [exact R1|]. intros z. rewrite S, S1. reflexivity.
  - rewrite Tq in T1. injection T1 as <- <- <-. destruct (run_content u cu q d0 mt mo w _ Au L Tq O) as (s1 & d' & E & W1 & R1 & P1 & C').
    rewrite (data_det _ _ _ _ _ C1 C') in *. erewrite bind_ok by exact E. exists s1. split; [reflexivity|]. split; [exact W1|]. split; [exact R1|]. eapply put_eq; eauto.
  - rewrite Tq in T1. injection T1 as <- <- <-. destruct (run_content u cu q d0 mt mo w _ Au L Tq O) as (s1 & d' & E & W1 & R1 & P1 & C').
    rewrite (data_det _ _ _ _ _ C1 C') in *. erewrite bind_ok by exact E. apply ends_then with s1; [exact R1|].
    destruct (stat_after u cu q d0 mt mo w p start mode s1 d' Au L Tq O W1 P1) as (e1 & Te1 & Re1).
    assert (S1 : same_tree t1 (view s1)) by (eapply put_eq; eauto).
    assert (e1 = e) as -> by (rewrite (S1 q), Te in Te1; congruence).
    apply goes_same with (t' := view s1) in G; [|exact S1]. inversion G as [cw x' Aw Gw|N]; subst.
    + apply effect_ends with (copystat_rule s1 (At q) x); [exact W1|apply safe_copystat|now apply exact_copystat with cu cw|].
      cbn [copystat_rule]. rewrite Te1. rewrite (attr_same t1 (view s1) S1). eapply changes_same; [exact S1| |exact C]. apply same_tree_refl.
    + destruct (opening_wb _ _ O) as (_ & _ & _ & cw & Aw). now destruct (N cw).
Qed.
Lemma writes_total u cu q d0 mt mo same w : addr u cu -> leads t cu (Found q) -> t q = Some (EFile d0 mt mo) -> exists r t', writes t (m_now s) q same w r t'.
Proof.
  intros Au L Tq. destruct (opening_total s W (Some (lit "wb")) w) as [o O]. pose proof (run_content u cu q d0 mt mo w o Au L Tq O) as X. destruct o as [e|p start mode].
  - exists (Raise e), t. apply wr_refused; auto. apply same_tree_refl.
  - destruct X as (s1 & d & E & W1 & R1 & P1 & C1). destruct same.
    + destruct (goes_total s1 W1 w true) as [x G]. destruct (stat_after u cu q d0 mt mo w p start mode s1 d Au L Tq O W1 P1) as (e1 & Te1 & Re1).
      destruct (opening_wb _ _ O) as (_ & _ & _ & cw & Aw). inversion G as [cw' x' Aw' Gw|N]; subst; [|now destruct (N cw)].
      assert (H := exact_copystat s1 W1 u w cu cw' _ _ Au Aw' Re1 Gw). cbn [copystat_rule] in H. rewrite Te1 in H.
      eexists _, _. apply wr_stat with p start mode d (view s1) x e1; auto; [exists d0, mt, mo; auto|]. exact (has_changes _ _ _ H).
    + exists (Ok tt), (view s1). eapply wr_data; eauto.
Qed.
End S2.

Section S3.
Variable s : mst.
Hypothesis W : wf s.
Hypothesis Q : silent s.
Let t := view s.

Lemma opt_eqb_iff a b : opt_eqb a b = true <-> a = b.
Proof.
  destruct a as [x|], b as [y|]; cbn; split; intros E; try discriminate; auto.
  - apply str_eqb_eq in E. congruence.
  - injection E as ->. apply str_eqb_refl.
Qed.
Definition aim_m (u v : uri) : M mst uri := let! dd <- u_isdir B v; (if dd then lift (u_div v (u_last u)) else ret v).
Lemma run_aim u v r : aim t u v r -> aim_m u v s = (r, s).
Proof.
  unfold aim_m. destruct 1 as [e T|T|T].
  - now rewrite (bind_raise _ _ s e s) by now apply run_isdir.
  - now rewrite (bind_ok _ _ s true s) by now apply run_isdir.
  - now rewrite (bind_ok _ _ s false s) by now apply run_isdir.
Qed.
Lemma aim_total u v : exists r, aim t u v r.
Proof.
  destruct (tests_total s is_dir_e v) as [[[]|e] T]; eexists; [apply aim_into; exact T|apply aim_at; exact T|apply aim_lost; exact T].
Qed.
Lemma file_test u : tests t is_file_e u (Ok true) -> exists cs q d mt mo, addr u cs /\ leads t cs (Found q) /\ t q = Some (EFile d mt mo) /\ tests t any_entry u (Ok true).
Proof.
  intros T. destruct (tests_at s _ _ _ T) as (cs & o & A & L & E). exists cs. destruct o as [q| | | | |]; cbn [test_rule] in E; try discriminate E.
  destruct (view s q) as [[d mt mo| |]|] eqn:Tq; try discriminate E. exists q, d, mt, mo. split; [exact A|]. split; [exact L|]. split; [exact Tq|].
  change (Ok true) with (@Ok bool (match Some (EFile d mt mo) with Some e => any_entry e | None => false end)). rewrite <- Tq. exact (te_path t any_entry u cs (Found q) A L).
Qed.
Lemma goes_at u q : goes t u true (At q) -> exists cs, addr u cs /\ leads t cs (Found q).
Proof. inversion 1 as [cs r A R|]; subst. inversion R; subst. eauto. Qed.

Lemma copy_entry_at follow same u w l : links t u (Ok l) ->
  copy_entry B follow same u w s = if l && negb follow then copy_link B u w s else data_copy same u w s.
Proof. intros L. unfold copy_entry. rewrite (bind_ok _ _ s l s) by now apply run_islink. now destruct (l && negb follow). Qed.
Lemma fs_copy_file fuel ign follow u v r : tests t any_entry u (Ok true) -> tests t is_file_e u (Ok true) -> aim t u v r ->
  fs_copy B fuel false ign follow u v s =
    match r with Ok w => copy_entry B follow (opt_eqb (u_scheme u) (u_scheme v)) u w s | Raise e => (Raise e, s) end.
Proof.
  intros T T' A. unfold fs_copy. rewrite (bind_ok _ _ s true s) by now apply run_exists. cbn [negb]. rewrite (bind_ok _ _ s true s) by now apply run_isfile. cbn [negb].
  apply run_aim in A. unfold aim_m in A. unfold bind in *. destruct (u_isdir B v s) as [[dd|] s1]; [|now injection A as <- <-].
  destruct dd; cbn [lift ret] in *; [|now injection A as <- <-]. unfold lift in *. destruct (u_div v (u_last u)); now injection A as <- <-.
Qed.
Theorem run_copies fuel ign follow u v r t' : copies t (m_now s) follow u v r t' -> ends s (fs_copy B fuel false ign follow u v s) r t'.
Proof.
  destruct 1 as [e t' T S|t' T S|t' T T' S|e t' T A S|w e t' T A L S|w r t' T A L F R|w l q same r t' T A L F G Sm X].
  - unfold fs_copy. rewrite (bind_raise _ _ s e s) by now apply run_exists. apply ends_here; auto using same_tree_sym.
  - unfold fs_copy. rewrite (bind_ok _ _ s false s) by now apply run_exists. cbn [negb]. unfold missing_exc, bind, lift. destruct (u_str u); apply ends_here; auto using same_tree_sym.
  - unfold fs_copy. rewrite (bind_ok _ _ s true s) by now apply run_exists. cbn [negb]. rewrite (bind_ok _ _ s false s) by now apply run_isfile. apply ends_here; auto using same_tree_sym.
  - destruct (file_test u T) as (cs & q & d & mt & mo & _ & _ & _ & Te). rewrite (fs_copy_file _ _ _ _ _ _ Te T A). apply ends_here; auto using same_tree_sym.
  - destruct (file_test u T) as (cs & q & d & mt & mo & _ & _ & _ & Te). rewrite (fs_copy_file _ _ _ _ _ _ Te T A). unfold copy_entry. rewrite (bind_raise _ _ s e s) by now apply run_islink.
    apply ends_here; auto using same_tree_sym.
  - destruct (file_test u T) as (cs & q & d & mt & mo & _ & _ & _ & Te). rewrite (fs_copy_file _ _ _ _ _ _ Te T A), (copy_entry_at _ _ _ _ _ L). subst follow. cbn [andb negb]. now apply run_relinks.
  - destruct (file_test u T) as (cs & q' & d & mt & mo & Au & Lu & Tq & Te). rewrite (fs_copy_file _ _ _ _ _ _ Te T A), (copy_entry_at _ _ _ _ _ L).
    assert (l && negb follow = false) as -> by (destruct F as [-> | ->]; [reflexivity|apply andb_false_r]).
    destruct (goes_at u q G) as (cs' & Au' & Lu'). pose proof (addr_inj _ _ _ Au Au') as <-. pose proof (leads_det (m_heap s) (m_next s) W _ _ _ Lu Lu') as E. injection E as <-.
    assert (opt_eqb (u_scheme u) (u_scheme v) = same) as ->.
    { destruct same; [now apply opt_eqb_iff, Sm|]. destruct (opt_eqb (u_scheme u) (u_scheme v)) eqn:E; auto. apply opt_eqb_iff, Sm in E. discriminate E. }
    now apply (run_writes s W Q u cs q' d mt mo).
Qed.
Theorem copies_total follow u v : exists r t', copies t (m_now s) follow u v r t'.
Proof.
  destruct (tests_total s any_entry u) as [[[]|e] T].
  2:{ exists (Raise (missing_exc u)), t. now apply co_missing. }
  2:{ exists (Raise e), t. now apply co_lost. }
  destruct (tests_total s is_file_e u) as [[[]|e] T'].
  2:{ exists (Raise AssertionError), t. now apply co_dir. }
  2:{ exfalso. destruct (tests_at s _ _ _ T) as (cs & o & A & L & E). inversion T' as [cs' o' A' L' E'|N E']; [|now destruct (N cs)].
      pose proof (addr_inj _ _ _ A A') as <-. pose proof (leads_det (m_heap s) (m_next s) W _ _ _ L L') as <-. destruct o; discriminate. }
  destruct (aim_total u v) as [[w|e] A]; [|exists (Raise e), t; now apply co_aim].
  destruct (links_total s W u) as [[l|e] L]; [|exists (Raise e), t; now apply co_unknown with w].
  destruct (l && negb follow) eqn:F.
  - apply andb_true_iff in F as [-> F]. destruct follow; [discriminate F|]. destruct (relinks_total s W Q u w) as (r & t' & R). exists r, t'. now apply co_link with w.
  - destruct (file_test u T') as (cs & q & d & mt & mo & Au & Lu & Tq & _).
    destruct (writes_total s W Q u cs q d mt mo (opt_eqb (u_scheme u) (u_scheme v)) w Au Lu Tq) as (r & t' & X). exists r, t'.
    apply co_data with w l q (opt_eqb (u_scheme u) (u_scheme v)); auto.
    + destruct l; [right; destruct follow; [reflexivity|discriminate F]|now left].
    + apply go_path with cs; auto. now apply re_found.
    + apply opt_eqb_iff.
Qed.
End S3.
