(** Copying and moving single files on the memory backend. *)
From Verif Require Import Str Exc Utf8 UriParse BaseUri StrFacts Utf8Facts SpecUri Mem SpecMem MemOps Generic SpecGen.
From Verif Require Import UriFacts2 UriFacts3 MemFacts MemFacts2 MemFacts3 MemFacts4 MemFacts5 MemFacts6 MemFacts7 MemFacts8 MemFacts9 MemUri MemFacts10 MemFacts11 GenFacts1 GenFacts2 GenFacts3.
From Coq Require Import Sorted.

Local Notation B := mem_backend.

(** ** The copying loop *)
Record two_upd (s s' : mst) (i j : nat) (fi fj : file) (fi' fj' : file) : Prop := {
  tu_i : m_heap s' i = NFile fi';
  tu_j : m_heap s' j = NFile fj';
  tu_else : forall k, k <> i -> k <> j -> m_heap s' k = m_heap s k;
  tu_next : m_next s' = m_next s;
  tu_rest : same_rest s s' }.
Lemma two_split s s' i j fi fj fi' fj' : i <> j -> m_heap s i = NFile fi -> m_heap s j = NFile fj ->
  two_upd s s' i j fi fj fi' fj' -> exists sm, file_upd s sm i fi fi' /\ file_upd sm s' j fj fj'.
Proof.
  intros N Ei Ej [A1 A2 A3 A4 A5].
  exists (mkM (heap_set (m_heap s) i (NFile fi')) (m_next s) (m_now s) (m_epoch s) (m_held s) (m_cbs s)).
  split; constructor; cbn; auto.
  - apply heap_set_same.
  - intros k Hk. now apply heap_set_other.
  - repeat split.
  - rewrite heap_set_other; auto.
  - intros k Hk. destruct (Nat.eq_dec k i) as [->|Hi]; [now rewrite heap_set_same|]. rewrite heap_set_other; auto.
Qed.

Lemma copy_loop hi ho : h_readable hi = true -> h_binary hi = true -> h_node hi <> h_node ho ->
  forall fuel s fi fj, m_heap s (h_node hi) = NFile fi -> m_heap s (h_node ho) = NFile fj ->
  f_pos fj = length (f_data fj) -> (length (skipn (f_pos fi) (f_data fi)) < fuel)%nat ->
  exists s' pos mt, copyfileobj fuel hi ho 8192 s = (Ok tt, s') /\
    two_upd s s' (h_node hi) (h_node ho) fi fj (fset fi (f_data fi) pos (f_mtime fi))
      (fset fj (f_data fj ++ skipn (f_pos fi) (f_data fi)) (length (f_data fj ++ skipn (f_pos fi) (f_data fi))) mt) /\
    (f_mtime fj = m_now s -> mt = m_now s).
Proof.
  intros Hr Hb N. induction fuel as [|fuel IH]; intros s fi fj Ei Ej P L; [lia|]. cbn [copyfileobj].
  destruct (run_read s (h_node hi) fi Ei 8192) as (s1 & R1 & U1).
  assert (E1 : h_read hi 8192 s = (Ok (VBytes (fst (bio_read (f_data fi) (f_pos fi) 8192))), s1)).
  { unfold h_read. rewrite Hr. cbn [negb]. erewrite bind_ok by exact R1. unfold proxy_decode. now rewrite Hb. }
  erewrite bind_ok by exact E1. unfold bio_read in *. cbn [fst snd] in *. change (8192 <? 0)%Z with false in *. cbn match in *.
  set (rest := skipn (f_pos fi) (f_data fi)) in *. remember (firstn (Z.to_nat 8192) rest) as blk eqn:Hb'.
  assert (Ej1 : m_heap s1 (h_node ho) = NFile fj) by (rewrite (fu_else _ _ _ _ _ U1); auto).
  destruct blk as [|b bs].
  - assert (Er : rest = []).
    { destruct rest; auto. assert (Z.to_nat 8192 <> 0)%nat by lia. destruct (Z.to_nat 8192); [lia|discriminate]. }
    rewrite Er in *. rewrite app_nil_r. cbn [length] in U1. eexists s1, _, (f_mtime fj). split; [reflexivity|]. split; [|auto].
    constructor; try apply U1.
    + rewrite <- P, fset_same. exact Ej1.
    + intros k Hi _. now apply U1.
  - destruct (run_write s1 (h_node ho) fj Ej1 (b :: bs)) as (s2 & R2 & U2).
    rewrite P, bio_write_end in U2. cbn [fst snd] in U2.
    assert (E2 : h_write ho (VBytes (b :: bs)) s1 = (Ok tt, s2)) by exact R2.
    rewrite (bind_ok _ _ _ _ _ E2). assert (Lb : (length (b :: bs) <> 0)%nat) by (cbn; lia).
    set (blk := b :: bs) in *. clearbody blk.
    set (fi1 := fset fi (f_data fi) (f_pos fi + length blk) (f_mtime fi)) in *.
    set (fj1 := fset fj (f_data fj ++ blk) (length (f_data fj ++ blk)) (m_now s1)) in *.
    assert (Nw : m_now s1 = m_now s) by apply (fu_rest _ _ _ _ _ U1).
    assert (Nw2 : m_now s2 = m_now s1) by apply (fu_rest _ _ _ _ _ U2).
    assert (Ei2 : m_heap s2 (h_node hi) = NFile fi1) by (rewrite (fu_else _ _ _ _ _ U2); auto; apply U1).
    assert (Rest : skipn (f_pos fi1) (f_data fi1) = skipn (length blk) rest) by (cbn; apply skipn_plus).
    assert (Ap : blk ++ skipn (length blk) rest = rest) by (rewrite Hb', skipn_firstn_length; apply firstn_skipn).
    destruct (IH s2 fi1 fj1) as (s3 & pos & mt & R3 & T3 & M3); auto.
    + apply U2.
    + rewrite Rest.
      rewrite skipn_length. rewrite <- Ap in L. rewrite app_length in L. rewrite skipn_length in L. lia.
    + exists s3, pos, mt. split; [exact R3|]. rewrite Rest in T3. cbn [f_data fj1 fset] in T3. rewrite <- app_assoc, Ap in T3.
      destruct T3 as [A1 A2 A3 A4 A5]. split.
      * constructor; auto.
        -- intros k Hi Hj. rewrite A3, (fu_else _ _ _ _ _ U2), (fu_else _ _ _ _ _ U1); auto.
        -- rewrite A4, (fu_next _ _ _ _ _ U2). apply U1.
        -- eapply same_rest_trans; [apply U1|]. eapply same_rest_trans; [apply U2|exact A5].
      * intros _. rewrite <- Nw, <- Nw2. apply M3. cbn. congruence.
Qed.

(** Opening for writing touches one file, and every place keeps its object. *)
Lemma open_write_files u b s hd s' : wf s -> open_for_write u b s = (Ok hd, s') ->
  (forall j f, m_heap s j = NFile f -> j <> h_node hd -> m_heap s' j = NFile f) /\
  (forall r k, phys (m_heap s) root_id r = Some k -> phys (m_heap s') root_id r = Some k).
Proof.
  intros W. unfold open_for_write, bind, lift. destruct (mem_path u) as [p|]; [|discriminate].
  pose proof (pure_parent p s) as P1. destruct (parent_node p s) as [[nd|] s1] eqn:Ep; [|discriminate]. cbn in P1. subst s1.
  apply parent_val in Ep; auto.
  unfold node_has, bind, get_node_obj. destruct (m_heap s nd) as [|es mt mo|] eqn:End; try discriminate. unfold ret at 1.
  destruct (dhas _ es) eqn:Eh.
  - destruct (child _ _ _ _ _ _) as [o|]; [|discriminate]. destruct (match o with Some c => _ | None => false end); [discriminate|].
    destruct (need o) as [c|]; [|discriminate]. destruct (file_reset c s) as [[[]|] s3] eqn:Er; [|discriminate].
    intros E. injection E as <- <-. cbn [h_node].
    unfold file_reset, bind, get_file, bind, get_node_obj in Er. destruct (m_heap s c) eqn:Ec; try discriminate.
    cbn in Er. injection Er as <-. cbn [m_heap]. split.
    + intros j g Ej Nj. cbn. now rewrite heap_set_other.
    + intros r k Hr. cbn. rewrite phys_set; auto. now rewrite Ec.
  - unfold get at 1.
    assert (RA := run_add s nd (last (steps_of p) []) (new_file p (m_now s) (m_epoch s)) es mt mo Ep End). unfold bind in RA.
    destruct (alloc (new_file p (m_now s) (m_epoch s)) s) as [[j|] s1] eqn:AL; [|discriminate]. rewrite RA.
    assert (j = m_next s) by (unfold alloc in AL; congruence). subst j. unfold ret. intros E. injection E as <- <-. cbn [h_node added m_heap].
    split.
    + intros j g Ej Nj. rewrite (heap_add_at _ _ _ _ _ _ _ _ _ Ep End).
      destruct (Nat.eqb_spec j nd) as [->|]; [congruence|]. destruct (Nat.eqb_spec j (m_next s)); [contradiction|auto].
    + intros r k Hr. eapply phys_add_some; eauto. exact (wf_pos _ _ W).
Qed.

Lemma open_write_raise u b s e s' : wf s -> open_for_write u b s = (Raise e, s') -> s' = s.
Proof.
  intros W. unfold open_for_write, bind, lift. destruct (mem_path u) as [p|]; [|now injection 1].
  pose proof (pure_parent p s) as P1. destruct (parent_node p s) as [[nd|] s1] eqn:Ep; cbn in P1; subst s1; [|now injection 1].
  apply parent_val in Ep; auto.
  unfold node_has, bind, get_node_obj. destruct (m_heap s nd) as [|es mt mo|] eqn:End; try (now injection 1). unfold ret at 1.
  destruct (dhas _ es) eqn:Eh.
  - destruct (child _ _ _ _ _ _) as [o|]; [|now injection 1]. destruct (match o with Some c => _ | None => false end); [now injection 1|].
    destruct (need o) as [c|]; [|now injection 1].
    unfold file_reset, bind, get_file, bind, get_node_obj. destruct (m_heap s c) eqn:Ec; try (now injection 1).
  - unfold get at 1.
    assert (RA := run_add s nd (last (steps_of p) []) (new_file p (m_now s) (m_epoch s)) es mt mo Ep End). unfold bind in RA.
    destruct (alloc (new_file p (m_now s) (m_epoch s)) s) as [[j|] s1] eqn:AL; [|discriminate]. rewrite RA. discriminate.
Qed.

Lemma put_grows t t' p e q cs : put_at t t' p e -> (t p = None \/ exists e0, t p = Some e0 /\ same_kind e0 e) ->
  leads t cs (Found q) -> leads t' cs (Found q).
Proof.
  intros P [N|(e0 & E & K)] L.
  - eapply leads_grows; eauto. eapply put_new_grows; eauto.
  - eapply leads_shape; eauto. eapply put_same_shape; eauto.
Qed.
Lemma put_put t t1 t2 p e1 e2 : put_at t t1 p e1 -> put_at t1 t2 p e2 -> put_at t t2 p e2.
Proof. intros [A1 A2] [B1 B2]. split; auto. intros r Hr. now rewrite B2, A2. Qed.
Lemma put_same_l t t1 t2 p e : same_tree t t1 -> put_at t1 t2 p e -> put_at t t2 p e.
Proof. intros S [B1 B2]. split; auto. intros r Hr. now rewrite B2, S. Qed.

Lemma writable_kind s u p data mt mo : wf s -> writable (view s) u p ->
  view s p = None \/ exists e0, view s p = Some e0 /\ same_kind e0 (EFile data mt mo).
Proof.
  intros W [p' P|q D (d & m1 & m2 & E)].
  - left. inversion P; subst. auto.
  - right. exists (EFile d m1 m2). split; auto. exact Logic.I.
Qed.
Lemma writable_same s s' u p : same_tree (view s) (view s') -> writable (view s) u p -> writable (view s') u p.
Proof.
  intros S. assert (Sh := same_shape_same _ _ S). intros [p' P|q D E].
  - apply wr_free. eapply place_shape; eauto.
  - apply wr_file; [eapply denotes_shape; eauto|]. now rewrite S.
Qed.

Lemma run_u_open s u cs o : silent s -> addr u cs -> u_open u o s = mem_open u o s.
Proof. intros Q A. unfold u_open. rewrite (bind_ok _ _ s tt s); auto. now apply (silent_hook s u cs). Qed.

Lemma copy_content s u v q p data mt mo : wf s -> silent s -> denotes (view s) u (Found q) ->
  view s q = Some (EFile data mt mo) -> writable (view s) v p -> p <> q ->
  exists s', mem_copy_content u v s = (Ok tt, s') /\ wf s' /\ same_rest s s' /\
    put_at (view s) (view s') p (EFile data (m_now s) 0) /\
    denotes (view s') u (Found q) /\ denotes (view s') v (Found p).
Proof.
  intros W Q D Eq Wr Npq.
  assert (Au : exists cs, addr u cs) by (destruct D as (cs & A & _); now exists cs). destruct Au as [cu Au].
  assert (Av : exists cs, addr v cs) by (destruct Wr as [p' P|q' (cs & A & _) _]; [inversion P; subst; eauto|eauto]). destruct Av as [cv Av].
  unfold mem_copy_content.
  destruct (open_read s W u true q data mt mo D Eq) as (s1 & h1 & f1 & R1 & H1 & O1 & D1 & P1 & T1 & M1 & S1).
  assert (E1 : u_open u (Some (lit "rb")) s = (Ok h1, s1)) by (rewrite (run_u_open s u cu); auto).
  erewrite bind_ok by exact E1.
  assert (Q1 : silent s1) by (eapply silent_rest; eauto; apply O1).
  assert (W1 : wf s1) by apply O1.
  assert (Wr1 : writable (view s1) v p) by (eapply writable_same; eauto).
  destruct (open_writable s1 v true p W1 Wr1) as (s2 & h2 & f2 & R2 & H2 & O2 & D2 & P2 & T2 & M2 & Pt2).
  assert (E2 : u_open v (Some (lit "wb")) s1 = (Ok h2, s2)) by (rewrite (run_u_open s1 v cv); auto).
  erewrite bind_ok by exact E2.
  assert (W2 : wf s2) by apply O2.
  assert (Dq1 : denotes (view s1) u (Found q)) by apply O1.
  assert (Dq2 : denotes (view s2) u (Found q)).
  { destruct Dq1 as (cs & A & L). exists cs. split; auto. eapply put_grows; eauto using writable_kind. }
  assert (Vq2 : view s2 q = Some (EFile data mt mo)).
  { destruct Pt2 as [_ X]. rewrite X by auto. now rewrite S1. }
  destruct (open_write_files v true s1 h2 s2 W1 R2) as [K1 K2].
  assert (Np : h_node h1 <> h_node h2).
  { intros E. pose proof (K2 _ _ (op_phys _ _ _ _ _ _ O1)) as A1. pose proof (op_phys _ _ _ _ _ _ O2) as A2. rewrite E in A1.
    apply Npq. eapply phys_inj; eauto. }
  assert (F1 : m_heap s2 (h_node h1) = NFile f1) by (apply K1; auto; apply O1).
  assert (F2 : m_heap s2 (h_node h2) = NFile f2) by apply O2.
  erewrite bind_ok by (apply run_get; exact F1).
  destruct (copy_loop h1 h2) with (fuel := S (length (f_data f1))) (s := s2) (fi := f1) (fj := f2) as (s3 & pos & mt3 & R3 & U3 & M3); auto.
  { now rewrite H1. } { now rewrite H1. } { now rewrite P2, D2. } { rewrite P1. cbn [skipn]. lia. }
  exists s3. split; [exact R3|].
  apply two_split in U3 as (sm & Ua & Ub); auto.
  assert (Nw1 : m_now s1 = m_now s) by apply (op_rest _ _ _ _ _ _ O1).
  assert (Nw2 : m_now s2 = m_now s1) by apply (op_rest _ _ _ _ _ _ O2).
  assert (Wm : wf sm) by (eapply file_upd_wf; eauto).
  assert (Em : same_tree (view s2) (view sm)) by (eapply file_upd_quiet; eauto).
  assert (Pm : phys (m_heap sm) root_id p = Some (h_node h2)) by (rewrite (file_upd_phys _ _ _ _ _ _ Ua); apply O2).
  pose proof (file_upd_put _ _ _ _ _ p Wm Ub Pm) as Pb. cbn [f_data f_mtime f_mode fset] in Pb.
  rewrite M3 in Pb by congruence. rewrite D2, P1, D1, M2, Nw2, Nw1 in Pb. cbn [skipn app] in Pb.
  split; [eapply file_upd_wf; eauto|]. split.
  { eapply same_rest_trans; [apply O1|]. eapply same_rest_trans; [apply O2|]. eapply same_rest_trans; [apply Ua|apply Ub]. }
  assert (Sh : same_shape (view s2) (view s3)).
  { eapply same_shape_trans; [apply same_shape_same, Em|]. eapply file_upd_shape; eauto. }
  split; [|split].
  - eapply put_same_l; [exact S1|]. eapply put_put; [exact Pt2|]. eapply put_same_l; [exact Em|exact Pb].
  - eapply denotes_shape; eauto.
  - eapply denotes_shape; eauto. apply O2.
Qed.

(** ** A path to a directory does not run through an entry that never leads to a directory *)
Definition dead_end (t : tree) (p : list str) : Prop :=
  exists d n, p = d ++ [n] /\ is_edir (t d) /\ ~ is_edir (t p) /\ forall k x, resolves t k d [n] (Found x) -> ~ is_edir (t x).
Lemma not_through t k q rest r : ~ is_edir (t q) -> is_edir (t r) -> resolves t k q rest (Found r) -> False.
Proof. intros N D R. inversion R; subst; contradiction. Qed.
Lemma resolves_cut t t' p : dead_end t p -> (forall x, x <> p -> t' x = t x) ->
  forall k a steps o, resolves t k a steps o -> forall r, o = Found r -> is_edir (t r) -> resolves t' k a steps (Found r).
Proof.
  intros (d0 & n0 & Ep & Dd & Np & Nx) Ag. induction 1; intros r Eo Dr; try discriminate.
  - injection Eo as ->. constructor.
  - subst o. destruct (list_eq_dec (list_eq_dec N.eq_dec) (d ++ [n]) p) as [E|Ne].
    + exfalso. rewrite E in *. eapply not_through; eauto.
    + assert (Dd' : d <> p) by (intros ->; contradiction).
      apply rs_step; [now rewrite Ag|now rewrite Ag|]. now apply IHresolves.
  - subst o. assert (Dd' : d <> p) by (intros ->; contradiction).
    assert (Dq : is_edir (t q)). { destruct rest; [inversion H3; now subst|]. inversion H3; auto. }
    destruct (list_eq_dec (list_eq_dec N.eq_dec) (d ++ [n]) p) as [E|Ne].
    + exfalso. subst p. apply snoc_inj in E as [-> ->]. revert Dq. apply (Nx (S k)). eapply link_follow; eauto.
    + apply (rs_link _ k d n rest target mt mo cs q); auto; rewrite Ag; auto.
  - destruct H3 as [<-|[<-|[<-|[<-|[]]]]]; discriminate.
Qed.

Section S.
Variable s : mst.
Variable W : wf s.
Variable Q : silent s.
Local Notation t := (view s).

Lemma dead_end_file init n d q : leads t init (Found d) -> is_edir (t d) -> ~ is_edir (t (d ++ [n])) ->
  leads t (init ++ [n]) (Found q) -> is_efile (t q) -> dead_end t (d ++ [n]).
Proof.
  intros L D Nd Lq Fq. exists d, n. split; auto. split; auto. split; auto.
  assert (R : resolves t 32 d [n] (Found q)).
  { destruct (resolves_split t 32 init [] [n] q Lq) as (d' & R1 & R2).
    pose proof (resolves_det _ _ _ _ _ L _ R1) as E. injection E as <-. exact R2. }
  intros k x Rx Dx. assert (E : Found x = Found q).
  { eapply resolves_det.
    - apply (resolves_le t k (Nat.max k 32)); [lia|exact Rx|discriminate].
    - apply (resolves_le t 32 (Nat.max k 32)); [lia|exact R|discriminate]. }
  injection E as ->. destruct Dx as (? & ? & Dx), Fq as (? & ? & ? & Fq). congruence.
Qed.

(** copystat after the content *)
Lemma copy_entry_file u v cu cv q p data mt mo follow l : addr u cu -> addr v cv ->
  denotes t u (Found q) -> t q = Some (EFile data mt mo) -> writable t v p -> p <> q ->
  mem_islink u s = (Ok l, s) -> (l && negb follow = false) ->
  exists s', copy_entry B follow true u v s = (Ok tt, s') /\ wf s' /\ same_rest s s' /\
    put_at t (view s') p (EFile data mt mo).
Proof.
  intros Au Av D Eq Wr Np El Ef. unfold copy_entry, u_islink, hooked. cbn [b_hook b_islink B].
  erewrite bind_ok; [|rewrite (bind_ok _ _ s tt s) by (now apply (silent_hook s u cu)); exact El].
  rewrite Ef. destruct (copy_content s u v q p data mt mo W Q D Eq Wr Np) as (s1 & R1 & W1 & S1 & P1 & Du & Dv).
  cbn [b_copy_content B b_copystat]. erewrite bind_ok by exact R1.
  assert (V1 : view s1 q = Some (EFile data mt mo)) by (destruct P1 as [_ X]; rewrite X; auto).
  destruct (copystat_spec s1 W1 u v q p _ _ Du Dv V1 (put_here _ _ _ _ P1)) as (s2 & R2 & W2 & S2 & P2).
  exists s2. split; [exact R2|]. split; auto. split; [eapply same_rest_trans; eauto|]. eapply put_put; eauto.
Qed.
(** Copying a file onto itself leaves it empty. *)
Lemma copy_entry_self u v cu cv q data mt mo follow l : addr u cu -> addr v cv ->
  denotes t u (Found q) -> denotes t v (Found q) -> t q = Some (EFile data mt mo) ->
  mem_islink u s = (Ok l, s) -> (l && negb follow = false) ->
  exists s', copy_entry B follow true u v s = (Ok tt, s') /\ wf s' /\ same_rest s s' /\
    put_at t (view s') q (EFile [] (m_now s) 0).
Proof.
  intros Au Av D Dv Eq El Ef. unfold copy_entry, u_islink, hooked. cbn [b_hook b_islink B].
  erewrite bind_ok; [|rewrite (bind_ok _ _ s tt s) by (now apply (silent_hook s u cu)); exact El].
  rewrite Ef. cbn [b_copy_content B b_copystat]. unfold mem_copy_content.
  destruct (open_read s W u true q data mt mo D Eq) as (s1 & h1 & f1 & R1 & H1 & O1 & D1 & P1 & T1 & M1 & S1).
  assert (E1 : u_open u (Some (lit "rb")) s = (Ok h1, s1)) by (rewrite (run_u_open s u cu); auto).
  assert (Q1 : silent s1) by (eapply silent_rest; eauto; apply O1).
  assert (W1 : wf s1) by apply O1.
  assert (Wr1 : writable (view s1) v q).
  { eapply writable_same; eauto. apply wr_file; auto. rewrite Eq. now repeat eexists. }
  destruct (open_writable s1 v true q W1 Wr1) as (s2 & h2 & f2 & R2 & H2 & O2 & D2 & P2 & T2 & M2 & Pt2).
  assert (E2 : u_open v (Some (lit "wb")) s1 = (Ok h2, s2)) by (rewrite (run_u_open s1 v cv); auto).
  assert (W2 : wf s2) by apply O2.
  destruct (open_write_files v true s1 h2 s2 W1 R2) as [_ K2].
  assert (Eh : h_node h1 = h_node h2).
  { pose proof (K2 _ _ (op_phys _ _ _ _ _ _ O1)) as A1. rewrite (op_phys _ _ _ _ _ _ O2) in A1. now injection A1. }
  assert (F2 : m_heap s2 (h_node h1) = NFile f2) by (rewrite Eh; apply O2).
  destruct (run_read s2 (h_node h1) f2 F2 8192) as (s3 & R3 & U3). unfold bio_read in R3, U3. rewrite D2, P2 in R3, U3. cbn in R3, U3.
  assert (E3 : copyfileobj (S (length (f_data f2))) h1 h2 8192 s2 = (Ok tt, s3)).
  { cbn [copyfileobj]. unfold h_read. rewrite H1. cbn [h_readable negb h_node]. erewrite bind_ok; [|erewrite bind_ok by exact R3; reflexivity]. reflexivity. }
  assert (Sm : same_tree (view s2) (view s3)) by (eapply file_upd_quiet; eauto).
  assert (W3 : wf s3) by (eapply file_upd_wf; eauto).
  assert (Nw1 : m_now s1 = m_now s) by apply (op_rest _ _ _ _ _ _ O1).
  assert (Pt : put_at t (view s3) q (EFile [] (m_now s) 0)).
  { eapply put_same_l; [exact S1|]. rewrite <- Nw1. destruct Pt2 as [X Y]. split; [now rewrite Sm|]. intros r Hr. rewrite Sm. auto. }
  assert (Sh : same_shape (view s1) (view s3)).
  { eapply same_shape_trans; [|eapply file_upd_shape; eauto]. eapply put_same_shape; [exact Pt2|rewrite S1; exact Eq|exact Logic.I]. }
  destruct (copystat_spec s3 W3 u v q q (EFile [] (m_now s) 0) (EFile [] (m_now s) 0)) as (s4 & R4 & W4 & S4 & P4).
  - eapply denotes_shape; [exact Sh|]. apply O1.
  - eapply denotes_shape; [exact Sh|]. eapply denotes_shape; [apply same_shape_same, S1|exact Dv].
  - apply Pt.
  - apply Pt.
  - exists s4. split; [|split; [auto|split]].
    + rewrite (bind_ok _ _ s tt s3); [exact R4|]. erewrite bind_ok by exact E1. erewrite bind_ok by exact E2.
      erewrite bind_ok by (apply run_get; exact F2). exact E3.
    + eapply same_rest_trans; [apply O1|]. eapply same_rest_trans; [apply O2|]. eapply same_rest_trans; [apply U3|exact S4].
    + eapply put_put; eauto.
Qed.
End S.
