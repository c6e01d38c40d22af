(** copy() and move() of single files and links on the memory backend. *)
From Verif Require Import Str Exc Utf8 UriParse BaseUri StrFacts Utf8Facts SpecUri Mem SpecMem MemOps Generic SpecGen.
From Verif Require Import UriFacts2 UriFacts3 MemFacts MemFacts2 MemFacts3 MemFacts4 MemFacts5 MemFacts6 MemFacts7 MemFacts8 MemFacts9 MemUri MemFacts10 MemFacts11 GenFacts1 GenFacts2 GenFacts3 GenFacts6.
From Coq Require Import Sorted.

Local Notation B := mem_backend.

Section S.
Variable s : mst.
Variable W : wf s.
Variable Q : silent s.
Local Notation t := (view s).

Lemma isfile_at cs q : good_path cs -> leads t cs (Found q) -> is_efile (t q) -> mem_isfile (mem_uri cs) s = (Ok true, s).
Proof.
  intros G L (dd & mt & mo & D). rewrite (isfile_spec s W _ cs _ (mem_addr _ G) L). unfold quiet.
  destruct (efile_node s q dd mt mo D) as (i & f & P & E & _). rewrite P. now rewrite E.
Qed.
Lemma exists_at cs q : good_path cs -> leads t cs (Found q) -> mem_exists (mem_uri cs) s = (Ok true, s).
Proof.
  intros G L. rewrite (exists_spec s W _ cs _ (mem_addr _ G) L). unfold quiet.
  destruct (leads_phys (m_heap s) (m_next s) W cs q L) as (i & P & _). now rewrite P.
Qed.

Lemma writable_isdir ct p : good_path ct -> writable t (mem_uri ct) p -> mem_isdir (mem_uri ct) s = (Ok false, s) /\ ~ to_dir t ct.
Proof.
  intros G [p' P|q (cs & A & L) F].
  - inversion P as [|init n d A L D N E| | | |]; subst. apply addr_mem_eq in A; auto. subst ct.
    assert (Lm : leads t (init ++ [n]) Missing) by (eapply rs_app; eauto; now constructor).
    split; [now apply (isdir_none s W _ Missing); auto|]. intros (q & L' & _).
    pose proof (leads_det (m_heap s) (m_next s) W _ _ _ Lm L'). discriminate.
  - apply addr_mem_eq in A; auto. subst cs. destruct F as (dd & mt & mo & F).
    assert (N : ~ is_edir (t q)) by (intros (? & ? & H); congruence).
    split; [now apply (isdir_file s W ct q)|]. intros (q' & L' & D').
    pose proof (leads_det (m_heap s) (m_next s) W _ _ _ L L') as E. injection E as <-. contradiction.
Qed.

Section Src.
Variables (init : list str) (n : str).
Local Notation cs := (init ++ [n]).
Variable G : good_path cs.
Variables (q : list str) (data : list N) (mt mo : Z).
Hypothesis L : leads t cs (Found q).
Hypothesis Eq : t q = Some (EFile data mt mo).

Lemma src_file : is_efile (t q). Proof. rewrite Eq. now repeat eexists. Qed.

Lemma copy_start fuel ig follow v : u_copy B fuel false ig follow (mem_uri cs) v s
  = (let! dd <- u_isdir B v;
     let! dest <- (if dd then lift (u_div v n) else ret v);
     copy_entry B follow (opt_eqb (u_scheme (mem_uri cs)) (u_scheme v)) (mem_uri cs) dest) s.
Proof.
  unfold u_copy. rewrite run_hooked by auto. unfold fs_copy.
  erewrite bind_ok by (unfold u_exists; rewrite run_hooked by auto; now apply exists_at with (q := q)). cbn [negb].
  erewrite bind_ok by (unfold u_isfile; rewrite run_hooked by auto; apply isfile_at with (q := q); auto using src_file). cbn [negb].
  rewrite mem_last by (eapply good_name, G). reflexivity.
Qed.
Lemma copy_goes fuel ig follow ct cd p : good_path ct -> good_path cd -> copy_dest t n ct cd ->
  writable t (mem_uri cd) p ->
  u_copy B fuel false ig follow (mem_uri cs) (mem_uri ct) s = copy_entry B follow true (mem_uri cs) (mem_uri cd) s.
Proof.
  intros Gt Gd Dt Wr. rewrite copy_start. unfold u_isdir. destruct Dt as [[(x & Lx & Dx) ->]|[Nd ->]].
  - erewrite bind_ok by (rewrite run_hooked by auto; now apply isdir_found with (q := x)).
    erewrite bind_ok by (apply lift_ok, mem_div, Gd). reflexivity.
  - erewrite bind_ok by (rewrite run_hooked by auto; now apply (writable_isdir ct p)).
    erewrite bind_ok by reflexivity. reflexivity.
Qed.

(** The source is a file, or links are followed. *)
Lemma copy_file fuel ig follow l ct cd p : mem_islink (mem_uri cs) s = (Ok l, s) -> l && negb follow = false ->
  good_path ct -> good_path cd -> copy_dest t n ct cd -> writable t (mem_uri cd) p -> p <> q ->
  exists s', u_copy B fuel false ig follow (mem_uri cs) (mem_uri ct) s = (Ok tt, s') /\ wf s' /\ same_rest s s' /\
    put_at t (view s') p (EFile data mt mo).
Proof.
  intros El Ef Gt Gd Dt Wr Np. rewrite (copy_goes fuel ig follow ct cd p) by auto.
  eapply copy_entry_file; eauto using mem_addr. exists cs. eauto using mem_addr.
Qed.
Lemma copy_self fuel ig follow l ct cd : mem_islink (mem_uri cs) s = (Ok l, s) -> l && negb follow = false ->
  good_path ct -> good_path cd -> copy_dest t n ct cd -> leads t cd (Found q) ->
  exists s', u_copy B fuel false ig follow (mem_uri cs) (mem_uri ct) s = (Ok tt, s') /\ wf s' /\ same_rest s s' /\
    put_at t (view s') q (EFile [] (m_now s) 0).
Proof.
  intros El Ef Gt Gd Dt Lq. rewrite (copy_goes fuel ig follow ct cd q); auto.
  - eapply copy_entry_self; eauto using mem_addr; [exists cs|exists cd]; eauto using mem_addr.
  - apply wr_file; [exists cd; eauto using mem_addr|apply src_file].
Qed.

(** Nothing changes if the destination cannot be written. *)
Lemma copy_content_fails cd : good_path cd -> cd <> [] -> (forall p, ~ writable t (mem_uri cd) p) ->
  exists e s', mem_copy_content (mem_uri cs) (mem_uri cd) s = (Raise e, s') /\ wf s' /\ same_rest s s' /\ same_tree t (view s').
Proof.
  intros Gd Nd Nw. unfold mem_copy_content.
  destruct (open_read s W (mem_uri cs) true q data mt mo) as (s1 & h1 & f1 & R1 & H1 & O1 & D1 & P1 & T1 & M1 & S1); auto.
  { exists cs. eauto using mem_addr. }
  assert (Q1 : silent s1) by (eapply silent_rest; eauto; apply O1).
  erewrite bind_ok by (rewrite (run_u_open s (mem_uri cs) cs); eauto using mem_addr).
  assert (W1 : wf s1) by apply O1.
  destruct (open_for_write (mem_uri cd) true s1) as [[h2|e] s2] eqn:R2.
  - exfalso. destruct (open_write_inv s1 (mem_uri cd) true h2 s2 W1) as [p Wp]; auto.
    + intros A. apply addr_mem_eq in A; auto.
    + apply (Nw p). eapply writable_same; [|exact Wp]. intros x. now rewrite S1.
  - exists e, s2. rewrite (bind_raise _ _ s1 e s2) by (rewrite (run_u_open s1 (mem_uri cd) cd); auto using mem_addr).
    apply open_write_raise in R2; auto. subst s2. split; [reflexivity|]. split; auto. split; auto. apply O1.
Qed.
Lemma copy_file_fails fuel ig ct : good_path ct -> (forall cd, copy_dest t n ct cd -> good_path cd) ->
  (forall cd p, copy_dest t n ct cd -> ~ writable t (mem_uri cd) p) ->
  exists e s', u_copy B fuel false ig true (mem_uri cs) (mem_uri ct) s = (Raise e, s') /\ wf s' /\ same_rest s s' /\ same_tree t (view s').
Proof.
  intros Gt Gd Nw. rewrite copy_start. unfold u_isdir.
  assert (End : forall cd, copy_dest t n ct cd -> cd <> [] ->
    exists e s', copy_entry B true true (mem_uri cs) (mem_uri cd) s = (Raise e, s') /\ wf s' /\ same_rest s s' /\ same_tree t (view s')).
  { intros cd Hd Nn. unfold copy_entry, u_islink.
    pose proof (pure_islink (mem_uri cs) s) as Pi. destruct (mem_islink (mem_uri cs) s) as [[l|e] s1] eqn:El; cbn in Pi; subst s1.
    - erewrite bind_ok by (rewrite run_hooked by auto; exact El). cbn [negb]. rewrite andb_false_r.
      destruct (copy_content_fails cd) as (e & s' & R & X); auto.
      exists e, s'. split; auto. cbn [b_copy_content B]. now apply bind_raise.
    - exists e, s. rewrite (bind_raise _ _ s e s) by (rewrite run_hooked by auto; exact El).
      split; [reflexivity|]. split; auto. split; [apply same_rest_refl|apply same_tree_refl]. }
  pose proof (pure_isdir (mem_uri ct) s) as Pi. destruct (mem_isdir (mem_uri ct) s) as [[dd|e] s1] eqn:Ed; cbn in Pi; subst s1.
  - erewrite bind_ok by (rewrite run_hooked by auto; exact Ed).
    destruct (leads_total (m_heap s) ct) as [o Lo].
    assert (Hd : if dd then to_dir t ct else ~ to_dir t ct).
    { destruct (outcome_cases o) as [[x ->]|Nf].
      - destruct (edir_dec (t x)) as [Dx|Dx].
        + rewrite (isdir_found s W ct x) in Ed by auto. injection Ed as <-. now exists x.
        + rewrite (isdir_file s W ct x) in Ed by auto. injection Ed as <-. intros (y & Ly & Dy).
          pose proof (leads_det (m_heap s) (m_next s) W _ _ _ Lo Ly) as E. injection E as <-. contradiction.
      - destruct dd; [|intros (y & Ly & Dy); pose proof (leads_det (m_heap s) (m_next s) W _ _ _ Lo Ly) as E; now apply (Nf y)].
        exfalso. destruct o as [x| | | | |]; [now apply (Nf x)| | | | |].
        + rewrite (isdir_none s W ct Missing) in Ed; auto. discriminate.
        + destruct (isdir_raise s W ct Dead) as [e Ee]; auto; [cbn; auto|congruence].
        + destruct (isdir_raise s W ct NotDir) as [e Ee]; auto; [cbn; auto|congruence].
        + rewrite (isdir_none s W ct Loop) in Ed; auto. discriminate.
        + destruct (isdir_raise s W ct BadLink) as [e Ee]; auto; [cbn; auto|congruence]. }
    destruct dd.
    + assert (Cd : copy_dest t n ct (ct ++ [n])) by (left; auto).
      erewrite bind_ok by (apply lift_ok, mem_div, (Gd _ Cd)). apply End; auto. now destruct ct.
    + erewrite bind_ok by reflexivity. apply End; [right; auto|]. intros ->. apply Hd. exists []. split; [constructor|now apply root_dir].
  - exists e, s. rewrite (bind_raise _ _ s e s) by (rewrite run_hooked by auto; exact Ed).
    split; [reflexivity|]. split; auto. split; [apply same_rest_refl|apply same_tree_refl].
Qed.
End Src.
End S.

(** ** Links copied as links *)
Lemma fresh_kept s s1 init n d p : wf s -> wf s1 -> fresh_last (view s) init n -> leads (view s) init (Found d) ->
  view s1 p = None -> (forall x, x <> p -> view s1 x = view s x) ->
  (forall c x, leads (view s) c (Found x) -> is_edir (view s x) -> leads (view s1) c (Found x)) ->
  fresh_last (view s1) init n.
Proof.
  intros W W1 F L N1 A1 K1 pre post x Ei Lx (g & a & b & Hl).
  assert (Hp : exists y, leads (view s) pre (Found y) /\ is_edir (view s y)).
  { unfold leads in L. rewrite Ei in L. destruct (resolves_split (view s) 32 pre [] (n :: post) d L) as (y & Y1 & Y2). exists y. split; auto.
    inversion Y2; auto. }
  destruct Hp as (y & Ly & Dy). assert (Ly1 := K1 _ _ Ly Dy).
  pose proof (leads_det (m_heap s1) (m_next s1) W1 _ _ _ Lx Ly1) as X. injection X as ->.
  apply (F pre post y Ei Ly). exists g, a, b. rewrite <- A1; auto. intros X. rewrite X in Hl. congruence.
Qed.
Section L.
Variable s : mst.
Variable W : wf s.
Variable Q : silent s.
Local Notation t := (view s).
Variables (init : list str) (n : str) (d : list str) (tg : uri) (lmt lmo : Z).
Local Notation cs := (init ++ [n]).
Variable G : good_path cs.
Variable F : fresh_last t init n.
Hypothesis L : leads t init (Found d).
Hypothesis D : is_edir (t d).
Hypothesis E : t (d ++ [n]) = Some (ELink tg lmt lmo).
Variables (ei : list str) (m : str) (e : list str).
Local Notation cd := (ei ++ [m]).
Variable Gd : good_path cd.
Variable Fd : fresh_last t ei m.
Hypothesis Ld : leads t ei (Found e).
Hypothesis De : is_edir (t e).

Lemma src_islink : mem_islink (mem_uri cs) s = (Ok true, s).
Proof. rewrite (run_islink s W init n G F d L D). now rewrite E. Qed.
Lemma src_taken : place t (mem_uri cs) (Taken (d ++ [n])).
Proof. apply (taken_place s init n G d); auto. now rewrite E. Qed.

Lemma copy_link_free : t (e ++ [m]) = None ->
  exists s', copy_link B (mem_uri cs) (mem_uri cd) s = (Ok tt, s') /\ wf s' /\ same_rest s s' /\
    put_at t (view s') (e ++ [m]) (ELink tg (m_now s) 0).
Proof.
  intros N. unfold copy_link. cbn [b_islink b_removefile_by b_readlink b_symlink_by B].
  erewrite bind_ok by exact src_islink. cbn [negb].
  assert (Lm : leads t cd Missing) by (eapply rs_app; eauto; now constructor).
  assert (Fm : mem_isfile (mem_uri cd) s = (Ok false, s)) by now rewrite (isfile_spec s W _ cd _ (mem_addr _ Gd) Lm).
  erewrite bind_ok by (unfold u_isfile; rewrite run_hooked by auto; exact Fm).
  cbn match. erewrite bind_ok by reflexivity.
  erewrite bind_ok by (eapply readlink_spec; eauto using (snoc_regular s init n G F), src_taken).
  assert (Pl : place t (mem_uri cd) (Free (e ++ [m]))) by (eapply pl_free; eauto using mem_addr).
  destruct (make_free s W (mem_uri cd) (fun s => NLink tg (m_now s) 0) (e ++ [m]) Pl) as (s' & Em & W' & Pt & R & _); [intros es Hes; discriminate Hes|].
  exists s'. rewrite symlink_make. auto.
Qed.

Variable q : list str.
Hypothesis Lq : leads t cd (Found q).
Hypothesis Fq : is_efile (t q).

Lemma dest_no_dir : ~ is_edir (t (e ++ [m])).
Proof.
  intros Dp. assert (Lp : leads t cd (Found (e ++ [m]))) by (eapply rs_app; eauto; apply rs_step; auto; constructor).
  pose proof (leads_det (m_heap s) (m_next s) W _ _ _ Lq Lp) as X. injection X as ->.
  destruct Dp as (? & ? & Dp), Fq as (? & ? & ? & Fq'). congruence.
Qed.
Lemma dest_some : t (e ++ [m]) <> None.
Proof.
  intros N. assert (Lp : leads t cd Missing) by (eapply rs_app; eauto; now constructor).
  pose proof (leads_det (m_heap s) (m_next s) W _ _ _ Lq Lp) as X. discriminate.
Qed.
Lemma cut_one t' p : ~ is_edir (t p) -> cut_at t t' p -> (forall x, x <> p -> t' x = t x) /\ t' p = None.
Proof.
  intros Nd [C1 C2]. split; [|rewrite <- (app_nil_r p); apply C1].
  intros x Hx. destruct (below_dec p x) as [[r ->]|Nb]; [|now apply C2].
  rewrite C1. destruct r as [|a r]; [rewrite app_nil_r in Hx; easy|].
  destruct (t (p ++ a :: r)) eqn:X; auto. exfalso. apply Nd. apply (tree_parent (m_heap s) p a).
  intros Y. assert (Z : view s ((p ++ [a]) ++ r) = None) by now apply below_none. rewrite <- app_assoc in Z. cbn in Z. congruence.
Qed.

(** The start: a link or file at the destination is removed. *)
Lemma copy_link_removes : exists s1, mem_removefile (mem_uri cd) s = (Ok tt, s1) /\ wf s1 /\ same_rest s s1 /\
    view s1 (e ++ [m]) = None /\ (forall x, x <> e ++ [m] -> view s1 x = t x) /\
    (forall c x, leads t c (Found x) -> is_edir (t x) -> leads (view s1) c (Found x)) /\
    copy_link B (mem_uri cs) (mem_uri cd) s = (let! tgt <- mem_readlink (mem_uri cs); mem_symlink tgt (mem_uri cd)) s1.
Proof.
  destruct (run_removefile s W ei m Gd Fd e Ld De dest_some) as (s1 & R & W1 & C & S1).
  destruct (cut_one _ _ dest_no_dir C) as [C1 C2].
  exists s1. split; [exact R|]. split; auto. split; auto. split; auto. split; auto. split.
  - intros c x Lc Dx. eapply resolves_cut; eauto. eapply dead_end_file; eauto using dest_no_dir.
  - unfold copy_link. cbn [b_islink b_removefile_by b_readlink b_symlink_by B].
    erewrite bind_ok by exact src_islink. cbn [negb].
    erewrite bind_ok by (unfold u_isfile; rewrite run_hooked by auto; now apply (isfile_at s W cd q)).
    now rewrite (bind_ok _ _ s tt s1).
Qed.

Lemma copy_link_over : e ++ [m] <> d ++ [n] ->
  exists s', copy_link B (mem_uri cs) (mem_uri cd) s = (Ok tt, s') /\ wf s' /\ same_rest s s' /\
    put_at t (view s') (e ++ [m]) (ELink tg (m_now s) 0).
Proof.
  intros Np. destruct copy_link_removes as (s1 & R & W1 & S1 & N1 & A1 & K1 & Eq). rewrite Eq.
  assert (Nd : d <> e ++ [m]) by (intros ->; now apply dest_no_dir).
  assert (Ne : e <> e ++ [m]) by (intros X; apply (f_equal (@length _)) in X; rewrite app_length in X; cbn in X; lia).
  assert (L1 : leads (view s1) init (Found d)) by auto.
  assert (D1 : is_edir (view s1 d)) by now rewrite A1.
  assert (E1 : view s1 (d ++ [n]) = Some (ELink tg lmt lmo)) by (rewrite A1; auto).
  assert (F1 : fresh_last (view s1) init n) by (exact (fresh_kept s s1 init n d (e ++ [m]) W W1 F L N1 A1 K1)).
  assert (T1 : place (view s1) (mem_uri cs) (Taken (d ++ [n]))) by (eapply pl_taken; eauto using mem_addr; now rewrite E1).
  erewrite bind_ok by (eapply readlink_spec; eauto using (snoc_regular s1 init n G F1)).
  assert (Pl : place (view s1) (mem_uri cd) (Free (e ++ [m]))).
  { eapply pl_free; eauto using mem_addr. now rewrite A1. }
  destruct (make_free s1 W1 (mem_uri cd) (fun s => NLink tg (m_now s) 0) (e ++ [m]) Pl) as (s' & Em & W' & Pt & R' & _); [intros es Hes; discriminate Hes|].
  exists s'. rewrite symlink_make. split; auto. split; auto. split; [eapply same_rest_trans; eauto|].
  destruct Pt as [P1 P2]. assert (Nw : m_now s1 = m_now s) by apply S1. rewrite <- Nw. split; [exact P1|].
  intros x Hx. rewrite P2 by auto. now apply A1.
Qed.
End L.

(** Copying a link onto itself without following it deletes it. *)
Lemma copy_link_self s init n d tg lmt lmo q : wf s -> silent s -> good_path (init ++ [n]) -> fresh_last (view s) init n ->
  leads (view s) init (Found d) -> is_edir (view s d) -> view s (d ++ [n]) = Some (ELink tg lmt lmo) ->
  leads (view s) (init ++ [n]) (Found q) -> is_efile (view s q) ->
  exists s', copy_link B (mem_uri (init ++ [n])) (mem_uri (init ++ [n])) s = (Raise (OSError ENOENT), s') /\
    wf s' /\ same_rest s s' /\ cut_at (view s) (view s') (d ++ [n]).
Proof.
  intros W Q G F L D E Lq Fq.
  destruct (copy_link_removes s W Q init n d tg lmt lmo G F L D E init n d G F L D q Lq Fq) as (s1 & R & W1 & S1 & N1 & A1 & K1 & Eq).
  exists s1. split; [|split; [auto|split; [auto|]]].
  - rewrite Eq. apply bind_raise.
    assert (L1 : leads (view s1) init (Found d)) by auto.
    assert (Nd : d <> d ++ [n]) by (intros X; apply (f_equal (@length _)) in X; rewrite app_length in X; cbn in X; lia).
    assert (D1 : is_edir (view s1 d)) by now rewrite A1.
    assert (F1 : fresh_last (view s1) init n) by exact (fresh_kept s s1 init n d (d ++ [n]) W W1 F L N1 A1 K1).
    assert (X : phys (m_heap s1) root_id (d ++ [n]) = None).
    { unfold view, tree_of in N1. destruct phys; [discriminate|auto]. }
    assert (Y : lookup_node (mem_uri (init ++ [n])) false s1 = (Raise (OSError ENOENT), s1)).
    { unfold lookup_node, bind, lookup.
      rewrite (nofollow_found s1 W1 _ init n d true (mem_addr _ G) F1 L1 D1). now rewrite X. }
    unfold mem_readlink. destruct (addr_snoc_path _ init n (mem_addr _ G)) as (pp & Mp & Np & _).
    erewrite bind_ok by (apply lift_ok, Mp). destruct pp as [|c pp]; [easy|]. now apply bind_raise.
  - split; [|intros x Hx; apply A1; intros ->; now apply (Hx []); rewrite app_nil_r].
    intros r. destruct r; [now rewrite app_nil_r|]. now apply below_none.
Qed.

(** A link leading to a file, copied without following it. *)
Lemma copy_as_link s init n d tg lmt lmo q data mt mo ct ei m e fuel ig : wf s -> silent s ->
  good_path (init ++ [n]) -> fresh_last (view s) init n -> leads (view s) init (Found d) -> is_edir (view s d) ->
  view s (d ++ [n]) = Some (ELink tg lmt lmo) ->
  leads (view s) (init ++ [n]) (Found q) -> view s q = Some (EFile data mt mo) ->
  good_path ct -> good_path (ei ++ [m]) -> copy_dest (view s) n ct (ei ++ [m]) -> fresh_last (view s) ei m ->
  leads (view s) ei (Found e) -> is_edir (view s e) -> e ++ [m] <> d ++ [n] ->
  view s (e ++ [m]) = None \/ (exists x, leads (view s) (ei ++ [m]) (Found x) /\ is_efile (view s x)) ->
  exists s', u_copy B fuel false ig false (mem_uri (init ++ [n])) (mem_uri ct) s = (Ok tt, s') /\ wf s' /\ same_rest s s' /\
    put_at (view s) (view s') (e ++ [m]) (ELink tg (m_now s) 0).
Proof.
  intros W Q G F L D E Lq Eq Gt Gd Cd Fd Ld De Np H.
  assert (Wr : exists p, writable (view s) (mem_uri (ei ++ [m])) p).
  { destruct H as [H|(x & Lx & Fx)].
    - exists (e ++ [m]). apply wr_free. eapply pl_free; eauto using mem_addr.
    - exists x. apply wr_file; auto. exists (ei ++ [m]). eauto using mem_addr. }
  destruct Wr as [p Wr].
  rewrite (copy_goes s W Q init n G q data mt mo Lq Eq fuel ig false ct (ei ++ [m]) p Gt Gd Cd Wr).
  unfold copy_entry, u_islink. erewrite bind_ok by (rewrite run_hooked by auto; eapply (src_islink s W init n d tg lmt lmo G F L D E)).
  cbn [andb negb]. destruct H as [H|(x & Lx & Fx)].
  - eapply copy_link_free; eauto.
  - eapply copy_link_over; eauto.
Qed.
Lemma copy_link_onto_itself s init n d tg lmt lmo q data mt mo fuel ig : wf s -> silent s ->
  good_path (init ++ [n]) -> fresh_last (view s) init n -> leads (view s) init (Found d) -> is_edir (view s d) ->
  view s (d ++ [n]) = Some (ELink tg lmt lmo) ->
  leads (view s) (init ++ [n]) (Found q) -> view s q = Some (EFile data mt mo) ->
  exists s', u_copy B fuel false ig false (mem_uri (init ++ [n])) (mem_uri (init ++ [n])) s = (Raise (OSError ENOENT), s') /\
    wf s' /\ same_rest s s' /\ cut_at (view s) (view s') (d ++ [n]).
Proof.
  intros W Q G F L D E Lq Eq. assert (Fq : is_efile (view s q)) by (rewrite Eq; now repeat eexists).
  rewrite (copy_goes s W Q init n G q data mt mo Lq Eq fuel ig false (init ++ [n]) (init ++ [n]) q); auto.
  - unfold copy_entry, u_islink. erewrite bind_ok by (rewrite run_hooked by auto; eapply (src_islink s W init n d tg lmt lmo G F L D E)).
    cbn [andb negb]. eapply copy_link_self; eauto.
  - right. split; auto. intros (y & Ly & Dy).
    pose proof (leads_det (m_heap s) (m_next s) W _ _ _ Lq Ly) as X. injection X as <-.
    destruct Dy as (? & ? & Dy). congruence.
  - apply wr_file; auto. exists (init ++ [n]). eauto using mem_addr.
Qed.

(** Sources that cannot be copied. *)
Lemma copy_missing s cs o v fuel rc ig follow : wf s -> silent s -> good_path cs -> leads (view s) cs o -> o = Missing \/ o = Loop ->
  u_copy B fuel rc ig follow (mem_uri cs) v s = (Raise FileDoesNotExistError, s).
Proof.
  intros W Q G L H. unfold u_copy. rewrite run_hooked by auto. unfold fs_copy.
  assert (X : mem_exists (mem_uri cs) s = (Ok false, s)) by (rewrite (exists_spec s W _ cs o); auto using mem_addr; destruct H as [-> | ->]; reflexivity).
  erewrite bind_ok by (unfold u_exists; rewrite run_hooked by auto; exact X). cbn [negb].
  destruct (mem_str cs) as [x Ex]. erewrite bind_ok by (now apply lift_ok, Ex). reflexivity.
Qed.
Lemma copy_not_file s cs q v fuel ig follow : wf s -> silent s -> good_path cs -> leads (view s) cs (Found q) -> is_edir (view s q) ->
  u_copy B fuel false ig follow (mem_uri cs) v s = (Raise AssertionError, s).
Proof.
  intros W Q G L D. unfold u_copy. rewrite run_hooked by auto. unfold fs_copy.
  erewrite bind_ok by (unfold u_exists; rewrite run_hooked by auto; now apply exists_at with (q := q)). cbn [negb].
  assert (X : mem_isfile (mem_uri cs) s = (Ok false, s)).
  { rewrite (isfile_spec s W _ cs _ (mem_addr _ G) L). unfold quiet.
    destruct (leads_phys (m_heap s) (m_next s) W cs q L) as (i & P & _). rewrite P.
    destruct (tree_dir (m_heap s) q i P D) as (es & mt & mo & E). now rewrite E. }
  erewrite bind_ok by (unfold u_isfile; rewrite run_hooked by auto; exact X). reflexivity.
Qed.
Lemma copy_not_dir s cs q v fuel ig follow : wf s -> silent s -> good_path cs -> leads (view s) cs (Found q) -> is_efile (view s q) ->
  u_copy B fuel true ig follow (mem_uri cs) v s = (Raise AssertionError, s).
Proof.
  intros W Q G L D. unfold u_copy. rewrite run_hooked by auto. unfold fs_copy.
  erewrite bind_ok by (unfold u_exists; rewrite run_hooked by auto; now apply exists_at with (q := q)). cbn [negb].
  erewrite bind_ok by (unfold u_isdir; rewrite run_hooked by auto; apply isdir_file with (q := q); auto;
    destruct D as (? & ? & ? & ->); intros (? & ? & X); discriminate). reflexivity.
Qed.

(** ** move() of a file *)
Section Move.
Variable s : mst.
Variable W : wf s.
Variable Q : silent s.
Local Notation t := (view s).
Variables (init : list str) (n : str) (d : list str).
Local Notation cs := (init ++ [n]).
Variable G : good_path cs.
Variable F : fresh_last t init n.
Hypothesis L : leads t init (Found d).
Hypothesis D : is_edir (t d).
Variables (q : list str) (data : list N) (mt mo : Z).
Hypothesis Lq : leads t cs (Found q).
Hypothesis Eq : t q = Some (EFile data mt mo).

Lemma move_start fuel v : u_move B fuel (mem_uri cs) v s
  = (u_copy B fuel false [] true (mem_uri cs) v ;; u_remove B fuel false (mem_uri cs)) s.
Proof.
  unfold u_move. rewrite run_hooked by auto. unfold fs_move.
  erewrite bind_ok by (unfold u_isfile; rewrite run_hooked by auto; apply (isfile_at s W cs q); auto; rewrite Eq; now repeat eexists).
  reflexivity.
Qed.
Lemma place_leaf : is_efile (t (d ++ [n])) \/ is_elink (t (d ++ [n])).
Proof.
  pose proof (leads_taken s W init n d q L Lq) as [_ N].
  destruct (entry_cases (t (d ++ [n]))) as [X|[X|[X|X]]]; [contradiction|auto| |auto].
  exfalso. assert (Lp : leads t cs (Found (d ++ [n]))) by (eapply rs_app; eauto; apply rs_step; auto; constructor).
  pose proof (leads_det (m_heap s) (m_next s) W _ _ _ Lq Lp) as Y. injection Y as Y.
  rewrite <- Y, Eq in X. destruct X as (? & ? & X). discriminate.
Qed.
Lemma move_file fuel ct cd p : good_path ct -> good_path cd -> copy_dest t n ct cd -> writable t (mem_uri cd) p ->
  p <> q -> p <> d ++ [n] ->
  exists s', u_move B fuel (mem_uri cs) (mem_uri ct) s = (Ok tt, s') /\ wf s' /\ same_rest s s' /\
    moved t (view s') p (d ++ [n]) (EFile data mt mo).
Proof.
  intros Gt Gd Cd Wr Np Nps. rewrite move_start.
  assert (Hl : exists l, mem_islink (mem_uri cs) s = (Ok l, s)).
  { rewrite (run_islink s W init n G F d L D). eauto. }
  destruct Hl as [l El].
  destruct (copy_file s W Q init n G q data mt mo Lq Eq fuel [] true l ct cd p El (andb_false_r l) Gt Gd Cd Wr Np)
    as (s1 & R1 & W1 & S1 & P1).
  erewrite bind_ok by exact R1.
  pose proof (writable_kind s (mem_uri cd) p data mt mo W Wr) as K.
  assert (Gr : grows t (view s1)).
  { destruct K as [K|(e0 & E0 & K)]; [eapply put_new_grows; eauto|eapply put_same_shape; eauto]. }
  assert (L1 : leads (view s1) init (Found d)) by (eapply leads_grows; eauto).
  assert (D1 : is_edir (view s1 d)) by (eapply kind_dir; eauto).
  assert (E1 : view s1 (d ++ [n]) = t (d ++ [n])) by (apply P1; auto).
  assert (F1 : fresh_last (view s1) init n) by (eapply fresh_grows; eauto).
  assert (Lf : is_efile (view s1 (d ++ [n])) \/ is_elink (view s1 (d ++ [n]))) by (rewrite E1; apply place_leaf).
  assert (Q1 : silent s1) by (eapply silent_rest; eauto).
  destruct (remove_leaf s1 W1 Q1 init n G F1 d L1 D1 fuel false Lf) as (s' & R & W' & C & S').
  exists s'. split; [exact R|]. split; auto. split; [eapply same_rest_trans; eauto|].
  assert (Nd : ~ is_edir (view s1 (d ++ [n]))).
  { destruct Lf as [(? & ? & ? & X)|(? & ? & ? & X)]; rewrite X; intros (? & ? & Y); discriminate. }
  destruct (cut_one s1 (view s') (d ++ [n]) Nd C) as [C1 C2].
  split; [|split].
  - rewrite C1 by auto. apply P1.
  - exact C2.
  - intros x X1 X2. rewrite C1 by auto. now apply P1.
Qed.
(** Nothing is lost if the copy fails. *)
Lemma move_file_fails fuel ct : good_path ct -> (forall cd, copy_dest t n ct cd -> good_path cd) ->
  (forall cd p, copy_dest t n ct cd -> ~ writable t (mem_uri cd) p) ->
  exists e s', u_move B fuel (mem_uri cs) (mem_uri ct) s = (Raise e, s') /\ wf s' /\ same_rest s s' /\ same_tree t (view s').
Proof.
  intros Gt Gd Nw. rewrite move_start.
  destruct (copy_file_fails s W Q init n G q data mt mo Lq Eq fuel [] ct Gt Gd Nw) as (e & s' & R & X).
  exists e, s'. split; auto. now apply bind_raise.
Qed.
(** Moving a file onto itself deletes it. *)
Lemma move_self fuel ct cd : good_path ct -> good_path cd -> copy_dest t n ct cd -> leads t cd (Found q) -> q = d ++ [n] ->
  exists s', u_move B fuel (mem_uri cs) (mem_uri ct) s = (Ok tt, s') /\ wf s' /\ same_rest s s' /\ cut_at t (view s') q.
Proof.
  intros Gt Gd Cd Lc Hq. rewrite move_start.
  assert (Hl : exists l, mem_islink (mem_uri cs) s = (Ok l, s)).
  { rewrite (run_islink s W init n G F d L D). eauto. }
  destruct Hl as [l El].
  destruct (copy_self s W Q init n G q data mt mo Lq Eq fuel [] true l ct cd El (andb_false_r l) Gt Gd Cd Lc)
    as (s1 & R1 & W1 & S1 & P1).
  erewrite bind_ok by exact R1.
  assert (Gr : grows t (view s1)).
  { eapply put_same_shape; eauto. exact Logic.I. }
  assert (L1 : leads (view s1) init (Found d)) by (eapply leads_grows; eauto).
  assert (D1 : is_edir (view s1 d)) by (eapply kind_dir; eauto).
  assert (F1 : fresh_last (view s1) init n) by (eapply fresh_grows; eauto).
  assert (E1 : view s1 (d ++ [n]) = Some (EFile [] (m_now s) 0)) by (rewrite <- Hq; apply P1).
  assert (Lf : is_efile (view s1 (d ++ [n])) \/ is_elink (view s1 (d ++ [n]))) by (rewrite E1; left; now repeat eexists).
  assert (Q1 : silent s1) by (eapply silent_rest; eauto).
  destruct (remove_leaf s1 W1 Q1 init n G F1 d L1 D1 fuel false Lf) as (s' & R & W' & C & S').
  exists s'. split; [exact R|]. split; auto. split; [eapply same_rest_trans; eauto|].
  rewrite <- Hq in C. destruct C as [C1 C2]. split; auto.
  intros x Hx. rewrite C2 by auto. apply P1. intros ->. apply (Hx []). now rewrite app_nil_r.
Qed.
End Move.
