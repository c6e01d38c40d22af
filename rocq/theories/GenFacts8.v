(** Recursive copy on the memory backend. *)
From Verif Require Import Str Exc Utf8 UriParse BaseUri StrFacts Utf8Facts SpecUri Mem SpecMem MemOps Generic SpecGen.
From Verif Require Import UriFacts2 UriFacts3 UriFacts4 MemFacts MemFacts2 MemFacts3 MemFacts4 MemFacts5 MemFacts6 MemFacts7 MemFacts8 MemFacts9 MemUri MemFacts10 MemFacts11 GenFacts1 GenFacts2 GenFacts3 GenFacts4 GenFacts5 GenFacts6 GenFacts7.
From Coq Require Import Sorted.

Local Notation B := mem_backend.

(** ** Paths *)
Local Notation joined := (join_with [cSlash]).
Lemma flat_joined r : r <> [] -> flat_map (fun c => cSlash :: c) r = cSlash :: joined r.
Proof.
  induction r as [|a r IH]; [easy|]. intros _. destruct r as [|b r]; [cbn; now rewrite app_nil_r|].
  rewrite join_with_cons by easy. cbn [flat_map]. cbn [flat_map] in IH. rewrite IH by easy. reflexivity.
Qed.
Lemma abs_path_ne cs : cs <> [] -> abs_path cs = flat_map (fun c => cSlash :: c) cs.
Proof. now destruct cs. Qed.

Lemma mem_div_path cs r : Forall name_ok (cs ++ r) -> r <> [] -> u_div (mem_uri cs) (joined r) = Ok (mem_uri (cs ++ r)).
Proof.
  intros H Hr. pose proof H as H0. apply Forall_app in H as [H1 H2].
  unfold u_div. change [joined r] with ([] ++ [joined r]).
  erewrite (join_made (mem_uri cs) (lit "memory") NoAuth (flat_map (fun c => cSlash :: c) cs)
              (match cs with [] => 1 | _ => 0 end) [] None [] (joined r) (abs_path (cs ++ r))); auto using empty_query_ok, no_query_enc.
  - now rewrite mem_gtext.
  - cbn [mem_uri u_p]. f_equal. destruct cs; [reflexivity|]. cbn [repeat]. now rewrite app_nil_r.
  - now apply nts_flat.
  - constructor.
  - rewrite abs_path_ne by (intros E; apply app_eq_nil in E; tauto). rewrite flat_map_app.
    transitivity (flat_map (fun c => cSlash :: c) cs ++ cSlash :: joined r); [f_equal; now apply flat_joined|reflexivity].
  - now apply good_loc.
Qed.
Lemma skip_source cs r : cs <> [] -> skipn (length (abs_path cs) + 1) (abs_path (cs ++ r)) = joined r.
Proof.
  intros N. rewrite !abs_path_ne by (try (intros E; apply app_eq_nil in E); tauto). rewrite flat_map_app.
  assert (X : forall a z : str, skipn (length a + 1) (a ++ z) = tl z).
  { induction a as [|c a IH]; intros z; [now destruct z|apply IH]. }
  etransitivity; [apply X|]. destruct r as [|n r]; [reflexivity|]. now rewrite flat_joined.
Qed.
Lemma joined_ne r : Forall name_ok r -> r <> [] -> joined r <> [].
Proof.
  intros H N. destruct H as [|n r Hn H]; [easy|]. destruct r as [|m r]; [apply (name_ne _ Hn)|].
  rewrite join_with_cons by easy. intros E. apply app_eq_nil in E as [-> _]. now apply (name_ne _ Hn).
Qed.
Lemma joined_strip r : Forall name_ok r -> Forall unpadded r -> strip_p is_space (joined r) = joined r.
Proof.
  intros H U. destruct (list_eq_dec (list_eq_dec N.eq_dec) r []) as [->|N]; [reflexivity|]. apply strip_id.
  - destruct r as [|n r]; [easy|]. inversion H as [|? ? Hn _]; subst. inversion U as [|? ? Un _]; subst.
    destruct n as [|c n]; [now destruct (name_ne _ Hn)|].
    assert (E : exists z, joined ((c :: n) :: r) = c :: z).
    { destruct r; [now exists n|]. rewrite join_with_cons by easy. eexists. reflexivity. }
    destruct E as [z E]. unfold str in *. rewrite E. cbn. apply (Un c n). now left.
  - destruct (snoc_cases r) as [->|(r' & n & ->)]; [easy|].
    apply Forall_app in H as [_ H]. inversion H as [|? ? Hn _]; subst. apply Forall_app in U as [_ U]. inversion U as [|? ? Un _]; subst.
    destruct (snoc_cases n) as [->|(n' & c & ->)]; [now destruct (name_ne _ Hn)|].
    assert (E : exists z, joined (r' ++ [n' ++ [c]]) = z ++ [c]).
    { destruct r' as [|m r']; [now exists n'|]. rewrite join_with_app by easy. cbn [join_with].
      eexists. rewrite app_assoc. rewrite app_assoc. reflexivity. }
    destruct E as [z E]. unfold str in *. rewrite E. rewrite rev_app_distr. cbn. apply (Un c n'). now right.
Qed.

(** Found places do not depend on what is put where nothing was. *)
Lemma agree_grows t t' N0 : (forall z, t (N0 ++ z) = None) -> (forall x, (forall z, x <> N0 ++ z) -> t' x = t x) -> grows t t'.
Proof.
  intros N A p e E. exists e. split; [|apply same_kind_refl]. rewrite A; auto. intros z ->. congruence.
Qed.
Lemma settled_found t N0 cs x : (forall z, t (N0 ++ z) = None) -> leads t cs (Found x) -> settled t N0 cs (Found x).
Proof. intros N L t' A. eapply leads_grows; eauto. eapply agree_grows; eauto. Qed.

(** ** The setting *)
Section S.
Variable s : mst.
Variable W : wf s.
Variable Q : silent s.
Local Notation t := (view s).
Variables (cs : list str) (follow : bool) (ignore : list str).
Local Notation visits := (visits t follow ignore cs).
Variable q0 : list str.
Hypothesis G0 : good_path cs.
Hypothesis Ncs : cs <> [].
Hypothesis L0 : leads t cs (Found q0).
Hypothesis D0 : is_edir (t q0).
Variables (cd d : list str) (bn : str) (b' : list str).
Local Notation b := (bn :: b').
Local Notation P := (d ++ b).
Local Notation N0 := (d ++ [bn]).
Hypothesis Gcd : good_path cd.
Hypothesis Gp : gap t cd d b.
Hypothesis H : forall r q n, visits r q -> t (q ++ [n]) <> None ->
  good_path ((cs ++ r) ++ [n]) /\ fresh_last t (cs ++ r) n /\
  exists o, settled t N0 ((cs ++ r) ++ [n]) o /\ answers o /\ (follow = true -> exists x, o = Found x).
Hypothesis Hd : forall r q, visits r q -> q <> d.
Hypothesis Hpad : forall r q, visits r q -> Forall unpadded r.
Variable fuel : nat.
Hypothesis Hf : forall r q, visits r q -> (length r < fuel)%nat.
Hypothesis Hf2 : (length b < fuel)%nat.
Variable s1 : mst.
Hypothesis W1 : wf s1.
Hypothesis R1 : same_rest s s1.
Hypothesis A1 : dirs_added t (view s1) d b (m_now s).
Local Notation now := (m_now s).
Local Notation copied := (copied t follow ignore cs now).

Lemma H0 : forall r q n, visits r q -> t (q ++ [n]) <> None ->
  good_path ((cs ++ r) ++ [n]) /\ fresh_last t (cs ++ r) n /\ exists o, leads t ((cs ++ r) ++ [n]) o /\ answers o.
Proof.
  intros r q n V N. destruct (H r q n V N) as (G & F & o & Ho & A & _). split; auto. split; auto. exists o. split; auto.
Qed.
Lemma region_empty z : t (N0 ++ z) = None.
Proof. apply below_none. destruct Gp as (a & _ & _ & _ & N). now apply (N bn b'). Qed.
Lemma P_region y : P ++ y = N0 ++ b' ++ y.
Proof. rewrite <- !app_assoc. reflexivity. Qed.
Lemma here_outside x z : t x <> None -> x <> N0 ++ z.
Proof. intros Hx ->. apply Hx, region_empty. Qed.

(** [D]: the places below the destination already dealt with. *)
Record K (D : list str -> Prop) (s' : mst) : Prop := {
  k_wf : wf s';
  k_rest : same_rest s s';
  k_else : forall x, (forall y, y <> [] -> x <> P ++ y) -> view s' x = view s1 x;
  k_new : forall y e, y <> [] -> view s' (P ++ y) = Some e <-> D y /\ copied y e }.

Lemma copied_det y e e' : copied y e -> copied y e' -> e = e'.
Proof.
  assert (Dv := visits_det s W cs follow ignore G0 H0).
  intros C C'. inversion C as [r q n V N Ni F T|r q n x data mt mo V N F Lx Ex|r q n tg mt mo F V E Ni]; subst;
  inversion C' as [r' q' n' V' N' Ni' F' T' E1|r' q' n' x' data' mt' mo' V' N' F' Lx' Ex' E1|r' q' n' tg' mt' mo' F' V' E' Ni' E1]; subst;
  apply snoc_inj in E1 as [-> ->]; pose proof (Dv _ _ _ V V') as ->; auto;
  try (destruct F as [F|F]; [congruence|exfalso; apply F; rewrite E'; now repeat eexists]);
  try (destruct F' as [F'|F']; [congruence|exfalso; apply F'; rewrite E; now repeat eexists]).
  - exfalso. destruct T as (x & Lx & Dx). pose proof (leads_det (m_heap s) (m_next s) W _ _ _ Lx Lx') as X. injection X as ->.
    rewrite Ex' in Dx. destruct Dx as (? & ? & Dx). discriminate.
  - exfalso. destruct T' as (x' & Lx' & Dx). pose proof (leads_det (m_heap s) (m_next s) W _ _ _ Lx Lx') as X. injection X as ->.
    rewrite Ex in Dx. destruct Dx as (? & ? & Dx). discriminate.
  - pose proof (leads_det (m_heap s) (m_next s) W _ _ _ Lx Lx') as X. injection X as ->. congruence.
  - rewrite E in E'. now injection E' as <- _ _.
Qed.

Lemma resolves_below h k p r : is_edir (tree_of h (p ++ r)) -> resolves (tree_of h) k p r (Found (p ++ r)).
Proof.
  induction r as [|n r IH] using rev_ind; intros X; [rewrite app_nil_r; constructor|].
  assert (Y : is_edir (tree_of h (p ++ r))).
  { apply (tree_parent h (p ++ r) n). rewrite <- app_assoc. destruct X as (? & ? & ->). discriminate. }
  eapply rs_app; [now apply IH|]. rewrite app_assoc. apply rs_step; auto; [right; now rewrite <- app_assoc|constructor].
Qed.
Lemma s1_below y : y <> [] -> view s1 (P ++ y) = None.
Proof.
  intros N. destruct A1 as [_ X]. rewrite X; [rewrite P_region; apply region_empty|].
  intros b1 b2 E _ E2. rewrite E, <- !app_assoc in E2. apply app_inv_head in E2.
  rewrite <- (app_nil_r b1) in E2 at 2. apply app_inv_head in E2. apply app_eq_nil in E2. tauto.
Qed.

Section K.
Variables (D : list str -> Prop) (s' : mst).
Hypothesis k : K D s'.
Let W' := k_wf D s' k.
Lemma k_out x : (forall z, x <> N0 ++ z) -> view s' x = t x.
Proof.
  intros Hx. rewrite (k_else D s' k). 2:{ intros y _. rewrite P_region. apply Hx. }
  apply A1. intros b1 b2 E N ->. destruct b1 as [|m b1]; [easy|]. injection E as <- _.
  apply (Hx b1). rewrite <- app_assoc. reflexivity.
Qed.
Lemma k_grows : grows t (view s').
Proof. apply agree_grows with (N0 := N0); [apply region_empty|apply k_out]. Qed.
Lemma k_silent : silent s'. Proof. eapply silent_rest; eauto. apply (k_rest D s' k). Qed.
Lemma k_now : m_now s' = now. Proof. apply (k_rest D s' k). Qed.
Lemma k_leads c x : leads t c (Found x) -> leads (view s') c (Found x).
Proof. apply leads_grows, k_grows. Qed.
Lemma k_here x : t x <> None -> view s' x = t x.
Proof. intros Hx. apply k_out. intros z. now apply here_outside. Qed.
Lemma k_dir x : is_edir (t x) -> is_edir (view s' x).
Proof. intros X. rewrite k_here; auto. destruct X as (? & ? & ->). discriminate. Qed.
Lemma k_grows1 : grows (view s1) (view s').
Proof.
  intros p e E. exists e. split; [|apply same_kind_refl]. rewrite (k_else D s' k); auto.
  intros y N ->. rewrite s1_below in E by auto. discriminate.
Qed.
Lemma k_top : leads (view s') cd (Found P) /\ is_edir (view s' P).
Proof.
  destruct Gp as (a & Ea & La & Da & _).
  assert (G1 : grows t (view s1)).
  { eapply dirs_added_grows; [|exact A1]. eapply gap_none. exact Gp. }
  destruct (added_leads _ _ a d b now La Da G1 A1 b []) as [L1 D1]; [now rewrite app_nil_r|].
  rewrite <- Ea in L1. split; [eapply leads_grows; [apply k_grows1|exact L1]|]. eapply kind_dir; [|exact D1]. intros e He. now apply k_grows1.
Qed.
Lemma k_dest r q : visits r q -> (r = [] \/ D r) -> leads (view s') (cd ++ r) (Found (P ++ r)) /\ is_edir (view s' (P ++ r)).
Proof.
  intros V Hr. destruct k_top as [Lt Dt].
  assert (X : is_edir (view s' (P ++ r))).
  { destruct Hr as [->|Hr]; [now rewrite app_nil_r|]. destruct V as [q L Dq|r q n q' V N Ni L Dq F]; [now rewrite app_nil_r|].
    do 2 eexists. apply (k_new D s' k); [now destruct r|]. split; auto. eapply cp_dir; eauto. now exists q'. }
  split; auto. eapply rs_app; eauto. now apply resolves_below.
Qed.

Lemma src_entry r q n : visits r q -> view s' (q ++ [n]) = t (q ++ [n]).
Proof.
  intros V. apply k_out. intros z E. destruct (snoc_cases z) as [->|(z' & m & ->)].
  - rewrite app_nil_r in E. apply snoc_inj in E as [-> _]. now apply (Hd r d).
  - rewrite app_assoc in E. apply snoc_inj in E as [-> _].
    destruct (visits_leads s cs follow ignore G0 H0 r _ V) as (_ & _ & (? & ? & X)). rewrite region_empty in X. discriminate.
Qed.
Lemma src_at r q : visits r q -> good_path (cs ++ r) /\ leads (view s') (cs ++ r) (Found q) /\ is_edir (view s' q).
Proof.
  intros V. destruct (visits_leads s cs follow ignore G0 H0 r q V) as (G & L & Dq). auto using k_leads, k_dir.
Qed.
Lemma src_kids r q : visits r q -> mem_listdir (mem_uri (cs ++ r)) s' = (Ok (kids_of s cs r), s') /\
  sort_strs (kids_of s cs r) = kids_of s cs r.
Proof.
  intros V. destruct (src_at r q V) as (G & L & Dq). destruct (run_listing s' (cs ++ r) q W' G L Dq) as (l & El & Sl & SS & Il).
  destruct (visits_kids s W cs follow ignore G0 H0 r q V) as (_ & SK & IK).
  assert (X : l = kids_of s cs r). { apply sorted_ext; auto. intros x. rewrite Il, IK. now rewrite (src_entry r q). }
  rewrite <- X. auto.
Qed.
Lemma src_isd r q n : visits r q -> t (q ++ [n]) <> None ->
  mem_isdir (mem_uri ((cs ++ r) ++ [n])) s' = (Ok (isd_of s cs (r ++ [n])), s').
Proof.
  intros V N. destruct (H r q n V N) as (G & F & o & Ho & A & _).
  assert (Lo : leads t ((cs ++ r) ++ [n]) o) by (apply Ho; auto).
  assert (Lo' : leads (view s') ((cs ++ r) ++ [n]) o) by (apply Ho, k_out).
  unfold isd_of. rewrite app_assoc. destruct o as [x| | | | |]; try (exfalso; apply A; cbn; tauto).
  - destruct (edir_dec (t x)) as [Dx|Dx].
    + rewrite (isdir_found s W _ x), (isdir_found s' W' _ x); auto. now apply k_dir.
    + rewrite (isdir_file s W _ x), (isdir_file s' W' _ x); auto. rewrite k_here; auto.
      destruct (leads_real (m_heap s) (m_next s) W _ _ Lo) as [(? & ? & ? & X)|(? & ? & X)]; change (tree_of (m_heap s) x) with (t x) in X; rewrite X; discriminate.
  - rewrite (isdir_none s W _ Missing), (isdir_none s' W' _ Missing); auto.
  - rewrite (isdir_none s W _ Loop), (isdir_none s' W' _ Loop); auto.
Qed.
Lemma src_fresh r q n : visits r q -> t (q ++ [n]) <> None -> fresh_last (view s') (cs ++ r) n.
Proof.
  intros V N. destruct (H r q n V N) as (G & F & _). eapply fresh_grows; eauto using k_grows.
  now apply (visits_leads s cs follow ignore G0 H0 r q V).
Qed.
Lemma src_isl0 r q n : visits r q -> t (q ++ [n]) <> None ->
  mem_islink (mem_uri ((cs ++ r) ++ [n])) s' = (Ok (isl_of s cs (r ++ [n])), s') /\ isl_of s cs (r ++ [n]) = entry_is_link (t (q ++ [n])).
Proof.
  intros V N. destruct (H r q n V N) as (G & _). destruct (src_at r q V) as (_ & L & Dq).
  destruct (visits_isl s W Q cs follow ignore G0 H0 r q n V N) as [_ E]. split; auto. rewrite E.
  rewrite (run_islink s' W' (cs ++ r) n G (src_fresh r q n V N) q L Dq). now rewrite (src_entry r q).
Qed.
Lemma src_isl r q n : visits r q -> t (q ++ [n]) <> None ->
  u_islink B (mem_uri ((cs ++ r) ++ [n])) s' = (Ok (isl_of s cs (r ++ [n])), s').
Proof.
  intros V N. unfold u_islink. rewrite run_hooked by (apply k_silent || now apply (H r q)). now apply (src_isl0 r q).
Qed.
End K.

(** ** Single entries *)
Lemma K_ext D D' s' : (forall y, D y <-> D' y) -> K D s' -> K D' s'.
Proof. intros E [k1 k2 k3 k4]. constructor; auto. intros y e N. rewrite <- E. auto. Qed.
Lemma K_put D s' s'' y e : K D s' -> wf s'' -> same_rest s' s'' -> put_at (view s') (view s'') (P ++ y) e -> y <> [] ->
  copied y e -> K (fun z => D z \/ z = y) s''.
Proof.
  intros [k1 k2 k3 k4] W'' R'' [P1 P2] Ny C. constructor; auto.
  - eapply same_rest_trans; eauto.
  - intros x Hx. rewrite P2 by (apply Hx; auto). auto.
  - intros z e' Nz. destruct (list_eq_dec (list_eq_dec N.eq_dec) z y) as [->|Nzy].
    + rewrite P1. split; [intros X; injection X as <-; auto|]. intros [_ C']. f_equal. eapply copied_det; eauto.
    + rewrite P2 by (intros X; now apply app_inv_head in X). rewrite k4 by auto. tauto.
Qed.
Lemma K_skip D s' y : K D s' -> (forall e, ~ copied y e) -> K (fun z => D z \/ z = y) s'.
Proof.
  intros [k1 k2 k3 k4] C. constructor; auto. intros z e Nz. rewrite k4 by auto. split; [tauto|].
  intros [[Dz| ->] Cz]; [tauto|]. now destruct (C e).
Qed.
Lemma good_dest r q : visits r q -> good_path (cd ++ r) /\ forall n, t (q ++ [n]) <> None -> good_path ((cd ++ r) ++ [n]).
Proof.
  intros V.
  assert (Nn : cd <> []). { destruct Gp as (a & -> & _). now destruct a. }
  assert (X : forall y, Forall name_ok y -> good_path (cd ++ y)).
  { intros y Hy. destruct Gcd as [g1 g2]. split; [apply Forall_app; auto|]. destruct cd as [|c c']; [easy|].
    intros c0 c1 E. injection E as <- <-. now apply (g2 c c'). }
  split.
  - apply X. destruct (visits_leads s cs follow ignore G0 H0 r q V) as ([g _] & _). now apply Forall_app in g as [_ g].
  - intros n N. destruct (H r q n V N) as ([g _] & _). rewrite <- app_assoc in *. apply X. now apply Forall_app in g as [_ g].
Qed.
Lemma new_none D s' y : K D s' -> y <> [] -> ~ D y -> view s' (P ++ y) = None.
Proof.
  intros k Ny N. destruct (view s' (P ++ y)) as [e|] eqn:E; auto. exfalso. apply (k_new D s' k) in E; tauto.
Qed.
Lemma not_link r q n : isl_of s cs (r ++ [n]) && negb follow = false -> isl_of s cs (r ++ [n]) = entry_is_link (t (q ++ [n])) ->
  follow = true \/ ~ is_elink (t (q ++ [n])).
Proof.
  intros E El. rewrite El in E. destruct follow; [now left|right]. intros (? & ? & ? & X). rewrite X in E. discriminate.
Qed.
Lemma a_link r q n : isl_of s cs (r ++ [n]) && negb follow = true -> isl_of s cs (r ++ [n]) = entry_is_link (t (q ++ [n])) ->
  follow = false /\ exists tg mt mo, t (q ++ [n]) = Some (ELink tg mt mo).
Proof.
  intros E El. rewrite El in E. apply andb_true_iff in E as [E1 E2]. destruct follow; [discriminate|]. split; auto.
  destruct (t (q ++ [n])) as [[| |]|]; try discriminate. eauto.
Qed.

Section Item.
Variables (D : list str -> Prop) (s' : mst) (r q : list str) (n : str).
Hypothesis k : K D s'.
Hypothesis V : visits r q.
Hypothesis N : t (q ++ [n]) <> None.
Hypothesis Dr : r = [] \/ D r.
Hypothesis Dn : ~ D (r ++ [n]).
Local Notation D' := (fun z => D z \/ z = r ++ [n]).
Local Notation l := (isl_of s cs (r ++ [n])).

Lemma ne_snoc : r ++ [n] <> []. Proof. now destruct r. Qed.
Lemma item_link : l && negb follow = true -> (to_dir t ((cs ++ r) ++ [n]) -> ~ In n ignore) ->
  exists s'', copy_link B (mem_uri ((cs ++ r) ++ [n])) (mem_uri ((cd ++ r) ++ [n])) s' = (Ok tt, s'') /\ K D' s''.
Proof.
  intros El Ni. destruct (src_isl0 D s' k r q n V N) as [_ El']. destruct (a_link r q n El El') as (Ef & tg & mt & mo & E).
  destruct (src_at D s' k r q V) as (_ & Lq & Dq). destruct (H r q n V N) as (Gs & _).
  destruct (good_dest r q V) as [_ Gd]. destruct (k_dest D s' k r q V Dr) as [Ld Dd].
  destruct (copy_link_free s' (k_wf D s' k) (k_silent D s' k) (cs ++ r) n q tg mt mo Gs (src_fresh D s' k r q n V N) Lq Dq)
    with (ei := cd ++ r) (m := n) (e := P ++ r) as (s'' & R & W'' & R'' & Pt); auto.
  - rewrite (src_entry D s' k r q n V). exact E.
  - rewrite <- app_assoc. apply (new_none D); auto using ne_snoc.
  - exists s''. split; [exact R|]. rewrite <- app_assoc in Pt. rewrite (k_now D s' k) in Pt.
    eapply K_put; eauto using ne_snoc. eapply cp_link; eauto.
Qed.
Lemma item_dir : l && negb follow = false -> isd_of s cs (r ++ [n]) = true -> ~ In n ignore ->
  exists s'', u_makedirs B fuel (mem_uri ((cd ++ r) ++ [n])) s' = (Ok tt, s'') /\ K D' s''.
Proof.
  intros El Ed Ni. destruct (src_isl0 D s' k r q n V N) as [_ El']. pose proof (not_link r q n El El') as F.
  destruct (good_dest r q V) as [_ Gd]. destruct (k_dest D s' k r q V Dr) as [Ld Dd].
  destruct (makedirs_ok s' ((cd ++ r) ++ [n]) (P ++ r) [n] (k_wf D s' k) (k_silent D s' k) (Gd n N)) with (fuel := fuel)
    as (s'' & R & [Pt1 Pt2] & W'' & R'' & _).
  - exists (cd ++ r). split; auto. split; auto. split; auto. intros x b0 E. injection E as <- _. rewrite <- app_assoc.
    apply (new_none D); auto using ne_snoc.
  - cbn in Hf2 |- *. lia.
  - exists s''. split; [exact R|]. eapply K_put with (e := EDir now 0); eauto using ne_snoc.
    + split.
      * rewrite app_assoc. rewrite <- (k_now D s' k). apply (Pt1 [n] []); auto. discriminate.
      * intros x Hx. apply Pt2. intros b1 b2 E Nb ->. apply Hx. destruct b1 as [|a b1]; [easy|]. injection E as <- E.
        symmetry in E. apply app_eq_nil in E as [-> _]. now rewrite <- app_assoc.
    + eapply cp_dir; eauto. apply (visits_isd s W cs follow ignore H0 r q n V N). exact Ed.
Qed.
Lemma item_file : isd_of s cs (r ++ [n]) = false ->
  exists s'', copy_entry B follow true (mem_uri ((cs ++ r) ++ [n])) (mem_uri ((cd ++ r) ++ [n])) s' = (Ok tt, s'') /\ K D' s''.
Proof.
  intros Ed. destruct (src_isl0 D s' k r q n V N) as [Rl El'].
  assert (Nd : ~ to_dir t ((cs ++ r) ++ [n])).
  { intros X. apply (visits_isd s W cs follow ignore H0 r q n V N) in X. congruence. }
  destruct (l && negb follow) eqn:El.
  - unfold copy_entry. erewrite bind_ok by (now apply (src_isl D s' k r q n)). rewrite El. apply item_link; auto.
  - pose proof (not_link r q n El El') as F. destruct (H r q n V N) as (Gs & _ & o & Ho & A & Hx).
    assert (Lo : leads t ((cs ++ r) ++ [n]) o) by (apply Ho; auto).
    assert (X : exists x data mt mo, leads t ((cs ++ r) ++ [n]) (Found x) /\ t x = Some (EFile data mt mo)).
    { assert (Y : exists x, o = Found x).
      { destruct F as [F|F]; auto. destruct (visits_leads s cs follow ignore G0 H0 r q V) as (_ & L & Dq).
        assert (Ls : leads t ((cs ++ r) ++ [n]) (Found (q ++ [n]))).
        { eapply rs_app; eauto. apply rs_step; auto; [|constructor].
          destruct (entry_cases (t (q ++ [n]))) as [Y|[Y|[Y|Y]]]; auto; contradiction. }
        exists (q ++ [n]). exact (leads_det (m_heap s) (m_next s) W _ _ _ Lo Ls). }
      destruct Y as [x ->]. destruct (leads_real (m_heap s) (m_next s) W _ _ Lo) as [(data & mt & mo & Y)|Y].
      - exists x, data, mt, mo. auto.
      - exfalso. apply Nd. exists x. auto. }
    destruct X as (x & data & mt & mo & Lx & Ex).
    assert (Nx : t x <> None) by congruence.
    destruct (good_dest r q V) as [_ Gd]. destruct (k_dest D s' k r q V Dr) as [Ld Dd].
    assert (Nn : view s' ((P ++ r) ++ [n]) = None) by (rewrite <- app_assoc; apply (new_none D); auto using ne_snoc).
    assert (De : denotes (view s') (mem_uri ((cs ++ r) ++ [n])) (Found x)).
    { exists ((cs ++ r) ++ [n]). split; [now apply mem_addr|]. now apply (k_leads D s' k). }
    assert (Ee : view s' x = Some (EFile data mt mo)) by now rewrite (k_here D s' k).
    assert (Wr : writable (view s') (mem_uri ((cd ++ r) ++ [n])) ((P ++ r) ++ [n])).
    { apply wr_free. eapply pl_free; eauto using mem_addr. }
    assert (Ne : (P ++ r) ++ [n] <> x) by (intros Y; rewrite Y, Ee in Nn; discriminate).
    destruct (copy_entry_file s' (k_wf D s' k) (k_silent D s' k) (mem_uri ((cs ++ r) ++ [n])) (mem_uri ((cd ++ r) ++ [n]))
      ((cs ++ r) ++ [n]) ((cd ++ r) ++ [n]) x ((P ++ r) ++ [n]) data mt mo follow l (mem_addr _ Gs) (mem_addr _ (Gd n N)) De Ee Wr Ne Rl El)
      as (s'' & R & W'' & R'' & Pt).
    exists s''. split; [exact R|]. rewrite <- app_assoc in Pt. eapply K_put; eauto using ne_snoc. eapply cp_file; eauto.
Qed.
End Item.

(** ** One directory *)
Definition under (r names y : list str) : Prop := exists n, In n names /\ y = r ++ [n].
Lemma kids_entry r q n : visits r q -> In n (kids_of s cs r) -> t (q ++ [n]) <> None.
Proof. intros V Hn. now apply (visits_kids s W cs follow ignore G0 H0 r q V) in Hn. Qed.
Lemma ignored_none r q n e : visits r q -> isd_of s cs (r ++ [n]) = true -> In n ignore -> ~ copied (r ++ [n]) e.
Proof.
  intros V Ed Hi C. assert (Dv := visits_det s W cs follow ignore G0 H0).
  inversion C as [r' q' n' V' N' Ni' F' T' E1|r' q' n' x' data' mt' mo' V' N' F' Lx' Ex' E1|r' q' n' tg' mt' mo' F' V' E' Ni' E1];
  apply snoc_inj in E1 as [-> ->]; pose proof (Dv _ _ _ V V') as ->.
  - contradiction.
  - apply (visits_isd s W cs follow ignore H0 r q' n V' N') in Ed as (x & Lx & Dx).
    pose proof (leads_det (m_heap s) (m_next s) W _ _ _ Lx Lx') as X. injection X as ->.
    rewrite Ex' in Dx. destruct Dx as (? & ? & Dx). discriminate.
  - apply Ni'; auto. apply (visits_isd s W cs follow ignore H0 r q' n V'); auto. congruence.
Qed.

Definition dir_step (r : list str) (ds : list str) (folder : str) : M mst (list str) :=
  if str_in folder ignore then ret (remove_first folder ds)
  else
    let! ddir <- lift (u_div (mem_uri (cd ++ r)) folder);
    let! srcp <- lift (u_div (mem_uri (cs ++ r)) folder);
    let! l <- u_islink B srcp;
    (if l && negb follow then copy_link B srcp ddir else u_makedirs B fuel ddir) ;;
    ret ds.
Definition file_step (r : list str) (fname : str) : M mst unit :=
  let! srcf <- lift (u_div (mem_uri (cs ++ r)) fname);
  let! destf <- lift (u_div (mem_uri (cd ++ r)) fname);
  copy_entry B follow true srcf destf.

Lemma dir_step_ok D s' r q n acc : K D s' -> visits r q -> t (q ++ [n]) <> None -> (r = [] \/ D r) -> ~ D (r ++ [n]) ->
  isd_of s cs (r ++ [n]) = true ->
  exists s'', dir_step r acc n s' = (Ok (if str_in n ignore then remove_first n acc else acc), s'') /\
    K (fun z => D z \/ z = r ++ [n]) s''.
Proof.
  intros k V N Dr Dn Ed. unfold dir_step. destruct (str_in n ignore) eqn:Ei.
  - exists s'. split; [reflexivity|]. apply K_skip; auto. intros e. apply (ignored_none r q); auto. now apply str_in_In.
  - assert (Ni : ~ In n ignore) by (rewrite <- (str_in_In n ignore); congruence).
    destruct (good_dest r q V) as [_ Gd]. destruct (H r q n V N) as (Gs & _).
    erewrite bind_ok by (apply lift_ok, mem_div, (Gd n N)). erewrite bind_ok by (apply lift_ok, mem_div, Gs).
    erewrite bind_ok by (apply (src_isl D s' k r q n V N)).
    destruct (isl_of s cs (r ++ [n]) && negb follow) eqn:El.
    + destruct (item_link D s' r q n k V N Dr Dn El) as (s'' & R & k''); auto. exists s''. split; auto.
      erewrite bind_ok by exact R. reflexivity.
    + destruct (item_dir D s' r q n k V N Dr Dn El Ed Ni) as (s'' & R & k''); auto. exists s''. split; auto.
      erewrite bind_ok by exact R. reflexivity.
Qed.
Lemma dirs_loop r q : visits r q -> forall l D s' acc, K D s' -> (r = [] \/ D r) -> NoDup l ->
  (forall n, In n l -> t (q ++ [n]) <> None /\ isd_of s cs (r ++ [n]) = true /\ ~ D (r ++ [n])) ->
  exists s'', foldM (dir_step r) acc l s'
    = (Ok (fold_left (fun a n => if str_in n ignore then remove_first n a else a) l acc), s'') /\ K (fun y => D y \/ under r l y) s''.
Proof.
  intros V. induction l as [|n l IH]; intros D s' acc k Dr Nd Hl.
  - exists s'. split; [reflexivity|]. eapply K_ext; [|exact k]. intros y. split; [auto|]. intros [Y|(n & [] & _)]. auto.
  - rewrite foldM_cons. inversion Nd as [|? ? Nn Nd']; subst. destruct (Hl n (or_introl eq_refl)) as (N & Ed & Dn).
    destruct (dir_step_ok D s' r q n acc k V N Dr Dn Ed) as (s2 & R2 & k2). erewrite bind_ok by exact R2.
    destruct (IH _ s2 (if str_in n ignore then remove_first n acc else acc) k2) as (s3 & R3 & k3); auto.
    + tauto.
    + intros m Hm. destruct (Hl m (or_intror Hm)) as (N' & Ed' & Dn'). split; auto. split; auto.
      intros [X|X]; [auto|]. apply snoc_inj in X as [_ ->]. contradiction.
    + exists s3. split; [exact R3|]. eapply K_ext; [|exact k3]. intros y. unfold under. cbn. split.
      * intros [[Y| ->]|(m & Hm & ->)]; eauto 6.
      * intros [Y|(m & [<-|Hm] & ->)]; eauto 6.
Qed.
Lemma files_loop r q : visits r q -> forall l D s', K D s' -> (r = [] \/ D r) -> NoDup l ->
  (forall n, In n l -> t (q ++ [n]) <> None /\ isd_of s cs (r ++ [n]) = false /\ ~ D (r ++ [n])) ->
  exists s'', mapM_ (file_step r) l s' = (Ok tt, s'') /\ K (fun y => D y \/ under r l y) s''.
Proof.
  intros V. induction l as [|n l IH]; intros D s' k Dr Nd Hl.
  - exists s'. split; [reflexivity|]. eapply K_ext; [|exact k]. intros y. split; [auto|]. intros [Y|(n & [] & _)]. auto.
  - cbn [mapM_]. inversion Nd as [|? ? Nn Nd']; subst. destruct (Hl n (or_introl eq_refl)) as (N & Ed & Dn).
    destruct (item_file D s' r q n k V N Dr Dn Ed) as (s2 & R2 & k2).
    destruct (good_dest r q V) as [_ Gd]. destruct (H r q n V N) as (Gs & _).
    erewrite bind_ok.
    2:{ unfold file_step. erewrite bind_ok by (apply lift_ok, mem_div, Gs). erewrite bind_ok by (apply lift_ok, mem_div, (Gd n N)). exact R2. }
    destruct (IH _ s2 k2) as (s3 & R3 & k3); auto.
    + tauto.
    + intros m Hm. destruct (Hl m (or_intror Hm)) as (N' & Ed' & Dn'). split; auto. split; auto.
      intros [X|X]; [auto|]. apply snoc_inj in X as [_ ->]. contradiction.
    + exists s3. split; [exact R3|]. eapply K_ext; [|exact k3]. intros y. unfold under. cbn. split.
      * intros [[Y| ->]|(m & Hm & ->)]; eauto 6.
      * intros [Y|(m & [<-|Hm] & ->)]; eauto 6.
Qed.
Lemma left_over (l : list str) : fold_left (fun a n => if str_in n ignore then remove_first n a else a) l l
  = filter (fun n => negb (str_in n ignore)) l.
Proof.
  assert (X : forall l pre, (forall n, In n pre -> str_in n ignore = false) ->
    fold_left (fun a n => if str_in n ignore then remove_first n a else a) l (pre ++ l) = pre ++ filter (fun n => negb (str_in n ignore)) l).
  { induction l0 as [|n l0 IH]; intros pre Hp; [reflexivity|]. cbn [fold_left filter]. destruct (str_in n ignore) eqn:Ei; cbn [negb].
    - rewrite <- IH by auto. f_equal. clear IH. induction pre as [|m pre IHp]; cbn.
      + now rewrite (proj2 (str_eqb_eq n n) eq_refl).
      + destruct (str_eqb n m) eqn:E; [|f_equal; apply IHp; intros x Hx; apply Hp; now right].
        apply str_eqb_eq in E as ->. rewrite Hp in Ei by now left. discriminate.
    - specialize (IH (pre ++ [n])). rewrite <- !app_assoc in IH. cbn [app] in IH. apply IH.
      intros m Hm. apply in_app_iff in Hm as [Hm|[<-|[]]]; auto. }
  apply (X l []). intros n [].
Qed.

Lemma step_ok D s' r q : K D s' -> visits r q -> (r = [] \/ D r) -> (forall n, ~ D (r ++ [n])) ->
  exists s'', copy_step B fuel ignore follow true (length (u_path (mem_uri cs)) + 1) (mem_uri cd) (mem_uri (cs ++ r)) (dirs_of s cs r) (files_of s cs r) s'
     = (Ok (keep_of s cs ignore r), s'') /\ K (fun y => D y \/ exists n, y = r ++ [n]) s''.
Proof.
  intros k V Dr Dn. destruct (src_at D s' k r q V) as (Gs & _). unfold copy_step.
  rewrite !good_path_path by auto. rewrite skip_source by auto.
  assert (Nr : Forall name_ok r) by (destruct Gs as [g _]; now apply Forall_app in g as [_ g]).
  rewrite joined_strip by eauto.
  assert (Eb : (match joined r with [] => ret (mem_uri cd) | _ :: _ => lift (u_div (mem_uri cd) (joined r)) end) s' = (Ok (mem_uri (cd ++ r)), s')).
  { destruct (list_eq_dec (list_eq_dec N.eq_dec) r []) as [->|Nn]; [now rewrite app_nil_r|].
    pose proof (joined_ne r Nr Nn) as Nj. destruct (joined r) eqn:Ej; [easy|]. rewrite <- Ej. apply lift_ok, mem_div_path; auto.
    now apply (good_dest r q). }
  erewrite bind_ok by exact Eb. fold (dir_step r). fold (file_step r).
  destruct (visits_kids s W cs follow ignore G0 H0 r q V) as (_ & SK & IK).
  pose proof (slt_NoDup _ SK) as NK.
  destruct (dirs_loop r q V (dirs_of s cs r) D s' (dirs_of s cs r) k Dr) as (s2 & R2 & k2).
  { now apply NoDup_filter. }
  { intros n Hn. apply filter_In in Hn as [Hn Ed]. apply IK in Hn. auto. }
  erewrite bind_ok by exact R2. rewrite left_over.
  destruct (files_loop r q V (files_of s cs r) _ s2 k2) as (s3 & R3 & k3).
  { tauto. }
  { now apply NoDup_filter. }
  { intros n Hn. apply filter_In in Hn as [Hn Ed]. apply IK in Hn. apply negb_true_iff in Ed. split; auto. split; auto.
    intros [X|(m & Hm & X)]; [now apply (Dn n)|]. apply snoc_inj in X as [_ <-]. apply filter_In in Hm as [_ Hm]. congruence. }
  erewrite bind_ok by exact R3. exists s3. split; [reflexivity|].
  destruct k3 as [a1 a2 a3 a4]. constructor; auto. intros y e Ny. rewrite a4 by auto. split.
  - intros [[[X|(n & _ & X)]|(n & _ & X)] C]; eauto.
  - intros [[X|(n & ->)] C]; [auto|]. split; auto.
    assert (X : t (q ++ [n]) <> None).
    { assert (Dv := visits_det s W cs follow ignore G0 H0).
      inversion C as [r' q' n' V' N' Ni' F' T' E1|r' q' n' x' data' mt' mo' V' N' F' Lx' Ex' E1|r' q' n' tg' mt' mo' F' V' E' Ni' E1];
      apply snoc_inj in E1 as [-> ->]; pose proof (Dv _ _ _ V V') as ->; congruence. }
    apply IK in X. destruct (isd_of s cs (r ++ [n])) eqn:Ed.
    + left. right. exists n. split; auto. apply filter_In. auto.
    + right. exists n. split; auto. apply filter_In. now rewrite Ed.
Qed.

(** ** The whole walk *)
Local Notation rs := (roots follow (isl_of s cs) (keep_of s cs ignore) true fuel []).
Local Notation vis := (vis s cs follow ignore).
Definition done (L : list (list str)) (y : list str) : Prop := exists r n, In r L /\ y = r ++ [n].
Local Notation J := (fun L => K (done L)).
Local Notation body := (fun (_ : unit) root dirs files =>
  let! ds <- copy_step B fuel ignore follow true (length (u_path (mem_uri cs)) + 1) (mem_uri cd) root dirs files; ret (tt, ds)).

Lemma vis_top : vis []. Proof. exists q0. now constructor. Qed.
Lemma rs_sorted : StronglySorted (visit_before true) rs.
Proof.
  apply (roots_sorted follow (isl_of s cs) (keep_of s cs ignore) vis); [|apply (enter_vis s W Q cs follow ignore G0 H0)|apply vis_top].
  intros r [q V]. apply ss_filter, ss_filter. now apply (listed_of s W cs follow ignore G0 H0 r q).
Qed.
Lemma rs_in r : In r rs <-> vis r.
Proof.
  rewrite roots_in. cbn [app]. split.
  - intros (y & -> & Hy & _). now apply (steps_vis s W Q cs follow ignore q0 G0 L0 D0 H0) in Hy.
  - intros [q V]. exists r. split; auto. split; [|eauto].
    apply (steps_vis s W Q cs follow ignore q0 G0 L0 D0 H0). now exists q.
Qed.
Lemma sorted_split L r R : rs = L ++ r :: R -> ~ In r L /\ forall x, In x R -> visit_before true r x.
Proof.
  intros E. pose proof rs_sorted as S. rewrite E in S. clear E. induction L as [|a L IH]; cbn in S.
  - split; [easy|]. inversion S; subst. now apply Forall_forall.
  - inversion S as [|? ? S' F]; subst. destruct (IH S') as [X Y]. split; auto. intros [->|Z]; auto.
    rewrite Forall_forall in F. apply (visit_before_irrefl true r), F. apply in_app_iff. right. now left.
Qed.
Lemma parent_done L r R : rs = L ++ r :: R -> r = [] \/ done L r.
Proof.
  intros E. destruct (snoc_cases r) as [->|(r' & n & Er)]; auto. right. exists r', n. split; auto.
  assert (Vr : vis r) by (apply rs_in; rewrite E; apply in_app_iff; right; now left).
  assert (V : vis r').
  { destruct Vr as [q V]. rewrite Er in V. remember (r' ++ [n]) as x. destruct V as [? ?|r0 q' n' ? V]; [now destruct r'|].
    apply snoc_inj in Heqx as [-> _]. now exists q'. }
  apply rs_in in V. rewrite E in V. apply in_app_iff in V as [V|[V|V]]; auto; exfalso.
  - rewrite <- V in Er. apply (f_equal (@length _)) in Er. rewrite app_length in Er. cbn in Er. lia.
  - apply (sorted_split L r R E) in V as [(a & z & X)|(c & x & y & x' & y' & E1 & E2 & Lt)].
    + rewrite Er in X. apply (f_equal (@length _)) in X. rewrite !app_length in X. cbn in X. lia.
    + rewrite Er, E2, <- app_assoc in E1. apply app_inv_head in E1. cbn in E1. injection E1 as -> _. unfold slt in Lt.
      now rewrite str_ltb_irrefl in Lt.
Qed.
Lemma body_ok L r R s' u : rs = L ++ r :: R -> J L s' -> vis r ->
  exists s'', body u (mem_uri (cs ++ r)) (dirs_of s cs r) (files_of s cs r) s' = (Ok (tt, keep_of s cs ignore r), s'') /\ J (L ++ [r]) s''.
Proof.
  intros E k [q V]. destruct (sorted_split L r R E) as [Nr _].
  destruct (step_ok (done L) s' r q k V (parent_done L r R E)) as (s'' & R'' & k'').
  - intros n (r' & n' & Hr & X). apply snoc_inj in X as [-> _]. contradiction.
  - exists s''. split; [erewrite bind_ok by exact R''; reflexivity|]. eapply K_ext; [|exact k'']. intros y. unfold done. split.
    + intros [(r' & n & Hr & ->)|(n & ->)]; do 2 eexists; (split; [|reflexivity]); apply in_app_iff; cbn; auto.
    + intros (r' & n & Hr & ->). apply in_app_iff in Hr as [Hr|[<-|[]]]; eauto.
Qed.
Lemma walk_ok : exists s', walk_gen B fuel true follow body tt (mem_uri cs) s1 = (Ok tt, s') /\ K (fun _ => True) s'.
Proof.
  assert (k0 : J [] s1).
  { constructor; auto. intros y e Ny. rewrite s1_below by auto. split; [discriminate|]. intros [(? & ? & [] & _) _]. }
  assert (Loop : forall R L s', rs = L ++ R -> J L s' ->
    exists s'', foldM (step cs (kids_of s cs) (isd_of s cs) body) tt R s' = (Ok tt, s'') /\ J (L ++ R) s'').
  { induction R as [|r R IH]; intros L s' E k; [exists s'; split; [reflexivity|now rewrite app_nil_r]|].
    rewrite foldM_cons. assert (V : vis r) by (apply rs_in; rewrite E; apply in_app_iff; right; now left).
    destruct (body_ok L r R s' tt E k V) as (s2 & R2 & k2).
    erewrite bind_ok. 2:{ unfold step. erewrite bind_ok by exact R2. reflexivity. }
    cbn [fst]. destruct (IH (L ++ [r]) s2) as (s3 & R3 & k3); [now rewrite <- app_assoc|auto|].
    exists s3. split; [exact R3|]. rewrite <- app_assoc in k3. exact k3. }
  destruct (Loop rs [] s1 eq_refl k0) as (s' & R' & k').
  exists s'. split.
  - rewrite <- R'. rewrite <- (app_nil_r cs) at 1.
    apply (fuse J cs follow vis (kids_of s cs) (isd_of s cs) (isl_of s cs) (keep_of s cs ignore)) with (rs := rs) (L := []) (R := []).
    + intros L s2 r k [q V]. now apply (src_kids (done L) s2 k r q).
    + intros r n [q V] Hn. apply (H r q n V). now apply (kids_entry r q).
    + intros L s2 r n k [q V] Hn. apply (src_isd (done L) s2 k r q n V). now apply (kids_entry r q).
    + intros L s2 r n k [q V] Hn. apply (src_isl (done L) s2 k r q n V). now apply (kids_entry r q).
    + apply (enter_vis s W Q cs follow ignore G0 H0).
    + intros r n V Hn. apply keep_in in Hn as [Hn _]. now apply filter_In in Hn.
    + intros L r R s2 u E k V. destruct (body_ok L r R s2 u E k V) as (s3 & R3 & k3). unfold dirs_of, files_of in R3. rewrite R3. auto.
    + discriminate.
    + cbn [app]. now rewrite app_nil_r.
    + exact k0.
    + apply vis_top.
    + apply (fits_top s W Q cs follow ignore q0 G0 L0 D0 H0 fuel Hf).
  - cbn [app] in k'. destruct k' as [a1 a2 a3 a4]. constructor; auto. intros y e Ny. rewrite a4 by auto. split; [tauto|].
    intros [_ C]. split; auto.
    inversion C as [r' q' n' V' N' Ni' F' T' E1|r' q' n' x' data' mt' mo' V' N' F' Lx' Ex' E1|r' q' n' tg' mt' mo' F' V' E' Ni' E1];
      exists r', n'; (split; [apply rs_in; now exists q'|auto]).
Qed.
End S.

(** ** Recursive copy to a place that does not exist *)
Theorem copy_tree s init n ct cd d b follow ignore q0 fuel :
  let cs := init ++ [n] in let t := view s in
  wf s -> silent s -> good_path cs -> leads t cs (Found q0) -> is_edir (t q0) ->
  (follow = true \/ mem_islink (mem_uri cs) s = (Ok false, s)) -> (exists l, mem_islink (mem_uri cs) s = (Ok l, s)) ->
  good_path ct -> good_path cd -> copy_dest t n ct cd -> gap t cd d b -> b <> [] ->
  (forall r q m, visits t follow ignore cs r q -> t (q ++ [m]) <> None ->
     good_path ((cs ++ r) ++ [m]) /\ fresh_last t (cs ++ r) m /\
     exists o, settled t (d ++ firstn 1 b) ((cs ++ r) ++ [m]) o /\ answers o /\ (follow = true -> exists x, o = Found x)) ->
  (forall r q, visits t follow ignore cs r q -> q <> d /\ Forall unpadded r /\ (length r < fuel)%nat) ->
  (length b < fuel)%nat ->
  exists s', u_copy B fuel true ignore follow (mem_uri cs) (mem_uri ct) s = (Ok tt, s') /\ wf s' /\ same_rest s s' /\
    reproduced t (view s') d b (m_now s) (copied t follow ignore cs (m_now s)).
Proof.
  intros cs t W Q G L0 D0 Fl [l El] Gt Gd Cd Gp Nb H Hv Hb.
  destruct b as [|bn b']; [easy|]. change (firstn 1 (bn :: b')) with [bn] in *.
  assert (Ncs : cs <> []) by (unfold cs; now destruct init).
  destruct (makedirs_ok s cd d (bn :: b') W Q Gd Gp fuel Hb) as (s1 & R1 & A1 & W1 & S1 & _).
  destruct (walk_ok s W Q cs follow ignore q0 G Ncs L0 D0 cd d bn b' Gd Gp H) with (fuel := fuel) (s1 := s1) as (s' & R' & k); auto.
  { intros r q V. apply (Hv r q V). }
  { intros r q V. apply (Hv r q V). }
  { intros r q V. apply (Hv r q V). }
  exists s'. split; [|split; [apply k|split; [apply k|]]].
  - unfold u_copy. rewrite run_hooked by auto. unfold fs_copy.
    erewrite bind_ok by (unfold u_exists; rewrite run_hooked by auto; now apply exists_at with (q := q0)). cbn [negb].
    erewrite bind_ok by (unfold u_isdir; rewrite run_hooked by auto; now apply isdir_found with (q := q0)). cbn [negb].
    assert (Dest : (let! dd <- u_isdir B (mem_uri ct); if dd then lift (u_div (mem_uri ct) (u_last (mem_uri cs))) else ret (mem_uri ct)) s = (Ok (mem_uri cd), s)).
    { destruct Cd as [[(x & Lx & Dx) ->]|[Nd ->]].
      - erewrite bind_ok by (unfold u_isdir; rewrite run_hooked by auto; now apply isdir_found with (q := x)).
        unfold cs. rewrite mem_last by (eapply good_name, G). apply lift_ok, mem_div, Gd.
      - assert (Lm : leads t ct Missing) by (eapply (leads_gap s); eauto).
        erewrite bind_ok by (unfold u_isdir; rewrite run_hooked by auto; apply (isdir_none s W _ Missing); auto). reflexivity. }
    unfold bind in Dest |- *. destruct (u_isdir B (mem_uri ct) s) as [[dd|] sx]; [|discriminate]. rewrite Dest.
    unfold u_islink. rewrite run_hooked by auto. cbn [b_islink B]. rewrite El.
    assert (X : l && negb follow = false).
    { destruct Fl as [->|Fl]; [apply andb_false_r|]. rewrite Fl in El. injection El as <-. reflexivity. }
    rewrite X. rewrite R1. cbn [b_hook B].
    assert (Hh : mem_hook (mem_uri cs) (lit "walk") s1 = (Ok tt, s1)) by (apply (silent_hook s1 (mem_uri cs) cs); [eapply silent_rest; eauto|now apply mem_addr]).
    rewrite Hh. exact R'.
  - split; [|split; [|split]].
    + intros b1 b2 E Nb1. rewrite (k_else s _ _ _ _ _ _ _ _ _ k).
      * now apply (proj1 A1 b1 b2).
      * intros y Ny X. rewrite E, <- !app_assoc in X. apply app_inv_head in X. rewrite <- (app_nil_r b1) in X at 1.
        apply app_inv_head in X. symmetry in X. apply app_eq_nil in X. tauto.
    + intros y e Ny. rewrite app_assoc. rewrite (k_new s _ _ _ _ _ _ _ _ _ k) by auto. tauto.
    + intros x Hx. apply (k_out s cs follow ignore d bn b' s1 A1 _ s' k). intros z. rewrite <- app_assoc. apply Hx.
    + intros x Nx Nt. destruct (below_dec (d ++ bn :: b') x) as [[y ->]|Nbl].
      * right. exists y. now rewrite <- app_assoc.
      * left. rewrite (k_else s _ _ _ _ _ _ _ _ _ k) in Nx by (intros y _ X; now apply (Nbl y)).
        destruct (in_dec (list_eq_dec (list_eq_dec N.eq_dec)) x (map (fun i => d ++ firstn i (bn :: b')) (seq 0 (S (length (bn :: b')))))) as [I|I].
        -- apply in_map_iff in I as (i & <- & _). exists (firstn i (bn :: b')), (skipn i (bn :: b')). split; auto. symmetry. apply firstn_skipn.
        -- exfalso. apply Nx. rewrite (proj2 A1); auto. intros b1 b2 E _ ->. apply I. apply in_map_iff. exists (length b1).
           rewrite E. rewrite firstn_app, firstn_all, Nat.sub_diag. cbn [firstn]. rewrite app_nil_r. split; auto.
           apply in_seq. rewrite app_length. lia.
Qed.

(** A directory given by its own path; links are not followed or there are none. *)
Theorem copy_real s init n ct cd d b follow fuel :
  let q := init ++ [n] in let t := view s in
  wf s -> silent s -> is_edir (t q) -> (forall r, t (q ++ r) <> None -> good_path (q ++ r)) ->
  (forall r, is_edir (t (q ++ r)) -> Forall unpadded r) ->
  (forall r, is_elink (t (q ++ r)) -> follow = false /\ exists o, settled t (d ++ firstn 1 b) (q ++ r) o /\ answers o) ->
  good_path ct -> good_path cd -> copy_dest t n ct cd -> gap t cd d b -> b <> [] -> (forall r, d <> q ++ r) ->
  (m_next s <= fuel)%nat -> (length b < fuel)%nat ->
  exists s', u_copy B fuel true [] follow (mem_uri q) (mem_uri ct) s = (Ok tt, s') /\ wf s' /\ same_rest s s' /\
    reproduced t (view s') d b (m_now s) (fun y e => exists e0, t (q ++ y) = Some e0 /\ e = stamp (m_now s) e0).
Proof.
  intros q t W Q D G U Lk Gt Gd Cd Gp Nb Ap Hf Hb.
  assert (Gq : good_path q) by (rewrite <- (app_nil_r q); apply G; rewrite app_nil_r; destruct D as (? & ? & ->); discriminate).
  assert (Lq : leads t q (Found q)) by now apply (resolves_dir (m_heap s)).
  assert (Real : forall r x, visits t follow [] q r x <-> x = q ++ r /\ is_edir (t (q ++ r))).
  { intros r x. transitivity (visits (view s) false [] q r x); [|exact (visits_real s q W D r x)]. destruct follow; [|reflexivity].
    assert (NL : forall r, ~ is_elink (t (q ++ r))) by (intros r' X; destruct (Lk r' X); discriminate).
    split; intros V.
    - induction V as [x L Dx|r x m x' V IH N Ni L Dx F]; [now constructor|]. eapply v_down; eauto. right.
      apply (visits_real s q W D) in IH as [-> _]. rewrite <- app_assoc. apply NL.
    - induction V as [x L Dx|r x m x' V IH N Ni L Dx F]; [now constructor|]. eapply v_down; eauto. }
  destruct (copy_tree s init n ct cd d b follow [] q fuel) as (s' & R & W' & S' & X); auto.
  - destruct follow; auto. right. fold q. unfold q.
    destruct (dirs_on_way t q q Lq D init [n] eq_refl) as (x & Lx & Dx).
    assert (Ix : x = init).
    { assert (Di : is_edir (t init)) by (apply (tree_parent (m_heap s) init n); change (t q <> None); destruct D as (? & ? & ->); discriminate).
      pose proof (leads_det (m_heap s) (m_next s) W _ _ _ Lx (resolves_dir (m_heap s) 32 init Di)) as E. now injection E. }
    subst x. rewrite (run_islink s W init n Gq) with (d := init); auto.
    + destruct D as (? & ? & D'). unfold q, t in D'. now rewrite D'.
    + now apply (fresh_dir (m_heap s) (m_next s)).
  - exists false. fold q. unfold q.
    destruct (dirs_on_way t q q Lq D init [n] eq_refl) as (x & Lx & Dx).
    assert (Ix : x = init).
    { assert (Di : is_edir (t init)) by (apply (tree_parent (m_heap s) init n); change (t q <> None); destruct D as (? & ? & ->); discriminate).
      pose proof (leads_det (m_heap s) (m_next s) W _ _ _ Lx (resolves_dir (m_heap s) 32 init Di)) as E. now injection E. }
    subst x. rewrite (run_islink s W init n Gq) with (d := init); auto.
    + destruct D as (? & ? & D'). unfold q, t in D'. now rewrite D'.
    + now apply (fresh_dir (m_heap s) (m_next s)).
  - fold q t. intros r x m V N. apply Real in V as [-> Dr]. split; [|split].
    + rewrite <- app_assoc in *. now apply G.
    + now apply (fresh_dir (m_heap s) (m_next s)).
    + assert (Em : forall z, t ((d ++ firstn 1 b) ++ z) = None).
      { destruct b as [|bn b']; [easy|]. destruct Gp as (a & _ & _ & _ & N0). intros z. apply below_none. now apply (N0 bn b'). }
      destruct (entry_cases (t ((q ++ r) ++ [m]))) as [Ne|[Ef|[Ed|El]]]; try contradiction.
      * exists (Found ((q ++ r) ++ [m])). split; [|split; [cbv; intuition discriminate|eauto]].
        apply settled_found; auto. apply (resolves_entry (m_heap s)); left; exact Ef.
      * exists (Found ((q ++ r) ++ [m])). split; [|split; [cbv; intuition discriminate|eauto]].
        apply settled_found; auto. apply (resolves_entry (m_heap s)); right; exact Ed.
      * rewrite <- app_assoc in *. destruct (Lk _ El) as (-> & o & Ho & A). exists o. split; auto. split; auto. discriminate.
  - fold q t. intros r x V. apply Real in V as [-> Dr]. split; [intros E; now apply (Ap r)|]. split; [auto|].
    assert (N : view s (q ++ r) <> None) by (destruct Dr as (? & ? & Dr); unfold t in Dr; rewrite Dr; discriminate).
    apply depth_bound in N; auto. rewrite app_length in N. lia.
  - exists s'. split; [exact R|]. split; auto. split; auto. destruct X as (X1 & X2 & X3 & X4). split; auto. split; auto.
    intros y e Ny. rewrite X2 by auto. fold q t. split.
    + intros C. inversion C as [r x m V N Ni F T E1 E2|r x m z data mt mo V N F Lz Ez E1 E2|r x m tg mt mo F V E Ni E1 E2].
      * apply Real in V as [-> Dr]. rewrite app_assoc.
        assert (Y : is_edir (t ((q ++ r) ++ [m]))).
        { destruct T as (z & Lz & Dz). destruct (entry_cases (t ((q ++ r) ++ [m]))) as [Ne|[Ef|[Ed|El]]]; auto.
          - contradiction.
          - exfalso. assert (L' : leads t ((q ++ r) ++ [m]) (Found ((q ++ r) ++ [m]))) by (apply (resolves_entry (m_heap s)); auto).
            pose proof (leads_det (m_heap s) (m_next s) W _ _ _ Lz L') as Y. injection Y as ->.
            destruct Dz as (? & ? & Dz), Ef as (? & ? & ? & Ef). congruence.
          - exfalso. destruct F as [F|F]; [|contradiction]. rewrite <- app_assoc in El. destruct (Lk _ El). congruence. }
        destruct Y as (mt & mo & Y). exists (EDir mt mo). auto.
      * apply Real in V as [-> Dr]. rewrite app_assoc. exists (EFile data mt mo). split; auto.
        assert (L' : ~ is_elink (t ((q ++ r) ++ [m])) -> leads t ((q ++ r) ++ [m]) (Found ((q ++ r) ++ [m]))).
        { intros NL. apply (resolves_entry (m_heap s)). change (is_efile (t ((q ++ r) ++ [m])) \/ is_edir (t ((q ++ r) ++ [m]))).
          destruct (entry_cases (t ((q ++ r) ++ [m]))) as [Ne|[Ef|[Ed|El]]]; auto; contradiction. }
        assert (NL : ~ is_elink (t ((q ++ r) ++ [m]))).
        { destruct F as [F|F]; auto. intros El. rewrite <- app_assoc in El. destruct (Lk _ El). congruence. }
        pose proof (leads_det (m_heap s) (m_next s) W _ _ _ Lz (L' NL)) as Y. injection Y as ->. exact Ez.
      * apply Real in V as [-> Dr]. rewrite app_assoc. exists (ELink tg mt mo). auto.
    + intros (e0 & E0 & ->). destruct (snoc_cases y) as [->|(r & m & ->)]; [easy|]. rewrite app_assoc in E0.
      assert (Dr : is_edir (t (q ++ r))) by (apply (tree_parent (m_heap s) (q ++ r) m); unfold t, view in E0; rewrite E0; discriminate).
      assert (V : visits t follow [] q r (q ++ r)) by now apply Real.
      destruct e0 as [data mt mo|mt mo|tg mt mo]; cbn [stamp].
      * eapply cp_file; eauto.
        -- congruence.
        -- right. rewrite E0. intros (? & ? & ? & Y). discriminate.
        -- apply (resolves_entry (m_heap s)). left. do 3 eexists. exact E0.
      * eapply cp_dir; eauto.
        -- congruence.
        -- right. rewrite E0. intros (? & ? & ? & Y). discriminate.
        -- exists ((q ++ r) ++ [m]). split; [|do 2 eexists; exact E0]. apply (resolves_entry (m_heap s)). right. do 2 eexists. exact E0.
      * eapply cp_link; eauto. assert (El : is_elink (t (q ++ r ++ [m]))) by (rewrite app_assoc, E0; now repeat eexists).
        apply (Lk _ El).
Qed.
