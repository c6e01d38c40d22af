(** A recursive copy that follows links changes nothing outside its destination, whatever its outcome; so a
    failing move of a directory keeps the source. *)
From Verif Require Import Str Exc Utf8 UriParse BaseUri StrFacts Utf8Facts SpecUri Mem SpecMem MemOps Generic SpecGen.
From Verif Require Import UriFacts2 UriFacts3 UriFacts4 MemFacts MemFacts2 MemFacts3 MemFacts4 MemFacts5 MemFacts6 MemFacts7 MemFacts8 MemFacts9 MemUri MemFacts10 MemFacts11 GenFacts1 GenFacts2 GenFacts3 GenFacts4 GenFacts5 GenFacts6 GenFacts7 GenFacts8.
From Coq Require Import Sorted.

Local Notation B := mem_backend.
Local Notation joined := (join_with [cSlash]).

(** ** makedirs with any budget *)
Lemma makedirs_gap_any b : forall s cs d fuel, wf s -> silent s -> good_path cs -> gap (view s) cs d b ->
  (exists s', fs_makedirs B fuel (mem_uri cs) s = (Ok tt, s') /\ wf s' /\ same_rest s s' /\
     dirs_added (view s) (view s') d b (m_now s)) \/
  (exists e, fs_makedirs B fuel (mem_uri cs) s = (Raise e, s)).
Proof.
  induction b as [|n b IH] using rev_ind; intros s cs d fuel W Q G Gp.
  - destruct fuel as [|fuel]; [right; exists OutOfFuel; reflexivity|]. left.
    apply makedirs_gap; auto. cbn. lia.
  - destruct fuel as [|fuel]; [right; exists OutOfFuel; reflexivity|].
    destruct Gp as (a & -> & L & D & N). pose proof G as G0. rewrite app_assoc in G. pose proof (good_app _ _ G) as Gi.
    assert (Gp : gap (view s) (a ++ b) d b).
    { exists a. repeat split; auto. intros x b' ->. now apply (N x (b' ++ [n])). }
    cbn [fs_makedirs]. unfold u_isdir. rewrite app_assoc.
    erewrite bind_ok; [|rewrite run_hooked by auto; apply (isdir_none s W _ Missing); auto; eapply (leads_gap s) with (d := d) (b := b ++ [n]);
      [exists a; split; [now rewrite app_assoc|auto]|now destruct b]].
    cbn match. erewrite bind_ok; [|apply lift_ok; apply mem_split; apply G]. cbn [fst snd].
    assert (X : (exists s1, (let! pd <- hooked B "isdir" (mem_uri (a ++ b)) (b_isdir B (mem_uri (a ++ b)));
                            if pd then ret tt else fs_makedirs B fuel (mem_uri (a ++ b))) s = (Ok tt, s1) /\
                           wf s1 /\ same_rest s s1 /\ dirs_added (view s) (view s1) d b (m_now s)) \/
                exists e, (let! pd <- hooked B "isdir" (mem_uri (a ++ b)) (b_isdir B (mem_uri (a ++ b)));
                            if pd then ret tt else fs_makedirs B fuel (mem_uri (a ++ b))) s = (Raise e, s)).
    { destruct (list_eq_dec (list_eq_dec N.eq_dec) b []) as [->|Hb].
      - left. exists s. rewrite app_nil_r in *. split; [|split; [|split]]; auto using same_rest_refl.
        + erewrite bind_ok; [|rewrite run_hooked by auto; now apply (isdir_found s W a d)]. reflexivity.
        + apply dirs_added_nil. intros q. reflexivity.
      - erewrite bind_ok; [|rewrite run_hooked by auto; apply (isdir_none s W _ Missing); auto; now apply (leads_gap s) with (d := d) (b := b)].
        apply IH; auto. }
    destruct X as [(s1 & E1 & W1 & R1 & A1)|[e Ee]].
    + left. assert (Gr : grows (view s) (view s1)) by (eapply dirs_added_grows; [eapply gap_none; eauto|eauto]).
      destruct (added_leads _ _ a d b (m_now s) L D Gr A1 b []) as [L1 D1]; [now rewrite app_nil_r|].
      destruct (run_mkdir_free s1 ((a ++ b) ++ [n]) (a ++ b) n (d ++ b)) as (s2 & E2 & W2 & P2 & R2); auto.
      { rewrite <- app_assoc. destruct A1 as [_ A1]. rewrite A1.
        - apply (gap_none s (a ++ b ++ [n]) d (b ++ [n])) with (b2 := []); [|now rewrite app_nil_r|now destruct b].
          exists a. auto.
        - intros b1 b2 -> _ H. apply app_inv_head in H. apply (f_equal (@length _)) in H. rewrite !app_length in H. cbn in H. lia. }
      exists s2. split; [|split; [|split]]; auto.
      * unfold bind in E1 |- *. destruct (hooked B "isdir" (mem_uri (a ++ b)) (b_isdir B (mem_uri (a ++ b))) s) as [[pd|] s'] eqn:E; [|discriminate].
        cbn beta. rewrite E1. destruct n as [|c n]; [exfalso; apply (name_ne [] (good_name (a ++ b) [] [] G)); reflexivity|].
        unfold u_mkdir. rewrite run_hooked; auto. apply (silent_rest s); auto.
      * eapply same_rest_trans; eauto.
      * eapply dirs_added_snoc; [exact A1|]. rewrite <- app_assoc in P2. destruct R1 as (Hnow & _). now rewrite Hnow in P2.
    + right. exists e. unfold bind in Ee |- *. destruct (hooked B "isdir" (mem_uri (a ++ b)) (b_isdir B (mem_uri (a ++ b))) s) as [[pd|] s'] eqn:E.
      * cbn beta. rewrite Ee. reflexivity.
      * exact Ee.
Qed.

(** Where there are no links, paths lead straight down. *)
Lemma no_links_down t z : forall k p o, (forall z1 z2, z = z1 ++ z2 -> z1 <> [] -> ~ is_elink (t (p ++ z1))) ->
  resolves t k p z o -> o = Found (p ++ z) \/ o = Missing \/ o = NotDir.
Proof.
  induction z as [|n z IH]; intros k p o N R.
  - inversion R. rewrite app_nil_r. auto.
  - assert (Nl : ~ is_elink (t (p ++ [n]))) by (apply (N [n] z); [reflexivity|discriminate]).
    inversion R; subst; auto;
      try (exfalso; apply Nl; match goal with H : t (p ++ [n]) = Some (ELink _ _ _) |- _ => rewrite H; now repeat eexists end);
      try contradiction.
    match goal with H : resolves t k (p ++ [n]) z o |- _ => rename H into R' end.
    apply IH in R'.
    + rewrite <- app_assoc in R'. exact R'.
    + intros z1 z2 -> Hz. rewrite <- app_assoc. apply (N ([n] ++ z1) z2); [reflexivity|]. discriminate.
Qed.

Lemma gap_dec s cs : wf s -> (exists d b, gap (view s) cs d b) \/ forall d b, ~ gap (view s) cs d b.
Proof.
  intros W. set (one := fun a b => exists d, leads (view s) a (Found d) /\ is_edir (view s d) /\ forall n b', b = n :: b' -> view s (d ++ [n]) = None).
  assert (One : forall a b, one a b \/ ~ one a b).
  { intros a b. destruct (leads_total (m_heap s) a) as [o L].
    assert (X : forall q, leads (view s) a (Found q) -> o = Found q) by (intros q Lq; apply (leads_det (m_heap s) (m_next s) W _ _ _ L Lq)).
    destruct (outcome_cases o) as [[d ->]|Nf].
    - destruct (edir_dec (view s d)) as [D|D].
      + destruct b as [|n b]; [left; exists d; repeat split; auto; discriminate|].
        destruct (view s (d ++ [n])) eqn:E.
        * right. intros (d' & L' & _ & N). apply X in L'. injection L' as <-. rewrite (N n b) in E by auto. discriminate.
        * left. exists d. repeat split; auto. intros m b' Eb. now injection Eb as <- _.
      + right. intros (d' & L' & D' & _). apply X in L'. injection L' as <-. contradiction.
    - right. intros (d' & L' & _). now apply (Nf d'), X. }
  assert (All : forall k, (exists i, one (firstn i cs) (skipn i cs)) \/ forall i, (i < k)%nat -> ~ one (firstn i cs) (skipn i cs)).
  { induction k as [|k [IH|IH]]; [right; lia|now left|]. destruct (One (firstn k cs) (skipn k cs)) as [O|O]; [left; now exists k|].
    right. intros i Hi. destruct (Nat.eq_dec i k) as [->|]; auto. apply IH. lia. }
  destruct (All (S (length cs))) as [(i & d & L & D & N)|No].
  - left. exists d, (skipn i cs), (firstn i cs). split; [now rewrite firstn_skipn|auto].
  - right. intros d b (a & -> & L & D & N). apply (No (length a)); [rewrite app_length; lia|].
    rewrite firstn_app, firstn_all, Nat.sub_diag, skipn_app, skipn_all, Nat.sub_diag. cbn [firstn skipn app]. rewrite app_nil_r.
    exists d. auto.
Qed.

Lemma found_real s cs q : wf s -> leads (view s) cs (Found q) -> is_efile (view s q) \/ is_edir (view s q).
Proof.
  intros W L. destruct (leads_phys (m_heap s) (m_next s) W _ _ L) as (i & Pi & Li & _). unfold view, tree_of. rewrite Pi.
  cbn [option_map]. destruct (m_heap s i) as [f|es mt mo|tg mt mo]; [left; do 3 eexists; reflexivity|right; do 2 eexists; reflexivity|discriminate].
Qed.

Section S.
Variable s : mst.
Variable W : wf s.
Variable Q : silent s.
Local Notation t := (view s).
Hypothesis Names : forall x, t x <> None -> Forall name_ok x /\ Forall unpadded x.
Variables (cs cd a d : list str) (bn : str) (b' : list str).
Hypothesis Gcs : good_path cs.
Hypothesis Ncs : cs <> [].
Local Notation b := (bn :: b').
Local Notation P := (d ++ b).
Local Notation N0 := (d ++ [bn]).
Hypothesis Gcd : good_path cd.
Hypothesis Ucd : Forall unpadded cd.
Hypothesis Ecd : cd = a ++ b.
Hypothesis La : leads t a (Found d).
Hypothesis Da : is_edir (t d).
Hypothesis Nb : t N0 = None.

(** What holds all the time. *)
Record I (s' : mst) : Prop := {
  i_wf : wf s';
  i_rest : same_rest s s';
  i_out : forall x, (forall z, x <> N0 ++ z) -> view s' x = t x;
  i_nolink : forall z, ~ is_elink (view s' (N0 ++ z));
  i_names : forall x, view s' x <> None -> Forall name_ok x /\ Forall unpadded x }.

Lemma in_none z : t (N0 ++ z) = None. Proof. now apply below_none. Qed.
Lemma I0 : I s.
Proof. constructor; auto using same_rest_refl. intros z (? & ? & ? & E). rewrite in_none in E. discriminate. Qed.
Lemma I_same s' s'' : I s' -> wf s'' -> same_rest s' s'' -> same_tree (view s') (view s'') -> I s''.
Proof.
  intros [a1 a2 a3 a4 a5] w r e. constructor; auto.
  - eapply same_rest_trans; eauto.
  - intros x Hx. rewrite (e x). auto.
  - intros z. rewrite (e (N0 ++ z)). apply a4.
  - intros x. rewrite (e x). apply a5.
Qed.
Lemma P_in y : P ++ y = N0 ++ b' ++ y.
Proof. rewrite <- !app_assoc. reflexivity. Qed.
Lemma I_put s' s'' y en : I s' -> wf s'' -> same_rest s' s'' -> put_at (view s') (view s'') (P ++ y) en ->
  (forall tg mt mo, en <> ELink tg mt mo) -> Forall name_ok y -> Forall unpadded y -> I s''.
Proof.
  intros [a1 a2 a3 a4 a5] w r [e1 e2] Ne Hn Hu. constructor; auto.
  - eapply same_rest_trans; eauto.
  - intros x Hx. rewrite e2; [now apply a3|]. intros ->. now apply (Hx (b' ++ y)), P_in.
  - intros z (tg & mt & mo & E). destruct (list_eq_dec (list_eq_dec N.eq_dec) (N0 ++ z) (P ++ y)) as [X|X].
    + rewrite X, e1 in E. injection E as ->. now apply (Ne tg mt mo).
    + rewrite e2 in E by auto. apply (a4 z). rewrite E. now repeat eexists.
  - intros x Hx. destruct (list_eq_dec (list_eq_dec N.eq_dec) x (P ++ y)) as [->|X]; [|rewrite e2 in Hx; auto].
    assert (Nd : Forall name_ok d /\ Forall unpadded d) by (apply Names; destruct Da as (? & ? & ->); discriminate).
    destruct Gcd as [g _]. rewrite Ecd in g. apply Forall_app in g as [_ g]. pose proof Ucd as u. rewrite Ecd in u. apply Forall_app in u as [_ u].
    split; repeat (apply Forall_app; split); tauto.
Qed.
Lemma I_dirs s' s'' y1 y2 now : I s' -> wf s'' -> same_rest s' s'' -> Forall name_ok (y1 ++ y2) -> Forall unpadded (y1 ++ y2) ->
  dirs_added (view s') (view s'') (d ++ y1) y2 now -> (exists z, y1 ++ y2 = bn :: z) -> (y2 <> []) -> I s''.
Proof.
  intros [a1 a2 a3 a4 a5] w r Hn Hu [e1 e2] [z0 Ez] Ny2.
  assert (In0 : forall b1 b2, y2 = b1 ++ b2 -> b1 <> [] -> exists z, (d ++ y1) ++ b1 = N0 ++ z).
  { intros b1 b2 -> Nb1. destruct y1 as [|m y1].
    - destruct b1 as [|m b1]; [easy|]. cbn in Ez. injection Ez as -> _. exists b1. rewrite app_nil_r, <- app_assoc. reflexivity.
    - cbn in Ez. injection Ez as -> _. exists (y1 ++ b1). rewrite <- !app_assoc. reflexivity. }
  assert (Dec : forall x, (exists b1 b2, y2 = b1 ++ b2 /\ b1 <> [] /\ x = (d ++ y1) ++ b1) \/
                          (forall b1 b2, y2 = b1 ++ b2 -> b1 <> [] -> x <> (d ++ y1) ++ b1)).
  { intros x. destruct (in_dec (list_eq_dec (list_eq_dec N.eq_dec)) x (map (fun i => (d ++ y1) ++ firstn (S i) y2) (seq 0 (length y2)))) as [H|H].
    - left. apply in_map_iff in H as (i & <- & Hi). exists (firstn (S i) y2), (skipn (S i) y2). rewrite firstn_skipn. split; auto. split; auto.
      now destruct y2.
    - right. intros b1 b2 E Nb1 ->. apply H, in_map_iff. destruct b1 as [|m b1]; [easy|]. exists (length b1). rewrite E. split.
      + rewrite firstn_app. replace (S (length b1)) with (length (m :: b1)) by reflexivity. rewrite firstn_all, Nat.sub_diag.
        cbn [firstn]. now rewrite app_nil_r.
      + apply in_seq. rewrite app_length. cbn. lia. }
  constructor; auto.
  - eapply same_rest_trans; eauto.
  - intros x Hx. rewrite e2; auto. intros b1 b2 E Nb1 ->. destruct (In0 b1 b2 E Nb1) as [z X]. now apply (Hx z).
  - intros z El. destruct (Dec (N0 ++ z)) as [(b1 & b2 & E & Nb1 & X)|X].
    + rewrite X, (e1 b1 b2) in El by auto. destruct El as (? & ? & ? & El). discriminate.
    + rewrite e2 in El by auto. now apply (a4 z).
  - intros x Hx. destruct (Dec x) as [(b1 & b2 & E & Nb1 & ->)|X].
    + assert (Nd : Forall name_ok d /\ Forall unpadded d) by (apply Names; destruct Da as (? & ? & ->); discriminate).
      subst y2. rewrite app_assoc in Hn, Hu. apply Forall_app in Hn as [Hn _]. apply Forall_app in Hu as [Hu _].
      rewrite <- app_assoc. split; (apply Forall_app; split); tauto.
    + rewrite e2 in Hx by auto. auto.
Qed.

(** ** Where paths below the destination lead *)
Section At.
Variable s' : mst.
Hypothesis i : I s'.
Lemma i_silent : silent s'. Proof. eapply silent_rest; eauto. apply i. Qed.
Lemma i_grows : grows t (view s').
Proof. eapply agree_grows; [apply in_none|apply i]. Qed.
Lemma i_leads : leads (view s') a (Found d). Proof. eapply leads_grows; eauto. apply i_grows. Qed.
Lemma i_dir : is_edir (view s' d).
Proof. eapply kind_dir; [|exact Da]. intros e He. now apply i_grows. Qed.
Lemma down z k o : resolves (view s') k d (bn :: z) o -> o = Found (d ++ bn :: z) \/ o = Missing \/ o = NotDir.
Proof.
  apply no_links_down. intros z1 z2 E Nz. destruct z1 as [|m z1]; [easy|]. cbn in E. injection E as <- _.
  change (bn :: z1) with ([bn] ++ z1). rewrite app_assoc. apply i.
Qed.
Lemma dest_at y q : leads (view s') (cd ++ y) (Found q) -> q = P ++ y.
Proof.
  rewrite Ecd, <- app_assoc. intros L. destruct (resolves_split _ _ _ _ _ _ L) as (d1 & L1 & R).
  pose proof (leads_det (m_heap s') (m_next s') (i_wf s' i) _ _ _ L1 i_leads) as E. injection E as ->.
  apply down in R as [R|[R|R]]; try discriminate. injection R as ->. rewrite <- app_assoc. reflexivity.
Qed.
Lemma app_cases (x y u v : list str) : x ++ y = u ++ v -> (exists z, x = u ++ z /\ v = z ++ y) \/ exists m z, u = x ++ m :: z /\ y = m :: z ++ v.
Proof.
  revert u. induction x as [|c x IH]; intros u E.
  - destruct u as [|m u]; [left; exists []; auto|]. right. exists m, u. auto.
  - destruct u as [|m u]; [left; exists (c :: x); auto|]. injection E as <- E.
    apply IH in E as [(z & -> & ->)|(m & z & -> & ->)]; [left; now exists z|right; now exists m, z].
Qed.
Lemma dest_writable y p : good_path (cd ++ y) -> writable (view s') (mem_uri (cd ++ y)) p -> p = P ++ y.
Proof.
  intros G [p' Pl|q (c & A & L) _].
  - inversion Pl as [|init n d1 A L D N E0| | | |].
    pose proof (addr_inj _ _ _ A (mem_addr _ G)) as E. rewrite Ecd, <- app_assoc in E.
    apply app_cases in E as [(z & Ei & E)|(m & z & Ei & E)].
    + rewrite Ei in L. destruct (resolves_split _ _ _ _ _ _ L) as (d2 & L2 & R).
      pose proof (leads_det (m_heap s') (m_next s') (i_wf s' i) _ _ _ L2 i_leads) as X. injection X as ->.
      assert (E1 : d1 = d ++ z).
      { destruct z as [|m z]; [inversion R; now rewrite app_nil_r|]. cbn in E. injection E as <- _.
        apply down in R as [R|[R|R]]; try discriminate. now injection R. }
      rewrite E1, <- !app_assoc. f_equal. symmetry. exact E.
    + exfalso. injection E as _ E. destruct z; discriminate.
  - pose proof (addr_inj _ _ _ A (mem_addr _ G)) as ->. now apply dest_at.
Qed.
Lemma dest_gap y d0 b0 : gap (view s') (cd ++ y) d0 b0 -> b0 <> [] ->
  exists y1, d0 = d ++ y1 /\ b ++ y = y1 ++ b0.
Proof.
  intros (a0 & E & L & D & N) Nb0. rewrite Ecd, <- app_assoc in E. symmetry in E.
  apply app_cases in E as [(z & Ei & E)|(m & z & Ei & E)].
  - rewrite Ei in L. destruct (resolves_split _ _ _ _ _ _ L) as (d2 & L2 & R).
    pose proof (leads_det (m_heap s') (m_next s') (i_wf s' i) _ _ _ L2 i_leads) as X. injection X as ->.
    exists z. split; auto. destruct z as [|m z]; [inversion R; now rewrite app_nil_r|]. cbn in E. injection E as <- _.
    apply down in R as [R|[R|R]]; try discriminate. now injection R.
  - exfalso. pose proof i_leads as Li. rewrite Ei in Li. destruct (resolves_split _ _ _ _ _ _ Li) as (d2 & L2 & R).
    pose proof (leads_det (m_heap s') (m_next s') (i_wf s' i) _ _ _ L2 L) as X. injection X as ->.
    apply (resolves_has _ _ _ _ _ _ R). now apply (N m (z ++ b ++ y)).
Qed.
End At.

Definition conf {A} (m : M mst A) : Prop := forall s', I s' -> I (snd (m s')).
Lemma conf_pure {A} (m : M mst A) : pure m -> conf m.
Proof. intros H s' i. now rewrite H. Qed.
Lemma conf_bind {A C} (m : M mst A) (k : A -> M mst C) : conf m -> (forall x, conf (k x)) -> conf (bind m k).
Proof.
  intros Hm Hk s' i. unfold bind. specialize (Hm s' i). destruct (m s') as [[x|e] s1]; cbn in *; auto. now apply Hk.
Qed.
Lemma pure_hook u n : pure (mem_hook u n).
Proof.
  unfold mem_hook. apply pure_bind; [apply pure_lift|]. intros p s'. destruct (dget p (m_cbs s')) as [[cb|]|]; auto.
  now destruct (cb u n).
Qed.
Lemma pure_hooked {A} n u (m : M mst A) : pure m -> pure (hooked B n u m).
Proof. intros H. unfold hooked. apply pure_bind; auto. apply pure_hook. Qed.

Lemma good_dest y : Forall name_ok y -> good_path (cd ++ y).
Proof.
  intros H. destruct Gcd as [g1 g2]. split; [apply Forall_app; auto|].
  intros c z E. destruct cd as [|c0 z0] eqn:X; [exfalso; now destruct a|]. injection E as <- _. now apply (g2 c0 z0).
Qed.
Lemma conf_makedirs fuel y : Forall name_ok y -> Forall unpadded y -> conf (u_makedirs B fuel (mem_uri (cd ++ y))).
Proof.
  intros Hn Hu s' i. pose proof (good_dest y Hn) as G. unfold u_makedirs. rewrite run_hooked by (auto using i_silent).
  destruct (gap_dec s' (cd ++ y) (i_wf s' i)) as [(d0 & b0 & Gp)|Ng].
  - destruct (makedirs_gap_any b0 s' (cd ++ y) d0 fuel (i_wf s' i) (i_silent s' i) G Gp) as [(s1 & R & W1 & S1 & A1)|[e R]]; rewrite R; cbn [snd]; auto.
    destruct (list_eq_dec (list_eq_dec N.eq_dec) b0 []) as [->|Nb0].
    + apply (I_same s'); auto. intros x. apply (proj2 A1). intros b1 b2 E Nb1. symmetry in E. apply app_eq_nil in E. tauto.
    + destruct (dest_gap s' i y d0 b0 Gp Nb0) as (y1 & -> & E). pose proof G as [g _]. rewrite Ecd, <- app_assoc in g. apply Forall_app in g as [_ g].
      pose proof Ucd as u. rewrite Ecd in u. apply Forall_app in u as [_ u].
      apply (I_dirs s' s1 y1 b0 (m_now s')); auto.
      * now rewrite <- E.
      * rewrite <- E. apply Forall_app. auto.
      * exists (b' ++ y). now rewrite <- E.
  - destruct (makedirs_other (cd ++ y) s' fuel (i_wf s' i) (i_silent s' i) G Ng) as [e R]. now rewrite R.
Qed.

(** Copying one entry *)
Lemma conf_entry c y : good_path c -> Forall name_ok y -> Forall unpadded y -> y <> [] ->
  conf (copy_entry B true true (mem_uri c) (mem_uri (cd ++ y))).
Proof.
  intros Gc Hn Hu Ny s' i. pose proof (good_dest y Hn) as G. pose proof (i_wf s' i) as W'. pose proof (i_silent s' i) as Q'.
  pose proof (pure_islink (mem_uri c) s') as Pi. destruct (mem_islink (mem_uri c) s') as [[l|e] s1] eqn:El; cbn in Pi; subst s1.
  2:{ unfold copy_entry, u_islink. erewrite bind_raise by (rewrite run_hooked by auto; exact El). exact i. }
  assert (Hl : l && negb true = false) by apply andb_false_r.
  assert (Same : forall e s1, mem_copy_content (mem_uri c) (mem_uri (cd ++ y)) s' = (Raise e, s1) -> I s1 ->
    I (snd (copy_entry B true true (mem_uri c) (mem_uri (cd ++ y)) s'))).
  { intros e s1 E i1. unfold copy_entry, u_islink. erewrite bind_ok by (rewrite run_hooked by auto; exact El). rewrite Hl.
    cbn [b_copy_content B]. erewrite bind_raise by exact E. exact i1. }
  destruct (leads_total (m_heap s') c) as [o Lo].
  destruct (outcome_cases o) as [[x ->]|Nf].
  2:{ apply (Same (err_of o) s'); auto. unfold mem_copy_content. erewrite bind_raise; [reflexivity|].
      rewrite (run_u_open s' _ c) by (auto using mem_addr). rewrite mem_open_read by reflexivity. cbv [has_char lit].
      apply (open_read_fail s' W' (mem_uri c) _ c o); auto. now apply mem_addr. }
  destruct (found_real s' c x W' Lo) as [(data & mt & mo & Ex)|Ed].
  - assert (D : denotes (view s') (mem_uri c) (Found x)) by (exists c; split; auto; now apply mem_addr).
    destruct (open_read s' W' (mem_uri c) true x data mt mo D Ex) as (s1 & h1 & f1 & R1 & H1 & O1 & D1 & P1 & T1 & M1 & S1).
    assert (E1 : u_open (mem_uri c) (Some (lit "rb")) s' = (Ok h1, s1)) by (rewrite (run_u_open s' _ c); auto using mem_addr).
    assert (W1 : wf s1) by apply O1. assert (SR1 : same_rest s' s1) by apply O1.
    assert (i1 : I s1) by now apply (I_same s').
    assert (Q1 : silent s1) by now apply (i_silent s1).
    destruct (open_for_write (mem_uri (cd ++ y)) true s1) as [[hd|e] s2] eqn:R2.
    + destruct (open_write_inv s1 (mem_uri (cd ++ y)) true hd s2 W1) as [p Wp]; auto.
      { intros A0. pose proof (addr_inj _ _ _ A0 (mem_addr _ G)) as X. symmetry in X. apply app_eq_nil in X. tauto. }
      apply (writable_same s1 s') in Wp; [|intros z; symmetry; apply S1].
      pose proof (dest_writable s' i y p G Wp) as Ep.
      destruct (list_eq_dec (list_eq_dec N.eq_dec) p x) as [Epx|Npx].
      * assert (Dv : denotes (view s') (mem_uri (cd ++ y)) (Found x)).
        { destruct Wp as [p' Pl|q Dq _]; [|now rewrite <- Epx]. exfalso. inversion Pl as [|? ? ? ? ? ? N E0| | | |].
          rewrite E0, Epx in N. congruence. }
        destruct (copy_entry_self s' W' Q' (mem_uri c) (mem_uri (cd ++ y)) c (cd ++ y) x data mt mo true l) as (s3 & R3 & W3 & S3 & P3); auto using mem_addr.
        rewrite R3. cbn [snd]. rewrite <- Epx, Ep in P3. eapply (I_put s' s3 y); eauto. discriminate.
      * destruct (copy_entry_file s' W' Q' (mem_uri c) (mem_uri (cd ++ y)) c (cd ++ y) x p data mt mo true l) as (s3 & R3 & W3 & S3 & P3); auto using mem_addr.
        rewrite R3. cbn [snd]. rewrite Ep in P3. eapply (I_put s' s3 y); eauto. discriminate.
    + pose proof (open_write_raise _ _ _ _ _ W1 R2) as ->. apply (Same e s1); auto. unfold mem_copy_content.
      erewrite bind_ok by exact E1. erewrite bind_raise; [reflexivity|].
      rewrite (run_u_open s1 _ (cd ++ y)) by (auto using mem_addr). exact R2.
  - apply (Same AttributeError s'); auto. unfold mem_copy_content. erewrite bind_raise; [reflexivity|].
    rewrite (run_u_open s' _ c) by (auto using mem_addr). rewrite mem_open_read by reflexivity.
    apply (open_read_dir s' W' (mem_uri c) _ x); auto. exists c. split; auto. now apply mem_addr.
Qed.

Definition okn (n : str) : Prop := name_ok n /\ unpadded n.
Lemma okn_split r : Forall okn r <-> Forall name_ok r /\ Forall unpadded r.
Proof.
  split.
  - intros H. split; eapply Forall_impl; try exact H; unfold okn; tauto.
  - intros [H1 H2]. induction r as [|n r IH]; constructor; inversion H1; inversion H2; subst; auto. split; auto.
Qed.
Lemma conf_bind_post {A C} (m : M mst A) (k : A -> M mst C) (F : A -> Prop) : conf m ->
  (forall s' x s1, I s' -> m s' = (Ok x, s1) -> F x) -> (forall x, F x -> conf (k x)) -> conf (bind m k).
Proof.
  intros Hm Hf Hk s' i. unfold bind. pose proof (Hm s' i) as Hi. pose proof (Hf s') as Hx.
  destruct (m s') as [[x|e] s1]; cbn in *; auto. apply Hk; auto. now apply (Hx x s1).
Qed.
Lemma conf_lift {A C} (r : res A) (v : A) (k : A -> M mst C) : r = Ok v -> conf (k v) -> conf (bind (lift r) k).
Proof. intros -> H s' i. now apply H. Qed.
Lemma conf_ret {A} (x : A) : conf (ret x). Proof. apply conf_pure, pure_ret. Qed.
Lemma conf_raise {A} e : conf (@raise mst A e). Proof. apply conf_pure, pure_raise. Qed.
Lemma conf_fold {A X} (f : A -> X -> M mst A) l : (forall x y, In y l -> conf (f x y)) -> forall x, conf (foldM f x l).
Proof.
  induction l as [|y l IH]; intros H x; [apply conf_ret|]. cbn [foldM]. apply conf_bind; [apply H; now left|].
  intros x'. apply IH. intros z w Hw. apply H. now right.
Qed.
Lemma conf_mapM {X} (f : X -> M mst unit) l : (forall y, In y l -> conf (f y)) -> conf (mapM_ f l).
Proof.
  induction l as [|y l IH]; intros H; [apply conf_ret|]. cbn [mapM_]. apply conf_bind; [apply H; now left|].
  intros _. apply IH. intros z Hz. apply H. now right.
Qed.
Lemma fold_post {A X} (f : A -> X -> M mst A) (F : A -> Prop) l : (forall x y s1 x' s2, F x -> f x y s1 = (Ok x', s2) -> F x') ->
  forall x s1 x' s2, F x -> foldM f x l s1 = (Ok x', s2) -> F x'.
Proof.
  intros H. induction l as [|y l IH]; intros x s1 x' s2 Fx E; [injection E as <- _; auto|].
  cbn [foldM] in E. unfold bind in E. destruct (f x y s1) as [[z|e] s3] eqn:Ef; [|discriminate]. eapply IH; [|exact E]. eauto.
Qed.
Lemma remove_first_incl (x : str) l : incl (remove_first x l) l.
Proof.
  induction l as [|y l IH]; [apply incl_refl|]. cbn. destruct (str_eqb x y); [now apply incl_tl, incl_refl|].
  intros z [->|Hz]; [now left|right; auto].
Qed.
Lemma kinds_sub top : forall names s1 ds fs s2, kinds B top names s1 = (Ok (ds, fs), s2) -> incl ds names /\ incl fs names.
Proof.
  induction names as [|n names IH]; intros s1 ds fs s2 E; [injection E as <- <- _; split; apply incl_refl|].
  cbn [kinds] in E. unfold bind in E. destruct (lift (u_div top n) s1) as [[p|] s3]; [|discriminate].
  destruct (b_isdir B p s3) as [[dd|] s4]; [|discriminate].
  destruct (kinds B top names s4) as [[[ds0 fs0]|] s5] eqn:Ek; [|discriminate]. apply IH in Ek as [I1 I2].
  injection E as E _. destruct dd; injection E as <- <-; split; try (now apply incl_tl);
    (intros z [->|Hz]; [now left|right; auto]).
Qed.
Lemma pure_kinds top names : pure (kinds B top names).
Proof.
  induction names as [|n names IH]; cbn [kinds]; [apply pure_ret|]. apply pure_bind; [apply pure_lift|]. intros p.
  apply pure_bind; [apply pure_isdir|]. intros dd. apply pure_bind; auto. intros r. apply pure_ret.
Qed.
Lemma listdir_names s' c l s1 : good_path c -> I s' -> mem_listdir (mem_uri c) s' = (Ok l, s1) -> Forall okn l.
Proof.
  intros G i E. pose proof (i_wf s' i) as W'. destruct (leads_total (m_heap s') c) as [o L].
  assert (Fc : filter nonempty c = c) by (apply proper_filter; destruct G as [g _]; eapply Forall_impl; [|exact g]; intros x; apply name_ne).
  destruct (outcome_cases o) as [[q ->]|Nf].
  - destruct (edir_dec (view s' q)) as [D|D].
    + destruct (listdir_spec s' W' (mem_uri c) c q) as (l' & E' & _ & X); auto using mem_addr; [now rewrite Fc|].
      rewrite E' in E. injection E as <- _. apply Forall_forall. intros n Hn. apply X in Hn. apply (i_names s' i) in Hn as [H1 H2].
      apply Forall_app in H1 as [_ H1]. apply Forall_app in H2 as [_ H2]. inversion H1; inversion H2; subst. split; auto.
    + rewrite (listdir_file s' W' (mem_uri c) c q) in E; auto using mem_addr; [discriminate|now rewrite Fc].
  - rewrite (listdir_fail s' W' (mem_uri c) c o) in E; auto using mem_addr; [discriminate|now rewrite Fc].
Qed.
Lemma good_src r : Forall okn r -> good_path (cs ++ r).
Proof.
  intros H. destruct Gcs as [g1 g2]. split; [apply Forall_app; split; auto; now apply okn_split|].
  intros c z E. destruct cs as [|c0 z0] eqn:X; [easy|]. injection E as <- _. now apply (g2 c0 z0).
Qed.

Variables (fuel : nat) (ignore : list str).
Local Notation cstep := (copy_step B fuel ignore true true (length (u_path (mem_uri cs)) + 1) (mem_uri cd)).
Lemma conf_step r dirs files : Forall okn r -> Forall okn dirs -> Forall okn files -> conf (cstep (mem_uri (cs ++ r)) dirs files).
Proof.
  intros Hr Hd Hf. pose proof (good_src r Hr) as Gs. apply okn_split in Hr as [Nr Ur].
  unfold copy_step. rewrite !good_path_path by auto. rewrite skip_source by auto. rewrite joined_strip by auto.
  assert (Step : forall n, okn n -> okn n /\ u_div (mem_uri (cd ++ r)) n = Ok (mem_uri (cd ++ r ++ [n])) /\
                 u_div (mem_uri (cs ++ r)) n = Ok (mem_uri ((cs ++ r) ++ [n])) /\ good_path ((cs ++ r) ++ [n]) /\
                 Forall name_ok (r ++ [n]) /\ Forall unpadded (r ++ [n])).
  { intros n Hn. assert (X : Forall okn (r ++ [n])) by (apply Forall_app; split; auto; apply okn_split; auto).
    assert (Y : good_path ((cs ++ r) ++ [n])) by (rewrite <- app_assoc; now apply good_src).
    split; auto. apply okn_split in X as [X1 X2]. split; [rewrite app_assoc; apply mem_div; rewrite <- app_assoc; apply (good_dest (r ++ [n]) X1)|].
    split; [apply mem_div, Y|]. auto. }
  assert (Rest : conf (
    let! dirs' <- foldM (fun ds folder =>
        if str_in folder ignore then ret (remove_first folder ds)
        else let! ddir <- lift (u_div (mem_uri (cd ++ r)) folder); let! srcp <- lift (u_div (mem_uri (cs ++ r)) folder);
             let! l <- u_islink B srcp; (if l && negb true then copy_link B srcp ddir else u_makedirs B fuel ddir) ;; ret ds) dirs dirs;
    mapM_ (fun fname => let! srcf <- lift (u_div (mem_uri (cs ++ r)) fname); let! destf <- lift (u_div (mem_uri (cd ++ r)) fname);
                        copy_entry B true true srcf destf) files ;; ret dirs')).
  { apply conf_bind.
    - apply conf_fold. intros ds n Hn. rewrite Forall_forall in Hd. destruct (Step n (Hd n Hn)) as (_ & E1 & E2 & G & H1 & H2).
      destruct (str_in n ignore); [apply conf_ret|]. eapply conf_lift; [exact E1|]. eapply conf_lift; [exact E2|].
      apply conf_bind; [apply conf_pure, pure_hooked, pure_islink|]. intros l. rewrite andb_false_r.
      apply conf_bind; [now apply conf_makedirs|]. intros _. apply conf_ret.
    - intros ds. apply conf_bind; [|intros _; apply conf_ret]. apply conf_mapM. intros n Hn. rewrite Forall_forall in Hf.
      destruct (Step n (Hf n Hn)) as (_ & E1 & E2 & G & H1 & H2). eapply conf_lift; [exact E2|]. eapply conf_lift; [exact E1|].
      apply conf_entry; auto. now destruct r. }
  destruct (list_eq_dec (list_eq_dec N.eq_dec) r []) as [Er|Nn].
  - rewrite Er in *. cbn [join_with]. rewrite app_nil_r in Rest. intros s' i. exact (Rest s' i).
  - pose proof (joined_ne r Nr Nn) as Nj. destruct (joined r) eqn:Ej; [easy|]. rewrite <- Ej.
    eapply conf_lift; [|exact Rest]. apply mem_div_path; auto. apply (good_dest r Nr).
Qed.
Lemma step_post root dirs files s1 ds s2 : cstep root dirs files s1 = (Ok ds, s2) -> incl ds dirs.
Proof.
  unfold copy_step. generalize (strip_p is_space (skipn (length (u_path (mem_uri cs)) + 1) (u_path root))) as tj. intros tj.
  unfold bind at 1. destruct ((match tj with [] => ret (mem_uri cd) | _ :: _ => lift (u_div (mem_uri cd) tj) end) s1) as [[db|] s3]; [|discriminate].
  unfold bind at 1. destruct (foldM _ dirs dirs s3) as [[ds'|] s4] eqn:E; [|discriminate].
  unfold bind at 1. destruct (mapM_ _ files s4) as [[u|] s5]; [|discriminate]. intros X. injection X as <- _.
  eapply (fold_post _ (fun x => incl x dirs)); [|apply incl_refl|exact E]. clear. intros x y s1 x' s2 Hx E.
  cbv beta in E. destruct (str_in y ignore).
  - unfold ret in E. injection E as <- _. eapply incl_tran; [apply remove_first_incl|auto].
  - unfold bind in E. destruct (lift (u_div db y) s1) as [[?|] ?]; [|discriminate]. destruct (lift (u_div root y) _) as [[?|] ?]; [|discriminate].
    destruct (u_islink B _ _) as [[l|] ?]; [|discriminate]. rewrite andb_false_r in E. destruct (u_makedirs B fuel _ _) as [[?|] ?]; [|discriminate].
    unfold ret in E. now injection E as <- _.
Qed.
Local Notation body := (fun (_ : unit) root dirs files => let! ds <- cstep root dirs files; ret (tt, ds)).
Lemma conf_walk f : forall r u, Forall okn r -> conf (walk_gen B f true true body u (mem_uri (cs ++ r))).
Proof.
  induction f as [|f IH]; intros r u Hr; [apply conf_raise|]. cbn [walk_gen]. pose proof (good_src r Hr) as Gs.
  apply (conf_bind_post _ _ (Forall okn)); [apply conf_pure, pure_listdir|intros s' x s1 i E; now apply (listdir_names s' (cs ++ r) x s1)|].
  intros names Hn. apply (conf_bind_post _ _ (fun dn => Forall okn (fst dn) /\ Forall okn (snd dn))); [apply conf_pure, pure_kinds| |].
  { intros s' [ds fs] s1 i E. apply kinds_sub in E as [I1 I2]. cbn [fst snd].
    rewrite Forall_forall in Hn. split; apply Forall_forall; intros n Hx; apply Hn; apply sort_In; auto. }
  intros [ds fs] [Hd Hf]. cbn [fst snd] in *.
  apply (conf_bind_post _ _ (fun ad => Forall okn (snd ad))).
  { apply conf_bind; [now apply conf_step|]. intros x. apply conf_ret. }
  { intros s' [u' ds'] s1 i E. cbn [snd]. unfold bind in E. destruct (cstep _ ds fs s') as [[x|] s2] eqn:Ex; [|discriminate]. injection E as _ <- _.
    apply step_post in Ex. rewrite Forall_forall in Hd. apply Forall_forall. auto. }
  intros [u' ds'] Hd'. cbn [fst snd] in *. apply conf_bind; [|intros x; apply conf_ret].
  apply conf_fold. intros u2 n Hin. rewrite Forall_forall in Hd'. pose proof (Hd' n Hin) as Okn.
  assert (Hrn : Forall okn (r ++ [n])) by (apply Forall_app; auto).
  pose proof (good_src _ Hrn) as Gn. rewrite app_assoc in Gn.
  eapply conf_lift; [apply mem_div, Gn|]. apply conf_bind; [apply conf_pure, pure_hooked, pure_islink|]. intros l.
  rewrite orb_true_r. rewrite <- app_assoc. now apply IH.
Qed.
End S.

(** ** Recursive copy stays inside its destination *)
Theorem copy_confined s init n ct cd d b fuel ignore :
  let cs := init ++ [n] in let t := view s in
  wf s -> silent s -> (forall x, t x <> None -> Forall name_ok x /\ Forall unpadded x) ->
  good_path cs -> good_path ct -> good_path cd -> Forall unpadded cd -> copy_dest t n ct cd -> gap t cd d b -> b <> [] ->
  forall r s', u_copy B fuel true ignore true (mem_uri cs) (mem_uri ct) s = (r, s') ->
  wf s' /\ same_rest s s' /\ forall x, (forall z, x <> d ++ firstn 1 b ++ z) -> view s' x = t x.
Proof.
  intros cs t W Q Names G Gt Gd Ud Cd Gp Nb r s' E.
  destruct b as [|bn b']; [easy|]. destruct Gp as (a & Ea & La & Da & N).
  assert (Ncs : cs <> []) by (unfold cs; now destruct init).
  assert (Nn : t (d ++ [bn]) = None) by now apply (N bn b').
  assert (i0 : I s d bn s) by now apply (I0 s W Names d bn).
  assert (R : I s d bn s').
  { change s' with (snd (r, s')). rewrite <- E. clear E r s'.
    unfold u_copy. rewrite run_hooked by auto. unfold fs_copy.
    assert (P1 : snd (u_exists B (mem_uri cs) s) = s) by (apply pure_hooked, pure_exists).
    unfold bind at 1. destruct (u_exists B (mem_uri cs) s) as [[e|] s1]; cbn [snd] in P1; subst s1; [|exact i0].
    destruct (negb e); [unfold bind, lift; now destruct (u_str (mem_uri cs))|]. cbn [negb].
    assert (P2 : snd (u_isdir B (mem_uri cs) s) = s) by (apply pure_hooked, pure_isdir).
    unfold bind at 1. destruct (u_isdir B (mem_uri cs) s) as [[dd|] s1]; cbn [snd] in P2; subst s1; [|exact i0].
    destruct (negb dd); [exact i0|].
    assert (Dest : (let! dd <- u_isdir B (mem_uri ct); if dd then lift (u_div (mem_uri ct) (u_last (mem_uri cs))) else ret (mem_uri ct)) s = (Ok (mem_uri cd), s)).
    { destruct Cd as [[(x & Lx & Dx) Ecd]|[Nd Ecd]].
      - erewrite bind_ok by (unfold u_isdir; rewrite run_hooked by auto; now apply isdir_found with (q := x)).
        unfold cs. rewrite mem_last by (eapply good_name, G). rewrite Ecd. apply lift_ok, mem_div. rewrite <- Ecd. apply Gd.
      - assert (Lm : leads t ct Missing).
        { apply (leads_gap s) with (d := d) (b := bn :: b'); [|discriminate]. exists a. rewrite <- Ecd. auto. }
        erewrite bind_ok by (unfold u_isdir; rewrite run_hooked by auto; apply (isdir_none s W _ Missing); auto). now rewrite Ecd. }
    assert (Rest : forall k : uri -> M mst unit, conf s d bn (k (mem_uri cd)) ->
      I s d bn (snd ((let! dd0 <- u_isdir B (mem_uri ct);
                      let! droot <- (if dd0 then lift (u_div (mem_uri ct) (u_last (mem_uri cs))) else ret (mem_uri ct)); k droot) s))).
    { intros k Hk. unfold bind in Dest |- *. destruct (u_isdir B (mem_uri ct) s) as [[dd0|] sx]; [|discriminate]. rewrite Dest. now apply Hk. }
    apply Rest. apply conf_bind; [apply conf_pure, pure_hooked, pure_islink|]. intros l. rewrite andb_false_r.
    assert (Cm : conf s d bn (u_makedirs B fuel (mem_uri cd))).
    { rewrite <- (app_nil_r cd). apply (conf_makedirs s Q Names cd a d bn b'); auto. }
    apply conf_bind; [exact Cm|]. intros _. apply conf_bind; [apply conf_pure, pure_hook|]. intros _.
    pose proof (conf_walk s Q Names cs cd a d bn b') as CW. specialize (CW G Ncs Gd Ud Ea La Da Nn fuel ignore fuel [] tt (Forall_nil _)).
    rewrite app_nil_r in CW. exact CW. }
  destruct R as [R1 R2 R3 _ _]. split; auto. split; auto. intros x Hx. apply R3. intros z. rewrite <- app_assoc. apply Hx.
Qed.

(** ** A failing move of a directory keeps the source *)
Theorem move_dir_fails s init n ct cd d b fuel q0 e s1 :
  let cs := init ++ [n] in let t := view s in
  wf s -> silent s -> (forall x, t x <> None -> Forall name_ok x /\ Forall unpadded x) ->
  good_path cs -> good_path ct -> good_path cd -> Forall unpadded cd -> copy_dest t n ct cd -> gap t cd d b -> b <> [] ->
  leads t cs (Found q0) -> is_edir (t q0) ->
  u_copy B fuel true [] true (mem_uri cs) (mem_uri ct) s = (Raise e, s1) ->
  u_move B fuel (mem_uri cs) (mem_uri ct) s = (Raise e, s1) /\
  forall x, t x <> None -> view s1 x = t x.
Proof.
  intros cs t W Q Names G Gt Gd Ud Cd Gp Nb L D E. split.
  - unfold u_move. rewrite run_hooked by auto. unfold fs_move.
    assert (Ef : mem_isfile (mem_uri cs) s = (Ok false, s)).
    { rewrite (isfile_spec s W _ cs _ (mem_addr _ G) L). unfold quiet.
      destruct (leads_phys (m_heap s) (m_next s) W cs q0 L) as (i & P & _). rewrite P.
      destruct (tree_dir (m_heap s) q0 i P D) as (es & mt & mo & E'). now rewrite E'. }
    erewrite bind_ok by (unfold u_isfile; rewrite run_hooked by auto; exact Ef).
    cbn match. erewrite bind_raise by exact E. reflexivity.
  - intros x Hx. eapply (copy_confined s init n ct cd d b fuel []); eauto.
    intros z ->. apply Hx. destruct b as [|bn b']; [easy|]. destruct Gp as (a & _ & _ & _ & N). cbn [firstn]. rewrite app_assoc. apply below_none.
    now apply (N bn b').
Qed.

(** ** Moving a directory without links *)
Theorem move_dir s init n ct cd d b fuel :
  let q := init ++ [n] in let t := view s in
  wf s -> silent s -> is_edir (t q) -> (forall r, t (q ++ r) <> None -> good_path (q ++ r)) ->
  (forall r, is_edir (t (q ++ r)) -> Forall unpadded r) -> (forall r, ~ is_elink (t (q ++ r))) ->
  good_path ct -> good_path cd -> copy_dest t n ct cd -> gap t cd d b -> b <> [] -> (forall r, d <> q ++ r) ->
  (m_next s <= fuel)%nat -> (length b < fuel)%nat ->
  exists s', u_move B fuel (mem_uri q) (mem_uri ct) s = (Ok tt, s') /\ wf s' /\ same_rest s s' /\
    (forall r, view s' (q ++ r) = None) /\
    (forall y e, y <> [] -> view s' (d ++ b ++ y) = Some e <-> exists e0, t (q ++ y) = Some e0 /\ e = stamp (m_now s) e0) /\
    (forall b1 b2, b = b1 ++ b2 -> b1 <> [] -> view s' (d ++ b1) = Some (EDir (m_now s) 0)) /\
    (forall x, (forall z, x <> d ++ firstn 1 b ++ z) -> (forall r, x <> q ++ r) -> view s' x = t x).
Proof.
  intros q t W Q D G U Nl Gt Gd Cd Gp Nb Ap Hf Hb.
  assert (Gq : good_path q) by (rewrite <- (app_nil_r q); apply G; rewrite app_nil_r; destruct D as (? & ? & ->); discriminate).
  assert (Lq : leads t q (Found q)) by now apply (resolves_dir (m_heap s)).
  destruct (copy_real s init n ct cd d b true fuel) as (s1 & R1 & W1 & S1 & X1 & X2 & X3 & X4); auto.
  { intros r X. now destruct (Nl r). }
  assert (Em : forall z, t (d ++ firstn 1 b ++ z) = None).
  { destruct b as [|bn b']; [easy|]. destruct Gp as (a & _ & _ & _ & N). intros z. cbn [firstn]. rewrite app_assoc. apply below_none. now apply (N bn b'). }
  assert (Disj : forall r z, q ++ r <> d ++ firstn 1 b ++ z).
  { intros r z Ez. symmetry in Ez. apply app_cases in Ez as [(z' & Ez & _)|(m & z' & Ez & E)]; [now apply (Ap z')|].
    destruct b as [|bn b']; [easy|]. cbn [firstn app] in E. injection E as Em0 _. subst m.
    specialize (Em z'). cbn [firstn app] in Em. rewrite <- Ez in Em. destruct D as (? & ? & D'). congruence. }
  assert (Src : forall r, view s1 (q ++ r) = t (q ++ r)) by (intros r; apply X3; apply Disj).
  assert (Nq : q <> []) by (unfold q; now destruct init).
  assert (Q1 : silent s1) by (eapply silent_rest; eauto).
  destruct (remove_recursive_depth s1 q (m_next s - 1) fuel) as (s2 & R2 & W2 & [C1 C2] & S2); auto.
  - pose proof (Src []) as E. rewrite !app_nil_r in E. rewrite E. exact D.
  - intros r. rewrite Src. apply G.
  - intros x Hx El. exfalso. revert El. induction Hx as [r El|p p' _ IH A]; [rewrite Src in El; now apply Nl in El|].
    intros _. destruct A as (tg & mt & mo & E & _). apply IH. rewrite E. now repeat eexists.
  - intros r Hr. rewrite Src in Hr. pose proof (depth_bound s _ W Hr) as X. rewrite app_length in X. lia.
  - assert (Hn : t q <> None) by (destruct D as (? & ? & ->); discriminate). pose proof (depth_bound s _ W Hn). lia.
  - exists s2. split; [|split; [auto|split; [eapply same_rest_trans; eauto|]]].
    + unfold u_move. rewrite run_hooked by auto. unfold fs_move.
      assert (Ef : mem_isfile (mem_uri q) s = (Ok false, s)).
      { rewrite (isfile_spec s W _ q _ (mem_addr _ Gq) Lq). unfold quiet.
        destruct (leads_phys (m_heap s) (m_next s) W q q Lq) as (i & P & _). rewrite P.
        destruct (tree_dir (m_heap s) q i P D) as (es & mt & mo & E'). now rewrite E'. }
      erewrite bind_ok by (unfold u_isfile; rewrite run_hooked by auto; exact Ef). cbn match.
      erewrite bind_ok by exact R1. exact R2.
    + assert (New : forall z, view s2 (d ++ firstn 1 b ++ z) = view s1 (d ++ firstn 1 b ++ z)).
      { intros z. apply C2. intros r E. now apply (Disj r z). }
      split; [exact C1|]. split; [|split].
      * intros y e Ny. transitivity (view s1 (d ++ b ++ y) = Some e); [|exact (X2 y e Ny)].
        destruct b as [|bn b']; [easy|]. specialize (New (b' ++ y)). cbn [firstn app] in New |- *. now rewrite New.
      * intros b1 b2 Eb Nb1. rewrite <- (X1 b1 b2) by auto. destruct b as [|bn b']; [easy|].
        destruct b1 as [|x b1]; [easy|]. injection Eb as -> _. apply (New b1).
      * intros x Hx Hq. rewrite C2 by auto. now apply X3.
Qed.
