(** A part of a memory file system, and the file system without the rest: changes of the state *)
From Coq Require Import Lia.
From Verif Require Import Str Exc StrFacts UriParse BaseUri Mem SpecUri SpecMem MemFacts MemFacts2 MemFacts5 MemTwin SpecApart ApartFacts.
Open Scope nat_scope.

Section Part.
Variable K : str -> bool.
Hypothesis tops : top_names K.

Lemma put_part t t' c p e : K c = true -> put_at t t' (c :: p) e -> enclosed K t ->
  (forall target mt mo, e = ELink target mt mo -> leads_in K target) -> (forall p0 n, p = p0 ++ [n] -> t (c :: p) <> None \/ simple_name n) ->
  enclosed K t' /\ (forall c' p', K c' = false -> t' (c' :: p') = t (c' :: p')) /\ (t [[]] = None -> t' [[]] = None).
Proof.
  intros Kc [P1 P2] [L N] Le Ne. destruct (tops c Kc) as (Nc & _ & _). split; [|split].
  - constructor.
    + intros c' p' tg mt mo Kc' E. destruct (list_eq_dec (list_eq_dec N.eq_dec) (c' :: p') (c :: p)) as [X|X].
      * rewrite X, P1 in E. injection E as E. exact (Le _ _ _ E).
      * rewrite (P2 _ X) in E. exact (L _ _ _ _ _ Kc' E).
    + intros c' p' n Kc' E. destruct (list_eq_dec (list_eq_dec N.eq_dec) (c' :: p' ++ [n]) (c :: p)) as [X|X].
      * injection X as -> Xp. destruct (Ne p' n (eq_sym Xp)) as [F|F]; [|exact F]. apply (N c p' n Kc). now rewrite Xp.
      * rewrite (P2 _ X) in E. exact (N _ _ _ Kc' E).
  - intros c' p' Kc'. apply P2. intros X. injection X as -> _. congruence.
  - intros B. rewrite P2; [exact B|]. intros X. injection X as <- _. easy.
Qed.
Lemma cut_part t t' c p : K c = true -> cut_at t t' (c :: p) -> enclosed K t ->
  enclosed K t' /\ (forall c' p', K c' = false -> t' (c' :: p') = t (c' :: p')) /\ (t [[]] = None -> t' [[]] = None).
Proof.
  intros Kc [C1 C2] [L N]. destruct (tops c Kc) as (Nc & _ & _).
  assert (D : forall q, t' q <> None -> t' q = t q).
  { intros q Q. apply C2. intros r ->. apply Q. apply C1. }
  split; [|split].
  - constructor.
    + intros c' p' tg mt mo Kc' E. apply (L c' p' tg mt mo Kc'). rewrite <- D; [exact E|]. rewrite E. discriminate.
    + intros c' p' n Kc' E. apply (N c' p' n Kc'). rewrite <- (D _ E). exact E.
  - intros c' p' Kc'. apply C2. intros r X. injection X as -> _. congruence.
  - intros B. destruct (t' [[]]) as [e|] eqn:E; [|reflexivity]. rewrite D in E; [congruence|]. rewrite E. discriminate.
Qed.

Variable s0 : mst.
Record pruned (I : list nat) (s x : mst) : Prop := {
  pr_wf : wf s;
  pr_wfx : wf x;
  pr_next : m_next x = m_next s;
  pr_node : forall i, i <> root_id -> m_heap x i = m_heap s i;
  pr_root : forall es mt mo, m_heap s root_id = NDir es mt mo -> exists es' mt' mo', m_heap x root_id = NDir es' mt' mo' /\
              (forall n, K n = true -> dget n es' = dget n es) /\ (forall n, K n = false -> dget n es' = None);
  pr_now : m_now x = m_now s;
  pr_epoch : m_epoch x = m_epoch s;
  pr_cbs : forall p, watched K p -> dget p (m_cbs x) = dget p (m_cbs s);
  pr_rest : forall p, ~ watched K p -> dget p (m_cbs x) = None;
  pr_enc : enclosed K (view s);
  pr_blank : view s [[]] = None;
  pr_in : Forall (inside K (m_heap s)) I;
  pr_frame : forall c p, K c = false -> view s (c :: p) = view s0 (c :: p);
  pr_fnow : m_now s = m_now s0;
  pr_fcbs : forall p, K (hd [] (split_on cSlash p)) = false -> dget p (m_cbs s) = dget p (m_cbs s0) }.

Lemma pruned_incl I I' s x : pruned I s x -> incl I' I -> pruned I' s x.
Proof. intros [] Hi. constructor; auto. eapply incl_Forall; eauto. Qed.
Lemma roots1 I s x : pruned I s x -> forall es mt mo, m_heap s root_id = NDir es mt mo -> exists es' mt' mo', m_heap x root_id = NDir es' mt' mo' /\ forall n, K n = true -> dget n es' = dget n es.
Proof. intros P es mt mo H. destruct (pr_root _ _ _ P es mt mo H) as (es' & mt' & mo' & A & B & _). now exists es', mt', mo'. Qed.
Lemma inside_view s i : inside K (m_heap s) i -> exists c p, K c = true /\ phys (m_heap s) root_id (c :: p) = Some i /\ view s (c :: p) = Some (entry_of (m_heap s i)).
Proof. intros (c & p & Kc & E). exists c, p. split; [exact Kc|]. split; [exact E|]. unfold view, tree_of. now rewrite E. Qed.
Lemma links1 I s x : pruned I s x -> forall i target mt mo, inside K (m_heap s) i -> m_heap s i = NLink target mt mo -> leads_in K target.
Proof. intros P i tg mt mo In H. destruct (inside_view s i In) as (c & p & Kc & _ & V). rewrite H in V. exact (en_links _ _ (pr_enc _ _ _ P) _ _ _ _ _ Kc V). Qed.
Lemma node1 I s x i : pruned I s x -> inside K (m_heap s) i -> m_heap x i = m_heap s i.
Proof. intros P In. apply (pr_node _ _ _ P). apply (inside_root K (m_heap s) (m_next s) (pr_wf _ _ _ P) i In). Qed.

Lemma change I I' s x s' x' : pruned I s x -> same_rest s s' -> same_rest x x' -> wf s' -> wf x' -> m_next x' = m_next s' ->
  (forall i, i <> root_id -> m_heap x' i = m_heap s' i) ->
  (forall es mt mo, m_heap s' root_id = NDir es mt mo -> exists es' mt' mo', m_heap x' root_id = NDir es' mt' mo' /\
     (forall n, K n = true -> dget n es' = dget n es) /\ (forall n, K n = false -> dget n es' = None)) ->
  enclosed K (view s') /\ (forall c p, K c = false -> view s' (c :: p) = view s (c :: p)) /\ (view s [[]] = None -> view s' [[]] = None) ->
  Forall (inside K (m_heap s')) I' -> pruned I' s' x'.
Proof.
  intros [] (A1 & A2 & A3 & A4) (B1 & B2 & B3 & B4) W' Wx' N Hn Hr (E1 & E2 & E3) Hi.
  constructor; auto; try congruence.
  - intros p Hp. rewrite A4, B4. auto.
  - intros p Hp. rewrite B4. auto.
  - intros c p Hc. rewrite E2; auto.
  - intros p Hp. rewrite A4. auto.
Qed.
(** (a) The attributes or the content of a node change. *)
Lemma change_set I s x i n : pruned I s x -> inside K (m_heap s) i -> dir_entries n = dir_entries (m_heap s i) ->
  (forall target mt mo, n = NLink target mt mo -> exists mt' mo', m_heap s i = NLink target mt' mo') ->
  pruned I (set_heap s (heap_set (m_heap s) i n)) (set_heap x (heap_set (m_heap x) i n)).
Proof.
  intros P Hi D L. pose proof (pr_wf _ _ _ P) as W. pose proof (inside_pos K _ _ W i Hi) as [Hp Hl]. pose proof (node1 _ _ _ _ P Hi) as Hx.
  destruct (inside_view s i Hi) as (c & p & Kc & Ph & V).
  apply (change I I s x); auto.
  - repeat split.
  - repeat split.
  - apply wfh_set; auto.
  - apply wfh_set; [apply (pr_wfx _ _ _ P)|now rewrite Hx|]. intros _. cbn [set_heap m_next]. rewrite (pr_next _ _ _ P). exact Hl.
  - exact (pr_next _ _ _ P).
  - intros j Hj. cbn [set_heap m_heap]. unfold heap_set. destruct (Nat.eqb j i); [reflexivity|]. now apply (pr_node _ _ _ P).
  - intros es mt mo. cbn [set_heap m_heap]. rewrite !heap_set_other by lia. apply (pr_root _ _ _ P).
  - apply (put_part (view s) _ c p (entry_of n) Kc).
    + exact (tree_set (m_heap s) (m_next s) i n (c :: p) W D Ph).
    + apply (pr_enc _ _ _ P).
    + intros tg mt mo E. destruct n as [f|es a b|tg' a b]; try discriminate E. injection E as -> -> ->. destruct (L _ _ _ eq_refl) as (a' & b' & L'). exact (links1 _ _ _ P i _ _ _ Hi L').
    + intros p0 m ->. left. rewrite V. discriminate.
  - pose proof (pr_in _ _ _ P) as F. eapply Forall_impl; [|exact F]. intros k (c' & p' & Kc' & E). exists c', p'. split; [exact Kc'|]. cbn [set_heap m_heap]. now rewrite phys_set.
Qed.
(** The place of a node to start from *)
Lemma start_place I s x i n : pruned I s x -> start K (m_heap s) i n -> exists d c p, phys (m_heap s) root_id d = Some i /\ d ++ [n] = c :: p /\ K c = true /\
  (d = [] /\ p = [] \/ exists p0, p = p0 ++ [n]) /\ i < m_next s.
Proof.
  intros P [(c & p & Kc & E)|[-> Kn]].
  - exists (c :: p), c, (p ++ [n]). split; [exact E|]. split; [reflexivity|]. split; [exact Kc|]. split; [right; now exists p|]. exact (phys_root_lt _ _ _ _ (pr_wf _ _ _ P) E).
  - exists [], n, []. split; [reflexivity|]. split; [reflexivity|]. split; [exact Kn|]. split; [now left|]. apply (wf_pos _ _ (pr_wf _ _ _ P)).
Qed.
Lemma start_dirs I s x i n : pruned I s x -> start K (m_heap s) i n ->
  (exists es mt mo es' mt' mo', m_heap s i = NDir es mt mo /\ m_heap x i = NDir es' mt' mo' /\ dget n es' = dget n es /\
     (i <> root_id -> es' = es /\ mt' = mt /\ mo' = mo) /\ (i = root_id -> (forall m, K m = true -> dget m es' = dget m es) /\ (forall m, K m = false -> dget m es' = None))) \/
  (dir_entries (m_heap s i) = None /\ m_heap x i = m_heap s i).
Proof.
  intros P [In|[-> Kn]].
  - rewrite (node1 _ _ _ _ P In). pose proof (inside_root K _ _ (pr_wf _ _ _ P) i In) as Nr. destruct (m_heap s i) as [f|es mt mo|tg mt mo]; [now right| |now right]. left. do 6 eexists. split; [reflexivity|]. split; [reflexivity|]. split; [reflexivity|]. split; [now intros _|]. intros E. now destruct (Nr E).
  - destruct (wf_root _ _ (pr_wf _ _ _ P)) as (es & mt & mo & H). destruct (pr_root _ _ _ P es mt mo H) as (es' & mt' & mo' & H' & D1 & D2). left. exists es, mt, mo, es', mt', mo'.
    split; [exact H|]. split; [exact H'|]. split; [now apply D1|]. split; [intros X; now destruct X|]. now split.
Qed.
(** (b) A new entry *)
Lemma change_add I s x i n leaf es mt mo : pruned I s x -> start K (m_heap s) i n -> m_heap s i = NDir es mt mo -> dhas n es = false -> no_entries leaf -> simple_name n ->
  (forall target mt mo, leaf = NLink target mt mo -> leads_in K target) ->
  pruned (m_next s :: I) (added s i n leaf) (added x i n leaf).
Proof.
  intros P St H Dn Ne Sn L. pose proof (pr_wf _ _ _ P) as W. pose proof (pr_wfx _ _ _ P) as Wx. destruct (start_place _ _ _ _ _ P St) as (d & c & p & Ph & Ed & Kc & Hp & Hl).
  destruct (start_dirs _ _ _ _ _ P St) as [(es1 & mt1 & mo1 & es' & mt' & mo' & H1 & Hx & Dx & Nr & Rt)|[H1 _]]; [|rewrite H in H1; discriminate H1].
  rewrite H in H1. injection H1 as <- <- <-. assert (Dn' : dhas n es' = false) by (unfold dhas in *; now rewrite Dx). pose proof (pr_next _ _ _ P) as Nx.
  assert (A : forall j, m_heap (added s i n leaf) j = if Nat.eqb j i then NDir (dset n (m_next s) es) mt mo else if Nat.eqb j (m_next s) then leaf else m_heap s j) by (intros j; now apply heap_add_at).
  assert (Ax : forall j, m_heap (added x i n leaf) j = if Nat.eqb j i then NDir (dset n (m_next s) es') mt' mo' else if Nat.eqb j (m_next s) then leaf else m_heap x j).
  { intros j. rewrite <- Nx. apply heap_add_at; [now rewrite Nx|exact Hx]. }
  apply (change I _ s x); auto.
  - repeat split.
  - repeat split.
  - exact (wfh_add _ _ _ _ _ _ _ _ W Hl H Dn Ne).
  - apply (wfh_add _ _ _ _ _ es' mt' mo' Wx); auto. now rewrite Nx.
  - cbn [added m_next]. now rewrite Nx.
  - intros j Hj. rewrite A, Ax. destruct (Nat.eqb j i) eqn:E.
    + apply Nat.eqb_eq in E as ->. destruct (Nr Hj) as (-> & -> & ->). reflexivity.
    + destruct (Nat.eqb j (m_next s)); [reflexivity|]. now apply (pr_node _ _ _ P).
  - intros es2 mt2 mo2. rewrite A, Ax. destruct (Nat.eqb root_id i) eqn:E.
    + apply Nat.eqb_eq in E. intros E2. injection E2 as <- <- <-. do 3 eexists. split; [reflexivity|]. destruct (Rt (eq_sym E)) as [R1 R2].
      assert (Kn : K n = true). { destruct St as [In|[_ Kn]]; [|exact Kn]. destruct (inside_root K _ _ W i In). now symmetry. }
      split; intros m Km; rewrite !dget_dset.
      * now rewrite (R1 m Km).
      * destruct (str_eqb m n) eqn:Em; [apply str_eqb_eq in Em as ->; congruence|]. now apply R2.
    + replace (Nat.eqb root_id (m_next s)) with false; [apply (pr_root _ _ _ P)|]. symmetry. apply Nat.eqb_neq. pose proof (wf_pos _ _ W). unfold root_id. lia.
  - apply (put_part (view s) _ c p (entry_of leaf) Kc).
    + rewrite <- Ed. exact (tree_add _ _ _ _ _ _ _ _ W Hl H Dn Ne d Ph).
    + apply (pr_enc _ _ _ P).
    + intros tg a b E. destruct leaf as [f|es2 a2 b2|tg2 a2 b2]; try discriminate E. injection E as -> -> ->. exact (L _ _ _ eq_refl).
    + intros p0 m ->. right. destruct Hp as [[_ X]|[p1 X]]; [destruct p0; discriminate X|]. apply app_inj_tail in X as [_ ->]. exact Sn.
  - constructor.
    + exists c, p. split; [exact Kc|]. rewrite <- Ed. exact (phys_add_new _ _ _ _ _ _ _ _ W Hl H Dn Ne d Ph []).
    + pose proof (pr_in _ _ _ P) as F. eapply Forall_impl; [|exact F]. intros k (c' & p' & Kc' & E). exists c', p'. split; [exact Kc'|].
      exact (phys_add_some _ _ _ _ _ _ _ _ W Hl H Dn root_id _ k (wf_pos _ _ W) E).
Qed.
(** (c) An entry is removed. *)
Lemma change_del s x i n es mt mo es' mt' mo' : pruned [] s x -> start K (m_heap s) i n -> m_heap s i = NDir es mt mo -> m_heap x i = NDir es' mt' mo' ->
  pruned [] (deleted s i n es mt mo) (deleted x i n es' mt' mo').
Proof.
  intros P St H Hx0. pose proof (pr_wf _ _ _ P) as W. pose proof (pr_wfx _ _ _ P) as Wx. destruct (start_place _ _ _ _ _ P St) as (d & c & p & Ph & Ed & Kc & Hp & Hl).
  destruct (start_dirs _ _ _ _ _ P St) as [(es1 & mt1 & mo1 & es2 & mt2 & mo2 & H1 & Hx & Dx & Nr & Rt)|[H1 _]]; [|rewrite H in H1; discriminate H1].
  rewrite H in H1. injection H1 as <- <- <-. rewrite Hx0 in Hx. injection Hx as <- <- <-. pose proof (pr_next _ _ _ P) as Nx.
  apply (change [] _ s x); auto.
  - repeat split.
  - repeat split.
  - exact (wfh_del _ _ _ _ _ _ _ W H).
  - exact (wfh_del _ _ _ _ _ _ _ Wx Hx0).
  - intros j Hj. cbn [deleted set_heap m_heap]. unfold heap_set. destruct (Nat.eqb j i) eqn:E; [|now apply (pr_node _ _ _ P)].
    apply Nat.eqb_eq in E as ->. destruct (Nr Hj) as (-> & -> & ->). reflexivity.
  - intros es2 mt2 mo2. cbn [deleted set_heap m_heap]. unfold heap_set. destruct (Nat.eqb root_id i) eqn:E; [|apply (pr_root _ _ _ P)].
    apply Nat.eqb_eq in E. intros E2. injection E2 as <- <- <-. do 3 eexists. split; [reflexivity|]. destruct (Rt (eq_sym E)) as [R1 R2].
    pose proof (wf_names _ _ W i _ _ _ Hl H) as D1. pose proof (wf_names _ _ Wx i es' mt' mo') as D2. rewrite Nx in D2. specialize (D2 Hl Hx0).
    split; intros m Km; rewrite !dget_ddel by assumption; destruct (str_eqb m n); auto.
  - apply (cut_part (view s) _ c p Kc).
    + rewrite <- Ed. exact (tree_del _ _ _ _ _ _ _ W Hl H d Ph).
    + apply (pr_enc _ _ _ P).
Qed.
End Part.
