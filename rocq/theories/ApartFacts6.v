(** A part of a memory file system, and the file system without the rest: what two parties do *)
From Coq Require Import Lia.
From Verif Require Import Str Exc StrFacts UriParse BaseUri Mem SpecUri SpecMem MemFacts MemFacts2 MemFacts5 MemFacts9 Generic Resp UriOps Prog MemTwin SpecApart ApartFacts ApartFacts2 ApartFacts3 Pair ApartFacts4 ApartFacts5.
Open Scope nat_scope.

Lemma dget_filter {V} f k (d : dict V) : dget k (filter (fun e => f (fst e)) d) = if f k then dget k d else None.
Proof.
  induction d as [|[k' v] d IH]; cbn [filter dget fst]; [now destruct (f k)|]. destruct (f k') eqn:F; cbn [dget]; destruct (str_eqb k k') eqn:E; auto.
  - apply str_eqb_eq in E as ->. now rewrite F.
  - rewrite IH. apply str_eqb_eq in E as ->. now rewrite F.
Qed.
Lemma filter_names {V} f (d : dict V) : NoDup (map fst d) -> NoDup (map fst (filter (fun e => f (fst e)) d)).
Proof.
  induction d as [|[k v] d IH]; cbn [map filter fst]; [auto|]. intros N. inversion N as [|? ? N1 N2]; subst. destruct (f k); [|auto]. cbn [map fst]. constructor; [|auto].
  intros H. apply N1. apply in_map_iff in H as (e & <- & He). apply filter_In in He as [He _]. now apply in_map.
Qed.
Section Part.
Variable K : str -> bool.
Definition watchb (p : str) : bool := match p with [] => true | _ => K (hd [] (split_on cSlash p)) end.
Lemma watchb_ok p : watchb p = true <-> watched K p.
Proof. unfold watchb, watched. destruct p as [|c p]; [split; auto|]. split; [auto|]. intros [H|H]; [discriminate H|exact H]. Qed.
(** The rest taken away *)
Definition alone (s : mst) : mst :=
  mkM (heap_set (m_heap s) root_id (NDir (filter (fun e => K (fst e)) (match m_heap s root_id with NDir es _ _ => es | _ => [] end)) 0 0))
      (m_next s) (m_now s) (m_epoch s) (m_held s) (filter (fun e => watchb (fst e)) (m_cbs s)).
Lemma alone_wf s : wf s -> wf (alone s).
Proof.
  intros W. destruct (wf_root _ _ W) as (es & mt & mo & H).
  assert (D : forall i es' mt' mo', m_heap (alone s) i = NDir es' mt' mo' -> exists es1 mt1 mo1, m_heap s i = NDir es1 mt1 mo1 /\ (forall e, In e es' -> In e es1) /\ (NoDup (map fst es1) -> NoDup (map fst es'))).
  { intros i es' mt' mo'. cbn [alone m_heap]. unfold heap_set. rewrite H. destruct (Nat.eqb_spec i root_id) as [->|].
    - intros E. injection E as <- _ _. exists es, mt, mo. split; [exact H|]. split; [intros e He; now apply filter_In in He|apply filter_names].
    - intros E. exists es', mt', mo'. auto. }
  constructor.
  - exact (wf_pos _ _ W).
  - cbn [alone m_heap]. rewrite heap_set_same. eauto.
  - intros i es' mt' mo' n j Hi E I. destruct (D _ _ _ _ E) as (es1 & mt1 & mo1 & H1 & I1 & _). exact (wf_child _ _ W i es1 mt1 mo1 n j Hi H1 (I1 _ I)).
  - intros i es' mt' mo' Hi E. destruct (D _ _ _ _ E) as (es1 & mt1 & mo1 & H1 & _ & N1). apply N1. exact (wf_names _ _ W i es1 mt1 mo1 Hi H1).
  - intros i i' es1 es2 mt1 mo1 mt2 mo2 n n' j Hi Hi' E1 E2 I1 I2. destruct (D _ _ _ _ E1) as (x1 & y1 & z1 & A1 & B1 & _), (D _ _ _ _ E2) as (x2 & y2 & z2 & A2 & B2 & _).
    exact (wf_parent _ _ W i i' x1 x2 y1 z1 y2 z2 n n' j Hi Hi' A1 A2 (B1 _ I1) (B2 _ I2)).
  - intros i Hi. cbn [alone m_heap]. pose proof (wf_pos _ _ W). cbn [alone m_next] in Hi. rewrite heap_set_other by (unfold root_id; lia). exact (wf_free _ _ W i Hi).
Qed.
Lemma alone_pruned s : wf s -> enclosed K (view s) -> view s [[]] = None -> pruned K s [] s (alone s).
Proof.
  intros W E B. constructor; auto.
  - now apply alone_wf.
  - intros i Hi. cbn [alone m_heap]. now rewrite heap_set_other.
  - intros es mt mo H. cbn [alone m_heap]. rewrite heap_set_same, H. eexists _, _, _. split; [reflexivity|]. split; intros n Hn; rewrite dget_filter, Hn; reflexivity.
  - intros p Hp. cbn [alone m_cbs]. rewrite dget_filter. apply watchb_ok in Hp. now rewrite Hp.
  - intros p Hp. cbn [alone m_cbs]. rewrite dget_filter. destruct (watchb p) eqn:Wp; [|reflexivity]. apply watchb_ok in Wp. now destruct Hp.
Qed.
(** What is left in it *)
Lemma pruned_view s0 I s x : pruned K s0 I s x -> forall c p, view x (c :: p) = if K c then view s (c :: p) else None.
Proof.
  intros P c p. pose proof (pr_wf _ _ _ _ _ P) as W. destruct (wf_root _ _ W) as (es & mt & mo & H). destruct (pr_root _ _ _ _ _ P es mt mo H) as (es' & mt' & mo' & Hx & D1 & D2).
  assert (F : forall q i, 0 < i < m_next s -> phys (m_heap x) i q = phys (m_heap s) i q /\ forall j, phys (m_heap s) i q = Some j -> 0 < j).
  { induction q as [|n q IH]; intros i Hi; [split; [reflexivity|]; intros j E; injection E as <-; lia|]. cbn [phys]. rewrite (pr_node _ _ _ _ _ P i) by (unfold root_id; lia).
    destruct (m_heap s i) as [f|es1 mt1 mo1|tg mt1 mo1] eqn:Hi'; try (split; [reflexivity|discriminate]). destruct (dget n es1) as [j|] eqn:Dj; [|split; [reflexivity|discriminate]].
    apply dget_In in Dj. pose proof (wf_child _ _ W i es1 mt1 mo1 n j (proj2 Hi) Hi' Dj). apply IH. lia. }
  unfold view, tree_of. cbn [phys]. rewrite H, Hx. destruct (K c) eqn:Kc; [rewrite (D1 c Kc)|now rewrite (D2 c Kc)]. destruct (dget c es) as [j|] eqn:Dj; [|reflexivity].
  apply dget_In in Dj. pose proof (wf_child _ _ W root_id es mt mo c j (wf_pos _ _ W) H Dj) as Hj. destruct (F p j) as [F1 F2]; [unfold root_id in Hj; lia|]. rewrite F1.
  destruct (phys (m_heap s) j p) as [k|] eqn:Ph; [|reflexivity]. cbn [option_map]. specialize (F2 k eq_refl). rewrite (pr_node _ _ _ _ _ P k) by (unfold root_id; lia). reflexivity.
Qed.
Lemma alone_alike s s' : wf s -> wf s' -> same_part K s s' -> enclosed K (view s) -> view s [[]] = None -> enclosed K (view s') -> view s' [[]] = None -> alike [] (alone s) (alone s').
Proof.
  intros W W' [S1 S2 S3] E B E' B'. pose proof (alone_pruned s W E B) as P. pose proof (alone_pruned s' W' E' B') as P'. constructor; auto using alone_wf; try easy.
  - intros [|c p].
    + unfold view, tree_of. cbn [phys option_map alone m_heap]. now rewrite !heap_set_same.
    + rewrite (pruned_view _ _ _ _ P), (pruned_view _ _ _ _ P'). destruct (K c) eqn:Kc; [now rewrite (S1 c p Kc)|reflexivity].
  - intros p. cbn [alone]. unfold callback_at in *. cbn [alone m_cbs]. rewrite !dget_filter. destruct (watchb p) eqn:Wp; [|reflexivity]. apply watchb_ok in Wp. symmetry. now apply S3.
Qed.
End Part.
