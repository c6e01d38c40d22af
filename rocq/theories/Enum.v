(** All places of a concrete state, by computation (for the examples). *)
From Verif Require Import Str Exc UriParse BaseUri StrFacts Mem SpecMem MemFacts MemFacts2 MemFacts9 MemUri SpecGen GenFacts3.

Fixpoint paths (fuel : nat) (h : nat -> node) (i : nat) : list (list str) :=
  match fuel with
  | O => []
  | S f => [] :: match h i with
                 | NDir es _ _ => flat_map (fun e => map (cons (fst e)) (paths f h (snd e))) es
                 | _ => []
                 end
  end.
Definition places (s : mst) : list (list str) := paths (m_next s) (m_heap s) root_id.
Lemma paths_all h : forall fuel p i j, phys h i p = Some j -> (length p < fuel)%nat -> In p (paths fuel h i).
Proof.
  induction fuel as [|f IH]; intros p i j E L; [lia|]. cbn [paths]. destruct p as [|n p]; [now left|]. right.
  cbn [phys] in E. destruct (h i) as [|es mt mo|]; try discriminate. destruct (dget n es) as [k|] eqn:G; [|discriminate].
  apply in_flat_map. exists (n, k). split; [now apply dget_In|]. apply in_map. apply (IH p k j E). cbn in L. lia.
Qed.
Lemma places_all s p : wf s -> view s p <> None -> In p (places s).
Proof.
  intros W H. pose proof (depth_bound s p W H) as L. unfold view, tree_of in H.
  destruct (phys (m_heap s) root_id p) as [j|] eqn:E; [|easy]. now apply (paths_all _ _ p root_id j).
Qed.
(** Checking something at every place. *)
Lemma at_places s (Pr : list str -> Prop) : wf s -> Forall Pr (places s) -> forall p, view s p <> None -> Pr p.
Proof. intros W F p H. rewrite Forall_forall in F. apply F. now apply places_all. Qed.
Lemma below_places s q (Pr : list str -> Prop) : wf s -> Forall Pr (filter (fun p => if list_eq_dec (list_eq_dec N.eq_dec) (firstn (length q) p) q then true else false) (places s)) ->
  forall r, view s (q ++ r) <> None -> Pr (q ++ r).
Proof.
  intros W F r H. rewrite Forall_forall in F. apply F. apply filter_In. split; [now apply places_all|].
  rewrite firstn_app, firstn_all, Nat.sub_diag. cbn [firstn]. rewrite app_nil_r. now destruct (list_eq_dec _ q q).
Qed.
(** Where links lead on to. *)
Lemma reach_in s q (L : list (list str)) : wf s ->
  Forall (fun p => is_elink (view s p) -> In p L)
    (filter (fun p => if list_eq_dec (list_eq_dec N.eq_dec) (firstn (length q) p) q then true else false) (places s)) ->
  Forall (fun p => forall p', arrow (view s) p p' -> In p' L) L ->
  forall x, link_reach (view s) q x -> In x L.
Proof.
  intros W F1 F2 x H. induction H as [r K|p p' H IH A].
  - refine (below_places s q (fun p => is_elink (view s p) -> In p L) W F1 r _ K).
    intros E. destruct K as (? & ? & ? & K). unfold str in *. rewrite E in K. discriminate.
  - rewrite Forall_forall in F2. eauto.
Qed.
Lemma arrow_at s p cs' q : (exists mt mo, view s p = Some (ELink (mem_uri cs') mt mo)) -> good_path cs' ->
  arrow (view s) p q -> q = cs'.
Proof.
  intros (mt & mo & E) G (tg & mt' & mo' & E' & A). rewrite E in E'. injection E' as <- _ _.
  apply (addr_inj _ _ _ A). now apply mem_addr.
Qed.
Lemma no_arrow s p q : ~ is_elink (view s p) -> ~ arrow (view s) p q.
Proof. intros H (tg & mt & mo & E & _). apply H. now exists tg, mt, mo. Qed.
