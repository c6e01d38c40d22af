(** Lemmas about dumps. *)
From Verif Require Import Str Exc Utf8 UriParse BaseUri StrFacts Utf8Facts SpecUri Mem SpecMem SpecDump Dump
  MemFacts MemFacts4 MemFacts7 HandleFacts.
From Coq Require Import Sorted.

(** ** The specification depends on what is below only *)
Lemma piece_ext t left t' left' p o : piece t left p o -> (forall r, t' (p ++ r) = t (p ++ r)) ->
  (forall r, left' (p ++ r) = left (p ++ r)) -> piece t' left' p o.
Proof.
  intros H. revert p o H.
  apply (piece_mut t left
    (fun p o => (forall r, t' (p ++ r) = t (p ++ r)) -> (forall r, left' (p ++ r) = left (p ++ r)) -> piece t' left' p o)
    (fun d o => (forall r, t' (d ++ r) = t (d ++ r)) -> (forall r, left' (d ++ r) = left (d ++ r)) -> listing t' left' d o)
    (fun d ns o => (forall n r, In n ns -> t' (d ++ n :: r) = t (d ++ n :: r)) -> (forall n r, In n ns -> left' (d ++ n :: r) = left (d ++ n :: r)) -> pieces t' left' d ns o)).
  - intros p d mt mo text V E A B. specialize (A []). specialize (B []). rewrite app_nil_r in A, B. eapply pc_file; [rewrite A; exact V|now rewrite B].
  - intros p target mt mo x V E A B. specialize (A []). rewrite app_nil_r in A. eapply pc_link; [rewrite A; exact V|exact E].
  - intros p mt mo o V L IH A B. eapply pc_dir; [|apply IH; auto]. specialize (A []). rewrite app_nil_r in A. rewrite A. exact V.
  - intros d names o S M P IH A B. eapply ls_all; [exact S| |apply IH; auto]. intros n. rewrite A. apply M.
  - intros. constructor.
  - intros d n ns o os P IH Q IHq A B. constructor.
    + apply IH; intros r; rewrite <- app_assoc; cbn [app]; [apply A|apply B]; now left.
    + apply IHq; intros m r Hm; [apply A|apply B]; now right.
Qed.
Lemma pieces_ext t left t' left' d ns : forall o, pieces t left d ns o ->
  (forall n r, In n ns -> t' (d ++ n :: r) = t (d ++ n :: r)) -> (forall n r, In n ns -> left' (d ++ n :: r) = left (d ++ n :: r)) -> pieces t' left' d ns o.
Proof.
  induction ns as [|n ns IH]; intros o H A B; inversion H; subst; [constructor|]. constructor.
  - eapply piece_ext; [eassumption| |]; intros r; rewrite <- app_assoc; cbn [app]; [apply A|apply B]; now left.
  - apply IH; auto; intros m r Hm; [apply A|apply B]; now right.
Qed.

(** ** Paths *)
Definition pathof (d : list str) : str := lit "memory:///" ++ concat (map (fun n => n ++ [cSlash]) d).
Lemma spelled_pathof d n : spelled (d ++ [n]) = pathof d ++ n.
Proof.
  unfold spelled, pathof. rewrite <- app_assoc. f_equal. induction d as [|a d IH]; [reflexivity|].
  cbn [app map concat join_with]. destruct (d ++ [n]) as [|b l] eqn:E; [now destruct d|]. rewrite IH. now rewrite <- !app_assoc.
Qed.
Lemma pathof_end d : exists x, pathof d = x ++ [cSlash].
Proof.
  unfold pathof. destruct d as [|a d] using rev_ind.
  - exists (lit "memory://"). reflexivity.
  - rewrite map_app, concat_app. cbn [map concat]. rewrite app_nil_r, !app_assoc. eauto.
Qed.
Lemma pathof_step d n : (if suffixb [cSlash] (pathof d) then removelast (pathof d) else pathof d) ++ [cSlash] ++ n ++ [cSlash] = pathof (d ++ [n]).
Proof.
  assert (X : pathof (d ++ [n]) = pathof d ++ n ++ [cSlash]).
  { unfold pathof. rewrite map_app, concat_app. cbn [map concat]. now rewrite app_nil_r, !app_assoc. }
  rewrite X. destruct (pathof_end d) as [x E]. rewrite E. unfold suffixb. rewrite rev_app_distr. cbn [rev app prefixb].
  rewrite N.eqb_refl. cbn [andb]. rewrite removelast_last. now rewrite <- !app_assoc.
Qed.

(** ** Traversing *)
Record kept (s s' : mst) : Prop := {
  ke_wf : wf s';
  ke_phys : forall p, phys (m_heap s') root_id p = phys (m_heap s) root_id p;
  ke_dirs : forall j es mt mo, m_heap s j = NDir es mt mo -> m_heap s' j = NDir es mt mo;
  ke_tree : same_tree (view s) (view s');
  ke_rest : same_rest s s';
  ke_next : m_next s' = m_next s }.
Lemma kept_refl s : wf s -> kept s s.
Proof. intros W. split; auto; try apply same_rest_refl. now intros p. Qed.
Lemma kept_trans a b c : kept a b -> kept b c -> kept a c.
Proof.
  intros [A1 A2 A3 A4 A5 A6] [B1 B2 B3 B4 B5 B6]. split; auto.
  - intros p. now rewrite B2.
  - intros p. now rewrite B4.
  - eapply same_rest_trans; eauto.
  - congruence.
Qed.

Definition readable_at (s : mst) (p : list str) : Prop :=
  (is_efile (view s p) -> exists text, utf8_encode text = Ok (left_of s p)) /\
  (forall tg mt mo, view s p = Some (ELink tg mt mo) -> exists x, u_str tg = Ok x).

Section T.
Variable image : str -> bool.
Variable nb : bool.

Definition body (fuel : nat) (es : dict nat) (path name : str) : M (mst * str) unit :=
  let! i <- lift (match dget name es with Some i => Ok i | None => Raise KeyError end);
  let! value <- on_mem (get_node_obj i);
  match value with
  | NFile _ =>
      if nb && image name then raise TypeError
      else
        out (lit "--- START " ++ path ++ name ++ lit " ---" ++ [cNL]) ;;
        let! t <- on_mem (h_read (mkHandle i true false) (-1));
        out (match t with VStr t => t | VBytes b => b end) ;;
        out ([cNL] ++ lit "--- END ---" ++ [cNL; cNL])
  | NLink target _ _ =>
      let! t <- lift (u_str target);
      out (lit "LINK: " ++ path ++ name ++ lit " -> " ++ t ++ [cNL])
  | NDir _ _ _ =>
      out (lit "DIR: " ++ path ++ name ++ [cNL]) ;;
      traverse image nb fuel i
        ((if suffixb [cSlash] path then removelast path else path) ++ [cSlash] ++ name ++ [cSlash])
  end.
Lemma traverse_body fuel i path s o es mt mo : m_heap s i = NDir es mt mo ->
  traverse image nb (S fuel) i path (s, o) = mapM_ (body fuel es path) (sort_strs (map fst es)) (s, o).
Proof. intros E. cbn [traverse]. unfold bind at 1, on_mem at 1, get_node_obj at 1. cbn [fst snd]. rewrite E. reflexivity. Qed.

Definition fine (s : mst) (p : list str) : Prop :=
  forall r, readable_at s (p ++ r) /\ (is_efile (view s (p ++ r)) -> nb && image (last (p ++ r) []) = false).
Definition done_at (s s' : mst) (p : list str) : Prop :=
  kept s s' /\ (forall q, (forall r, q <> p ++ r) -> left_of s' q = left_of s q) /\ (forall r, left_of s' (p ++ r) = []).

Lemma left_phys s p i : phys (m_heap s) root_id p = Some i -> left_of s p = match m_heap s i with NFile f => skipn (f_pos f) (f_data f) | _ => [] end.
Proof. intros E. unfold left_of. now rewrite E. Qed.
Lemma left_below s p i r : phys (m_heap s) root_id p = Some i -> is_dir (m_heap s i) = false -> r <> [] -> left_of s (p ++ r) = [].
Proof.
  intros E D N. unfold left_of. rewrite phys_app, E. destruct r as [|n r]; [easy|]. cbn. now destruct (m_heap s i).
Qed.

Lemma one fuel es mt mo i d n s o :
  (forall i' d' s' o', wf s' -> phys (m_heap s') root_id d' = Some i' -> is_dir (m_heap s' i') = true -> m_next s' - i' <= fuel -> fine s' d' ->
     exists s'' o2, traverse image nb fuel i' (pathof d') (s', o') = (Ok tt, (s'', o' ++ o2)) /\ listing (view s') (left_of s') d' o2 /\ done_at s' s'' d') ->
  wf s -> phys (m_heap s) root_id d = Some i -> m_heap s i = NDir es mt mo -> m_next s - i <= S fuel -> In n (map fst es) -> fine s (d ++ [n]) ->
  exists s' o2, body fuel es (pathof d) n (s, o) = (Ok tt, (s', o ++ o2)) /\ piece (view s) (left_of s) (d ++ [n]) o2 /\ done_at s s' (d ++ [n]).
Proof.
  intros IH W P E Fu In F.
  assert (Bi := phys_root_lt _ _ _ _ W P).
  destruct (dget n es) as [j|] eqn:G.
  2: { exfalso. apply in_map_iff in In as ([n' j] & <- & In). apply dget_In_NoDup in In; [cbn in G; congruence|]. apply (wf_names _ _ W _ _ _ _ Bi E). }
  assert (Pj : phys (m_heap s) root_id (d ++ [n]) = Some j) by (rewrite phys_snoc, P, E; exact G).
  assert (Bj := phys_root_lt _ _ _ _ W Pj).
  assert (Lt : i < j) by (apply dget_In in G; apply (wf_child _ _ W _ _ _ _ _ _ Bi E) in G; lia).
  assert (Vj : view s (d ++ [n]) = Some (entry_of (m_heap s j))) by (unfold view, tree_of; now rewrite Pj).
  destruct (F []) as [[Ft Fl] Fi]. rewrite app_nil_r in Ft, Fl, Fi.
  unfold body, bind at 1, lift at 1. rewrite G. unfold bind at 1, on_mem at 1, get_node_obj at 1. cbn [fst snd].
  destruct (m_heap s j) as [f|es' mt' mo'|tg mt' mo'] eqn:Ej.
  - rewrite last_last in Fi. rewrite Fi by (rewrite Vj; do 3 eexists; reflexivity).
    destruct Ft as [text Tx]; [rewrite Vj; do 3 eexists; reflexivity|].
    destruct (run_read s j f Ej (-1)) as (s1 & R1 & U).
    assert (Lf := left_phys _ _ _ Pj). rewrite Ej in Lf. unfold bio_read in R1, U. cbn [Z.ltb Z.compare fst snd] in R1, U.
    rewrite <- Lf in R1, U.
    unfold bind at 1, out at 1. cbn [fst snd]. unfold bind at 1, on_mem at 1. cbn [fst snd]. unfold h_read. cbn [h_readable negb h_node].
    unfold bind at 1. rewrite R1. unfold lift, proxy_decode. cbn [h_binary]. rewrite (utf8_roundtrip _ _ Tx). cbn [rbind].
    unfold bind at 1, out at 1. cbn [fst snd]. unfold out. cbn [fst snd].
    exists s1. eexists. split; [rewrite <- !app_assoc; reflexivity|]. split; [|split; [|split]].
    + replace (lit "--- START " ++ pathof d ++ n ++ lit " ---" ++ [cNL] ++ text ++ [cNL] ++ lit "--- END ---" ++ [cNL; cNL])
        with (lit "--- START " ++ spelled (d ++ [n]) ++ lit " ---" ++ [cNL] ++ text ++ [cNL] ++ lit "--- END ---" ++ [cNL; cNL]).
      * eapply pc_file; [exact Vj|exact Tx].
      * rewrite spelled_pathof. now rewrite <- !app_assoc.
    + split.
      * eapply file_upd_wf; eauto.
      * intros p. apply (file_upd_phys _ _ _ _ _ _ U).
      * intros k es1 mt1 mo1 Ek. rewrite (fu_else _ _ _ _ _ U); auto. intros ->. congruence.
      * eapply file_upd_quiet; eauto.
      * apply U.
      * apply U.
    + intros q Nq. unfold left_of. rewrite (file_upd_phys _ _ _ _ _ _ U). destruct (phys (m_heap s) root_id q) as [k|] eqn:Pk; auto.
      rewrite (fu_else _ _ _ _ _ U); auto. intros ->. apply (Nq []). rewrite app_nil_r. eapply phys_inj; eauto.
    + intros r. destruct r as [|m r].
      * rewrite app_nil_r. rewrite (left_phys _ _ j) by (now rewrite (file_upd_phys _ _ _ _ _ _ U)). rewrite (fu_new _ _ _ _ _ U). cbn [fset f_pos f_data].
        rewrite Lf, skipn_length. apply skipn_all2. lia.
      * eapply left_below; [rewrite (file_upd_phys _ _ _ _ _ _ U); exact Pj| |discriminate]. now rewrite (fu_new _ _ _ _ _ U).
  - unfold bind at 1, out at 1. cbn [fst snd]. rewrite pathof_step.
    destruct (IH j (d ++ [n]) s (o ++ lit "DIR: " ++ pathof d ++ n ++ [cNL])) as (s' & o2 & T & L & D); auto; [now rewrite Ej|lia|].
    exists s'. eexists. split; [eapply eq_trans; [exact T|]; rewrite <- !app_assoc; reflexivity|]. split; auto.
    replace (lit "DIR: " ++ pathof d ++ n ++ [cNL] ++ o2) with (lit "DIR: " ++ spelled (d ++ [n]) ++ [cNL] ++ o2) by (rewrite spelled_pathof; now rewrite <- !app_assoc).
    eapply pc_dir; [exact Vj|exact L].
  - destruct (Fl tg mt' mo' Vj) as [x X]. unfold bind at 1, lift. rewrite X. unfold out. cbn [fst snd].
    exists s. eexists. split; [reflexivity|]. split; [|split; [now apply kept_refl|split; auto]].
    + replace (lit "LINK: " ++ pathof d ++ n ++ lit " -> " ++ x ++ [cNL]) with (lit "LINK: " ++ spelled (d ++ [n]) ++ lit " -> " ++ x ++ [cNL]) by (rewrite spelled_pathof; now rewrite <- !app_assoc).
      eapply pc_link; [exact Vj|exact X].
    + intros r. destruct r as [|m r].
      * rewrite app_nil_r, (left_phys _ _ _ Pj). now rewrite Ej.
      * eapply left_below; [exact Pj| |discriminate]. now rewrite Ej.
Qed.

Lemma fine_kept s s' p : kept s s' -> (forall r, left_of s' (p ++ r) = left_of s (p ++ r)) -> fine s p -> fine s' p.
Proof.
  intros K L F r. destruct (F r) as [[A B] C]. unfold readable_at. rewrite (ke_tree _ _ K), L. auto.
Qed.
Lemma two_names (d : list str) n m r r' : n <> m -> d ++ n :: r <> (d ++ [m]) ++ r'.
Proof. intros N H. rewrite <- app_assoc in H. apply app_inv_head in H. cbn in H. congruence. Qed.

Lemma several fuel es mt mo i d :
  (forall i' d' s' o', wf s' -> phys (m_heap s') root_id d' = Some i' -> is_dir (m_heap s' i') = true -> m_next s' - i' <= fuel -> fine s' d' ->
     exists s'' o2, traverse image nb fuel i' (pathof d') (s', o') = (Ok tt, (s'', o' ++ o2)) /\ listing (view s') (left_of s') d' o2 /\ done_at s' s'' d') ->
  forall ns s o, NoDup ns -> wf s -> phys (m_heap s) root_id d = Some i -> m_heap s i = NDir es mt mo -> m_next s - i <= S fuel ->
  (forall n, In n ns -> In n (map fst es)) -> (forall n, In n ns -> fine s (d ++ [n])) ->
  exists s' o2, mapM_ (body fuel es (pathof d)) ns (s, o) = (Ok tt, (s', o ++ o2)) /\ pieces (view s) (left_of s) d ns o2 /\ kept s s' /\
    (forall q, (forall n r, In n ns -> q <> (d ++ [n]) ++ r) -> left_of s' q = left_of s q) /\
    (forall n r, In n ns -> left_of s' ((d ++ [n]) ++ r) = []).
Proof.
  intros IH. induction ns as [|n ns IHn]; intros s o ND W P E Fu Sub F.
  - exists s, []. rewrite app_nil_r. split; [reflexivity|]. split; [constructor|]. split; [now apply kept_refl|]. split; auto. intros n r [].
  - inversion ND as [|? ? Nn ND']; subst.
    destruct (one fuel es mt mo i d n s o IH W P E Fu (Sub _ (or_introl eq_refl)) (F _ (or_introl eq_refl))) as (s1 & o1 & R1 & P1 & K1 & L1 & D1).
    cbn [mapM_]. unfold bind. rewrite R1.
    assert (Fr : forall m r, In m ns -> left_of s1 (d ++ m :: r) = left_of s (d ++ m :: r)).
    { intros m r Hm. apply L1. intros r'. apply two_names. intros ->. contradiction. }
    destruct (IHn s1 (o ++ o1) ND') as (s2 & o2 & R2 & P2 & K2 & L2 & D2).
    + apply K1.
    + now rewrite (ke_phys _ _ K1).
    + now apply K1.
    + now rewrite (ke_next _ _ K1).
    + intros m Hm. apply Sub. now right.
    + intros m Hm. eapply fine_kept; [exact K1| |apply F; now right]. intros r. rewrite <- app_assoc. now apply Fr.
    + exists s2, (o1 ++ o2). split; [eapply eq_trans; [exact R2|]; now rewrite app_assoc|]. split; [|split; [eapply kept_trans; eauto|split]].
      * constructor; auto. eapply pieces_ext; [exact P2| |].
        -- intros m r Hm. now rewrite (ke_tree _ _ K1).
        -- intros m r Hm. symmetry. now apply Fr.
      * intros q Nq. rewrite L2; [|intros m r Hm; apply Nq; now right]. apply L1. intros r. apply Nq. now left.
      * intros m r [<-|Hm]; [|now apply D2]. rewrite L2; auto. intros m' r' Hm'. rewrite <- app_assoc. apply two_names. intros ->. contradiction.
Qed.

Lemma trav fuel : forall i d s o, wf s -> phys (m_heap s) root_id d = Some i -> is_dir (m_heap s i) = true -> m_next s - i <= fuel -> fine s d ->
  exists s' o2, traverse image nb fuel i (pathof d) (s, o) = (Ok tt, (s', o ++ o2)) /\ listing (view s) (left_of s) d o2 /\ done_at s s' d.
Proof.
  induction fuel as [|fuel IH]; intros i d s o W P D Fu F.
  { apply (phys_root_lt _ _ _ _ W) in P. lia. }
  destruct (m_heap s i) as [|es mt mo|] eqn:E; try discriminate.
  assert (Bi := phys_root_lt _ _ _ _ W P).
  assert (ND := wf_names _ _ W _ _ _ _ Bi E).
  rewrite (traverse_body _ _ _ _ _ _ _ _ E).
  destruct (several fuel es mt mo i d IH (sort_strs (map fst es)) s o) as (s' & o2 & R & Ps & K & L1 & L2); auto.
  - now apply sort_NoDup.
  - intros n. apply sort_In.
  - intros n _ r. rewrite <- app_assoc. apply F.
  - exists s', o2. split; [exact R|].
    assert (Nm : forall n, In n (sort_strs (map fst es)) <-> view s (d ++ [n]) <> None).
    { intros n. rewrite sort_In. unfold view, tree_of. rewrite phys_snoc, P, E. destruct (dget n es) as [j|] eqn:G; cbn.
      - split; [discriminate|]. intros _. apply dget_In in G. now apply (in_map fst) in G.
      - split; [|easy]. intros H. apply in_map_iff in H as ([n' j] & <- & H). apply dget_In_NoDup in H; auto. cbn in G. congruence. }
    split; [|split; [exact K|split]].
    + eapply ls_all; [exact (sort_strict _ ND)|exact Nm|exact Ps].
    + intros q Nq. apply L1. intros n r _. rewrite <- app_assoc. apply Nq.
    + intros [|n r].
      * rewrite app_nil_r. unfold left_of. rewrite (ke_phys _ _ K), P. now rewrite (ke_dirs _ _ K _ _ _ _ E).
      * destruct (view s (d ++ [n])) eqn:V.
        -- change (d ++ n :: r) with (d ++ [n] ++ r). rewrite app_assoc. apply L2. apply Nm. now rewrite V.
        -- change (d ++ n :: r) with (d ++ [n] ++ r). rewrite app_assoc. unfold left_of. rewrite (ke_phys _ _ K), phys_app.
           unfold view, tree_of in V. now destruct (phys (m_heap s) root_id (d ++ [n])).
Qed.
End T.

Lemma dump_run image nb s o : wf s ->
  (forall p, readable_at s p) -> (forall p n, nb = true -> is_efile (view s (p ++ [n])) -> image n = false) ->
  exists s' o2, mem_dump image nb (s, o) = (Ok tt, (s', o ++ lit "MEMORY DUMP: START" ++ [cNL] ++ o2 ++ lit "MEMORY DUMP: END" ++ [cNL])) /\
    listing (view s) (left_of s) [] o2 /\ kept s s' /\ (forall p, left_of s' p = []).
Proof.
  intros W A B. unfold mem_dump, bind, out, get. cbn [fst snd].
  destruct (trav image nb (m_next s) root_id [] s (o ++ lit "MEMORY DUMP: START" ++ [cNL])) as (s' & o2 & R & L & K & _ & D); auto.
  - destruct (wf_root _ _ W) as (es & mt & mo & E). now rewrite E.
  - cbn. lia.
  - intros r. split; [apply A|]. cbn [app]. intros F. destruct nb; auto. destruct r as [|n r] using rev_ind.
    + destruct (wf_root _ _ W) as (es & mt & mo & E). destruct F as (x & y & z & V). cbn in V. rewrite E in V. discriminate.
    + rewrite last_last. cbn [andb]. eapply B; eauto.
  - change (lit "memory:///") with (pathof []). match goal with |- context [traverse ?a ?b ?c ?d ?e ?f] => replace (traverse a b c d e f) with (@Ok unit tt, (s', (o ++ lit "MEMORY DUMP: START" ++ [cNL]) ++ o2)) by (symmetry; exact R) end.
    cbn [fst snd]. exists s', o2. rewrite <- !app_assoc. auto.
Qed.
