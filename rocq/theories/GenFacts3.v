(** Listing and classifying a directory; recursive removal. *)
From Verif Require Import Str Exc Utf8 UriParse BaseUri StrFacts Utf8Facts SpecUri Mem SpecMem MemOps Generic SpecGen.
From Verif Require Import UriFacts2 UriFacts3 MemFacts MemFacts2 MemFacts3 MemFacts4 MemFacts5 MemFacts6 MemFacts7 MemFacts8 MemFacts9 MemUri MemFacts10 MemFacts11 GenFacts1 GenFacts2.
From Coq Require Import Sorted.

Local Notation B := mem_backend.

Lemma run_listing s cs q : wf s -> good_path cs -> leads (view s) cs (Found q) -> is_edir (view s q) ->
  exists l, mem_listdir (mem_uri cs) s = (Ok l, s) /\ sort_strs l = l /\ StronglySorted slt l /\
    forall n, In n l <-> view s (q ++ [n]) <> None.
Proof.
  intros W G L D. destruct (listdir_spec s W (mem_uri cs) cs q) as (l & E & S & I); auto using mem_addr.
  - rewrite proper_filter; auto. apply names_ne, G.
  - exists l. auto using sort_id.
Qed.

Definition dir_here (s : mst) (cs : list str) (n : str) : bool :=
  match fst (mem_isdir (mem_uri (cs ++ [n])) s) with Ok b => b | Raise _ => false end.

Lemma run_kinds s cs names : (forall n, In n names -> good_path (cs ++ [n]) /\ exists b, mem_isdir (mem_uri (cs ++ [n])) s = (Ok b, s)) ->
  kinds B (mem_uri cs) names s
  = (Ok (filter (dir_here s cs) names, filter (fun n => negb (dir_here s cs n)) names), s).
Proof.
  induction names as [|n names IH]; intros H; [reflexivity|]. cbn [kinds].
  destruct (H n) as (G & b & E); [now left|].
  erewrite bind_ok; [|apply lift_ok, mem_div, G].
  erewrite bind_ok by exact E.
  erewrite bind_ok by (apply IH; intros m Hm; apply H; now right).
  unfold ret. cbn [filter fst snd].
  assert (Eb : dir_here s cs n = b) by (unfold dir_here; now rewrite E).
  rewrite Eb. now destruct b.
Qed.

(** ** Depth *)
Lemma phys_depth h next i r j : wfh h next -> i < next -> phys h i r = Some j -> (i + length r <= j < next)%nat.
Proof.
  intros W. revert i; induction r as [|n r IH]; intros i Hi H; cbn in H.
  - injection H as <-. cbn. lia.
  - destruct (h i) eqn:E; try discriminate. destruct (dget n entries) eqn:D; try discriminate.
    apply dget_In in D. destruct (wf_child _ _ W _ _ _ _ _ _ Hi E D). apply IH in H; auto. cbn. lia.
Qed.
Lemma depth_bound s p : wf s -> view s p <> None -> (length p < m_next s)%nat.
Proof.
  intros W H. unfold view, tree_of in H. destruct (phys (m_heap s) root_id p) as [j|] eqn:E; [|easy].
  apply (phys_depth _ (m_next s)) in E; auto; [unfold root_id in E; lia|apply W].
Qed.

(** ** Links whose targets run through directories only *)
Definition shrinks (t t' : tree) : Prop := forall x, t' x = None \/ t' x = t x.
Lemma shrinks_refl t : shrinks t t. Proof. intros x. now right. Qed.
Lemma shrinks_trans a b c : shrinks a b -> shrinks b c -> shrinks a c.
Proof. intros H1 H2 x. destruct (H2 x) as [|E]; auto. rewrite E. apply H1. Qed.
Lemma cut_shrinks t t' p : (forall x, (exists r, x = p ++ r) \/ forall r, x <> p ++ r) -> cut_at t t' p -> shrinks t t'.
Proof. intros D [A E] x. destruct (D x) as [[r ->]|N]; auto. Qed.
Lemma below_dec (p x : list str) : (exists r, x = p ++ r) \/ forall r, x <> p ++ r.
Proof.
  revert x; induction p as [|a p IH]; intros x; [left; now exists x|].
  destruct x as [|b x]; [right; discriminate|].
  destruct (list_eq_dec N.eq_dec b a) as [->|N].
  - destruct (IH x) as [[r ->]|N]; [left; now exists r|right]. intros r E. injection E as E. now apply (N r).
  - right. intros r E. injection E as E _. now apply N.
Qed.

Definition links_ok (t : tree) (X : list str -> Prop) : Prop :=
  forall p, X p -> is_elink (t p) -> exists p', arrow t p p' /\ X p' /\ direct t p'.
Lemma direct_shrinks t t' p : shrinks t t' -> direct t p -> direct t' p.
Proof.
  intros S D pre post E N. destruct (S pre) as [|H]; auto. rewrite H. now apply (D pre post).
Qed.
Lemma links_ok_shrinks t t' X : shrinks t t' -> links_ok t X -> links_ok t' X.
Proof.
  intros S H p Xp (tg & mt & mo & E). destruct (S p) as [|E']; [congruence|]. rewrite E in E'. symmetry in E'.
  destruct (H p Xp) as (p' & (tg' & mt' & mo' & A1 & A2) & Xp' & Dp'); [now exists tg, mt, mo|].
  exists p'. split; [|split]; auto; [|eapply direct_shrinks; eauto]. exists tg, mt, mo. split; congruence.
Qed.
Lemma link_reach_ok t q : (forall p, link_reach t q p -> is_elink (t p) -> exists p', arrow t p p' /\ direct t p') ->
  links_ok t (link_reach t q).
Proof.
  intros H p R L. destruct (H p R L) as (p' & A & D). exists p'. split; [|split]; auto. eapply lr_next; eauto.
Qed.

Section Direct.
Variable s : mst.
Variable W : wf s.
Local Notation t := (view s).

(** A direct path: found, missing, or a link at its end. *)
Lemma direct_cases p : direct t p -> p = [] \/
  (exists d n, p = d ++ [n] /\ is_edir (t d)) \/
  (forall k, resolves t k [] p Missing).
Proof.
  destruct (snoc_cases p) as [->|(d & n & ->)]; [now left|]. intros H. right.
  assert (Dd : forall pre post, d = pre ++ post -> t pre = None \/ is_edir (t pre)).
  { intros pre post ->. apply (H pre (post ++ [n])); [now rewrite app_assoc|now destruct post]. }
  destruct (Dd d []) as [Nd|D]; [now rewrite app_nil_r| |left; eauto]. right. intros k.
  assert (X : forall b a, d = a ++ b -> is_edir (t a) -> resolves t k a (b ++ [n]) Missing).
  { induction b as [|x b IH]; intros a E Da.
    - rewrite app_nil_r in E. subst a. destruct Da as (? & ? & Da). congruence.
    - cbn. destruct (Dd (a ++ [x]) b) as [Nx|Dx]; [now rewrite <- app_assoc| |].
      + now constructor.
      + apply rs_step; auto. apply IH; auto. now rewrite <- app_assoc. }
  apply (X d []); auto. now apply root_dir.
Qed.

Lemma link_resolves X k : links_ok t X -> forall p, X p -> is_elink (t p) ->
  exists o, resolves t k [] p o /\ answers o.
Proof.
  intros H. induction k as [|k IH]; intros p Xp Lp.
  all: destruct (H p Xp Lp) as (p' & A & Xp' & Dp').
  all: destruct (arrow_snoc (m_heap s) (m_next s) W p p' A) as (d & n & -> & D).
  all: assert (Rd : forall k, resolves t k [] d (Found d)) by (intros k'; now apply (resolves_dir (m_heap s))).
  - exists Loop. split; [|cbv; intuition discriminate]. eapply rs_app; eauto. now apply rs_loop.
  - destruct A as (tg & mt & mo & E & At).
    assert (Go : forall o, resolves t k [] p' o -> resolves t (S k) [] (d ++ [n]) o).
    { intros o R. eapply rs_app; eauto. eapply link_follow; eauto. }
    destruct (direct_cases p' Dp') as [->|[(d' & n' & -> & D')|Hm]].
    + exists (Found []). split; [|cbv; intuition discriminate]. apply Go. constructor.
    + assert (Rd' : resolves t k [] d' (Found d')) by now apply (resolves_dir (m_heap s)).
      destruct (entry_cases (t (d' ++ [n']))) as [Ne|[Ef|[Ed|El]]].
      * exists Missing. split; [|cbv; intuition discriminate]. apply Go. eapply rs_app; eauto. now constructor.
      * exists (Found (d' ++ [n'])). split; [|cbv; intuition discriminate]. apply Go. now apply (resolves_entry (m_heap s)); left.
      * exists (Found (d' ++ [n'])). split; [|cbv; intuition discriminate]. apply Go. now apply (resolves_entry (m_heap s)); right.
      * destruct (IH _ Xp' El) as (o & R & An). exists o. auto.
    + exists Missing. split; [|cbv; intuition discriminate]. auto.
Qed.

Lemma isdir_answers cs o : good_path cs -> leads t cs o -> answers o -> exists b, mem_isdir (mem_uri cs) s = (Ok b, s).
Proof.
  intros G L A. destruct o as [q| | | | |].
  - destruct (edir_dec (t q)); [exists true; now apply (isdir_found s W cs q)|exists false; now apply (isdir_file s W cs q)].
  - exists false. now apply (isdir_none s W cs Missing); auto.
  - destruct A. cbn. auto.
  - destruct A. cbn. auto.
  - exists false. now apply (isdir_none s W cs Loop); auto.
  - destruct A. cbn. auto.
Qed.
Lemma isdir_entry X p : links_ok t X -> good_path p -> t p <> None -> (is_elink (t p) -> X p) ->
  exists b, mem_isdir (mem_uri p) s = (Ok b, s) /\ (is_edir (t p) -> b = true) /\ (is_efile (t p) -> b = false).
Proof.
  intros H G N Xl. destruct (entry_cases (t p)) as [Ne|[Ef|[Ed|El]]]; [easy| | |].
  - exists false. split; [|split; [intros (? & ? & Hd); destruct Ef as (? & ? & ? & Ef); congruence|easy]].
    apply (isdir_file s W p p); auto; [apply (resolves_entry (m_heap s)); auto|].
    intros (? & ? & Hd); destruct Ef as (? & ? & ? & Ef); congruence.
  - exists true. split; [|split; [easy|intros (? & ? & ? & Hd); destruct Ed as (? & ? & Ed); congruence]].
    apply (isdir_found s W p p); auto. now apply (resolves_dir (m_heap s)).
  - destruct (link_resolves X 32 H p (Xl El) El) as (o & L & A).
    destruct (isdir_answers p o G L A) as [b Eb]. exists b. split; [exact Eb|].
    destruct El as (? & ? & ? & El). split; [intros (? & ? & Hd)|intros (? & ? & ? & Hd)]; congruence.
Qed.
End Direct.

(** ** Removing the entries of one directory *)
Definition rm_file (p : list str) (n : str) : M mst unit := let! x <- lift (u_div (mem_uri p) n); mem_removefile x.
Definition rm_dir (p : list str) (n : str) : M mst unit :=
  let! d <- lift (u_div (mem_uri p) n);
  let! l <- mem_islink d;
  if l then mem_removefile d else mem_removedir d.

(** The entries [names] of directory [p] and everything below them are gone. *)
Definition removed (t t' : tree) (p : list str) (names : list str) : Prop :=
  (forall n r, In n names -> t' (p ++ n :: r) = None) /\
  (forall x, (forall n r, In n names -> x <> p ++ n :: r) -> t' x = t x).
Lemma removed_nil t : forall p, removed t t p [].
Proof. split; [intros n r []|auto]. Qed.
Lemma removed_cons t t1 t2 p n names : cut_at t t1 (p ++ [n]) -> removed t1 t2 p names -> removed t t2 p (n :: names).
Proof.
  intros [C1 C2] [R1 R2]. split.
  - intros m r [<-|Hm]; [|now apply R1].
    destruct (in_dec (list_eq_dec N.eq_dec) n names) as [I|I]; [now apply R1|].
    rewrite R2; [change (n :: r) with ([n] ++ r); rewrite app_assoc; apply C1|].
    intros m r' Hm E. apply app_inv_head in E. injection E as -> _. contradiction.
  - intros x H. rewrite R2.
    + apply C2. intros r E. apply (H n r); [now left|]. now rewrite E, <- app_assoc.
    + intros m r Hm. apply H. now right.
Qed.

Lemma dir_kept t t' p names : removed t t' p names -> t' p = t p.
Proof. intros [_ R]. apply R. intros n r _ E. rewrite <- (app_nil_r p) in E at 1. apply app_inv_head in E. discriminate. Qed.
Lemma cut_other t t' p n x : cut_at t t' (p ++ [n]) -> (forall r, x <> p ++ n :: r) -> t' x = t x.
Proof. intros [_ C] H. apply C. intros r E. apply (H r). now rewrite E, <- app_assoc. Qed.

Lemma rm_names (rm : str -> M mst unit) p : forall names s, wf s -> NoDup names -> is_edir (view s p) ->
  (forall n, In n names -> good_path (p ++ [n])) ->
  (forall s' n, wf s' -> is_edir (view s' p) -> In n names -> (forall r, view s' (p ++ n :: r) = view s (p ++ n :: r)) ->
     exists s2, rm n s' = (Ok tt, s2) /\ wf s2 /\ cut_at (view s') (view s2) (p ++ [n]) /\ same_rest s' s2) ->
  exists s', mapM_ rm names s = (Ok tt, s') /\ wf s' /\ same_rest s s' /\ removed (view s) (view s') p names.
Proof.
  induction names as [|n names IH]; intros s W ND D G H.
  - exists s. cbn. auto using same_rest_refl, removed_nil.
  - inversion ND as [|? ? Hn ND']; subst. destruct (H s n) as (s1 & E1 & W1 & C1 & R1); auto; [now left|].
    assert (K : forall x, (forall r, x <> p ++ n :: r) -> view s1 x = view s x) by (intros x; now apply cut_other).
    destruct (IH s1) as (s2 & E2 & W2 & R2 & M2); auto.
    + rewrite K; auto. intros r E. rewrite <- (app_nil_r p) in E at 1. apply app_inv_head in E. discriminate.
    + intros m Hm. apply G. now right.
    + intros s' m W' D' Hm Hv. apply H; auto; [now right|]. intros r. rewrite Hv. apply K.
      intros r' E. apply app_inv_head in E. injection E as -> _. contradiction.
    + exists s2. cbn [mapM_]. rewrite (bind_ok _ _ _ _ _ E1). split; [exact E2|]. split; [exact W2|].
      split; [eapply same_rest_trans; eauto|eapply removed_cons; eauto].
Qed.

Lemma rm_file_ok s p n : wf s -> is_edir (view s p) -> good_path (p ++ [n]) -> view s (p ++ [n]) <> None ->
  exists s', rm_file p n s = (Ok tt, s') /\ wf s' /\ cut_at (view s) (view s') (p ++ [n]) /\ same_rest s s'.
Proof.
  intros W D G N. unfold rm_file. erewrite bind_ok; [|apply lift_ok, mem_div, G].
  apply run_removefile; auto; [now apply (fresh_dir (m_heap s) (m_next s))|now apply (resolves_dir (m_heap s))].
Qed.
Lemma rm_dir_ok s p n : wf s -> is_edir (view s p) -> good_path (p ++ [n]) -> view s (p ++ [n]) <> None ->
  (is_elink (view s (p ++ [n])) \/ (is_edir (view s (p ++ [n])) /\ forall m, view s (p ++ [n] ++ [m]) = None)) ->
  exists s', rm_dir p n s = (Ok tt, s') /\ wf s' /\ cut_at (view s) (view s') (p ++ [n]) /\ same_rest s s'.
Proof.
  intros W D G N H. unfold rm_dir. erewrite bind_ok; [|apply lift_ok, mem_div, G].
  assert (F : fresh_last (view s) p n) by now apply (fresh_dir (m_heap s) (m_next s)).
  assert (L : leads (view s) p (Found p)) by now apply (resolves_dir (m_heap s)).
  erewrite bind_ok; [|apply run_islink with (d := p); auto].
  destruct H as [(tg & mt & mo & E)|[(mt & mo & E) M]]; rewrite E; cbn [entry_is_link].
  - now apply run_removefile.
  - apply run_removedir_empty; auto; [rewrite E; now repeat eexists|]. intros m. rewrite <- app_assoc. apply M.
Qed.

(** ** Emptying a directory bottom-up *)
Definition hollowed (t t' : tree) (p : list str) (names : list str) : Prop :=
  (forall n r, In n names -> is_edir (t (p ++ [n])) -> r <> [] -> t' (p ++ n :: r) = None) /\
  (forall x, (forall n r, In n names -> is_edir (t (p ++ [n])) -> r <> [] -> x <> p ++ n :: r) -> t' x = t x).

Lemma emptied_below t t' p n : emptied t t' (p ++ [n]) ->
  (forall r, r <> [] -> t' (p ++ n :: r) = None) /\ (forall x, (forall r, r <> [] -> x <> p ++ n :: r) -> t' x = t x).
Proof.
  intros [E1 E2]. split.
  - intros r Hr. rewrite <- (E1 r Hr), <- app_assoc. reflexivity.
  - intros x H. apply E2. intros r Hr E. apply (H r Hr). now rewrite E, <- app_assoc.
Qed.
Lemma hollowed_skip t t' p n names : ~ is_edir (t (p ++ [n])) -> hollowed t t' p names -> hollowed t t' p (n :: names).
Proof.
  intros N [H1 H2]. split.
  - intros m r [<-|I] D; [contradiction|]. now apply H1.
  - intros x H. apply H2. intros m r I. apply H. now right.
Qed.
Lemma hollowed_cons t t1 t2 p n names : ~ In n names -> is_edir (t (p ++ [n])) -> emptied t t1 (p ++ [n]) -> hollowed t1 t2 p names ->
  hollowed t t2 p (n :: names).
Proof.
  intros N Dn E [H1 H2]. apply emptied_below in E as [E1 E2].
  assert (K : forall x, (forall r, r <> [] -> x <> p ++ n :: r) -> t1 x = t x) by exact E2.
  assert (Ks : forall m, t1 (p ++ [m]) = t (p ++ [m])).
  { intros m. apply K. intros r Hr E. apply app_inv_head in E. injection E as _ <-. easy. }
  split.
  - intros m r [<-|I] D Hr.
    + rewrite H2; [now apply E1|]. intros m r' I _ _ E. apply app_inv_head in E. injection E as -> _. contradiction.
    + apply H1; auto. now rewrite Ks.
  - intros x H. destruct (below_dec (p ++ [n]) x) as [[r ->]|Nb].
    + destruct r as [|a r].
      * rewrite H2; [rewrite app_nil_r; apply Ks|]. intros m r I _ Hr E. rewrite app_nil_r in E.
        apply app_inv_head in E. injection E as _ <-. easy.
      * exfalso. apply (H n (a :: r)); auto; [now left|discriminate|]. now rewrite <- app_assoc.
    + rewrite H2; [apply K|].
      * intros r Hr E. apply (Nb r). now rewrite E, <- app_assoc.
      * intros m r I D Hr. rewrite Ks in D. apply H; auto. now right.
Qed.

Definition rm_body (_ : unit) (root : uri) (dirs files : list str) : M mst (unit * list str) :=
  mapM_ (fun n => let! p <- lift (u_div root n); mem_removefile p) files ;;
  mapM_ (fun n => let! d <- lift (u_div root n);
                  let! l <- mem_islink d;
                  if l then mem_removefile d else mem_removedir d) dirs ;;
  ret (tt, dirs).

Lemma nodup_filter {A} (f : A -> bool) l : NoDup l -> NoDup (filter f l).
Proof.
  induction 1 as [|x l H ND IH]; cbn; [constructor|]. destruct (f x); auto. constructor; auto.
  rewrite filter_In. tauto.
Qed.

Lemma rm_walk : forall k fuel s p X, wf s -> silent s -> is_edir (view s p) -> links_ok (view s) X ->
  (forall r, is_elink (view s (p ++ r)) -> X (p ++ r)) ->
  (forall r, view s (p ++ r) <> None -> good_path (p ++ r)) ->
  (forall r, view s (p ++ r) <> None -> (length r <= k)%nat) -> (k < fuel)%nat ->
  exists s', walk_gen B fuel false false rm_body tt (mem_uri p) s = (Ok tt, s') /\ wf s' /\
    emptied (view s) (view s') p /\ same_rest s s'.
Proof.
  induction k as [k IHk] using lt_wf_ind. intros fuel s p X W Q D LX XL G DB Hf.
  destruct fuel as [|fuel]; [lia|]. cbn [walk_gen b_listdir B].
  assert (Gp : good_path p) by (rewrite <- (app_nil_r p); apply G; rewrite app_nil_r; destruct D as (? & ? & ->); discriminate).
  assert (Lp : leads (view s) p (Found p)) by now apply (resolves_dir (m_heap s)).
  destruct (run_listing s p p W Gp Lp D) as (l & El & Sl & SS & Il).
  assert (ND : NoDup l) by now apply slt_NoDup.
  erewrite bind_ok by exact El. rewrite Sl.
  assert (Hl : forall n, In n l -> good_path (p ++ [n]) /\ exists b, mem_isdir (mem_uri (p ++ [n])) s = (Ok b, s) /\
     (is_edir (view s (p ++ [n])) -> b = true) /\ (is_efile (view s (p ++ [n])) -> b = false)).
  { intros n Hn. assert (N : view s (p ++ [n]) <> None) by now apply Il. split; [now apply G|].
    apply (isdir_entry s W X); auto. }
  erewrite bind_ok; [|apply run_kinds; intros n Hn; destruct (Hl n Hn) as (? & b & ? & _); eauto].
  cbn [fst snd].
  set (dirs := filter (dir_here s p) l). set (files := filter (fun n => negb (dir_here s p n)) l).
  assert (Kd : forall n, In n dirs -> In n l /\ ~ is_efile (view s (p ++ [n]))).
  { intros n Hn. apply filter_In in Hn as [Hn Hd]. split; auto. intros Ef.
    destruct (Hl n Hn) as (_ & b & Eb & _ & Hb). unfold dir_here in Hd. rewrite Eb in Hd. cbn in Hd. rewrite Hb in Hd; auto. discriminate. }
  assert (Kf : forall n, In n files -> In n l /\ ~ is_edir (view s (p ++ [n]))).
  { intros n Hn. apply filter_In in Hn as [Hn Hd]. split; auto. intros Ef.
    destruct (Hl n Hn) as (_ & b & Eb & Hb & _). unfold dir_here in Hd. rewrite Eb in Hd. cbn in Hd. rewrite Hb in Hd; auto. discriminate. }
  assert (NDd : NoDup dirs) by now apply nodup_filter.
  assert (NDf : NoDup files) by now apply nodup_filter.
  (* descending *)
  assert (F : forall ds s0, wf s0 -> silent s0 -> is_edir (view s0 p) -> shrinks (view s) (view s0) -> NoDup ds ->
      (forall n, In n ds -> In n dirs /\ forall r, view s0 (p ++ n :: r) = view s (p ++ n :: r)) ->
      exists s1, foldM (fun (a : unit) name =>
                            let! path <- lift (u_div (mem_uri p) name);
                            let! l <- u_islink B path;
                            if negb l || false
                            then walk_gen B fuel false false rm_body a path
                            else ret a) tt ds s0 = (Ok tt, s1) /\ wf s1 /\ same_rest s0 s1 /\
        hollowed (view s0) (view s1) p ds).
  { induction ds as [|n ds IH]; intros s0 W0 Q0 D0 Sh NDs Hds.
    - exists s0. cbn. split; [reflexivity|]. split; [auto|]. split; [apply same_rest_refl|]. split; [intros ? ? []|auto].
    - inversion NDs as [|? ? Hn NDs']; subst. destruct (Hds n) as [Hnd Hv]; [now left|].
      destruct (Kd n Hnd) as [Hnl Hnf]. destruct (Hl n Hnl) as [Gn _].
      assert (Nn : view s (p ++ [n]) <> None) by now apply Il.
      assert (F0 : fresh_last (view s0) p n) by now apply (fresh_dir (m_heap s0) (m_next s0)).
      assert (L0 : leads (view s0) p (Found p)) by now apply (resolves_dir (m_heap s0)).
      change (foldM ?f tt (n :: ds)) with (let! a' <- f tt n; foldM f a' ds).
      assert (I0 : u_islink B (mem_uri (p ++ [n])) s0 = (Ok (entry_is_link (view s0 (p ++ [n]))), s0)).
      { unfold u_islink. rewrite run_hooked by auto. now apply run_islink with (d := p). }
      destruct (entry_cases (view s (p ++ [n]))) as [Ne|[Ef|[Ed|Eln]]]; try contradiction.
      + (* a real directory *)
        assert (Ed0 : is_edir (view s0 (p ++ [n]))) by now rewrite Hv.
        destruct (IHk (k - 1)%nat) with (fuel := fuel) (s := s0) (p := p ++ [n]) (X := X) as (s1 & E1 & W1 & M1 & R1); auto.
        * destruct k; [|lia]. specialize (DB [n] Nn). cbn in DB. lia.
        * eapply links_ok_shrinks; eauto.
        * intros r. rewrite <- app_assoc. cbn [app]. rewrite Hv. apply XL.
        * intros r. rewrite <- app_assoc. cbn [app]. rewrite Hv. apply G.
        * intros r. rewrite <- app_assoc. cbn [app]. rewrite Hv. intros Hr. apply DB in Hr. cbn in Hr. lia.
        * specialize (DB [n] Nn). cbn in DB. lia.
        * assert (Sh1 : shrinks (view s0) (view s1)).
          { intros x. destruct M1 as [M1 M2]. destruct (below_dec (p ++ [n]) x) as [[r ->]|Nb].
            - destruct r; [right|left; now apply M1]. apply M2. intros r Hr E. apply app_inv_head in E. now subst.
            - right. apply M2. intros r _. apply Nb. }
          assert (K1 : forall x, (forall r, x <> p ++ n :: r) -> view s1 x = view s0 x).
          { intros x Hx. destruct M1 as [_ M2]. apply M2. intros r _ E. apply (Hx r). now rewrite E, <- app_assoc. }
          destruct (IH s1) as (s2 & E2 & W2 & R2 & H2); auto.
          -- eapply silent_rest; eauto.
          -- rewrite K1; auto. intros r E. rewrite <- (app_nil_r p) in E at 1. apply app_inv_head in E. discriminate.
          -- eapply shrinks_trans; eauto.
          -- intros m Hm. destruct (Hds m) as [Hmd Hmv]; [now right|]. split; auto. intros r. rewrite K1; auto.
             intros r' E. apply app_inv_head in E. injection E as -> _. contradiction.
          -- exists s2. split; [|split; [auto|split; [eapply same_rest_trans; eauto|eapply hollowed_cons; eauto]]].
             rewrite (bind_ok _ _ s0 tt s1); [exact E2|].
             erewrite bind_ok; [|apply lift_ok, mem_div, Gn]. erewrite bind_ok by exact I0.
             destruct Ed0 as (? & ? & ->). exact E1.
      + (* a link to a directory *)
        destruct (IH s0) as (s1 & E1 & W1 & R1 & H1); auto; [intros m Hm; apply Hds; now right|].
        exists s1. split; [|split; [auto|split; [auto|]]].
        * rewrite (bind_ok _ _ s0 tt s0); [exact E1|].
          erewrite bind_ok; [|apply lift_ok, mem_div, Gn]. erewrite bind_ok by exact I0.
          rewrite Hv. destruct Eln as (? & ? & ? & ->). reflexivity.
        * apply hollowed_skip; auto. rewrite Hv. destruct Eln as (? & ? & ? & ->). intros (? & ? & ?). discriminate. }
  destruct (F dirs s) as (s1 & E1 & W1 & R1 & H1); auto using shrinks_refl.
  erewrite bind_ok by reflexivity. cbn [fst snd]. erewrite bind_ok by exact E1.
  destruct H1 as [H1 H2].
  assert (Hs : forall n, view s1 (p ++ [n]) = view s (p ++ [n])).
  { intros n. apply H2. intros m r _ _ Hr E. apply app_inv_head in E. injection E as _ <-. easy. }
  assert (Hp : view s1 p = view s p).
  { apply H2. intros m r _ _ Hr E. rewrite <- (app_nil_r p) in E at 1. apply app_inv_head in E. discriminate. }
  (* files *)
  destruct (rm_names (rm_file p) p files s1) as (s2 & E2 & W2 & R2 & M2); auto; [now rewrite Hp| | |].
  { intros n Hn. now apply Hl, Kf. }
  { intros s' n W' D' Hn Hv. apply rm_file_ok; auto; [now apply Hl, Kf|]. rewrite (Hv []), Hs. now apply Il, Kf. }
  assert (Dp2 : view s2 p = view s p) by (rewrite (dir_kept _ _ _ _ M2); exact Hp).
  assert (Kdf : forall n, In n dirs -> ~ In n files).
  { intros n Hn Hm. apply filter_In in Hn as [_ Hn]. apply filter_In in Hm as [_ Hm]. rewrite Hn in Hm. discriminate. }
  assert (V2 : forall n r, In n dirs -> view s2 (p ++ n :: r) = view s1 (p ++ n :: r)).
  { intros n r Hn. destruct M2 as [_ M2]. apply M2. intros m r' Hm E. apply app_inv_head in E. injection E as -> _.
    now apply (Kdf m). }
  destruct (rm_names (rm_dir p) p dirs s2) as (s3 & E3 & W3 & R3 & M3); auto; [now rewrite Dp2| | |].
  { intros n Hn. now apply Hl, Kd. }
  { intros s' n W' D' Hn Hv. assert (Ev : view s' (p ++ [n]) = view s (p ++ [n])) by now rewrite (Hv []), V2, Hs.
    apply rm_dir_ok; auto; [now apply Hl, Kd|rewrite Ev; now apply Il, Kd|]. rewrite Ev.
    destruct (entry_cases (view s (p ++ [n]))) as [Ne|[Ef|[Ed|Eln]]].
    - exfalso. revert Ne. now apply Il, Kd.
    - exfalso. revert Ef. now apply Kd.
    - right. split; auto. intros m. cbn [app]. rewrite (Hv [m]), V2; auto. apply H1; auto. discriminate.
    - now left. }
  exists s3. split; [|split; [exact W3|split]].
  - unfold rm_body. rewrite (bind_ok _ _ s1 (tt, dirs) s3); [reflexivity|].
    erewrite bind_ok by exact E2. erewrite bind_ok by exact E3. reflexivity.
  - assert (Out : forall x, (forall n r, In n l -> x <> p ++ n :: r) -> view s3 x = view s x).
    { intros x Hx. destruct M3 as [_ M3]. rewrite M3; [|intros n r Hn; apply Hx; now apply Kd].
      destruct M2 as [_ M2]. rewrite M2; [|intros n r Hn; apply Hx; now apply Kf].
      apply H2. intros n r Hn _ _. apply Hx. now apply Kd. }
    split.
    + intros [|n r] Hr; [easy|]. destruct (in_dec (list_eq_dec N.eq_dec) n l) as [Hn|Hn].
      * destruct (dir_here s p n) eqn:Eh.
        -- apply M3. apply filter_In. auto.
        -- assert (Hf' : In n files) by (apply filter_In; rewrite Eh; auto).
           destruct M3 as [_ M3]. rewrite M3.
           ++ now apply M2.
           ++ intros m r' Hm E. apply app_inv_head in E. injection E as -> _. now apply (Kdf m).
      * rewrite Out.
        -- assert (N : view s (p ++ [n]) = None). { destruct (view s (p ++ [n])) eqn:E; auto. exfalso. apply Hn, Il. congruence. }
           change (n :: r) with ([n] ++ r). rewrite app_assoc. now apply below_none.
        -- intros m r' Hm E. apply app_inv_head in E. injection E as -> _. contradiction.
    + intros x Hx. apply Out. intros n r _. apply Hx. discriminate.
  - eapply same_rest_trans; eauto. eapply same_rest_trans; eauto.
Qed.

Lemma emptied_cut t t1 t2 p : emptied t t1 p -> cut_at t1 t2 p -> cut_at t t2 p.
Proof.
  intros [E1 E2] [C1 C2]. split; [exact C1|]. intros x H. rewrite C2; auto.
Qed.
Lemma remove_recursive_depth s p k fuel : wf s -> silent s -> is_edir (view s p) -> p <> [] ->
  (forall r, view s (p ++ r) <> None -> good_path (p ++ r)) ->
  (forall x, link_reach (view s) p x -> is_elink (view s x) -> exists x', arrow (view s) x x' /\ direct (view s) x') ->
  (forall r, view s (p ++ r) <> None -> (length r <= k)%nat) -> (k < fuel)%nat ->
  exists s', u_remove B fuel true (mem_uri p) s = (Ok tt, s') /\ wf s' /\ cut_at (view s) (view s') p /\ same_rest s s'.
Proof.
  intros W Q D Np G H Hk Hf. destruct (snoc_cases p) as [->|(d & n & ->)]; [easy|].
  assert (Nn : view s (d ++ [n]) <> None) by (destruct D as (? & ? & ->); discriminate).
  assert (Gp : good_path (d ++ [n])) by (rewrite <- (app_nil_r (d ++ [n])); apply G; now rewrite app_nil_r).
  assert (Dd : is_edir (view s d)) by now apply (tree_parent (m_heap s) d n).
  assert (F : fresh_last (view s) d n) by now apply (fresh_dir (m_heap s) (m_next s)).
  assert (L : leads (view s) d (Found d)) by now apply (resolves_dir (m_heap s)).
  rewrite remove_dir_prefix with (d := d); auto. unfold remove_dir_recursively.
  destruct (rm_walk k fuel s (d ++ [n]) (link_reach (view s) (d ++ [n]))) as (s1 & E1 & W1 & M1 & R1); auto.
  - now apply link_reach_ok.
  - intros r Hr. now apply lr_below.
  - assert (Kn : view s1 (d ++ [n]) = view s (d ++ [n])).
    { apply M1. intros r Hr E. rewrite <- (app_nil_r (d ++ [n])) in E at 1. apply app_inv_head in E. now subst. }
    assert (Kd : view s1 d = view s d).
    { apply M1. intros r Hr E. apply (f_equal (@length _)) in E. rewrite !app_length in E. cbn in E. lia. }
    destruct (rm_dir_ok s1 d n) as (s2 & E2 & W2 & C2 & R2); auto.
    + now rewrite Kd.
    + now rewrite Kn.
    + right. split; [now rewrite Kn|]. intros m. rewrite app_assoc. apply M1. discriminate.
    + exists s2. split; [|split; [auto|split; [eapply emptied_cut; eauto|eapply same_rest_trans; eauto]]].
      erewrite bind_ok by exact E1. revert E2. unfold rm_dir. erewrite bind_ok; [|apply lift_ok, mem_div, Gp]. auto.
Qed.

Lemma remove_recursive s p fuel : wf s -> silent s -> is_edir (view s p) -> p <> [] ->
  (forall r, view s (p ++ r) <> None -> good_path (p ++ r)) ->
  (forall x, link_reach (view s) p x -> is_elink (view s x) -> exists x', arrow (view s) x x' /\ direct (view s) x') ->
  (m_next s <= fuel)%nat ->
  exists s', u_remove B fuel true (mem_uri p) s = (Ok tt, s') /\ wf s' /\ cut_at (view s) (view s') p /\ same_rest s s'.
Proof.
  intros W Q D Np G H Hf. apply (remove_recursive_depth s p (m_next s - 1)%nat); auto.
  - intros r Hr. apply depth_bound in Hr; auto. rewrite app_length in Hr. lia.
  - assert (Nn : view s p <> None) by (destruct D as (? & ? & ->); discriminate). pose proof (depth_bound s _ W Nn). lia.
Qed.
