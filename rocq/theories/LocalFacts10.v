(** Every local tree without links and with ordinary names is mirrored by a memory file system. *)
From Coq Require Import Lia.
From Verif Require Import Str Exc Utf8 UriParse BaseUri StrFacts UriFacts SpecUri UriFacts2 UriFacts3.
From Verif Require Import Mem SpecMem MemOps MemFacts MemFacts2 MemFacts3 MemFacts4 MemFacts5 MemFacts7 MemFacts9 MemFacts10 MemUri.
From Verif Require Import Generic SpecGen GenFacts1 GenFacts2 GenFacts3.
From Verif Require Import Misc Posix Local SpecLocal LocalFacts1 LocalFacts2 LocalFacts3.

Lemma longest (l : list (list str)) : l <> [] -> exists p, In p l /\ forall q, In q l -> length q <= length p.
Proof.
  induction l as [|a l IH]; [easy|]. intros _. destruct l as [|b l].
  - exists a. split; [now left|]. intros q [->|[]]. lia.
  - destruct IH as (p & I & H); [easy|]. destruct (Nat.le_gt_cases (length a) (length p)) as [L|L].
    + exists p. split; [now right|]. intros q [->|J]; auto.
    + exists a. split; [now left|]. intros q [->|J]; [lia|]. specialize (H q J). lia.
Qed.
Lemma pdel_length p (t : ptree) : In p (map fst t) -> length (pdel p t) < length t.
Proof.
  unfold pdel. intros H. assert (L : forall l : ptree, length (filter (fun qe => negb (path_eqb p (fst qe))) l) <= length l)
    by (induction l as [|a l IH]; cbn [filter length]; [lia|]; destruct (negb _); cbn [length]; lia).
  induction t as [|[q e] t IH]; [easy|]. cbn [map fst In filter length] in *. destruct H as [->|H].
  - rewrite path_eqb_refl. cbn [negb]. specialize (L t). lia.
  - specialize (IH H). destruct (negb _); cbn [length]; lia.
Qed.
Lemma reachable_write s u m d s' hd : reachable s -> write_all u m [VBytes d] s = (Ok hd, s') -> reachable s'.
Proof.
  intros R. unfold write_all, bind. destruct (mem_open u (Some m) s) as [[hd'|e] s1] eqn:E; [|discriminate].
  assert (R1 : reachable s1).
  { pose proof (reachable_step s (OpOpen u (Some m)) R) as R1. cbn [run_op] in R1. unfold drop, bind in R1. now rewrite E in R1. }
  cbn [mapM_]. unfold bind. destruct (h_write hd' (VBytes d) s1) as [[[]|e] s2] eqn:E2; [|discriminate]. cbn [ret].
  intros [= <- <-]. pose proof (reachable_step s1 (OpWrite hd' (VBytes d)) R1) as R2. cbn [run_op] in R2. now rewrite E2 in R2.
Qed.

(** Nodes allocated *)
Definition costs {A} (k : nat) (m : M mst A) : Prop := forall s, m_next (snd (m s)) <= m_next s + k.
Lemma costs_bind {A B} j k (m : M mst A) (f : A -> M mst B) : costs j m -> (forall a, costs k (f a)) -> costs (j + k) (bind m f).
Proof.
  intros Hm Hf s. unfold bind. specialize (Hm s). destruct (m s) as [[a|e] s']; cbn [snd] in *; [|lia]. specialize (Hf a s'). lia.
Qed.
Lemma costs_bind0 {A B} k (m : M mst A) (f : A -> M mst B) : costs 0 m -> (forall a, costs k (f a)) -> costs k (bind m f).
Proof. intros Hm Hf. exact (costs_bind 0 k m f Hm Hf). Qed.
Lemma costs_weaken {A} j k (m : M mst A) : j <= k -> costs j m -> costs k m.
Proof. intros L H s. specialize (H s). lia. Qed.
Lemma costs_ret {A} k (a : A) : costs k (ret a). Proof. intros s. cbn. lia. Qed.
Lemma costs_raise {A} k e : costs k (@raise mst A e). Proof. intros s. cbn. lia. Qed.
Lemma costs_lift {A} (r : res A) : costs 0 (lift r). Proof. intros s. unfold lift. destruct r; cbn; lia. Qed.
Lemma costs_get : costs 0 get. Proof. intros s. cbn. lia. Qed.
Lemma costs_same {A} (f : mst -> res A) : costs 0 (fun s => (f s, s)). Proof. intros s. cbn. lia. Qed.
Lemma costs_alloc n : costs 1 (alloc n). Proof. intros s. cbn. lia. Qed.
Lemma costs_upd i n : costs 0 (upd i n). Proof. intros s. cbn. lia. Qed.
Lemma costs_parent p : costs 0 (parent_node p).
Proof. apply costs_bind0; [apply costs_same|intros; apply costs_lift]. Qed.
Lemma costs_has i n : costs 0 (node_has i n).
Proof. apply costs_bind0; [apply costs_same|]. intros []; auto using costs_raise, costs_ret. Qed.
Lemma costs_child i n j : costs 0 (create_child i n j).
Proof. apply costs_bind0; [apply costs_same|]. intros []; auto using costs_raise, costs_upd. Qed.
Lemma costs_file i : costs 0 (get_file i).
Proof. apply costs_bind0; [apply costs_same|]. intros []; auto using costs_raise, costs_ret. Qed.
Lemma costs_reset i : costs 0 (file_reset i).
Proof. apply costs_bind0; [apply costs_file|]. intros f. repeat (apply costs_bind0; [apply costs_get|intros]). apply costs_upd. Qed.
Lemma costs_make u leaf : costs 1 (make u leaf).
Proof.
  apply costs_bind0; [apply costs_lift|]. intros [|c p]; [apply costs_ret|].
  apply costs_bind0; [apply costs_parent|]. intros i. apply costs_bind0; [apply costs_has|]. intros []; [apply costs_raise|].
  apply costs_bind0; [apply costs_get|]. intros s. apply (costs_bind 1 0); [apply costs_alloc|]. intros j. apply costs_child.
Qed.
Lemma costs_write u d : costs 1 (write_all u (lit "wb") [VBytes d]).
Proof.
  apply (costs_bind 1 0).
  - change (costs 1 (open_for_write u true)). apply costs_bind0; [apply costs_lift|]. intros p.
    apply costs_bind0; [apply costs_parent|]. intros i. apply costs_bind0; [apply costs_has|]. intros [].
    + apply costs_bind0; [apply costs_same|]. intros o. apply costs_bind0; [apply costs_same|]. intros []; [apply costs_raise|].
      apply costs_bind0; [apply costs_lift|]. intros j. apply costs_bind0; [apply costs_reset|]. intros _. apply costs_ret.
    + apply costs_bind0; [apply costs_get|]. intros s. apply (costs_bind 1 0); [apply costs_alloc|]. intros j.
      apply costs_bind0; [apply costs_child|]. intros _. apply costs_ret.
  - intros hd. apply costs_bind0; [|intros _; apply costs_ret]. cbn [mapM_]. apply costs_bind0; [|intros _; apply costs_ret].
    apply costs_bind0; [apply costs_lift|]. intros []; [apply costs_raise|]. apply costs_bind0; [apply costs_file|]. intros f.
    destruct (bio_write _ _ _). apply costs_bind0; [apply costs_get|]. intros s. apply costs_upd.
Qed.

Section Exists.
Definition mirrored (x : pst) : Prop := exists s, reachable s /\ silent s /\ mirrors s x /\ m_next s <= length (p_tree x).
Lemma mirror_root now ep x : (forall q, q <> [] -> pget q (p_tree x) = None) -> (exists mo mt, pget [] (p_tree x) = Some (PDir mo mt)) ->
  NoDup (map fst (p_tree x)) -> mirrors (init_mem now ep) x.
Proof.
  intros H (mo & mt & D) N. split; auto.
  - intros [|c q].
    + rewrite D. exact I.
    + rewrite H by easy. exact I.
  - intros [|c q] E; [apply plain_nil|]. exfalso. now apply E.
Qed.
Lemma mirror_exists k : forall x, length (p_tree x) <= k -> sound x -> (forall p tg, pget p (p_tree x) <> Some (PLink tg)) ->
  (forall p, pget p (p_tree x) <> None -> plain_path p) -> mirrored x.
Proof.
  induction k as [|k IH]; intros x L So U Pl.
  - destruct (so_root x So) as (mo & mt & D). destruct (p_tree x); [discriminate|cbn in L; lia].
  - destruct (so_root x So) as (mo & mt & D). pose proof (so_nodup x So) as Nd.
    assert (Ne : map fst (p_tree x) <> []) by (destruct (p_tree x); [discriminate|easy]).
    destruct (longest _ Ne) as (p & Ip & Mx).
    apply in_map_iff in Ip as ((p' & e) & Ep & Ie). cbn [fst] in Ep. subst p'. pose proof Ie as Ie'. apply (pget_in _ _ _ Nd) in Ie'.
    assert (Mx' : forall q, pget q (p_tree x) <> None -> length q <= length p).
    { intros q Hq. apply Mx. destruct (pget q (p_tree x)) as [f|] eqn:Ef; [|easy]. apply (pget_in _ _ _ Nd) in Ef. apply in_map_iff. now exists (q, f). }
    destruct (snoc_cases p) as [->|(i & n & ->)].
    + exists (init_mem 0 0). split; [apply reachable_init|]. split; [intros ? ? ? ? []|]. split; [apply mirror_root; eauto|destruct (p_tree x); [discriminate|cbn; lia]].
      intros [|c q] Nq; [easy|]. destruct (pget (c :: q) (p_tree x)) eqn:E; auto. specialize (Mx' (c :: q)). rewrite E in Mx'. cbn in Mx'. specialize (Mx' ltac:(easy)). lia.
    + set (p := i ++ [n]) in *. set (x1 := set_tree x (pdel p (p_tree x))).
      assert (G1 : forall q, pget q (p_tree x1) = if path_eqb q p then None else pget q (p_tree x)) by (intros q; apply pget_pdel).
      assert (Di : is_dir_at x i) by (apply (so_up x So i n); fold p; congruence).
      assert (Nip : i <> p) by (intros E; apply (f_equal (@length str)) in E; unfold p in E; rewrite app_length in E; cbn in E; lia).
      assert (So1 : sound x1).
      { split.
        - exists mo, mt. rewrite G1, path_eqb_neq; auto. unfold p. intros E. symmetry in E. now apply app_eq_nil in E as [_ E].
        - intros q m Hq. rewrite G1 in Hq. destruct (path_eqb (q ++ [m]) p) eqn:Eq; [easy|].
          destruct (so_up x So q m Hq) as (mo' & mt' & Dq). exists mo', mt'. rewrite G1, path_eqb_neq; auto.
          intros ->. specialize (Mx' _ Hq). rewrite app_length in Mx'. cbn in Mx'. lia.
        - unfold x1. cbn [p_tree set_tree]. now apply pdel_nodup. }
      assert (Ls : length (pdel p (p_tree x)) < length (p_tree x)) by (apply pdel_length, in_map_iff; now exists (p, e)).
      destruct (IH x1) as (s & R & Q & Mi & Ms); auto.
      { unfold x1. cbn [p_tree set_tree]. lia. }
      { intros q tg. rewrite G1. destruct (path_eqb q p); [discriminate|apply U]. }
      { intros q. rewrite G1. destruct (path_eqb q p); [easy|apply Pl]. }
      assert (Gp : plain_path p) by (apply Pl; congruence).
      assert (W : wf s) by now apply reachable_wf.
      assert (T1 : twin s x1) by now split.
      assert (Fr : view s p = None).
      { pose proof (mi_same _ _ Mi p) as S. rewrite G1, path_eqb_refl in S. destruct (view s p) as [[]|]; easy. }
      assert (Ei : is_edir (view s i)).
      { pose proof (mi_same _ _ Mi i) as S. rewrite G1, path_eqb_neq in S by auto. destruct Di as (mo' & mt' & Di). rewrite Di in S.
        destruct (view s i) as [[]|]; try easy. do 2 eexists. reflexivity. }
      assert (Pf : place (view s) (mem_uri p) (Free p)).
      { apply (pl_free _ _ i n i); auto; [now apply mem_addr, plain_good|]. apply resolves_entry. now right. }
      destruct e as [d mo' mt'|mo' mt'|tg]; [| |now destruct (U p tg)].
      * destruct (write_all_run s (mem_uri p) true p [d] (lit "wb") W (wr_free _ _ _ Pf) eq_refl eq_refl eq_refl) as (s' & hd & f & E & _ & O & _ & _ & _ & _ & Pt).
        cbn [concat] in Pt. rewrite app_nil_r in Pt. exists s'. split; [now apply (reachable_write s (mem_uri p) (lit "wb") d s' hd)|].
        assert (T2 : twin s' (set_tree x1 (p_tree x))).
        { apply (twin_put_gen s x1 s' p _ (PFile d mo' mt') (p_tree x) T1 (op_wf _ _ _ _ _ _ O) (op_rest _ _ _ _ _ _ O) Pt Gp); auto; [reflexivity|].
          intros q. rewrite G1. destruct (path_eqb q p) eqn:Eq; auto. apply path_eqb_spec in Eq. now subst. }
        destruct T2 as [_ Q' M']. split; auto. split; [destruct x; exact M'|].
        pose proof (costs_write (mem_uri p) d s) as Co. change [VBytes d] with (map VBytes [d]) in Co. rewrite E in Co. cbn [snd] in Co. unfold x1 in Ms. cbn [p_tree set_tree] in Ms. lia.
      * destruct (make_free s W (mem_uri p) (fun s => NDir [] (m_now s) 0) p Pf) as (s' & E & W' & Pt & SR & _).
        { intros es Hes. injection Hes as <-. reflexivity. }
        exists s'. split; [pose proof (reachable_step s (OpMkdir (mem_uri p)) R) as R'; cbn [run_op] in R'; now rewrite mkdir_make, E in R'|].
        assert (T2 : twin s' (set_tree x1 (p_tree x))).
        { apply (twin_put_gen s x1 s' p _ (PDir mo' mt') (p_tree x) T1 W' SR Pt Gp); auto; [exact I|].
          intros q. rewrite G1. destruct (path_eqb q p) eqn:Eq; auto. apply path_eqb_spec in Eq. now subst. }
        destruct T2 as [_ Q' M']. split; auto. split; [destruct x; exact M'|].
        pose proof (costs_make (mem_uri p) (fun s => NDir [] (m_now s) 0) s) as Co. rewrite E in Co. cbn [snd] in Co. unfold x1 in Ms. cbn [p_tree set_tree] in Ms. lia.
Qed.
End Exists.
