(** The complete rules of SpecExact.v hold of the model: the operations. *)
From Verif Require Import Str Exc Utf8 UriParse BaseUri StrFacts SpecUri Mem SpecMem SpecHandle SpecExact.
From Verif Require Import MemFacts MemFacts2 MemFacts3 MemFacts4 MemFacts5 MemFacts6 MemFacts7 HandleFacts ExactFacts.

Section S.
Variable s : mst.
Hypothesis W : wf s.
Let h := m_heap s.
Let t := view s.

(** *** Tests *)
Lemma quiet_rule (f : node -> bool) (g : entry -> bool) cs o : (forall n, f n = g (entry_of n)) -> leads t cs o -> quiet s f o = test_rule t g o.
Proof.
  intros E L. destruct o; auto. cbn. change (m_heap s) with h. destruct (leads_phys _ _ W _ _ L) as (i & P & _). change (m_heap s) with h in P.
  rewrite P. assert (T := view_node s q i P). unfold t. rewrite T. now rewrite E.
Qed.
Lemma exact_exists u cs o : addr u cs -> leads t cs o -> mem_exists u s = (test_rule t (fun _ => true) o, s).
Proof. intros A L. rewrite (exists_spec s W u cs o A L). f_equal. now apply quiet_rule with cs. Qed.
Lemma exact_isfile u cs o : addr u cs -> leads t cs o -> mem_isfile u s = (test_rule t is_file_e o, s).
Proof. intros A L. rewrite (isfile_spec s W u cs o A L). f_equal. apply quiet_rule with cs; auto. now intros []. Qed.
Lemma exact_isdir u cs o : addr u cs -> leads t cs o -> mem_isdir u s = (test_rule t is_dir_e o, s).
Proof. intros A L. rewrite (isdir_spec s W u cs o A L). f_equal. apply quiet_rule with cs; auto. now intros []. Qed.
Lemma exact_islink u cs sp : addr u cs -> spots t cs sp -> mem_islink u s = (link_rule t sp, s).
Proof.
  intros A S. destruct (snoc_cases cs) as [->|(init & n & ->)].
  - rewrite (islink_root s u A). assert (X := spots_det s W _ _ _ S (sp_root _)). subst sp. cbn [link_rule].
    destruct (wf_root _ _ W) as (es & mt & mo & E). assert (X : t [] = Some (entry_of (m_heap s root_id))) by reflexivity. rewrite X, E. reflexivity.
  - rewrite (islink_run s u init n A). f_equal. change (m_heap s) with h. assert (E := nofollow_spots s W u _ sp false A S). change (m_heap s) with h in E. rewrite E.
    destruct sp as [p|p|o]; cbn [spot_res link_rule]; auto.
    + assert (N := spots_entry s W _ _ S). assert (T : t p = option_map (fun i => entry_of (h i)) (phys h root_id p)) by reflexivity.
      fold t in N. change (m_heap s) with h. rewrite T in *. destruct (phys h root_id p) as [i|]; [|easy]. cbn. now destruct (h i).
    + assert (No := stuck_not_found s W _ _ S). destruct o; auto. now destruct (No q).
Qed.

(** *** Reading *)
Lemma exact_value {A} u cs f r (g : node -> A) (k : entry -> A) : addr u cs -> reaches t cs f r -> (forall n, g n = k (entry_of n)) ->
  (let! i <- lookup_node u f; let! n <- get_node_obj i; ret (g n)) s = (value_rule t k r, s).
Proof.
  intros Ad R E. assert (X := reaches_run s W u cs f r Ad R). destruct r as [q|e].
  - destruct X as (i & P & L & T). unfold bind. rewrite L. unfold get_node_obj, ret. cbn. unfold t. rewrite T. now rewrite E.
  - unfold bind. rewrite X. reflexivity.
Qed.
Definition info_of_entry (e : entry) : bunch := mkBunch (e_mtime e) (e_mode e) (e_size e).
Lemma exact_info u cs f r : addr u cs -> reaches t cs f r -> mem_info u f s = (value_rule t info_of_entry r, s).
Proof. intros A R. apply (exact_value u cs f r _ _ A R). now intros []. Qed.
Lemma exact_mtime u cs r : addr u cs -> reaches t cs true r -> mem_mtime u s = (value_rule t e_mtime r, s).
Proof. intros A R. apply (exact_value u cs true r _ _ A R). now intros []. Qed.
Lemma exact_isexec u cs r mask : addr u cs -> reaches t cs true r ->
  mem_isexec u mask s = (value_rule t (fun e => negb (Z.land (e_mode e) mask =? 0)%Z) r, s).
Proof.
  intros A R. unfold mem_isexec, bind. rewrite (exact_info u cs true r A R). destruct r as [q|e]; auto. cbn. destruct (t q); auto.
Qed.
Lemma exact_readlink u cs r : addr u cs -> reaches t cs false r -> mem_readlink u s = (target_rule t r, s).
Proof.
  intros A R. assert (X := reaches_run s W u cs false r A R).
  destruct (addr_nil_or _ _ A) as [[-> E]|(Nc & c & p & E)].
  - unfold mem_readlink, bind, lift. rewrite E. assert (Y := reaches_det s W _ _ _ _ R (re_entry _ _ _ (sp_root _))). subst r. cbn [target_rule].
    destruct (wf_root _ _ W) as (es & mt & mo & E'). assert (Y : t [] = Some (entry_of (m_heap s root_id))) by reflexivity. rewrite Y, E'. reflexivity.
  - unfold mem_readlink, bind, lift. rewrite E. destruct r as [q|e].
    + destruct X as (i & P & L & T). rewrite L. unfold get_node_obj. cbn. unfold t. rewrite T. now destruct (m_heap s i).
    + now rewrite X.
Qed.

(** *** Attributes *)
Lemma exact_attr u cs f r (g : node -> Z * Z) (k : entry -> Z * Z) : addr u cs -> reaches t cs f r -> (forall n, g n = k (entry_of n)) ->
  has_effect s ((let! i <- lookup_node u f; let! n <- get_node_obj i; upd i (set_attrs n (fst (g n)) (snd (g n)))) s)
    (attr_rule t (fun e => with_attrs e (fst (k e)) (snd (k e))) r).
Proof.
  intros A R E. assert (X := reaches_run s W u cs f r A R). destruct r as [q|e]; cbn [attr_rule].
  - destruct X as (i & P & L & T). assert (T' : t q = Some (entry_of (h i))) by exact T. rewrite T'. cbn. unfold bind. rewrite L. unfold get_node_obj.
    destruct (upd_attrs s W q i (fst (g (m_heap s i))) (snd (g (m_heap s i))) P) as (s' & U & _ & Pt & Re & _).
    exists s'. rewrite U. split; [reflexivity|]. split; auto. rewrite E in Pt. exact Pt.
  - cbn. unfold bind. now rewrite X.
Qed.
Definition or_else {A} (o : option A) (a : A) : A := match o with Some x => x | None => a end.
Lemma exact_set_info u cs f r mode mtime : addr u cs -> reaches t cs f r ->
  has_effect s (mem_set_info u mode mtime f s) (attr_rule t (fun e => with_attrs e (or_else mtime (e_mtime e)) (or_else mode (e_mode e))) r).
Proof.
  intros A R.
  exact (exact_attr u cs f r (fun n => (or_else mtime (node_mtime n), or_else mode (node_mode n)))
    (fun e => (or_else mtime (e_mtime e), or_else mode (e_mode e))) A R (fun n => match n with NFile _ => eq_refl | NDir _ _ _ => eq_refl | NLink _ _ _ => eq_refl end)).
Qed.
Lemma exact_manip_mtime u cs r x : addr u cs -> reaches t cs true r ->
  has_effect s (mem_manip_mtime u x s) (attr_rule t (fun e => with_attrs e x (e_mode e)) r).
Proof.
  intros A R.
  exact (exact_attr u cs true r (fun n => (x, node_mode n)) (fun e => (x, e_mode e)) A R
    (fun n => match n with NFile _ => eq_refl | NDir _ _ _ => eq_refl | NLink _ _ _ => eq_refl end)).
Qed.
Lemma exact_set_exec u cs r mode : addr u cs -> reaches t cs true r ->
  has_effect s (mem_set_exec u mode s) (attr_rule t (fun e => with_attrs e (e_mtime e) (Z.lor (Z.land (e_mode e) (Z.lnot 73)) mode)) r).
Proof.
  intros A R. unfold mem_set_exec, bind. rewrite (exact_info u cs true r A R).
  destruct r as [q|e]; [|reflexivity]. cbn [value_rule attr_rule]. destruct (t q) as [e|] eqn:T; [|reflexivity].
  assert (X := exact_set_info u cs true (At q) (Some (Z.lor (Z.land (e_mode e) (Z.lnot 73)) mode)) None A R).
  cbn [attr_rule] in X. rewrite T in X. exact X.
Qed.
Definition copystat_rule (r r' : reach) : effect :=
  match r with
  | Fail e => Fails e
  | At q => match t q with
            | None => Fails AttributeError
            | Some e => attr_rule t (fun e' => with_attrs e' (e_mtime e) (e_mode e)) r'
            end
  end.
Lemma exact_copystat u v cs cs' r r' : addr u cs -> addr v cs' -> reaches t cs true r -> reaches t cs' true r' ->
  has_effect s (mem_copystat u v s) (copystat_rule r r').
Proof.
  intros A A' R R'. assert (X := reaches_run s W u cs true r A R). assert (X' := reaches_run s W v cs' true r' A' R').
  unfold mem_copystat, bind. destruct r as [q|e].
  - destruct X as (i & P & L & T). rewrite L. assert (T1 : t q = Some (entry_of (h i))) by exact T. cbn [copystat_rule]. rewrite T1.
    destruct r' as [q'|e']; [|now rewrite X'].
    destruct X' as (j & P' & L' & T'). rewrite L'. unfold get_node_obj. assert (T2 : t q' = Some (entry_of (h j))) by exact T'. cbn [attr_rule]. rewrite T2.
    destruct (upd_attrs s W q' j (node_mtime (m_heap s i)) (node_mode (m_heap s i)) P') as (s' & U & _ & Pt & Re & _).
    exists s'. rewrite U. split; [reflexivity|]. split; auto. destruct (node_attrs (m_heap s i)) as (N1 & N2 & _). rewrite N1, N2 in Pt. exact Pt.
  - rewrite X. reflexivity.
Qed.
Lemma exact_copystat_bad u v cs r : addr u cs -> (forall cs', ~ addr v cs') -> reaches t cs true r ->
  mem_copystat u v s = (Raise match r with Fail e => e | At _ => AssertionError end, s).
Proof.
  intros A B R. assert (X := reaches_run s W u cs true r A R). unfold mem_copystat, bind. destruct r as [q|e].
  - destruct X as (i & P & L & T). rewrite L. now rewrite (run_lookup_bad s v true B).
  - now rewrite X.
Qed.

(** *** Creating *)
Lemma exact_make u (leaf : mst -> node) sl : no_entries (leaf s) -> place t u sl -> has_effect s (make u leaf s) (make_rule (entry_of (leaf s)) sl).
Proof.
  intros N P. destruct sl as [|p|p|e]; cbn.
  - now apply make_top.
  - destruct (make_free s W u leaf p P N) as (s' & E & _ & Pt & Re & _). exists s'. auto.
  - now apply make_taken with p.
  - now apply make_noplace.
Qed.
Lemma exact_mkdir u sl : place t u sl -> has_effect s (mem_mkdir u s) (make_rule (EDir (m_now s) 0) sl).
Proof. intros P. rewrite mkdir_make. apply (exact_make u (fun s => NDir [] (m_now s) 0) sl); auto. intros es E. now injection E. Qed.
Lemma exact_symlink u v sl : place t v sl -> has_effect s (mem_symlink u v s) (make_rule (ELink u (m_now s) 0) sl).
Proof. intros P. rewrite symlink_make. apply (exact_make v (fun s => NLink u (m_now s) 0) sl); auto. intros es E. discriminate E. Qed.

(** *** Listing and removing *)
Lemma proper_eq cs : proper cs = filter nonempty cs. Proof. reflexivity. Qed.
Lemma exact_removefile u cs sp : addr u cs -> spots t (proper cs) sp -> has_effect s (mem_removefile u s) (removefile_rule t (u_last u) sp).
Proof.
  intros A S. destruct (proj1 (addr_path u cs) A) as (p & P & _). assert (Es := nonempty_steps_addr u cs p A P). rewrite <- proper_eq in Es.
  unfold mem_removefile, bind, lift. rewrite P, Es. apply (spots_cases s) in S.
  destruct S as [[-> ->]|(init & n & E & S)]; [reflexivity|]. rewrite E.
  destruct S as [[F [B|[(d & L & D & ->)|(o & o' & L & No & L' & ->)]]]|[-> (pre & post & d & E' & L & K)]].
  - destruct B as (d & L & D & B). destruct (place_dir s W init n d L D) as (i & es & mt & mo & Pi & Hi & Bi & T1 & T2).
    rewrite (prev_entry _ _ W false true init n d i es mt mo L Pi Hi (or_intror F)).
    destruct B as [[B ->]|[B ->]].
    + rewrite T2 in B. destruct (dget n es) as [j|] eqn:G; [|easy]. rewrite (child_plain _ true max_links i es mt mo n j false Hi G (or_introl eq_refl)).
      cbn [rbind fst]. unfold removefile_rule. rewrite removelast_last.
      destruct (tree_snoc (m_heap s) d i es mt mo (u_last u) Pi Hi) as [T3 _]. change (tree_of (m_heap s)) with t in T3.
      assert (Ne : d ++ [n] <> []) by (destruct d; discriminate). destruct (d ++ [n]) as [|y ys]; [easy|].
      rewrite T3. destruct (dget (u_last u) es) as [k|] eqn:G2; cbn [option_map].
      * cbn. destruct (deleted_spec s W d i (u_last u) es mt mo Pi Hi) as (_ & C & Re & _).
        exists (deleted s i (u_last u) es mt mo). split; auto. apply run_del; auto. unfold dhas. now rewrite G2.
      * cbn. unfold del_child, bind, get_node_obj. rewrite Hi. unfold dhas. now rewrite G2.
    + rewrite T2 in B. destruct (dget n es) as [j|] eqn:G; [easy|]. reflexivity.
  - rewrite (prev_noplace s W false true init n AttributeError (or_introl (ex_intro _ d (conj eq_refl (conj L D)))) (or_intror F) eq_refl). reflexivity.
  - rewrite (prev_fail _ _ W false true init n o L No (or_intror F)).
    assert (X := get_node_spec _ _ W true _ _ L'). unfold get_node in X.
    assert (No' : forall q, o' <> Found q).
    { intros q ->. destruct (leads_prefix s W _ _ _ L') as (d & M & _). apply (No d). eapply leads_det; eauto; apply W. }
    rewrite (res_throw _ _ No') in X. destruct (get_node_prev (m_heap s) true (init ++ [n]) true); cbn in X; [discriminate X|]. injection X as ->. reflexivity.
  - rewrite (prev_same_name s W true init n pre post d E' L K). reflexivity.
Qed.
Lemma exact_removedir u cs f : addr u cs -> removedir_rule t (u_last u) (proper cs) f -> has_effect s (mem_removedir u s) f.
Proof.
  intros A S. destruct (proj1 (addr_path u cs) A) as (p & P & _). assert (Es := nonempty_steps_addr u cs p A P). rewrite <- proper_eq in Es.
  unfold mem_removedir, bind, lift. rewrite P, Es. remember (proper cs) as names eqn:En. clear En.
  assert (GO : forall init n q d, leads t (init ++ [n]) (Found q) -> leads t init (Found d) -> exists i es mt mo j,
     get_node_prev (m_heap s) true (init ++ [n]) true = Ok (Some i, Some j) /\
     phys (m_heap s) root_id d = Some i /\ m_heap s i = NDir es mt mo).
  { intros init n q d L L0. destruct (leads_taken s W _ _ _ _ L0 L) as [D T]. destruct (place_dir s W init n d L0 D) as (i & es & mt & mo & Pi & Hi & Bi & T1 & T2).
    destruct (leads_phys _ _ W _ _ L) as (j & Pj & _). assert (T' : view s (d ++ [n]) <> None) by exact T. rewrite T2 in T'. destruct (dget n es) as [k|] eqn:G; [|easy].
    exists i, es, mt, mo, j. split; [|auto]. rewrite (prev_entry _ _ W true true init n d i es mt mo L0 Pi Hi (or_introl eq_refl)), G.
    rewrite (child_follow _ _ W true init n d i es mt mo k _ L0 Pi Hi G L). cbn. now rewrite Pj. }
  assert (KID : forall init d i es mt mo o, leads t init (Found d) -> phys (m_heap s) root_id d = Some i -> m_heap s i = NDir es mt mo ->
     t (d ++ [u_last u]) <> None -> leads t (init ++ [u_last u]) o -> child (m_heap s) true max_links i (u_last u) true = res_of (m_heap s) true o /\ exists k, dget (u_last u) es = Some k).
  { intros init d i es mt mo o L0 Pi Hi T L. destruct (tree_snoc (m_heap s) d i es mt mo (u_last u) Pi Hi) as [T3 _]. change (tree_of (m_heap s)) with t in T3. rewrite T3 in T.
    destruct (dget (u_last u) es) as [k|] eqn:G; [|easy]. split; eauto. exact (child_follow _ _ W true init (u_last u) d i es mt mo k o L0 Pi Hi G L). }
  destruct S as [|init n o L No|init n q d L L0 T|init n q d o L L0 T L1 No|init n q d r L L0 L1 F|init n q d r m L L0 L1 D T|init n q d r L L0 L1 D T].
  - reflexivity.
  - assert (X := get_node_spec _ _ W true _ _ L). unfold get_node in X. rewrite (res_throw _ _ No) in X.
    destruct (get_node_prev (m_heap s) true (init ++ [n]) true); cbn in X; [discriminate X|]. injection X as ->. reflexivity.
  - destruct (GO _ _ _ _ L L0) as (i & es & mt & mo & j & E & Pi & Hi). rewrite E. cbn [fst].
    destruct (tree_snoc (m_heap s) d i es mt mo (u_last u) Pi Hi) as [T3 _]. change (tree_of (m_heap s)) with t in T3. rewrite T3 in T.
    destruct (dget (u_last u) es) as [k|] eqn:G; [discriminate T|].
    assert (C : child (m_heap s) true max_links i (u_last u) true = Ok None) by (unfold max_links; cbn [child]; now rewrite Hi, G).
    rewrite C. reflexivity.
  - destruct (GO _ _ _ _ L L0) as (i & es & mt & mo & j & E & Pi & Hi). rewrite E. cbn [fst].
    destruct (KID _ _ _ _ _ _ _ L0 Pi Hi T L1) as [C _]. rewrite C, (res_throw _ _ No). reflexivity.
  - destruct (GO _ _ _ _ L L0) as (i & es & mt & mo & j & E & Pi & Hi). rewrite E. cbn [fst].
    destruct (leads_taken s W _ _ _ _ L0 L1) as [_ T]. destruct (KID _ _ _ _ _ _ _ L0 Pi Hi T L1) as [C _]. rewrite C. cbn [res_of].
    destruct F as (a & b & c & F). destruct (efile_node s _ _ _ _ F) as (x & f & Px & Hx & _). rewrite Px. cbn [need]. unfold get_node_obj. rewrite Hx. reflexivity.
  - destruct (GO _ _ _ _ L L0) as (i & es & mt & mo & j & E & Pi & Hi). rewrite E. cbn [fst].
    destruct (leads_taken s W _ _ _ _ L0 L1) as [_ T']. destruct (KID _ _ _ _ _ _ _ L0 Pi Hi T' L1) as [C _]. rewrite C. cbn [res_of].
    destruct (leads_phys _ _ W _ _ L1) as (x & Px & _). rewrite Px. cbn [need]. unfold get_node_obj.
    destruct (tree_dir (m_heap s) r x Px D) as (es' & mt' & mo' & Hx). rewrite Hx. destruct es' as [|y ys]; [|reflexivity].
    exfalso. apply T. now apply (empty_dir s r x [] mt' mo' Px Hx).
  - destruct (GO _ _ _ _ L L0) as (i & es & mt & mo & j & E & Pi & Hi). rewrite E. cbn [fst].
    destruct (leads_taken s W _ _ _ _ L0 L1) as [_ T']. destruct (KID _ _ _ _ _ _ _ L0 Pi Hi T' L1) as [C [k G]]. rewrite C. cbn [res_of].
    destruct (leads_phys _ _ W _ _ L1) as (x & Px & _). rewrite Px. cbn [need]. unfold get_node_obj.
    destruct (tree_dir (m_heap s) r x Px D) as (es' & mt' & mo' & Hx). rewrite Hx.
    assert (es' = []) as -> by now apply (empty_dir s r x es' mt' mo' Px Hx).
    cbn. destruct (deleted_spec s W d i (u_last u) es mt mo Pi Hi) as (_ & Ct & Re & _).
    exists (deleted s i (u_last u) es mt mo). split; auto. apply run_del; auto. unfold dhas. now rewrite G.
Qed.
Lemma removedir_total l cs : exists f, removedir_rule t l cs f.
Proof.
  destruct (snoc_cases cs) as [->|(init & n & ->)]; [eexists; apply rd_root|].
  destruct (leads_total h (init ++ [n])) as [o L]. destruct (outcome_cases o) as [[q ->]|No]; [|eexists; eapply rd_lost; eauto].
  destruct (leads_prefix s W _ _ _ L) as (d & L0 & D). destruct (t (d ++ [l])) eqn:T; [|eexists; eapply rd_absent; eauto].
  destruct (leads_total h (init ++ [l])) as [o L1]. destruct (outcome_cases o) as [[r ->]|No].
  - destruct (leads_real _ _ W _ _ L1) as [F|F]; [eexists; eapply rd_file; eauto|].
    destruct (leads_phys _ _ W _ _ L1) as (x & Px & _). destruct (tree_dir (m_heap s) r x Px F) as (es' & mt' & mo' & Hx).
    destruct es' as [|[m k] es'].
    + eexists. eapply rd_empty; eauto. now apply (empty_dir s r x [] mt' mo' Px Hx).
    + eexists. eapply (rd_full t l init n q d r m); eauto.
      destruct (tree_snoc (m_heap s) r x _ mt' mo' m Px Hx) as [T3 _]. change (tree_of (m_heap s)) with t in T3. rewrite T3. cbn. now rewrite str_eqb_refl.
  - eexists. eapply rd_stuck; eauto. congruence.
Qed.
End S.
