(** The property lemmas about the memory backend, continued. *)
From Verif Require Import Str Exc Utf8 UriParse BaseUri StrFacts Utf8Facts SpecUri Mem SpecMem SpecFile MemOps.
From Verif Require Import MemFacts MemFacts2 MemFacts3 MemFacts4 MemFacts5 MemFacts6 MemFacts7 MemFacts8 MemFacts9 MemFacts10.
From Coq Require Import Sorted.

Lemma addr_or u : (exists cs, addr u cs) \/ (forall cs, ~ addr u cs).
Proof.
  destruct (mem_path u) as [p|e] eqn:M.
  - left. destruct p as [|c p]; [exists []; now apply addr_nil|]. exists (steps_of (c :: p)).
    apply addr_path. exists (c :: p). split; auto. right. split; [discriminate|auto].
  - right. apply addr_none. unfold mem_path in *. destruct (u_path u); [congruence|].
    destruct (N.eqb n cSlash); congruence.
Qed.

(** ** C22 *)
Lemma listdir_sorted s u l s' : wf s -> mem_listdir u s = (Ok l, s') -> StronglySorted slt l /\ NoDup l.
Proof.
  intros W H. assert (S : StronglySorted slt l); [|split; [exact S|now apply slt_NoDup]].
  destruct (addr_or u) as [[cs A]|A].
  2: { apply addr_none in A. unfold mem_listdir in H. unfold bind at 1, lift in H. rewrite A in H. discriminate. }
  destruct (leads_total (m_heap s) (filter nonempty cs)) as [o O].
  destruct (outcome_cases o) as [[q ->]|N].
  - destruct (edir_dec (view s q)) as [D|D].
    + destruct (listdir_spec s W u cs q A O D) as (l' & E & S & _). rewrite E in H. now injection H as <- _.
    + rewrite (listdir_file s W u cs q A O D) in H. discriminate.
  - rewrite (listdir_fail s W u cs o A O N) in H. discriminate.
Qed.
Lemma c22 s : reachable s ->
  is_edir (view s []) /\
  (forall p n, view s (p ++ [n]) <> None -> is_edir (view s p)) /\
  (forall i es mt mo n j, i < m_next s -> m_heap s i = NDir es mt mo -> In (n, j) es -> j < m_next s) /\
  (forall i es mt mo, i < m_next s -> m_heap s i = NDir es mt mo -> NoDup (map fst es)) /\
  (forall p q i, phys (m_heap s) root_id p = Some i -> phys (m_heap s) root_id q = Some i -> p = q) /\
  (forall u l s', mem_listdir u s = (Ok l, s') -> StronglySorted slt l /\ NoDup l).
Proof.
  intros R. pose proof (reachable_wf s R) as W. split; [|split; [|split; [|split; [|split]]]].
  - destruct (wf_root _ _ W) as (es & mt & mo & E). exists mt, mo. unfold view, tree_of. cbn. now rewrite E.
  - intros p n H. eapply (tree_parent (m_heap s)); eauto.
  - intros i es mt mo n j Hi E Hin. now apply (wf_child _ _ W i es mt mo n j).
  - intros i es mt mo Hi E. eapply (wf_names _ _ W); eauto.
  - intros p q i. apply (phys_inj _ _ _ _ _ W).
  - intros u l s'. now apply listdir_sorted.
Qed.

(** ** C23, C24 *)
Lemma quiet_bool s f o : wf s -> ((exists b, quiet s f o = Ok b) <-> ~ In o [Dead; NotDir; BadLink]).
Proof.
  intros W. destruct o; cbn [quiet].
  - split; [intros _ [H|[H|[H|[]]]]; discriminate|]. intros _. destruct (phys (m_heap s) root_id q); eauto.
  - split; [intros _ [H|[H|[H|[]]]]; discriminate|eauto].
  - split; [intros [b H]; discriminate|]. intros H. destruct H. cbn. tauto.
  - split; [intros [b H]; discriminate|]. intros H. destruct H. cbn. tauto.
  - split; [intros _ [H|[H|[H|[]]]]; discriminate|eauto].
  - split; [intros [b H]; discriminate|]. intros H. destruct H. cbn. tauto.
Qed.
Lemma ok_eq {A} (x : res A) (s : mst) : (exists b, (x, s) = (Ok b, s)) <-> exists b, x = Ok b.
Proof. split; intros [b H]; exists b; congruence. Qed.
Lemma tests_total s u cs o : wf s -> addr u cs -> leads (view s) cs o ->
  ((exists b, mem_exists u s = (Ok b, s)) <-> ~ In o [Dead; NotDir; BadLink]) /\
  ((exists b, mem_isfile u s = (Ok b, s)) <-> ~ In o [Dead; NotDir; BadLink]) /\
  ((exists b, mem_isdir u s = (Ok b, s)) <-> ~ In o [Dead; NotDir; BadLink]).
Proof.
  intros W A L. rewrite (exists_spec s W u cs o), (isfile_spec s W u cs o), (isdir_spec s W u cs o) by auto.
  rewrite !ok_eq. split; [|split]; now apply quiet_bool.
Qed.
Lemma classify s u cs o : wf s -> addr u cs -> leads (view s) cs o -> ~ In o [Dead; NotDir; BadLink] ->
  exists e f d, mem_exists u s = (Ok e, s) /\ mem_isfile u s = (Ok f, s) /\ mem_isdir u s = (Ok d, s) /\
    (e = true <-> exists q, o = Found q) /\
    (f = true <-> exists q, o = Found q /\ is_efile (view s q)) /\
    (d = true <-> exists q, o = Found q /\ is_edir (view s q)) /\
    e = xorb f d /\ andb f d = false.
Proof.
  intros W A L N. rewrite (exists_spec s W u cs o), (isfile_spec s W u cs o), (isdir_spec s W u cs o) by auto.
  destruct o; try (exfalso; apply N; cbn; tauto).
  - destruct (leads_phys _ _ W _ _ L) as (i & Pi & Hl & _). cbn [quiet]. rewrite Pi.
    assert (V : view s q = Some (entry_of (m_heap s i))) by (unfold view, tree_of; now rewrite Pi).
    exists true, (is_file (m_heap s i)), (is_dir (m_heap s i)).
    do 3 (split; [reflexivity|]). split; [split; eauto|]. split; [|split].
    + split.
      * intros F. exists q. split; auto. rewrite V. destruct (m_heap s i); try discriminate. red. cbn. eauto.
      * intros (q' & E & (a & b & c & F)). injection E as <-. rewrite V in F. now destruct (m_heap s i).
    + split.
      * intros F. exists q. split; auto. rewrite V. destruct (m_heap s i); try discriminate. red. cbn. eauto.
      * intros (q' & E & (a & b & F)). injection E as <-. rewrite V in F. now destruct (m_heap s i).
    + now destruct (m_heap s i).
  - exists false, false, false. do 3 (split; [reflexivity|]).
    split; [split; [discriminate|intros [q E]; discriminate]|].
    split; [split; [discriminate|intros (q & E & _); discriminate]|].
    split; [split; [discriminate|intros (q & E & _); discriminate]|]. auto.
  - exists false, false, false. do 3 (split; [reflexivity|]).
    split; [split; [discriminate|intros [q E]; discriminate]|].
    split; [split; [discriminate|intros (q & E & _); discriminate]|].
    split; [split; [discriminate|intros (q & E & _); discriminate]|]. auto.
Qed.

(** ** Order of names *)
Lemma slt_spec a b : slt a b <-> exists x, (exists y r, b = x ++ y :: r /\ a = x) \/ (exists c d r r', a = x ++ c :: r /\ b = x ++ d :: r' /\ (c < d)%N).
Proof.
  unfold slt. revert b. induction a as [|c a IH]; intros [|d b]; cbn [str_ltb].
  - split; [discriminate|]. intros (x & [(y & r & E & <-)|(c & d & r & r' & E & _)]); [now destruct r|now destruct x].
  - split; [|reflexivity]. intros _. exists []. left. exists d, b. auto.
  - split; [discriminate|]. intros (x & [(y & r & E & <-)|(c' & d & r & r' & _ & E & _)]); [discriminate|now destruct x].
  - destruct (N.ltb_spec c d) as [H|H]; [|destruct (N.eqb_spec c d) as [->|H2]].
    + split; [|reflexivity]. intros _. exists []. right. exists c, d, a, b. auto.
    + cbn [orb andb]. rewrite IH. split.
      * intros (x & [(y & r & -> & ->)|(c' & d' & r & r' & -> & -> & L)]); exists (d :: x); [left|right].
        -- exists y, r. auto. -- exists c', d', r, r'. auto.
      * intros (x & [(y & r & E & <-)|(c' & d' & r & r' & E & E' & L)]).
        -- injection E as ->. exists a. left. exists y, r. auto.
        -- destruct x as [|z x]; cbn [app] in *; [injection E as <- <-; injection E' as E1 <-; lia|].
           injection E as <- ->. injection E' as ->. exists x. right. exists c', d', r, r'. auto.
    + split; [discriminate|]. intros (x & [(y & r & E & <-)|(c' & d' & r & r' & E & E' & L)]).
      * cbn in E. injection E as ->. lia.
      * destruct x as [|z x]; cbn [app] in *; injection E as <- ->; injection E' as E1 ->; lia.
Qed.

(** ** Equal outcomes, equal answers *)
Lemma same_answers s u v cs ct o : wf s -> addr u cs -> addr v ct -> leads (view s) cs o -> leads (view s) ct o ->
  mem_exists u s = mem_exists v s /\ mem_isfile u s = mem_isfile v s /\ mem_isdir u s = mem_isdir v s /\
  mem_info u true s = mem_info v true s /\ mem_mtime u s = mem_mtime v s /\
  (forall m, match m with None => True | Some m => has_char 114 m = true end -> mem_open u m s = mem_open v m s) /\
  (Forall (fun c => c <> []) cs -> Forall (fun c => c <> []) ct -> mem_listdir u s = mem_listdir v s).
Proof.
  intros W A B L K.
  rewrite (exists_spec s W u cs o), (exists_spec s W v ct o), (isfile_spec s W u cs o), (isfile_spec s W v ct o),
    (isdir_spec s W u cs o), (isdir_spec s W v ct o) by auto.
  do 3 (split; [reflexivity|]).
  assert (E : lookup_node u true s = lookup_node v true s).
  { unfold lookup_node, bind, lookup. rewrite (lookup_spec _ _ W true u cs o A L), (lookup_spec _ _ W true v ct o B K). reflexivity. }
  split; [unfold mem_info, bind; now rewrite E|]. split; [unfold mem_mtime, bind; now rewrite E|]. split.
  - intros m Hm. rewrite !mem_open_read by auto. unfold open_for_read, bind. now rewrite E.
  - intros H1 H2. destruct (addr_some _ _ A) as [p Pp], (addr_some _ _ B) as [q Q].
    rewrite (listdir_run s W u cs o p), (listdir_run s W v ct o q); auto; now rewrite proper_filter.
Qed.

Lemma loop_ops s u p p' : wf s -> addr u p -> arrow (view s) p p' -> leads (view s) p Loop ->
  mem_exists u s = (Ok false, s) /\ mem_isfile u s = (Ok false, s) /\ mem_isdir u s = (Ok false, s) /\
  mem_info u true s = (Raise (OSError ELOOP), s) /\
  (forall o, has_char 114 o = true \/ has_char 119 o = true \/ has_char 97 o = true -> mem_open u (Some o) s = (Raise (OSError ELOOP), s)) /\
  (Forall (fun c => c <> []) p -> mem_listdir u s = (Raise (OSError ELOOP), s)).
Proof.
  intros W A Ar L. destruct (loop_tests s u p W A L) as (H1 & H2 & H3 & H4 & _ & H5 & H6 & H7).
  do 4 (split; [assumption|]). split; [|exact H7]. intros o Ho.
  destruct (has_char 114 o) eqn:E1; [now apply (H5 (Some o))|]. destruct (has_char 119 o) eqn:E2; [eapply loop_write; eauto|].
  destruct Ho as [Ho|[Ho|Ho]]; try discriminate. now apply H6.
Qed.
