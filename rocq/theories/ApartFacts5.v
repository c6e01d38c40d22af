(** A part of a memory file system, and the file system without the rest: files *)
From Coq Require Import Lia.
From Verif Require Import Str Exc StrFacts UriParse BaseUri Mem SpecUri SpecMem MemFacts MemFacts2 MemFacts5 Generic UriOps Prog GenFacts1 SpecApart ApartFacts ApartFacts2 ApartFacts3 Pair ApartFacts4.
Open Scope nat_scope.

Section Part.
Variable K : str -> bool.
Hypothesis tops : top_names K.
Variable s0 : mst.
Local Notation pruned := (pruned K s0).
Local Notation mine := (mine K).
Local Notation inner s := (inside K (m_heap s)).
Local Notation on I := (both (pruned I)).
Local Notation same2 := (same2 K s0).

Lemma file_at {A} I (Q : A -> Prop) i k s x : pruned I s x -> inner s i -> (forall f, m_heap s i = NFile f -> same2 I Q (k f s) (k f x)) -> same2 I Q (bind (get_file i) k s) (bind (get_file i) k x).
Proof.
  intros P Hi H. unfold get_file, bind, get_node_obj. rewrite (node_at K s0 I s x P i Hi). destruct (m_heap s i) as [f|es mt mo|tg mt mo]; try (now apply s2_same). now apply H.
Qed.
Lemma put_file {A} I (Q : A -> Prop) i f g (a : A) s x : pruned I s x -> inner s i -> m_heap s i = NFile f -> Q a ->
  same2 I Q (bind (upd i (NFile g)) (fun _ => ret a) s) (bind (upd i (NFile g)) (fun _ => ret a) x).
Proof.
  intros P Hi H q. destruct (upd_on K tops s0 I s x i (NFile g) P Hi) as (_ & P' & _); [now rewrite H|discriminate|].
  split; [reflexivity|]. split; [exact P'|]. intros b E. now injection E as <-.
Qed.
Lemma put_file0 I i f g s x : pruned I s x -> inner s i -> m_heap s i = NFile f -> same2 I any (upd i (NFile g) s) (upd i (NFile g) x).
Proof. intros P Hi H. apply upd_on; auto; [now rewrite H|discriminate]. Qed.
Lemma inner_of I s x i : pruned I s x -> In i I -> inner s i. Proof. intros P. apply Forall_forall. exact (pr_in _ _ _ _ _ P). Qed.
Lemma fread_at I i n s x : pruned I s x -> inner s i -> same2 I any (file_read i n s) (file_read i n x).
Proof. intros P Hi. apply file_at; auto. intros f H. destruct (bio_read (f_data f) (f_pos f) n) as [out pos]. unfold set_file. now apply put_file with f. Qed.
Lemma fwrite_at I i d s x : pruned I s x -> inner s i -> same2 I any (file_write i d s) (file_write i d x).
Proof. intros P Hi. apply file_at; auto. intros f H. destruct (bio_write (f_data f) (f_pos f) d) as [out pos]. unfold set_file, bind, get. rewrite (pr_now _ _ _ _ _ P). now apply put_file0 with f. Qed.
Lemma fseek_at I i t w s x : pruned I s x -> inner s i -> same2 I any (file_seek i t w s) (file_seek i t w x).
Proof. intros P Hi. apply file_at; auto. intros f H. unfold bind, lift, set_file. destruct (bio_seek (f_data f) (f_pos f) t w); [now apply put_file0 with f|now apply s2_same]. Qed.
Lemma freset_at I i s x : pruned I s x -> inner s i -> same2 I any (file_reset i s) (file_reset i x).
Proof. intros P Hi. apply file_at; auto. intros f H. unfold bind, get. rewrite (pr_now _ _ _ _ _ P), (pr_epoch _ _ _ _ _ P). now apply put_file0 with f. Qed.
Lemma on_read_h I h n : In (h_node h) I -> on I any (h_read h n) (h_read h n).
Proof.
  intros Hi. unfold h_read. destruct (negb (h_readable h)); [apply both_raise|]. apply (both_bind _ any); [|intros b _; now apply both_lift].
  intros s x P. apply fread_at; [exact P|]. now apply (inner_of I s x).
Qed.
Lemma on_write_h I h v : In (h_node h) I -> on I any (h_write h v) (h_write h v).
Proof.
  intros Hi. unfold h_write. apply (both_bind _ any); [now apply both_lift|]. intros [t|b] _; [apply both_raise|]. intros s x P. apply fwrite_at; [exact P|]. now apply (inner_of I s x).
Qed.
Lemma on_copyfileobj I h k n : In (h_node h) I -> In (h_node k) I -> forall fuel, on I any (copyfileobj fuel h k n) (copyfileobj fuel h k n).
Proof.
  intros Hi Hk. induction fuel as [|fuel IH]; cbn [copyfileobj]; [apply both_raise|]. apply (both_bind _ any); [now apply on_read_h|].
  intros [[|c t]|[|c t]] _; try (now apply both_ret); apply (both_bind _ any); auto; now apply on_write_h.
Qed.
(** Opening: the node of the handle is one of the part *)
Definition opens_in I (m : M mst handle) : Prop := forall s x, pruned I s x -> fst (m s) = fst (m x) /\
  match fst (m s) with Ok h => pruned (h_node h :: I) (snd (m s)) (snd (m x)) | Raise _ => pruned I (snd (m s)) (snd (m x)) end.
Lemma on_use {A} I (Q : A -> Prop) m k : opens_in I m -> (forall h, on (h_node h :: I) Q (k h) (k h)) -> on I Q (bind m k) (bind m k).
Proof.
  intros H F s x P. destruct (H s x P) as [E R]. unfold bind. destruct (m s) as [r s'], (m x) as [r' x']. cbn [fst snd] in *. subst r'. destruct r as [h|e].
  - destruct (F h s' x' R) as (A1 & A2 & A3). split; [exact A1|]. split; [|exact A3]. apply (pruned_incl K s0 (h_node h :: I)); [exact A2|]. intros y Hy. now right.
  - split; [reflexivity|]. split; [exact R|]. discriminate.
Qed.
Lemma more I s x i : pruned I s x -> inner s i -> pruned (i :: I) s x.
Proof. intros P Hi. destruct P. constructor; auto. Qed.
Lemma inner_upd s i g f j : m_heap s i = NFile f -> inner s j -> inside K (heap_set (m_heap s) i (NFile g)) j.
Proof.
  intros H (c & p & Kc & Ph). exists c, p. split; [exact Kc|]. rewrite <- Ph. clear Ph.
  assert (E : forall q r, phys (heap_set (m_heap s) i (NFile g)) r q = phys (m_heap s) r q); [|apply E].
  induction q as [|n q IH]; intros r; [reflexivity|]. cbn [phys]. unfold heap_set. destruct (Nat.eqb r i) eqn:Er; [apply Nat.eqb_eq in Er as ->; now rewrite H|].
  destruct (m_heap s r) as [f0|es mt mo|tg mt mo]; try reflexivity. destruct (dget n es); [apply IH|reflexivity].
Qed.
Lemma opens_ret I m i b c : (forall s x, pruned I s x -> inner s i -> same2 I any (m s) (m x)) -> (forall s, inner s i -> fst (m s) = Ok tt -> inner (snd (m s)) i) ->
  forall s x, pruned I s x -> inner s i -> fst ((m ;; ret (mkHandle i b c)) s) = fst ((m ;; ret (mkHandle i b c)) x) /\
    match fst ((m ;; ret (mkHandle i b c)) s) with Ok h => pruned (h_node h :: I) (snd ((m ;; ret (mkHandle i b c)) s)) (snd ((m ;; ret (mkHandle i b c)) x)) | Raise _ => pruned I (snd ((m ;; ret (mkHandle i b c)) s)) (snd ((m ;; ret (mkHandle i b c)) x)) end.
Proof.
  intros H G s x P Hi. destruct (H s x P Hi) as (A1 & A2 & _). specialize (G s Hi). unfold bind, ret. destruct (m s) as [[[]|e] s'], (m x) as [r' x']; cbn [fst snd] in *; subst r'; (split; [reflexivity|]); [|exact A2]. apply more; auto.
Qed.

Lemma seek_in i t w s : inner s i -> fst (file_seek i t w s) = Ok tt -> inner (snd (file_seek i t w s)) i.
Proof.
  intros Hi. unfold file_seek, get_file, bind, get_node_obj, lift, set_file, upd. destruct (m_heap s i) as [f| |] eqn:H; try (cbn; discriminate). cbn [ret]. destruct (bio_seek (f_data f) (f_pos f) t w) eqn:B; cbn [fst snd]; intros Z0; [|discriminate Z0]. clear Z0.
  cbn [snd set_heap m_heap]. now apply inner_upd with f.
Qed.
Lemma reset_in i s : inner s i -> fst (file_reset i s) = Ok tt -> inner (snd (file_reset i s)) i.
Proof.
  intros Hi. unfold file_reset, get_file, bind, get_node_obj, get, upd. destruct (m_heap s i) as [f| |] eqn:H; try (cbn; discriminate). intros _. cbn [snd set_heap m_heap]. now apply inner_upd with f.
Qed.
Lemma opens_look I u f (k : nat -> M mst handle) : mine u -> (forall i s x, pruned I s x -> inner s i -> fst (k i s) = fst (k i x) /\
  match fst (k i s) with Ok h => pruned (h_node h :: I) (snd (k i s)) (snd (k i x)) | Raise _ => pruned I (snd (k i s)) (snd (k i x)) end) -> opens_in I (bind (lookup_node u f) k).
Proof.
  intros M H s x P. unfold lookup_node, lookup, bind, lift. destruct (look K tops s0 I s x P true u f M) as [E L]. rewrite E.
  destruct (get_node_for_path (m_heap s) true u f) as [[i|]|e]; cbn [need fst snd]; [|now split|now split]. apply H; [exact P|]. exact (L _ eq_refl i eq_refl).
Qed.
Lemma opens_read I u b : mine u -> opens_in I (open_for_read u b).
Proof. intros M. apply opens_look; [exact M|]. intros i s x P Hi. apply (opens_ret I (file_seek i 0 0)); auto; [intros; now apply fseek_at|]. intros s1 Hi1. now apply seek_in. Qed.
Definition out2 I (r1 r2 : res handle * mst) : Prop := fst r1 = fst r2 /\ match fst r1 with Ok h => pruned (h_node h :: I) (snd r1) (snd r2) | Raise _ => pruned I (snd r1) (snd r2) end.
Lemma out_raise I e s x : pruned I s x -> out2 I (Raise e, s) (Raise e, x). Proof. now split. Qed.
Lemma opens_append I u b : mine u -> opens_in I (open_for_append u b).
Proof.
  intros M. apply opens_look; [exact M|]. intros i s x P Hi.
  assert (G : out2 I ((let! f <- get_file i; file_seek i (Z.of_nat (file_len (f_data f))) 0;; ret (mkHandle i false b)) s)
                     ((let! f <- get_file i; file_seek i (Z.of_nat (file_len (f_data f))) 0;; ret (mkHandle i false b)) x)); [|exact G].
  destruct (m_heap s i) as [f|es mt mo|tg mt mo] eqn:H.
  - erewrite (bind_ok _ _ s) by (unfold get_file, bind, get_node_obj; rewrite H; reflexivity).
    erewrite (bind_ok _ _ x) by (unfold get_file, bind, get_node_obj; rewrite (node_at K s0 I s x P i Hi), H; reflexivity).
    apply (opens_ret I (file_seek i (Z.of_nat (file_len (f_data f))) 0)); auto; [intros; now apply fseek_at|]. intros s1 Hi1. now apply seek_in.
  - unfold get_file, bind, get_node_obj. rewrite (node_at K s0 I s x P i Hi), H. now apply out_raise.
  - unfold get_file, bind, get_node_obj. rewrite (node_at K s0 I s x P i Hi), H. now apply out_raise.
Qed.
Lemma opens_write I u b : mine u -> opens_in I (open_for_write u b).
Proof.
  intros M s x P. destruct (mine_path K tops u M) as (q & n & rest & E & N & St & Kn). change (out2 I (open_for_write u b s) (open_for_write u b x)). unfold open_for_write.
  erewrite (bind_ok _ _ s), (bind_ok _ _ x) by (unfold lift; rewrite E; reflexivity).
  destruct (parents K tops s0 I s x P u q M E) as [G L]. destruct (get_node (m_heap s) true (removelast (steps_of q)) true) as [[i|]|e] eqn:G1;
    [|unfold parent_node, bind, lift; rewrite G, G1; now apply out_raise|unfold parent_node, bind, lift; rewrite G, G1; now apply out_raise].
  erewrite (bind_ok _ _ s) by (unfold parent_node, bind, lift; rewrite G1; reflexivity). erewrite (bind_ok _ _ x) by (unfold parent_node, bind, lift; rewrite G; reflexivity).
  specialize (L i eq_refl).
  pose proof (mine_pieces K tops u _ M E) as Sn. remember (last (steps_of q) []) as m eqn:Em. clear Em. cbv zeta.
  destruct (start_dirs K s0 I s x i m P L) as [(es & mt & mo & es' & mt' & mo' & H & Hx & D & _)|[H Hx]].
  - assert (Dh : dhas m es' = dhas m es) by (unfold dhas; now rewrite D).
    erewrite (bind_ok _ _ s) by (unfold node_has, bind, get_node_obj; rewrite H; reflexivity).
    erewrite (bind_ok _ _ x) by (unfold node_has, bind, get_node_obj; rewrite Hx, Dh; reflexivity). destruct (dhas m es) eqn:Dm.
    + destruct (childs K s0 I s x P true max_links i m true L) as [C Q]. unfold bind at 1 5. rewrite C. destruct (child (m_heap s) true max_links i m true) as [o|e]; [|now apply out_raise].
      specialize (Q o eq_refl). unfold bind at 1 4. destruct o as [j|]; cbn [need].
      * specialize (Q j eq_refl). rewrite (node_at K s0 I s x P j Q). destruct (is_dir (m_heap s j)); [now apply out_raise|]. erewrite (bind_ok _ _ s), (bind_ok _ _ x) by reflexivity.
        apply (opens_ret I (file_reset j)); auto; [intros; now apply freset_at|]. intros s1 Hi1. now apply reset_in.
      * now apply out_raise.
    + erewrite (bind_ok _ _ s), (bind_ok _ _ x) by reflexivity.
      assert (Hl : i < m_next s). { destruct (start_place K s0 I s x i m P L) as (_ & _ & _ & _ & _ & _ & _ & X). exact X. }
      pose proof (pr_next _ _ _ _ _ P) as Nx.
      assert (C := change_add K tops s0 I s x i m (new_file q (m_now s) (m_epoch s)) es mt mo P L H Dm ltac:(intros es1 E1; discriminate E1) Sn ltac:(intros a1 a2 a3 E1; discriminate E1)).
      rewrite (pr_now _ _ _ _ _ P), (pr_epoch _ _ _ _ _ P). unfold alloc, create_child, get_node_obj, bind, upd, ret. cbn [m_heap m_next m_now m_epoch m_held m_cbs set_heap]. rewrite !heap_set_other by lia. rewrite H, Hx. split; [now rewrite <- Nx|]. cbn [fst snd h_node].
      unfold added in C. rewrite (heap_add_eq _ _ _ _ _ es mt mo Hl H), (heap_add_eq _ _ _ _ _ es' mt' mo') in C; [|lia|exact Hx].
      exact C.
  - unfold node_has, bind, get_node_obj. rewrite Hx. destruct (m_heap s i); try discriminate H; now apply out_raise.
Qed.
Lemma opens_mem I u o : mine u -> opens_in I (mem_open u o).
Proof.
  intros M. assert (X : forall e, opens_in I (raise e)) by (intros e s x P; now split). unfold mem_open. destruct o as [o|]; [|now apply opens_read]. destruct (has_char 114 o); [now apply opens_read|].
  destruct (has_char 119 o); [now apply opens_write|]. destruct (has_char 97 o); [now apply opens_append|apply X].
Qed.
(** With a file of the part open, as long as no directory is changed *)
Lemma opens_bind {A} I (m : M mst A) k : on I any m m -> (forall a, opens_in I (k a)) -> opens_in I (bind m k).
Proof.
  intros H F s x P. destruct (H s x P) as (E & R & _). unfold bind. destruct (m s) as [r s'], (m x) as [r' x']. cbn [fst snd] in *. subst r'. destruct r as [a|e]; [now apply F|now split].
Qed.
Lemma opens_u I u o : mine u -> opens_in I (u_open u o).
Proof. intros M. apply opens_bind; [now apply on_hook|]. intros _. now apply opens_mem. Qed.
(** *** What opens and uses files *)
Lemma on_len {A} I (Q : A -> Prop) i (k : nat -> M mst A) : In i I -> (forall n, on I Q (k n) (k n)) -> on I Q (let! f <- get_file i; k (length (f_data f))) (let! f <- get_file i; k (length (f_data f))).
Proof. intros Hi H s x P. apply file_at; [exact P|now apply (inner_of I s x)|]. intros f _. now apply H. Qed.
Lemma on_content u v : mine u -> mine v -> on [] any (mem_copy_content u v) (mem_copy_content u v).
Proof.
  intros M M'. unfold mem_copy_content. apply on_use; [now apply opens_u|]. intros h. apply on_use; [now apply opens_u|]. intros k.
  apply (on_len (h_node k :: [h_node h]) any (h_node h) (fun n => copyfileobj (S n) h k 8192)); [now right; left|]. intros n. apply on_copyfileobj; [now right; left|now left].
Qed.
Lemma on_hash I h : In (h_node h) I -> forall fuel fed, on I any (hash_blocks fuel h fed) (hash_blocks fuel h fed).
Proof.
  intros Hi. induction fuel as [|fuel IH]; intros fed; cbn [hash_blocks]; [apply both_raise|]. apply (both_bind _ any); [now apply on_read_h|]. intros [t|[|c t]] _; [apply both_raise|now apply both_ret|apply IH].
Qed.
Lemma on_md5 {D} (H : list N -> D) u : mine u -> on [] any (u_md5 H u) (u_md5 H u).
Proof.
  intros M. unfold u_md5. apply (both_bind _ any); [now apply on_hook|]. intros _ _. apply on_use; [now apply opens_u|]. intros h.
  apply (on_len [h_node h] any (h_node h) (fun n => let! bs <- hash_blocks (S n) h []; ret (H bs))); [now left|]. intros n. apply (both_bind _ any); [apply on_hash; now left|]. intros bs _. now apply both_ret.
Qed.
Lemma on_drop u o : mine u -> on [] any (answered (fun _ => AUnit) (u_open u o)) (answered (fun _ => AUnit) (u_open u o)).
Proof. intros M. apply on_use; [now apply opens_u|]. intros h. now apply both_ret. Qed.
(** *** The root is a directory for both *)
Lemma root_path : mem_path root_uri = Ok []. Proof. reflexivity. Qed.
Lemma on_root u : u = root_uri -> on [] (fun d => d = true) (u_isdir mem_backend u) (u_isdir mem_backend u).
Proof.
  intros ->. unfold u_isdir, hooked. cbn [b_hook b_isdir mem_backend]. apply (both_bind _ any).
  - intros s x P. unfold mem_hook, bind, lift. rewrite root_path. rewrite (pr_cbs _ _ _ _ _ P []) by now left. destruct (dget [] (m_cbs s)) as [[cb|]|]; [destruct (cb root_uri (lit "isdir"))| |]; now apply s2_same.
  - intros _ _ s x P. unfold mem_isdir, bind, lift. rewrite root_path. apply s2_same; [exact P|]. intros a E. now injection E as <-.
Qed.
(** *** The backend *)
Lemma part_pair : paired (pruned []) mem_backend mem_backend mine simple_name (leads_in K) (fun _ => True).
Proof.
  constructor; cbn [mem_backend b_hook b_exists b_isfile b_isdir b_islink b_listdir b_removefile b_removedir b_mkdir b_readlink b_copystat b_copy_content b_removefile_by b_symlink_by]; intros.
  - now apply on_hook.
  - now apply on_exists.
  - now apply on_isfile.
  - apply (both_weak _ any); [now apply on_isdir|]. now intros.
  - now apply on_islink.
  - now apply on_listdir.
  - now apply on_removefile.
  - now apply on_removedir.
  - now apply on_mkdir.
  - now apply on_readlink.
  - now apply on_copystat.
  - now apply on_content.
  - now apply on_removefile.
  - now apply on_symlink.
Qed.
Lemma mine_leads u : mine u -> leads_in K u.
Proof.
  intros M cs A. destruct (mine_path K tops u M) as (q & n & rest & E & N & St & Kn). apply addr_path in A as (p & Ep & H). rewrite E in Ep. injection Ep as <-.
  destruct H as [[-> _]|[_ ->]]; [easy|]. exists n, rest. now split.
Qed.
(** *** Calls *)
Lemma on_answered {A} (f : A -> answer) (Q : A -> Prop) m : on [] Q m m -> on [] any (answered f m) (answered f m).
Proof. intros H. unfold answered. apply (both_bind _ Q); [exact H|]. intros a _. now apply both_ret. Qed.
Lemma on_hooked {A} (Q : A -> Prop) n u m : mine u -> on [] Q m m -> on [] Q (hooked mem_backend n u m) (hooked mem_backend n u m).
Proof. intros M H. apply (both_bind _ any); [now apply on_hook|]. now intros _ _. Qed.
Lemma on_ask fuel o : op_in K o -> on [] any (ask fuel o) (ask fuel o).
Proof.
  pose proof part_pair as B. intros M. destruct o; cbn [op_in uop_uri] in M; cbn [ask]; try (match type of M with _ /\ _ => destruct M as [M1 M2] end); match goal with |- both _ _ (answered _ (u_open _ _)) _ => now apply on_drop | _ => idtac end;
    match goal with |- both _ _ (answered _ (u_walk _ _ _ _ _)) _ => apply (on_answered _ _ _ (both_walk _ _ _ _ _ _ _ B (mine_div K tops) fuel topdown follow u M)) | |- both _ _ (answered _ (u_listdir _ _)) _ => apply (on_answered _ _ _ (both_listdir _ _ _ _ _ _ _ B u M)) | |- both _ _ (answered _ (u_glob _ _ _ _)) _ => apply (on_answered _ _ _ (both_glob _ _ _ _ _ _ _ B (mine_div K tops) fnmatch u pat M)) | _ => apply (on_answered _ any) end.
  - apply (both_copy_up (pruned []) mem_backend mem_backend mine simple_name (leads_in K) (fun _ => True) B (mine_div K tops) (fun v => v = root_uri)); auto using on_root.
    + intros u1 d n H _ E. exact (mine_split K tops u1 d n H E).
    + intros u1 H. exact (mine_last K tops u1 H).
    + intros u1 k H. exact (mine_rest K tops u1 k H).
  - apply on_hooked; [exact M1|]. now apply on_copystat.
  - apply (both_move_up (pruned []) mem_backend mem_backend mine simple_name (leads_in K) (fun _ => True) B (mine_div K tops) (fun v => v = root_uri)); auto using on_root.
    + intros u1 d n H _ E. exact (mine_split K tops u1 d n H E).
    + intros u1 H. exact (mine_last K tops u1 H).
    + intros u1 k H. exact (mine_rest K tops u1 k H).
  - apply (both_remove _ _ _ _ _ _ _ B (mine_div K tops)); exact M.
  - apply (both_makedirs_up _ _ _ _ _ _ _ B (fun v => v = root_uri)); auto using on_root. intros u1 d n H _ E. exact (mine_split K tops u1 d n H E).
  - now apply (both_mkdir _ _ _ _ _ _ _ B).
  - now apply (both_exists _ _ _ _ _ _ _ B).
  - now apply (both_isfile _ _ _ _ _ _ _ B).
  - now apply (both_isdir _ _ _ _ _ _ _ B).
  - apply on_hooked; [exact M|]. now apply on_isexec.
  - apply on_hooked; [exact M|]. now apply on_set_exec.
  - now apply (both_islink _ _ _ _ _ _ _ B).
  - apply on_hooked; [exact M|]. apply (both_any _ (leads_in K)). now apply on_readlink.
  - apply on_hooked; [exact M1|]. apply on_symlink; auto. now apply mine_leads.
  - apply on_hooked; [exact M|]. now apply on_mtime.
  - apply on_hooked; [exact M|]. now apply on_info.
  - apply on_hooked; [exact M|]. now apply on_set_info.
  - apply on_hooked; [exact M|]. apply both_raise.
  - apply (both_any _ (Forall mine)). apply (both_glob _ _ _ _ _ _ _ B (mine_div K tops)). exact M.
  - now apply on_md5.
  - apply on_hooked; [exact M|]. now apply both_ret.
  - apply on_hooked; [exact M|]. now apply on_manip_mtime.
  - apply on_hooked; [exact M|]. now apply on_manip_callback.
Qed.
Lemma on_close I h : In (h_node h) I -> on I any (h_close h) (h_close h).
Proof. intros Hi s x P. pose proof (inner_of I s x _ P Hi) as Hn. apply file_at; auto. intros f H. unfold set_file. now apply put_file0 with f. Qed.
Lemma on_with u o (m : handle -> M mst answer) : mine u -> (forall h, on [h_node h] any (m h) (m h)) -> on [] any (with_open u o m) (with_open u o m).
Proof.
  intros M H. unfold with_open. apply on_use; [now apply opens_u|]. intros h s x P. destruct (H h s x P) as (E & R & _). destruct (m h s) as [r s1], (m h x) as [r' x1]. cbn [fst snd] in *. subst r'.
  destruct (on_close [h_node h] h (or_introl eq_refl) s1 x1 R) as (E2 & R2 & _). destruct (h_close h s1) as [[[]|e] s2], (h_close h x1) as [r2 x2]; cbn [fst snd] in *; subst r2; now apply s2_same.
Qed.
Lemma on_do c : doing_in K c -> on [] any (do_it c) (do_it c).
Proof.
  destruct c as [fuel o|u m ds|u m]; cbn [doing_in do_it]; intros M.
  - now apply on_ask.
  - apply on_with; [exact M|]. intros h. unfold answered. apply (both_bind _ any); [|intros; now apply both_ret]. apply (both_map _ (fun _ => True)); [now apply Forall_forall|]. intros v _. apply on_write_h. now left.
  - apply on_with; [exact M|]. intros h. unfold answered. apply (both_bind _ any); [|intros; now apply both_ret]. apply on_read_h. now left.
Qed.
End Part.
