(** Properties C91 to C96: complete rules for the operations of a memory file system.  SpecExact.v has the rules. *)
From Coq Require Import Sorting.Sorted.
From Verif Require Import Str Exc Utf8 UriParse BaseUri StrFacts SpecUri Mem SpecMem SpecHandle MemOps Generic UriOps SpecExact.
From Verif Require Import MemFacts MemFacts2 MemFacts3 MemFacts4 MemFacts5 MemFacts6 MemFacts7 MemFacts9 MemUri GenFacts11 HandleFacts ExactFacts ExactFacts2 ExactFacts3 PropsMem.
Local Open Scope string_scope.
Local Open Scope list_scope.
Local Notation B := mem_backend.

Lemma hook_allowed u cs name s : addr u cs -> vetoes s u name = None -> mem_hook u name s = (Ok tt, s).
Proof.
  intros A V. destruct (proj1 (addr_path u cs) A) as (p & P & _). unfold mem_hook, bind, lift. rewrite P.
  unfold vetoes in V. unfold mem_path in P. destruct (u_path u) as [|c r]; [discriminate P|]. destruct (N.eqb c cSlash); [|discriminate P]. injection P as ->.
  destruct (dget p (m_cbs s)) as [[cb|]|]; auto. now rewrite V.
Qed.
Lemma hooked_allowed {A} u cs (name : String.string) s (m : M mst A) : addr u cs -> vetoes s u (lit name) = None -> hooked B name u m s = m s.
Proof. intros Ad V. unfold hooked, bind. cbn [b_hook mem_backend]. now rewrite (hook_allowed u cs _ s Ad V). Qed.

(** ** C91: the tests *)
Theorem C91_tests s u cs o : reachable s -> addr u cs -> leads (view s) cs o ->
  (vetoes s u (lit "exists") = None -> u_exists B u s = (test_rule (view s) (fun _ => true) o, s)) /\
  (vetoes s u (lit "isfile") = None -> u_isfile B u s = (test_rule (view s) is_file_e o, s)) /\
  (vetoes s u (lit "isdir") = None -> u_isdir B u s = (test_rule (view s) is_dir_e o, s)).
Proof.
  intros R A L. pose proof (reachable_wf s R) as W. unfold u_exists, u_isfile, u_isdir.
  split; [|split]; intros V; rewrite (hooked_allowed u cs _ s _ A V); cbn [b_exists b_isfile b_isdir mem_backend].
  - now apply exact_exists with cs.
  - now apply exact_isfile with cs.
  - now apply exact_isdir with cs.
Qed.
Theorem C91_islink s u cs sp : reachable s -> addr u cs -> spots (view s) cs sp -> vetoes s u (lit "islink") = None ->
  u_islink B u s = (link_rule (view s) sp, s).
Proof.
  intros R A S V. unfold u_islink. rewrite (hooked_allowed u cs _ s _ A V). apply exact_islink with cs; auto. now apply reachable_wf.
Qed.
(** Every list of names leads to exactly one outcome, and stands for exactly one spot. *)
Theorem C91_outcomes s cs : reachable s ->
  (exists o, leads (view s) cs o /\ forall o', leads (view s) cs o' -> o' = o) /\
  (exists sp, spots (view s) cs sp /\ forall sp', spots (view s) cs sp' -> sp' = sp).
Proof.
  intros R. pose proof (reachable_wf s R) as W. split.
  - destruct (leads_total (m_heap s) cs) as [o L]. exists o. split; [exact L|]. intros o' L'. eapply leads_det; eauto; apply W.
  - destruct (spots_total s W cs) as [sp S]. exists sp. split; [exact S|]. intros sp' S'. exact (spots_det s W cs _ _ S' S).
Qed.
(** Any other URI, whatever the method: AssertionError; and a callback that objects is heard first. *)
Theorem C91_others fuel o s : ((forall cs, ~ addr (uop_uri o) cs) -> run_uop fuel o s = (Raise AssertionError, s)) /\
  (forall cs e, addr (uop_uri o) cs -> vetoes s (uop_uri o) (uop_name o) = Some e -> run_uop fuel o s = (Raise e, s)).
Proof.
  split.
  - intros N. apply hook_first. apply addr_none in N. unfold mem_hook, bind, lift. now rewrite N.
  - intros cs e A V. apply hook_first. destruct (proj1 (addr_path _ cs) A) as (p & P & _). unfold mem_hook, bind, lift. rewrite P.
    unfold vetoes in V. unfold mem_path in P. destruct (u_path (uop_uri o)) as [|c r]; [discriminate P|]. destruct (N.eqb c cSlash); [|discriminate P]. injection P as ->.
    destruct (dget p (m_cbs s)) as [[cb|]|]; try discriminate V. now rewrite V.
Qed.
(** /l/l, where /l is a link to /d: islink does not follow the first l either, and then cannot enter it; exists does. *)
Lemma demo_ll : addr (U ["l"; "l"]) (P ["l"; "l"]). Proof. apply demo_addr. good. Qed.
Lemma demo_l : leads (view demo) (P ["l"]) (Found (P ["d"])).
Proof.
  apply (rs_link _ 31 [] (lit "l") [] (U ["d"]) 5 0 (P ["d"]) (P ["d"])); [do 2 eexists; vm_compute; reflexivity|vm_compute; reflexivity|apply demo_addr; good| |apply rs_end].
  apply (rs_step _ 31 [] (lit "d") []); [do 2 eexists; vm_compute; reflexivity|right; do 2 eexists; vm_compute; reflexivity|apply rs_end].
Qed.
Example C91_witness : reachable demo /\ addr (U ["l"; "l"]) (P ["l"; "l"]) /\ leads (view demo) (P ["l"; "l"]) Missing /\
  spots (view demo) (P ["l"; "l"]) (Stuck NotDir) /\ (forall name, vetoes demo (U ["l"; "l"]) name = None) /\
  u_exists B (U ["l"; "l"]) demo = (Ok false, demo) /\ u_islink B (U ["l"; "l"]) demo = (Raise AttributeError, demo).
Proof.
  split; [apply demo_reachable|]. split; [apply demo_ll|].
  assert (L : leads (view demo) (P ["l"; "l"]) Missing).
  { apply (rs_link _ 31 [] (lit "l") [lit "l"] (U ["d"]) 5 0 (P ["d"]) (P ["d"])); [do 2 eexists; vm_compute; reflexivity|vm_compute; reflexivity|apply demo_addr; good| |].
    - apply (rs_step _ 31 [] (lit "d") []); [do 2 eexists; vm_compute; reflexivity|right; do 2 eexists; vm_compute; reflexivity|apply rs_end].
    - apply rs_missing; [do 2 eexists; vm_compute; reflexivity|vm_compute; reflexivity]. }
  assert (S : spots (view demo) (P ["l"; "l"]) (Stuck NotDir)).
  { apply (sp_same_name (view demo) [] (lit "l") [] []); [apply rs_end|do 3 eexists; vm_compute; reflexivity]. }
  assert (V : forall name, vetoes demo (U ["l"; "l"]) name = None) by (intros name; vm_compute; reflexivity).
  split; [exact L|]. split; [exact S|]. split; [exact V|]. split.
  - exact (proj1 (C91_tests demo _ _ _ demo_reachable demo_ll L) (V _)).
  - exact (C91_islink demo _ _ _ demo_reachable demo_ll S (V _)).
Qed.
Example C91_others_witness : exists u, URI (lit "memory:x") cSlash [] = Ok u /\ forall cs, ~ addr u cs.
Proof. eexists. split; [vm_compute; reflexivity|]. apply addr_none. vm_compute. reflexivity. Qed.

(** ** C92: reading *)
Theorem C92_info s u cs follow r : reachable s -> addr u cs -> reaches (view s) cs follow r -> vetoes s u (lit "info") = None ->
  hooked B "info" u (mem_info u follow) s = (value_rule (view s) (fun e => mkBunch (e_mtime e) (e_mode e) (e_size e)) r, s).
Proof. intros R A X V. rewrite (hooked_allowed u cs _ s _ A V). apply exact_info with cs; auto. now apply reachable_wf. Qed.
Theorem C92_mtime s u cs r : reachable s -> addr u cs -> reaches (view s) cs true r -> vetoes s u (lit "mtime") = None ->
  hooked B "mtime" u (mem_mtime u) s = (value_rule (view s) e_mtime r, s).
Proof. intros R A X V. rewrite (hooked_allowed u cs _ s _ A V). apply exact_mtime with cs; auto. now apply reachable_wf. Qed.
Theorem C92_isexec s u cs r mask : reachable s -> addr u cs -> reaches (view s) cs true r -> vetoes s u (lit "isexec") = None ->
  hooked B "isexec" u (mem_isexec u mask) s = (value_rule (view s) (fun e => negb (Z.land (e_mode e) mask =? 0)%Z) r, s).
Proof. intros R A X V. rewrite (hooked_allowed u cs _ s _ A V). apply exact_isexec with cs; auto. now apply reachable_wf. Qed.
Theorem C92_readlink s u cs r : reachable s -> addr u cs -> reaches (view s) cs false r -> vetoes s u (lit "readlink") = None ->
  hooked B "readlink" u (mem_readlink u) s = (target_rule (view s) r, s).
Proof. intros R A X V. rewrite (hooked_allowed u cs _ s _ A V). apply exact_readlink with cs; auto. now apply reachable_wf. Qed.
(** listdir leaves empty names out of the path. *)
Theorem C92_listdir s u cs o : reachable s -> addr u cs -> leads (view s) (proper cs) o -> vetoes s u (lit "listdir") = None ->
  match o with
  | Found q =>
      (is_edir (view s q) -> exists l, u_listdir B u s = (Ok l, s) /\ StronglySorted slt l /\ forall n, In n l <-> view s (q ++ [n]) <> None) /\
      (is_efile (view s q) -> u_listdir B u s = (Raise AttributeError, s))
  | _ => u_listdir B u s = (Raise (err_of o), s)
  end.
Proof.
  intros R A L V. pose proof (reachable_wf s R) as W. unfold u_listdir. rewrite (hooked_allowed u cs _ s _ A V). cbn [b_listdir mem_backend].
  destruct o as [q| | | | |].
  - split; [intros D; exact (listdir_spec s W u cs q A L D)|]. intros F. apply (listdir_file s W u cs q A L).
    intros (a & b & E). destruct F as (c & d & e & F). congruence.
  - apply (listdir_fail s W u cs _ A L); discriminate.
  - apply (listdir_fail s W u cs _ A L); discriminate.
  - apply (listdir_fail s W u cs _ A L); discriminate.
  - apply (listdir_fail s W u cs _ A L); discriminate.
  - apply (listdir_fail s W u cs _ A L); discriminate.
Qed.
(** There always is exactly one place or exception, and a place has an entry. *)
Theorem C92_reaches s cs follow : reachable s -> exists r, reaches (view s) cs follow r /\ (forall r', reaches (view s) cs follow r' -> r' = r) /\
  forall q, r = At q -> view s q <> None.
Proof.
  intros R. pose proof (reachable_wf s R) as W. destruct (reaches_total s W cs follow) as [r X]. exists r. split; [exact X|].
  split; [intros r' X'; exact (reaches_det s W _ _ _ _ X' X)|]. intros q ->. inversion X as [q' L| |p S| |]; subst.
  - destruct (leads_real _ _ W _ _ L) as [(a & b & c & E)|(a & b & E)]; unfold view; rewrite E; discriminate.
  - exact (spots_entry s W _ _ S).
Qed.
Lemma fresh_one t n : fresh_last t [] n. Proof. intros pre post d E. destruct pre; discriminate E. Qed.
Lemma demo_root_dir : is_edir (view demo []). Proof. do 2 eexists; vm_compute; reflexivity. Qed.
Example C92_witness : reaches (view demo) (P ["l"]) false (At (P ["l"])) /\ reaches (view demo) (P ["l"]) true (At (P ["d"])) /\
  reaches (view demo) (P ["x"]) false (Fail (OSError ENOENT)) /\ reaches (view demo) (P ["l"; "l"]) false (Fail AttributeError) /\
  hooked B "readlink" (U ["l"]) (mem_readlink (U ["l"])) demo = (Ok (U ["d"]), demo) /\
  hooked B "info" (U ["l"]) (mem_info (U ["l"]) false) demo = (Ok (mkBunch 5 0 8), demo) /\
  hooked B "info" (U ["l"]) (mem_info (U ["l"]) true) demo = (Ok (mkBunch 5 0 0), demo).
Proof.
  split; [|split; [|split; [|split; [|split; [|split]]]]].
  - apply re_entry. apply (sp_entry (view demo) [] (lit "l") []); [apply fresh_one|apply rs_end|apply demo_root_dir|vm_compute; discriminate].
  - apply re_found. exact demo_l.
  - apply (re_absent _ _ (P ["x"])). apply (sp_absent (view demo) [] (lit "x") []); [apply fresh_one|apply rs_end|apply demo_root_dir|vm_compute; reflexivity].
  - apply (re_stuck _ _ NotDir). apply C91_witness.
  - vm_compute; reflexivity.
  - vm_compute; reflexivity.
  - vm_compute; reflexivity.
Qed.

(** ** C93: creating *)
Theorem C93_mkdir s u cs sl : reachable s -> addr u cs -> place (view s) u sl -> vetoes s u (lit "mkdir") = None ->
  has_effect s (u_mkdir B u s) (make_rule (EDir (m_now s) 0) sl).
Proof. intros R A X V. unfold u_mkdir. rewrite (hooked_allowed u cs _ s _ A V). apply exact_mkdir; auto. now apply reachable_wf. Qed.
(** The link is made at [v]; [u] may be any URI. *)
Theorem C93_symlink s u v cs sl : reachable s -> addr u cs -> place (view s) v sl -> vetoes s u (lit "symlink") = None ->
  has_effect s (hooked B "symlink" u (mem_symlink u v) s) (make_rule (ELink u (m_now s) 0) sl).
Proof. intros R A X V. rewrite (hooked_allowed u cs _ s _ A V). apply exact_symlink; auto. now apply reachable_wf. Qed.
Theorem C93_places s u : reachable s -> exists sl, place (view s) u sl /\ forall sl', place (view s) u sl' -> sl' = sl.
Proof.
  intros R. pose proof (reachable_wf s R) as W. destruct (place_total s u) as [sl X]. exists sl. split; [exact X|].
  intros sl' X'. exact (place_det s W u _ _ X' X).
Qed.
(** A directory made behind a link, and one made where there is a link already. *)
Example C93_witness : place (view demo) (U ["l"; "x"]) (Free (P ["d"; "x"])) /\ place (view demo) (U ["dead"]) (Taken (P ["dead"])) /\
  has_effect demo (u_mkdir B (U ["l"; "x"]) demo) (Puts (P ["d"; "x"]) (EDir 7 0)) /\ has_effect demo (u_mkdir B (U ["dead"]) demo) (Fails (OSError EEXIST)).
Proof.
  assert (A : place (view demo) (U ["l"; "x"]) (Free (P ["d"; "x"]))).
  { apply (pl_free (view demo) (U ["l"; "x"]) (P ["l"]) (lit "x") (P ["d"])); [apply demo_addr; good|exact demo_l|do 2 eexists; vm_compute; reflexivity|vm_compute; reflexivity]. }
  assert (C : place (view demo) (U ["dead"]) (Taken (P ["dead"]))).
  { apply (pl_taken (view demo) (U ["dead"]) [] (lit "dead") []); [apply demo_addr; good|apply rs_end|apply demo_root_dir|vm_compute; discriminate]. }
  split; [exact A|]. split; [exact C|]. split.
  - apply (C93_mkdir demo _ (P ["l"; "x"]) _ demo_reachable (demo_addr ["l"; "x"] ltac:(good)) A). vm_compute; reflexivity.
  - apply (C93_mkdir demo _ (P ["dead"]) _ demo_reachable (demo_addr ["dead"] ltac:(good)) C). vm_compute; reflexivity.
Qed.

(** ** C94: removing *)
Theorem C94_removefile s u cs sp : reachable s -> addr u cs -> spots (view s) (proper cs) sp ->
  has_effect s (mem_removefile u s) (removefile_rule (view s) (u_last u) sp).
Proof. intros R A X. apply exact_removefile with cs; auto. now apply reachable_wf. Qed.
Theorem C94_removedir s u cs f : reachable s -> addr u cs -> removedir_rule (view s) (u_last u) (proper cs) f -> has_effect s (mem_removedir u s) f.
Proof. intros R A X. apply exact_removedir with cs; auto. now apply reachable_wf. Qed.
Theorem C94_remove s u cs f fuel : reachable s -> addr u cs -> remove_rule (view s) u cs f -> vetoes s u (lit "remove") = None ->
  has_effect s (u_remove B fuel false u s) f.
Proof.
  intros R A X V. pose proof (reachable_wf s R) as W. unfold u_remove. rewrite (hooked_allowed u cs _ s _ A V). cbn [b_islink b_exists b_isdir b_isfile b_removefile b_removedir mem_backend].
  unfold bind at 1.
  destruct X as [sp e S E|sp sp' S E S'|sp o e S E L T|sp o S E L O|sp q f S E L D Y|sp q sp' S E L F S'];
    rewrite (exact_islink s W u cs sp A S), E; [reflexivity|now apply C94_removefile with cs| | | |];
    unfold bind at 1; rewrite (exact_exists s W u cs _ A L).
  - rewrite T. reflexivity.
  - destruct O as [-> | ->]; cbn; unfold bind, lift; destruct (u_str u); reflexivity.
  - destruct D as (mt & mo & D). cbn [test_rule]. rewrite D. cbn [negb]. unfold bind at 1. rewrite (exact_isdir s W u cs _ A L). cbn [test_rule]. rewrite D. cbn [is_dir_e].
    now apply C94_removedir with cs.
  - destruct F as (d & mt & mo & F). cbn [test_rule]. rewrite F. cbn [negb]. unfold bind at 1. rewrite (exact_isdir s W u cs _ A L). cbn [test_rule]. rewrite F. cbn [is_dir_e].
    unfold bind at 1. rewrite (exact_isfile s W u cs _ A L). cbn [test_rule]. rewrite F. cbn [is_file_e].
    now apply C94_removefile with cs.
Qed.
Theorem C94_cases s u cs : reachable s -> (exists f, removedir_rule (view s) (u_last u) (proper cs) f) /\ exists f, remove_rule (view s) u cs f.
Proof.
  intros R. pose proof (reachable_wf s R) as W. destruct (removedir_total s W (u_last u) (proper cs)) as [f F]. split; [eauto|].
  destruct (spots_total s W cs) as [sp S]. destruct (spots_total s W (proper cs)) as [sp' S']. destruct (leads_total (m_heap s) cs) as [o L].
  destruct (link_rule (view s) sp) as [[]|e] eqn:E; [eexists; eapply rm_link; eauto| |eexists; eapply rm_unknown; eauto].
  destruct o as [q| | | | |].
  - destruct (leads_real _ _ W _ _ L) as [K|K]; eexists; [eapply rm_file|eapply rm_dir]; eauto.
  - eexists. eapply rm_missing; eauto.
  - eexists. eapply rm_lost; eauto. reflexivity.
  - eexists. eapply rm_lost; eauto. reflexivity.
  - eexists. eapply rm_missing; eauto.
  - eexists. eapply rm_lost; eauto. reflexivity.
Qed.
(** Removing the file /d/f by way of the link /l; and a link. *)
Example C94_witness : has_effect demo (u_remove B 0 false (U ["l"; "f"]) demo) (Cuts (P ["d"; "f"])) /\
  has_effect demo (u_remove B 0 false (U ["l"]) demo) (Cuts (P ["l"])) /\ has_effect demo (u_remove B 0 false (U ["d"]) demo) (Fails (OSError ENOTEMPTY)).
Proof.
  assert (Fr : fresh_last (view demo) (P ["l"]) (lit "f")).
  { intros pre post d E. destruct pre as [|y pre]; [discriminate E|]. injection E as _ E. destruct pre; discriminate E. }
  assert (S1 : spots (view demo) (P ["l"; "f"]) (Entry (P ["d"; "f"]))).
  { apply (sp_entry (view demo) (P ["l"]) (lit "f") (P ["d"])); [exact Fr|exact demo_l|do 2 eexists; vm_compute; reflexivity|vm_compute; discriminate]. }
  assert (L1 : leads (view demo) (P ["l"; "f"]) (Found (P ["d"; "f"]))).
  { apply (rs_link _ 31 [] (lit "l") [lit "f"] (U ["d"]) 5 0 (P ["d"]) (P ["d"])); [do 2 eexists; vm_compute; reflexivity|vm_compute; reflexivity|apply demo_addr; good| |].
    - apply (rs_step _ 31 [] (lit "d") []); [do 2 eexists; vm_compute; reflexivity|right; do 2 eexists; vm_compute; reflexivity|apply rs_end].
    - apply (rs_step _ 32 (P ["d"]) (lit "f") []); [do 2 eexists; vm_compute; reflexivity|left; do 3 eexists; vm_compute; reflexivity|apply rs_end]. }
  assert (S2 : spots (view demo) (P ["l"]) (Entry (P ["l"]))).
  { apply (sp_entry (view demo) [] (lit "l") []); [apply fresh_one|apply rs_end|apply demo_root_dir|vm_compute; discriminate]. }
  assert (S3 : spots (view demo) (P ["d"]) (Entry (P ["d"]))).
  { apply (sp_entry (view demo) [] (lit "d") []); [apply fresh_one|apply rs_end|apply demo_root_dir|vm_compute; discriminate]. }
  assert (L3 : leads (view demo) (P ["d"]) (Found (P ["d"]))) by (apply demo_at; edir).
  split; [|split].
  - apply (C94_remove demo _ (P ["l"; "f"]) _ 0 demo_reachable (demo_addr ["l"; "f"] ltac:(good))); [|vm_compute; reflexivity].
    assert (E : removefile_rule (view demo) (u_last (U ["l"; "f"])) (Entry (P ["d"; "f"])) = Cuts (P ["d"; "f"])) by (vm_compute; reflexivity). rewrite <- E.
    refine (rm_file (view demo) (U ["l"; "f"]) _ _ _ _ S1 _ L1 _ S1); [vm_compute; reflexivity|do 3 eexists; vm_compute; reflexivity].
  - apply (C94_remove demo _ (P ["l"]) _ 0 demo_reachable (demo_addr ["l"] ltac:(good))); [|vm_compute; reflexivity].
    assert (E : removefile_rule (view demo) (u_last (U ["l"])) (Entry (P ["l"])) = Cuts (P ["l"])) by (vm_compute; reflexivity). rewrite <- E.
    refine (rm_link (view demo) (U ["l"]) _ _ _ S2 _ S2). vm_compute; reflexivity.
  - apply (C94_remove demo _ (P ["d"]) _ 0 demo_reachable (demo_addr ["d"] ltac:(good))); [|vm_compute; reflexivity].
    refine (rm_dir (view demo) (U ["d"]) _ _ _ _ S3 _ L3 _ _); [vm_compute; reflexivity|do 2 eexists; vm_compute; reflexivity|].
    assert (E : u_last (U ["d"]) = lit "d") by (vm_compute; reflexivity). rewrite E.
    apply (rd_full (view demo) (lit "d") [] (lit "d") (P ["d"]) [] (P ["d"]) (lit "f")); [exact L3|apply rs_end|exact L3|do 2 eexists; vm_compute; reflexivity|vm_compute; discriminate].
Qed.

(** ** C95: opening, and the calls on the open file *)
Theorem C95_open s u cs m r : reachable s -> addr u cs -> open_rule (view s) (m_now s) m cs r -> vetoes s u (lit "open") = None ->
  match r with
  | Refused e => u_open u m s = (Raise e, s)
  | Opens q start mode =>
      exists hd s1, u_open u m s = (Ok hd, s1) /\ same_rest s s1 /\
        put_at (view s) (view s1) q (EFile (o_data start) (o_mtime start) mode) /\
        forall os, exists vs s2 o, do_hops hd os s1 = (vs, s2) /\ acts_all (opt_r m) (opt_b m) (m_now s) os start vs o /\
          put_at (view s) (view s2) q (EFile (o_data o) (o_mtime o) mode)
  end.
Proof.
  intros R A X V. pose proof (reachable_wf s R) as W. unfold u_open, bind. rewrite (hook_allowed u cs _ s A V).
  assert (Y := exact_open s W u cs m r A X). destruct r as [e|q start mode]; [exact Y|]. exact (open_calls s _ _ _ _ _ _ Y).
Qed.
Theorem C95_cases s m cs : reachable s -> exists r, open_rule (view s) (m_now s) m cs r.
Proof. intros R. apply open_total. now apply reachable_wf. Qed.
(** Appending to the empty file /e: the position is 1, and a zero byte comes before what is written. *)
Example C95_witness : open_rule (view demo) 7 (Some (lit "ab")) (P ["e"]) (Opens (P ["e"]) (mkO [] 1 5) 0) /\
  (exists hd s1, u_open (U ["e"]) (Some (lit "ab")) demo = (Ok hd, s1) /\ exists s2,
    do_hops hd [HWrite (VBytes (lit "x")); HTell] s1 = ([RNone; RNum 2], s2) /\ view s2 (P ["e"]) = Some (EFile (0%N :: lit "x") 7 0)) /\
  open_rule (view demo) 7 (Some (lit "w")) (P ["d"]) (Refused (OSError EISDIR)) /\
  open_rule (view demo) 7 (Some (lit "x")) (P ["d"]) (Refused (OSError EINVAL)).
Proof.
  split; [|split; [|split]].
  - apply (or_append _ _ _ _ (P ["e"]) [] 5 0); try reflexivity. apply demo_at. efile.
  - do 2 eexists. split; [vm_compute; reflexivity|]. eexists. split; vm_compute; reflexivity.
  - apply (or_isdir _ _ _ _ (P ["d"])); try reflexivity; [apply demo_at; edir|do 2 eexists; vm_compute; reflexivity].
  - apply or_mode; reflexivity.
Qed.

(** ** C96: attributes *)
Theorem C96_set_info s u cs follow mode mtime r : reachable s -> addr u cs -> reaches (view s) cs follow r -> vetoes s u (lit "info") = None ->
  has_effect s (hooked B "info" u (mem_set_info u mode mtime follow) s)
    (attr_rule (view s) (fun e => with_attrs e match mtime with Some x => x | None => e_mtime e end match mode with Some x => x | None => e_mode e end) r).
Proof. intros R A X V. rewrite (hooked_allowed u cs _ s _ A V). apply (exact_set_info s (reachable_wf s R) u cs follow r mode mtime A X). Qed.
Theorem C96_set_exec s u cs mode r : reachable s -> addr u cs -> reaches (view s) cs true r -> vetoes s u (lit "set_exec") = None ->
  has_effect s (hooked B "set_exec" u (mem_set_exec u mode) s)
    (attr_rule (view s) (fun e => with_attrs e (e_mtime e) (Z.lor (Z.land (e_mode e) (Z.lnot 73)) mode)) r).
Proof. intros R A X V. rewrite (hooked_allowed u cs _ s _ A V). apply (exact_set_exec s (reachable_wf s R) u cs r mode A X). Qed.
Theorem C96_manipulate s u cs x r : reachable s -> addr u cs -> reaches (view s) cs true r -> vetoes s u (lit "_manipulate") = None ->
  has_effect s (hooked B "_manipulate" u (mem_manip_mtime u x) s) (attr_rule (view s) (fun e => with_attrs e x (e_mode e)) r).
Proof. intros R A X V. rewrite (hooked_allowed u cs _ s _ A V). apply (exact_manip_mtime s (reachable_wf s R) u cs r x A X). Qed.
(** copystat: the exceptions of the source come first. *)
Theorem C96_copystat s u v cs r : reachable s -> addr u cs -> reaches (view s) cs true r -> vetoes s u (lit "copystat") = None ->
  match r with
  | Fail e => hooked B "copystat" u (mem_copystat u v) s = (Raise e, s)
  | At q =>
      (forall e cs' r', view s q = Some e -> addr v cs' -> reaches (view s) cs' true r' ->
         has_effect s (hooked B "copystat" u (mem_copystat u v) s) (attr_rule (view s) (fun e' => with_attrs e' (e_mtime e) (e_mode e)) r')) /\
      ((forall cs', ~ addr v cs') -> hooked B "copystat" u (mem_copystat u v) s = (Raise AssertionError, s))
  end.
Proof.
  intros R A X V. pose proof (reachable_wf s R) as W. rewrite (hooked_allowed u cs _ s _ A V). destruct r as [q|e].
  - split.
    + intros e cs' r' E A' X'. assert (Y := exact_copystat s W u v cs cs' (At q) r' A A' X X'). cbn [copystat_rule] in Y. rewrite E in Y. exact Y.
    + intros N. exact (exact_copystat_bad s W u v cs (At q) A N X).
  - assert (Y := reaches_run s W u cs true (Fail e) A X). cbv beta iota in Y. unfold mem_copystat, bind. now rewrite Y.
Qed.
(** The link /l itself, and the directory behind it. *)
Example C96_witness :
  has_effect demo (hooked B "info" (U ["l"]) (mem_set_info (U ["l"]) (Some 1%Z) None false) demo) (Puts (P ["l"]) (ELink (U ["d"]) 5 1)) /\
  has_effect demo (hooked B "set_exec" (U ["l"]) (mem_set_exec (U ["l"]) 64) demo) (Puts (P ["d"]) (EDir 5 64)) /\
  has_effect demo (hooked B "copystat" (U ["d"; "f"]) (mem_copystat (U ["d"; "f"]) (U ["l"])) demo) (Puts (P ["d"]) (EDir 99 420)).
Proof.
  assert (A : addr (U ["l"]) (P ["l"])) by (apply demo_addr; good).
  split; [|split].
  - assert (E : attr_rule (view demo) (fun e => with_attrs e (e_mtime e) 1) (At (P ["l"])) = Puts (P ["l"]) (ELink (U ["d"]) 5 1)) by (vm_compute; reflexivity).
    rewrite <- E. refine (C96_set_info demo _ _ false (Some 1%Z) None _ demo_reachable A (proj1 C92_witness) _). vm_compute; reflexivity.
  - assert (E : attr_rule (view demo) (fun e => with_attrs e (e_mtime e) (Z.lor (Z.land (e_mode e) (Z.lnot 73)) 64)) (At (P ["d"])) = Puts (P ["d"]) (EDir 5 64)) by (vm_compute; reflexivity).
    rewrite <- E. refine (C96_set_exec demo _ _ 64 _ demo_reachable A (proj1 (proj2 C92_witness)) _). vm_compute; reflexivity.
  - assert (L : leads (view demo) (P ["d"; "f"]) (Found (P ["d"; "f"]))) by (apply demo_at; efile).
    assert (Ad : addr (U ["d"; "f"]) (P ["d"; "f"])) by (apply demo_addr; good).
    assert (V : vetoes demo (U ["d"; "f"]) (lit "copystat") = None) by (vm_compute; reflexivity).
    assert (T : view demo (P ["d"; "f"]) = Some (EFile (lit "hello" ++ [10%N] ++ lit "world") 99 420)) by (vm_compute; reflexivity).
    assert (X := C96_copystat demo (U ["d"; "f"]) (U ["l"]) _ _ demo_reachable Ad (re_found _ _ _ L) V). cbv beta iota in X. destruct X as [X _].
    specialize (X _ _ _ T A (proj1 (proj2 C92_witness))).
    assert (E : attr_rule (view demo) (fun e' => with_attrs e' 99 420) (At (P ["d"])) = Puts (P ["d"]) (EDir 99 420)) by (vm_compute; reflexivity).
    rewrite <- E. exact X.
Qed.

Print Assumptions C91_tests.
Print Assumptions C91_islink.
Print Assumptions C91_outcomes.
Print Assumptions C91_others.
Print Assumptions C92_info.
Print Assumptions C92_mtime.
Print Assumptions C92_isexec.
Print Assumptions C92_readlink.
Print Assumptions C92_listdir.
Print Assumptions C92_reaches.
Print Assumptions C93_mkdir.
Print Assumptions C93_symlink.
Print Assumptions C93_places.
Print Assumptions C94_removefile.
Print Assumptions C94_removedir.
Print Assumptions C94_remove.
Print Assumptions C94_cases.
Print Assumptions C95_open.
Print Assumptions C95_cases.
Print Assumptions C96_set_info.
Print Assumptions C96_set_exec.
Print Assumptions C96_manipulate.
Print Assumptions C96_copystat.
