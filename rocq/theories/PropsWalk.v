(** Properties C46, C47, C50, C54: walk, glob, md5 and callbacks.  See PropsGeneric.v for the conventions. *)
From Verif Require Import Str Exc Utf8 UriParse BaseUri StrFacts Utf8Facts SpecUri Mem SpecMem MemOps Generic SpecGen Fnmatch SpecFn UriOps.
From Verif Require Import UriFacts2 UriFacts3 MemFacts MemFacts2 MemFacts3 MemFacts4 MemFacts6 MemFacts9 MemUri MemFacts10 PropsMem.
From Verif Require Import GenFacts1 GenFacts2 GenFacts3 GenFacts4 GenFacts5 FnFacts GenFacts10 GenFacts11 GenFacts12 Enum PropsGeneric PropsCopy.
From Coq Require Import Sorted.
Local Notation B := mem_backend.

(** ** C46 *)
(** [l] lists the paths below the start with the directory and file names.  [visit_before td] orders them: a
    directory before what is below it (top-down) or after it, siblings by name; so none occurs twice.
    Partial: ordinary names and no link for which the tests raise (C46_refuted, C46_hidden_refuted). *)
Theorem C46_walk_partial s q td fuel : reachable s -> silent s -> is_edir (view s q) ->
  (forall r, view s (q ++ r) <> None -> good_path (q ++ r)) ->
  (forall r, is_elink (view s (q ++ r)) -> exists o, leads (view s) (q ++ r) o /\ answers o) ->
  (m_next s <= fuel)%nat ->
  exists l : list (list str * list str * list str),
    u_walk B fuel td false (mem_uri q) s = (Ok (map (fun x => (mem_uri (q ++ fst (fst x)), snd (fst x), snd x)) l), s) /\
    StronglySorted (visit_before td) (map (fun x => fst (fst x)) l) /\
    NoDup (map (fun x => fst (fst x)) l) /\
    (forall r, In r (map (fun x => fst (fst x)) l) <-> is_edir (view s (q ++ r))) /\
    (forall r dirs files, In (r, dirs, files) l -> listed (view s) (q ++ r) (q ++ r) dirs files).
Proof.
  intros R Q D G L F. destruct (walk_real s q td fuel (reachable_wf s R) Q D G L F) as (l & E & S & I & X).
  exists l. split; [exact E|]. split; [exact S|]. split; [|auto]. eapply visit_before_NoDup; exact S.
Qed.
Example C46_walk_witness : reachable knot /\ silent knot /\ is_edir (view knot (P ["d"]%string)) /\
  (forall r, view knot (P ["d"]%string ++ r) <> None -> good_path (P ["d"]%string ++ r)) /\
  (forall r, is_elink (view knot (P ["d"]%string ++ r)) -> exists o, leads (view knot) (P ["d"]%string ++ r) o /\ answers o).
Proof.
  split; [apply state_reachable|]. split; [apply state_silent; vm_compute; reflexivity|]. split; [dir_here|]. split; [apply knot_names|].
  intros r L. pose proof (some_entry (or_intror (or_intror L))) as N. entries_of knot_wf N; injection N as <-; try (exfalso; revert L; not_link).
  - exists (Found []). split; [lead|cbv; intuition discriminate].
  - exists (Found (P ["o"]%string)). split; [lead|cbv; intuition discriminate].
  - exists Loop. split; [|cbv; intuition discriminate].
    apply leads_by; [apply knot_wf|intros ? E; discriminate E|vm_compute; reflexivity|vm_compute; reflexivity].
  - exists Missing. split; [|cbv; intuition discriminate].
    apply leads_by; [apply knot_wf|intros ? E; discriminate E|vm_compute; reflexivity|vm_compute; reflexivity].
Qed.
(** The general form, from any path to a directory, with or without following links. *)
Theorem C46_walk_tree_partial s cs q0 td follow fuel : reachable s -> silent s -> good_path cs -> leads (view s) cs (Found q0) ->
  is_edir (view s q0) ->
  (forall r q n, visits (view s) follow [] cs r q -> view s (q ++ [n]) <> None ->
     good_path ((cs ++ r) ++ [n]) /\ fresh_last (view s) (cs ++ r) n /\ exists o, leads (view s) ((cs ++ r) ++ [n]) o /\ answers o) ->
  (forall r q, visits (view s) follow [] cs r q -> (length r < fuel)%nat) ->
  exists l : list (list str * list str * list str),
    u_walk B fuel td follow (mem_uri cs) s = (Ok (map (fun x => (mem_uri (cs ++ fst (fst x)), snd (fst x), snd x)) l), s) /\
    StronglySorted (visit_before td) (map (fun x => fst (fst x)) l) /\
    (forall r, In r (map (fun x => fst (fst x)) l) <-> exists q, visits (view s) follow [] cs r q) /\
    (forall r dirs files q, In (r, dirs, files) l -> visits (view s) follow [] cs r q -> listed (view s) (cs ++ r) q dirs files).
Proof.
  intros R Q G L D H F. exact (walk_triples s (reachable_wf s R) Q cs follow [] q0 G L D H fuel F td eq_refl).
Qed.
Example C46_walk_tree_witness : reachable trip /\ good_path (P ["d"]%string) /\ leads (view trip) (P ["d"]%string) (Found (P ["d"]%string)) /\
  (forall r q n, visits (view trip) true [] (P ["d"]%string) r q -> view trip (q ++ [n]) <> None ->
     good_path ((P ["d"]%string ++ r) ++ [n]) /\ fresh_last (view trip) (P ["d"]%string ++ r) n /\
     exists o, leads (view trip) ((P ["d"]%string ++ r) ++ [n]) o /\ answers o) /\
  (forall r q, visits (view trip) true [] (P ["d"]%string) r q -> (length r < 5)%nat) /\
  visits (view trip) true [] (P ["d"]%string) (P ["l"]%string) (P ["o"]%string).
Proof.
  split; [apply trip_reachable|]. split; [good|]. split; [lead|]. split; [|split].
  - intros r q m V N. apply trip_visits in V. pose proof (trip_entry _ _ _ V N) as X.
    destruct X as [E|[E|[E|[]]]]; injection E as <- <-; (split; [good|split; [fresh_path|]]).
    + exists (Found (P ["d"; "f"]%string)). split; [lead|cbv; intuition discriminate].
    + exists (Found (P ["o"]%string)). split; [lead|cbv; intuition discriminate].
    + exists (Found (P ["o"; "g"]%string)). split; [lead|cbv; intuition discriminate].
  - intros r q V. apply trip_visits in V. destruct V as [E|[E|[]]]; injection E as <- <-; cbn; lia.
  - apply (v_down _ true [] _ [] (P ["d"]%string) (lit "l") (P ["o"]%string)); auto; [|vm_compute; discriminate|lead|dir_here].
    apply v_top; [lead|dir_here].
Qed.
(** A link through a file makes walk raise, though links are not followed. *)
Theorem C46_refuted : reachable through_file /\ is_edir (view through_file (P ["d"]%string)) /\
  forall fuel, fst (u_walk B (S fuel) true false (U ["d"]%string) through_file) = Raise AttributeError.
Proof. split; [apply state_reachable|]. split; [dir_here|]. intros fuel. vm_compute. reflexivity. Qed.
(** So does an entry of the root whose name starts with a dot (it can be made through a link to the root): its URI
    is no longer an absolute path. *)
Definition hidden : mst := state_of [OpSymlink (U []) (U ["l"]); make_file ["l"; ".x"]]%string.
Theorem C46_hidden_refuted : reachable hidden /\ is_efile (view hidden (P [".x"]%string)) /\
  forall fuel, fst (u_walk B (S fuel) true false (U []) hidden) = Raise AssertionError.
Proof. split; [apply state_reachable|]. split; [file_here|]. intros fuel. vm_compute. reflexivity. Qed.

(** ** C47 *)
(** [shell] (SpecFn.v) says which names a pattern matches.  Partial: the URIs of the matching names have to be
    ordinary (C47_refuted). *)
Theorem C47_glob_partial s cs q pat : reachable s -> silent s -> good_path cs -> leads (view s) cs (Found q) -> is_edir (view s q) ->
  (forall n, view s (q ++ [n]) <> None -> shell pat n -> good_path (cs ++ [n])) ->
  exists names, u_glob B fnmatch (mem_uri cs) pat s = (Ok (map (fun n => mem_uri (cs ++ [n])) names), s) /\
    StronglySorted slt names /\ forall n, In n names <-> view s (q ++ [n]) <> None /\ shell pat n.
Proof.
  intros R Q G L D H. destruct (glob_spec fnmatch s cs q pat (reachable_wf s R) Q G L D) as (names & E & S & I).
  - intros n N M. apply H; auto. now apply fnmatch_spec.
  - exists names. split; [exact E|]. split; [exact S|]. intros n. rewrite I, fnmatch_spec. reflexivity.
Qed.
Example C47_glob_witness : good_path (P ["l"]%string) /\ leads (view demo) (P ["l"]%string) (Found (P ["d"]%string)) /\
  is_edir (view demo (P ["d"]%string)) /\
  (forall n, view demo (P ["d"]%string ++ [n]) <> None -> shell (lit "[a-e]*") n -> good_path (P ["l"]%string ++ [n])) /\
  (exists n, view demo (P ["d"]%string ++ [n]) <> None /\ shell (lit "[a-e]*") n) /\
  (exists n, view demo (P ["d"]%string ++ [n]) <> None /\ ~ shell (lit "[a-e]*") n).
Proof.
  split; [good|]. split; [lead_in demo_reachable|]. split; [dir_here|]. split; [|split].
  - intros n N _. entries_of (reachable_wf _ demo_reachable) N; injection N as <-; good.
  - exists (lit "e"). split; [vm_compute; discriminate|]. apply fnmatch_spec. vm_compute. reflexivity.
  - exists (lit "f"). split; [vm_compute; discriminate|]. intros H. apply fnmatch_spec in H. vm_compute in H. discriminate.
Qed.
Theorem C47_glob_fails s cs o pat : reachable s -> silent s -> good_path cs -> leads (view s) cs o ->
  (forall q, o = Found q -> ~ is_edir (view s q)) -> exists e, u_glob B fnmatch (mem_uri cs) pat s = (Raise e, s).
Proof. intros R. exact (glob_fails fnmatch s cs o pat (reachable_wf s R)). Qed.
(** The model of fnmatch meets its specification. *)
Theorem C47_fnmatch n p : fnmatch n p = true <-> shell p n.
Proof. exact (fnmatch_spec n p). Qed.
(** The first URI returned for /* does not stand for an entry. *)
Theorem C47_refuted : reachable hidden /\ exists u v s', u_glob B fnmatch (U []) (lit "*") hidden = (Ok [u; v], s') /\
  fst (u_exists B u hidden) = Raise AssertionError.
Proof.
  split; [apply state_reachable|].
  destruct (u_glob B fnmatch (U []) (lit "*") hidden) as [r s'] eqn:E.
  assert (X : r = fst (u_glob B fnmatch (U []) (lit "*") hidden)) by now rewrite E.
  let v := eval vm_compute in (fst (u_glob B fnmatch (U []) (lit "*") hidden)) in
    match v with Ok [?u; ?w] => exists u, w, s'; split; [rewrite X; apply f_equal2; [vm_compute; reflexivity|reflexivity]|vm_compute; reflexivity] end.
Qed.

(** ** C50 *)
(** [H] stands for the hash function: what it is given is the content of the file, whatever its length. *)
Theorem C50_md5 {D} (H : list N -> D) s u q data mt mo : reachable s -> silent s -> denotes (view s) u (Found q) ->
  view s q = Some (EFile data mt mo) ->
  exists s', u_md5 H u s = (Ok (H data), s') /\ same_tree (view s) (view s') /\ same_rest s s'.
Proof.
  intros R Q De E. destruct (md5_spec H s u q data mt mo (reachable_wf s R) Q De E) as (s' & X & _ & SR & T). eauto.
Qed.
Example C50_md5_witness : denotes (view demo) (U ["d"; "f"]%string) (Found (P ["d"; "f"]%string)) /\
  exists x data mt mo, view demo (P ["d"; "f"]%string) = Some (EFile (x :: data) mt mo).
Proof. split; [apply demo_denotes; [good|efile]|do 4 eexists; vm_compute; reflexivity]. Qed.
Theorem C50_md5_fails {D} (H : list N -> D) s u cs o : reachable s -> silent s -> addr u cs -> leads (view s) cs o ->
  (forall q, o = Found q -> ~ is_efile (view s q)) -> exists e, u_md5 H u s = (Raise e, s).
Proof. intros R. exact (md5_fails H s u cs o (reachable_wf s R)). Qed.

(** ** C54 *)
(** Registering a callback for a path, and then any URI method on that path (by whatever URI): *)
Theorem C54_callback_first u cs cb s s1 fuel o e : addr u cs -> mem_manip_callback u (Some cb) s = (Ok tt, s1) ->
  addr (uop_uri o) cs -> cb (uop_uri o) (uop_name o) = Some e -> run_uop fuel o s1 = (Raise e, s1).
Proof. intros A E Ao X. apply hook_first. now apply (registered u cs cb s s1 A E). Qed.
Example C54_callback_witness : exists s1, mem_manip_callback (U ["d"; "f"]%string) (Some (fun _ _ => Some ValueError)) demo = (Ok tt, s1).
Proof. eexists. reflexivity. Qed.
(** Partial: operations on a single path behave the same whatever is registered for other paths. *)
Theorem C54_others_partial fuel o p s c : mem_path (uop_uri o) = Ok p -> single o -> dget p c = dget p (m_cbs s) ->
  run_uop fuel o (setc s c) = (fst (run_uop fuel o s), setc (snd (run_uop fuel o s)) c).
Proof. intros E S H. exact (asks_only fuel o p E S s c H). Qed.
Example C54_others_witness : exists c, mem_path (uop_uri (URemove false (U ["d"; "f"]%string))) = Ok (lit "d/f") /\ single (URemove false (U ["d"; "f"]%string)) /\
  dget (lit "d/f") c = dget (lit "d/f") (m_cbs demo) /\ dget (lit "d") c <> dget (lit "d") (m_cbs demo).
Proof.
  exists [(lit "d", Some (fun _ _ => Some ValueError))]. split; [vm_compute; reflexivity|]. split; [exact I|].
  split; [vm_compute; reflexivity|vm_compute; discriminate].
Qed.
(** Not so for operations built from others: the callback of /d makes makedirs(/d/x) raise. *)
Definition guarded : mst := state_of [OpMkdir (U ["d"]); OpManipCallback (U ["d"]) (Some (fun _ _ => Some ValueError))]%string.
Theorem C54_refuted : reachable guarded /\ (forall cb, dget (lit "d/x") (m_cbs guarded) <> Some cb) /\
  forall fuel, fst (u_makedirs B (S fuel) (U ["d"; "x"]%string) guarded) = Raise ValueError.
Proof. split; [apply state_reachable|]. split; [intros cb; vm_compute; discriminate|]. intros fuel. vm_compute. reflexivity. Qed.

Print Assumptions C46_walk_partial.
Print Assumptions C46_walk_tree_partial.
Print Assumptions C46_refuted.
Print Assumptions C46_hidden_refuted.
Print Assumptions C47_glob_partial.
Print Assumptions C47_glob_fails.
Print Assumptions C47_fnmatch.
Print Assumptions C47_refuted.
Print Assumptions C50_md5.
Print Assumptions C50_md5_fails.
Print Assumptions C54_callback_first.
Print Assumptions C54_others_partial.
Print Assumptions C54_refuted.
