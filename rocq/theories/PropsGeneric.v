(** Properties C34, C35, C38: operations FileSystem implements for every backend, on the
    memory backend.  [silent s] says that no registered callback raises; [mem_uri cs] is the URI parsed
    from memory:// and the path [cs] (C60: [mem_at]); SpecMem.v and SpecGen.v say what paths stand for.
    A result OutOfFuel stands for a computation that has not ended within the budget. *)
From Verif Require Import Str Exc Utf8 UriParse BaseUri StrFacts Utf8Facts SpecUri Mem SpecMem MemOps Generic SpecGen Fnmatch SpecFn UriOps.
From Verif Require Import UriFacts2 UriFacts3 MemFacts MemFacts2 MemFacts3 MemFacts4 MemFacts6 MemFacts9 MemUri MemFacts10 PropsMem.
From Verif Require Import GenFacts1 GenFacts2 GenFacts3 GenFacts4 GenFacts5 GenFacts6 GenFacts7 GenFacts8 GenFacts9 FnFacts GenFacts10 GenFacts11 GenFacts12 GenFacts13 Enum.
From Coq Require Import Sorted.
Local Notation B := mem_backend.

(** ** Concrete states for the examples *)
Definition state_of (l : list op) : mst := run_ops l (init_mem 5 0).
Lemma state_reachable l : reachable (state_of l). Proof. now exists 5%Z, 0%nat, l. Qed.
Definition make_file (l : list String.string) : op := OpOpen (U l) (Some (lit "w")).
Lemma demo_silent : silent demo. Proof. intros p cb u n H. vm_compute in H. contradiction. Qed.
Lemma demo_placed l n : good_path (P (l ++ [n])) -> is_edir (view demo (P l)) -> placed (view demo) (P (l ++ [n])) (P l) (lit n).
Proof.
  intros G D. exists (P l). unfold P in *. rewrite map_app in *. split; [reflexivity|]. split; auto. split; [|split; auto].
  - apply (fresh_dir (m_heap demo) (m_next demo)); auto. apply (reachable_wf demo demo_reachable).
  - apply demo_at. now right.
Qed.
Ltac dir_here := do 2 eexists; vm_compute; reflexivity.
Ltac file_here := do 3 eexists; vm_compute; reflexivity.

Lemma state_silent l : m_cbs (state_of l) = [] -> silent (state_of l).
Proof. intros E p cb u n H. rewrite E in H. contradiction. Qed.
Ltac lead := apply leads_by; [apply reachable_wf, state_reachable|intros ? E; try (injection E as <-); vm_compute; discriminate
                             |vm_compute; reflexivity|vm_compute; reflexivity].

(** ** C34 *)
(** Partial: paths with ordinary names, none of whose links on the way is named like the last component
    (C34_refuted). *)
Theorem C34_remove_leaf_partial s cs d n fuel recursive : reachable s -> silent s -> placed (view s) cs d n ->
  is_efile (view s (d ++ [n])) \/ is_elink (view s (d ++ [n])) ->
  exists s', u_remove B fuel recursive (mem_uri cs) s = (Ok tt, s') /\ cut_at (view s) (view s') (d ++ [n]) /\ same_rest s s'.
Proof.
  intros R Q (init & -> & G & F & L & D) H.
  destruct (remove_leaf s (reachable_wf s R) Q init n G F d L D fuel recursive H) as (s' & E & _ & C & SR). eauto.
Qed.
Example C34_remove_leaf_witness : exists cs d n, reachable demo /\ silent demo /\ placed (view demo) cs d n /\ is_efile (view demo (d ++ [n])).
Proof.
  exists (P ["d"; "f"]%string), (P ["d"]%string), (lit "f"). split; [apply demo_reachable|]. split; [apply demo_silent|].
  split; [|file_here]. apply (demo_placed ["d"]%string "f"%string); [good|dir_here].
Qed.
Theorem C34_remove_empty_partial s cs d n fuel : reachable s -> silent s -> placed (view s) cs d n ->
  is_edir (view s (d ++ [n])) -> (forall m, view s ((d ++ [n]) ++ [m]) = None) ->
  exists s', u_remove B fuel false (mem_uri cs) s = (Ok tt, s') /\ cut_at (view s) (view s') (d ++ [n]) /\ same_rest s s'.
Proof.
  intros R Q (init & -> & G & F & L & D) H N.
  destruct (remove_empty s (reachable_wf s R) Q init n G F d L D fuel H N) as (s' & E & _ & C & SR). eauto.
Qed.
Theorem C34_remove_full_partial s cs d n m fuel : reachable s -> silent s -> placed (view s) cs d n ->
  is_edir (view s (d ++ [n])) -> view s ((d ++ [n]) ++ [m]) <> None ->
  u_remove B fuel false (mem_uri cs) s = (Raise (OSError ENOTEMPTY), s).
Proof. intros R Q (init & -> & G & F & L & D) H N. exact (remove_full s (reachable_wf s R) Q init n G F d L D fuel m H N). Qed.
Theorem C34_remove_missing_partial s init n fuel recursive : let cs := init ++ [n] in
  reachable s -> silent s -> good_path cs -> fresh_last (view s) init n ->
  leads (view s) cs Missing -> (forall d, leads (view s) init (Found d) -> view s (d ++ [n]) = None) ->
  u_remove B fuel recursive (mem_uri cs) s = (Raise FileDoesNotExistError, s).
Proof.
  intros cs R Q G F L N. apply (remove_missing s (reachable_wf s R) Q init n G F fuel recursive L).
  intros p Hp. inversion Hp as [| |i m d A L' D N' E| | |]; subst.
  pose proof (addr_inj _ _ _ A (mem_addr _ G)) as X. apply app_inj_tail in X as [-> ->]. now rewrite (N d) in N'.
Qed.
Example C34_missing_witness : good_path (P ["d"; "x"]%string) /\ leads (view demo) (P ["d"; "x"]%string) Missing.
Proof.
  split; [good|]. apply (rs_app _ _ [] (P ["d"]%string) [lit "x"] (P ["d"]%string)).
  - apply demo_at. edir.
  - constructor; [dir_here|]. vm_compute. reflexivity.
Qed.
(** Without the restriction on link names it is false: /a/l -> /d, and the file /d/l is named /a/l/l. *)
Definition twice : mst := state_of
  ([OpMkdir (U ["d"]); make_file ["d"; "l"]; OpMkdir (U ["a"]); OpSymlink (U ["d"]) (U ["a"; "l"])])%string.
Theorem C34_refuted : reachable twice /\ is_efile (view twice (P ["d"; "l"]%string)) /\
  leads (view twice) (P ["a"; "l"; "l"]%string) (Found (P ["d"; "l"]%string)) /\
  forall fuel, fst (u_remove B fuel false (U ["a"; "l"; "l"]%string) twice) = Raise AttributeError.
Proof.
  split; [apply state_reachable|]. split; [file_here|]. split; [lead|intros fuel; vm_compute; reflexivity].
Qed.
(** remove() on a URI with a query looks for a name ending in the query. *)
Theorem C34_query_refuted : exists u, URI (lit "memory:///d/f?x=1") cSlash [] = Ok u /\ denotes (view demo) u (Found (P ["d"; "f"]%string)) /\
  forall fuel, fst (u_remove B fuel false u demo) = Raise KeyError.
Proof.
  eexists. split; [vm_compute; reflexivity|]. split.
  - exists (P ["d"; "f"]%string). split; [|apply demo_at; efile]. split; [vm_compute; reflexivity|]. split; [|discriminate].
    repeat constructor; cbn; intuition discriminate.
  - intros fuel. vm_compute. reflexivity.
Qed.

(** ** C35 *)
(** Partial: ordinary names below [q], and every link below it (and every link these lead on to) has a target
    path running only through directories and missing places; links to missing places, loops, links out of
    the directory and back up are all included.  The budget is the depth; the number of nodes suffices. *)
Theorem C35_remove_tree_partial s q fuel : reachable s -> silent s -> q <> [] -> is_edir (view s q) ->
  (forall r, view s (q ++ r) <> None -> good_path (q ++ r)) ->
  (forall x, link_reach (view s) q x -> is_elink (view s x) -> exists x', arrow (view s) x x' /\ direct (view s) x') ->
  (m_next s <= fuel)%nat ->
  exists s', u_remove B fuel true (mem_uri q) s = (Ok tt, s') /\ cut_at (view s) (view s') q /\ same_rest s s'.
Proof.
  intros R Q N D G H F. destruct (remove_recursive s q fuel (reachable_wf s R) Q D N G H F) as (s' & E & _ & C & SR). eauto.
Qed.
(** The root is emptied. *)
Theorem C35_remove_root_partial s fuel : reachable s -> silent s ->
  (forall r, view s r <> None -> good_path r) ->
  (forall x, link_reach (view s) [] x -> is_elink (view s x) -> exists x', arrow (view s) x x' /\ direct (view s) x') ->
  (m_next s <= fuel)%nat ->
  exists s', u_remove B fuel true (mem_uri []) s = (Ok tt, s') /\ emptied (view s) (view s') [] /\ same_rest s s'.
Proof.
  intros R Q G H F. destruct (remove_recursive_root s fuel (reachable_wf s R) Q G H F) as (s' & E & _ & C & SR). eauto.
Qed.
(** /d/e/f a file, /d/up -> /, /d/out -> /o, /d/self -> /d/self, /d/dead -> /nowhere. *)
Definition knot : mst := state_of
  [OpMkdir (U ["d"]); OpMkdir (U ["d"; "e"]); make_file ["d"; "e"; "f"]; OpMkdir (U ["o"]); make_file ["o"; "g"];
   OpSymlink (U []) (U ["d"; "up"]); OpSymlink (U ["o"]) (U ["d"; "out"]); OpSymlink (U ["d"; "self"]) (U ["d"; "self"]);
   OpSymlink (U ["nowhere"]) (U ["d"; "dead"])]%string.
Lemma knot_wf : wf knot. Proof. apply reachable_wf, state_reachable. Qed.
Lemma knot_names : forall r, view knot (P ["d"]%string ++ r) <> None -> good_path (P ["d"]%string ++ r).
Proof. apply (below_places knot (P ["d"]%string) good_path knot_wf). vm_compute. repeat apply Forall_cons; try apply Forall_nil; good. Qed.
Ltac not_link := intros (? & ? & ? & X); vm_compute in X; discriminate.
Ltac each := repeat (apply Forall_cons || apply Forall_nil).
Ltac direct_path := let E := fresh in let N := fresh in intros pre post E N;
  repeat (destruct pre as [|? pre]; [solve [right; dir_here|now left|cbn in E; congruence]|try discriminate E; injection E as <- E]);
  try discriminate E.
Lemma good_nil : good_path (P []). Proof. split; [constructor|discriminate]. Qed.
Definition knot_links : list (list str) := [P ["d"; "up"]; P ["d"; "out"]; P ["d"; "self"]; P ["d"; "dead"]; P []; P ["o"]; P ["nowhere"]]%string.
Ltac in_list := solve [vm_compute; tauto].
Ltac arrow_to l := let H := fresh in intros ? H; apply (arrow_at _ _ (P l%string)) in H; [subst; in_list|do 2 eexists; vm_compute; reflexivity|first [exact good_nil|good]].
Ltac no_arrow_here := let H := fresh in intros ? H; exfalso; revert H; apply no_arrow; not_link.
Lemma knot_reach x : link_reach (view knot) (P ["d"]%string) x -> In x knot_links.
Proof.
  revert x. apply (reach_in knot _ _ knot_wf).
  - match goal with |- Forall _ ?l => let v := eval vm_compute in l in change l with v end.
    each; intros H; first [exfalso; revert H; not_link|in_list].
  - unfold knot_links. each.
    + arrow_to (@nil String.string).
    + arrow_to ["o"]%string.
    + arrow_to ["d"; "self"]%string.
    + arrow_to ["nowhere"]%string.
    + no_arrow_here.
    + no_arrow_here.
    + no_arrow_here.
Qed.
Lemma arrow_here s p cs' : (exists mt mo, view s p = Some (ELink (mem_uri cs') mt mo)) -> good_path cs' -> arrow (view s) p cs'.
Proof. intros (mt & mo & E) G. exists (mem_uri cs'), mt, mo. split; auto. now apply mem_addr. Qed.
Ltac arrow_by l := exists (P l%string); split; [apply arrow_here; [do 2 eexists; vm_compute; reflexivity|first [exact good_nil|good]]|direct_path].
Example C35_remove_tree_witness : exists s q, reachable s /\ silent s /\ q <> [] /\ is_edir (view s q) /\
  (forall r, view s (q ++ r) <> None -> good_path (q ++ r)) /\
  (forall x, link_reach (view s) q x -> is_elink (view s x) -> exists x', arrow (view s) x x' /\ direct (view s) x') /\
  (exists p, is_efile (view s (q ++ p))) /\ (exists p, is_elink (view s (q ++ p))).
Proof.
  exists knot, (P ["d"]%string). split; [apply state_reachable|]. split; [apply state_silent; vm_compute; reflexivity|].
  split; [discriminate|]. split; [dir_here|]. split; [apply knot_names|]. split; [|split].
  - intros x H K. apply knot_reach in H. unfold knot_links in H.
    repeat (destruct H as [<-|H]); try contradiction; try (exfalso; revert K; not_link).
    + arrow_by (@nil String.string).
    + arrow_by ["o"]%string.
    + arrow_by ["d"; "self"]%string.
    + arrow_by ["nowhere"]%string.
  - exists (P ["e"; "f"]%string). file_here.
  - exists (P ["up"]%string). file_here.
Qed.
Example C35_remove_root_witness : exists s, reachable s /\ silent s /\ (forall r, view s r <> None -> good_path r) /\
  (forall x, link_reach (view s) [] x -> is_elink (view s x) -> exists x', arrow (view s) x x' /\ direct (view s) x') /\
  (exists p, is_efile (view s p)) /\ (exists p, is_elink (view s p)).
Proof.
  exists knot. split; [apply state_reachable|]. split; [apply state_silent; vm_compute; reflexivity|].
  split; [|split; [|split]].
  - apply (below_places knot [] good_path knot_wf).
    match goal with |- Forall _ ?l => let v := eval vm_compute in l in change l with v end.
    each; first [exact good_nil|good].
  - intros x H K.
    assert (In x knot_links).
    { clear K. revert x H. apply (reach_in knot _ _ knot_wf).
      - match goal with |- Forall _ ?l => let v := eval vm_compute in l in change l with v end.
        each; intros H; first [exfalso; revert H; not_link|in_list].
      - unfold knot_links. each.
        + arrow_to (@nil String.string).
        + arrow_to ["o"]%string.
        + arrow_to ["d"; "self"]%string.
        + arrow_to ["nowhere"]%string.
        + no_arrow_here.
        + no_arrow_here.
        + no_arrow_here. }
    clear H. rename H0 into H. unfold knot_links in H.
    repeat (destruct H as [<-|H]); try contradiction; try (exfalso; revert K; not_link).
    + arrow_by (@nil String.string).
    + arrow_by ["o"]%string.
    + arrow_by ["d"; "self"]%string.
    + arrow_by ["nowhere"]%string.
  - exists (P ["d"; "e"; "f"]%string). file_here.
  - exists (P ["d"; "up"]%string). file_here.
Qed.
(** Without the restriction on links it is false: a link through a file, /d/x -> /d/f/y with /d/f a file,
    makes remove(recursive=True) raise, whatever the budget. *)
Definition through_file : mst := state_of
  [OpMkdir (U ["d"]); make_file ["d"; "f"]; OpSymlink (U ["d"; "f"; "y"]) (U ["d"; "x"])]%string.
Theorem C35_refuted : reachable through_file /\ is_edir (view through_file (P ["d"]%string)) /\
  (forall fuel, fst (u_remove B (S (S fuel)) true (U ["d"]%string) through_file) = Raise AttributeError) /\
  forall fuel, is_edir (view (snd (u_remove B (S (S fuel)) true (U ["d"]%string) through_file)) (P ["d"]%string)).
Proof.
  split; [apply state_reachable|]. split; [dir_here|]. split; intros fuel; [vm_compute; reflexivity|dir_here].
Qed.
(** Removal itself can make a link that was fine fail: /d/k -> /d/a/sub and /d/z/l -> /d/k/y; when /d/z is
    reached, /d/a/sub is gone and looking at /d/z/l raises. *)
Definition midway : mst := state_of
  [OpMkdir (U ["d"]); OpMkdir (U ["d"; "a"]); OpMkdir (U ["d"; "a"; "sub"]); OpSymlink (U ["d"; "a"; "sub"]) (U ["d"; "k"]);
   OpMkdir (U ["d"; "z"]); OpSymlink (U ["d"; "k"; "y"]) (U ["d"; "z"; "l"])]%string.
Theorem C35_midway_refuted : reachable midway /\ is_edir (view midway (P ["d"]%string)) /\
  leads (view midway) (P ["d"; "z"; "l"]%string) Missing /\
  (forall fuel, fst (u_remove B (S (S (S fuel))) true (U ["d"]%string) midway) = Raise AttributeError) /\
  forall fuel, view (snd (u_remove B (S (S (S fuel))) true (U ["d"]%string) midway)) (P ["d"; "a"; "sub"]%string) = None.
Proof.
  split; [apply state_reachable|]. split; [dir_here|]. split; [|split; intros fuel; vm_compute; reflexivity].
  apply leads_by; [apply reachable_wf, state_reachable|intros ? E; discriminate E|vm_compute; reflexivity|vm_compute; reflexivity].
Qed.

(** ** C38 *)
(** Partial: paths with ordinary names; [gap] says that a directory exists and what follows is missing.
    For every URI, whatever callbacks there are and however makedirs ends, C38_keeps holds. *)
Theorem C38_makedirs_partial s cs d b fuel : reachable s -> silent s -> good_path cs -> gap (view s) cs d b -> (length b < fuel)%nat ->
  exists s', u_makedirs B fuel (mem_uri cs) s = (Ok tt, s') /\ dirs_added (view s) (view s') d b (m_now s) /\ same_rest s s' /\
    (forall p e, view s p = Some e -> view s' p = Some e) /\
    (forall pre post, cs = pre ++ post -> to_dir (view s') pre) /\
    forall fuel', (0 < fuel')%nat -> u_makedirs B fuel' (mem_uri cs) s' = (Ok tt, s').
Proof.
  intros R Q G Gp F. destruct (makedirs_ok s cs d b (reachable_wf s R) Q G Gp fuel F) as (s' & E & A & _ & SR & K & D & T).
  exists s'. auto 7.
Qed.
Example C38_makedirs_witness : reachable demo /\ silent demo /\ good_path (P ["l"; "x"; "y"]%string) /\
  gap (view demo) (P ["l"; "x"; "y"]%string) (P ["d"]%string) (P ["x"; "y"]%string).
Proof.
  split; [apply demo_reachable|]. split; [apply demo_silent|]. split; [good|]. exists (P ["l"]%string).
  split; [reflexivity|]. split; [|split; [dir_here|intros n b' E; injection E as <- _; vm_compute; reflexivity]].
  apply leads_by; [apply (reachable_wf demo demo_reachable)|intros q E; injection E as <-; vm_compute; discriminate|vm_compute; reflexivity|vm_compute; reflexivity].
Qed.
Theorem C38_fails_partial s cs fuel : reachable s -> silent s -> good_path cs -> (forall d b, ~ gap (view s) cs d b) ->
  exists e, u_makedirs B fuel (mem_uri cs) s = (Raise e, s).
Proof.
  intros R Q G N. unfold u_makedirs. rewrite run_hooked by auto. exact (makedirs_other cs s fuel (reachable_wf s R) Q G N).
Qed.
Theorem C38_keeps s u fuel r s' : reachable s -> u_makedirs B fuel u s = (r, s') ->
  forall p, view s' p = view s p \/ (view s p = None /\ is_edir (view s' p)).
Proof. intros R E. exact (proj2 (makedirs_keeps_u fuel u s r s' (reachable_wf s R) E)). Qed.
Example C38_keeps_witness : exists u r s', u_makedirs B 3 u demo = (r, s') /\ view demo (P ["d"; "x"]%string) = None /\ is_edir (view s' (P ["d"; "x"]%string)).
Proof.
  exists (U ["l"; "x"]%string). destruct (u_makedirs B 3 (U ["l"; "x"]%string) demo) as [r s'] eqn:E. exists r, s'.
  assert (X : s' = snd (u_makedirs B 3 (U ["l"; "x"]%string) demo)) by now rewrite E.
  split; [reflexivity|]. rewrite X. split; [vm_compute; reflexivity|dir_here].
Qed.
(** A trailing slash: makedirs succeeds and creates the directory, but isdir() of the same URI is false (C59). *)
Theorem C38_refuted : let u := slashed "memory:///n/m/" in
  fst (u_makedirs B 9 u demo) = Ok tt /\ fst (u_isdir B u (snd (u_makedirs B 9 u demo))) = Ok false /\
  fst (u_isdir B (U ["n"; "m"]%string) (snd (u_makedirs B 9 u demo))) = Ok true.
Proof. vm_compute. auto. Qed.
(** With an empty name inside, makedirs raises after having created some of the directories. *)
Theorem C38_half : let u := slashed "memory:///n//m" in
  fst (u_makedirs B 9 u demo) = Raise (OSError ENOENT) /\ view demo (P ["n"]%string) = None /\
  is_edir (view (snd (u_makedirs B 9 u demo)) (P ["n"]%string)).
Proof. cbv zeta. split; [vm_compute; reflexivity|]. split; [vm_compute; reflexivity|dir_here]. Qed.

Print Assumptions C34_remove_leaf_partial.
Print Assumptions C34_remove_empty_partial.
Print Assumptions C34_remove_full_partial.
Print Assumptions C34_remove_missing_partial.
Print Assumptions C34_refuted.
Print Assumptions C34_query_refuted.
Print Assumptions C35_remove_tree_partial.
Print Assumptions C35_remove_root_partial.
Print Assumptions C35_refuted.
Print Assumptions C35_midway_refuted.
Print Assumptions C38_makedirs_partial.
Print Assumptions C38_fails_partial.
Print Assumptions C38_keeps.
Print Assumptions C38_refuted.
Print Assumptions C38_half.
