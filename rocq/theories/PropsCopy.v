(** Properties C39-C45: copy and move on the memory backend.  See PropsGeneric.v for the conventions.
    [copy_dest t n ct cd] (SpecGen.v): copying something named [n] to [ct] goes to [cd], which is ct/n if [ct]
    leads to a directory and [ct] otherwise. *)
From Verif Require Import Str Exc Utf8 UriParse BaseUri StrFacts Utf8Facts SpecUri Mem SpecMem MemOps Generic SpecGen UriOps.
From Verif Require Import UriFacts2 UriFacts3 MemFacts MemFacts2 MemFacts3 MemFacts4 MemFacts6 MemFacts9 MemUri MemFacts10 PropsMem.
From Verif Require Import GenFacts1 GenFacts2 GenFacts3 GenFacts4 GenFacts5 GenFacts6 GenFacts7 GenFacts8 GenFacts9 GenFacts10 GenFacts12 Enum PropsGeneric.
From Coq Require Import Sorted.
Local Notation B := mem_backend.

Lemma placed_islink s cs d n : wf s -> placed (view s) cs d n -> mem_islink (mem_uri cs) s = (Ok (entry_is_link (view s (d ++ [n]))), s).
Proof. intros W (init & -> & G & F & L & D). apply (run_islink s W init n G F d L D). Qed.
Lemma not_elink o : ~ is_elink o -> entry_is_link o = false.
Proof. intros H. destruct o as [[| |tg mt mo]|]; auto. exfalso. apply H. now exists tg, mt, mo. Qed.
Lemma follow_or s d n (follow : bool) : follow = true \/ ~ is_elink (view s (d ++ [n])) -> entry_is_link (view s (d ++ [n])) && negb follow = false.
Proof. intros [->|H]; [now rewrite Bool.andb_false_r|]. now rewrite not_elink. Qed.

Ltac lead_in R := apply leads_by; [apply (reachable_wf _ R)|intros ? E; try (injection E as <-); vm_compute; discriminate
                                  |vm_compute; reflexivity|vm_compute; reflexivity].
Lemma not_to_dir s cs o : wf s -> leads (view s) cs o -> (forall q, o = Found q -> ~ is_edir (view s q)) -> ~ to_dir (view s) cs.
Proof.
  intros W L H (q & L' & D). pose proof (leads_det (m_heap s) (m_next s) W _ _ _ L' L) as E.
  symmetry in E. now apply (H q).
Qed.

(** ** C39 *)
(** Partial: ordinary paths.  [q] is the file the source leads to (through links, if it is one and links are
    followed), [p] the file written. *)
Theorem C39_copy_file_partial s cs d n q data mt mo ct cd p follow ignore fuel :
  reachable s -> silent s -> placed (view s) cs d n -> leads (view s) cs (Found q) -> view s q = Some (EFile data mt mo) ->
  follow = true \/ ~ is_elink (view s (d ++ [n])) ->
  good_path ct -> copy_dest (view s) n ct cd -> good_path cd -> writable (view s) (mem_uri cd) p -> p <> q ->
  exists s', u_copy B fuel false ignore follow (mem_uri cs) (mem_uri ct) s = (Ok tt, s') /\
    put_at (view s) (view s') p (EFile data mt mo) /\ same_rest s s'.
Proof.
  intros R Q Pl L E Fo Gt Cd Gd Wr N. pose proof (reachable_wf s R) as W. pose proof (placed_islink s cs d n W Pl) as I.
  destruct Pl as (init & -> & G & F & Li & D).
  destruct (copy_file s W Q init n G q data mt mo L E fuel ignore follow _ ct cd p I (follow_or s d n follow Fo) Gt Gd Cd Wr N) as (s' & X & _ & SR & Pt).
  eauto.
Qed.
Example C39_copy_file_witness : exists cs d n q data mt mo ct cd p, reachable demo /\ silent demo /\ placed (view demo) cs d n /\
  leads (view demo) cs (Found q) /\ view demo q = Some (EFile data mt mo) /\ good_path ct /\ copy_dest (view demo) n ct cd /\ good_path cd /\
  writable (view demo) (mem_uri cd) p /\ p <> q /\ data <> [] /\ (mt <> m_now demo /\ mo <> 0)%Z.
Proof.
  exists (P ["d"; "f"]%string), (P ["d"]%string), (lit "f"), (P ["d"; "f"]%string). do 3 eexists.
  exists (P ["d"; "e"]%string), (P ["d"; "e"; "f"]%string), (P ["d"; "e"; "f"]%string).
  split; [apply demo_reachable|]. split; [apply demo_silent|].
  split; [apply (demo_placed ["d"]%string "f"%string); [good|dir_here]|].
  split; [apply demo_at; efile|]. split; [vm_compute; reflexivity|]. split; [good|].
  split; [left; split; [|reflexivity]; exists (P ["d"; "e"]%string); split; [apply demo_at; edir|dir_here]|].
  split; [good|]. split; [|split; [discriminate|split; [discriminate|split; discriminate]]].
  constructor. apply (demo_free ["d"; "e"]%string "f"%string); [good|dir_here|vm_compute; reflexivity].
Qed.
(** A link, when links are not followed: the copy is a link with the same target. *)
Theorem C39_copy_link_partial s cs d n tg lmt lmo q data mt mo ct cd e m ignore fuel :
  reachable s -> silent s -> placed (view s) cs d n -> view s (d ++ [n]) = Some (ELink tg lmt lmo) ->
  leads (view s) cs (Found q) -> view s q = Some (EFile data mt mo) ->
  good_path ct -> copy_dest (view s) n ct cd -> placed (view s) cd e m -> e ++ [m] <> d ++ [n] ->
  view s (e ++ [m]) = None \/ (exists x, leads (view s) cd (Found x) /\ is_efile (view s x)) ->
  exists s', u_copy B fuel false ignore false (mem_uri cs) (mem_uri ct) s = (Ok tt, s') /\
    put_at (view s) (view s') (e ++ [m]) (ELink tg (m_now s) 0) /\ same_rest s s'.
Proof.
  intros R Q (init & -> & G & F & Li & D) El L E Gt Cd (ei & -> & Gd & Fd & Le & De) N X. pose proof (reachable_wf s R) as W.
  destruct (copy_as_link s init n d tg lmt lmo q data mt mo ct ei m e fuel ignore) as (s' & Y & _ & SR & Pt); eauto.
Qed.
(** /d/f a file, /k -> /d/f *)
Definition linked : mst := state_of
  [OpMkdir (U ["d"]); make_file ["d"; "f"]; OpWrite (mkHandle 2 false true) (VBytes (lit "hello")); OpSymlink (U ["d"; "f"]) (U ["k"])]%string.
Lemma linked_reachable : reachable linked. Proof. apply state_reachable. Qed.
Example C39_copy_link_witness : exists cs d n tg lmt lmo q data mt mo ct cd e m, reachable linked /\ silent linked /\
  placed (view linked) cs d n /\ view linked (d ++ [n]) = Some (ELink tg lmt lmo) /\
  leads (view linked) cs (Found q) /\ view linked q = Some (EFile data mt mo) /\
  good_path ct /\ copy_dest (view linked) n ct cd /\ placed (view linked) cd e m /\ e ++ [m] <> d ++ [n] /\ view linked (e ++ [m]) = None.
Proof.
  exists (P ["k"]%string), [], (lit "k"). do 3 eexists. exists (P ["d"; "f"]%string). do 3 eexists.
  exists (P ["d"]%string), (P ["d"; "k"]%string), (P ["d"]%string), (lit "k").
  split; [apply linked_reachable|]. split; [apply state_silent; vm_compute; reflexivity|].
  split; [exists []; split; [reflexivity|]; split; [good|]; split; [intros [|? ?] ? ? E; discriminate E|]; split; [constructor|dir_here]|].
  split; [vm_compute; reflexivity|]. split; [lead_in linked_reachable|]. split; [vm_compute; reflexivity|].
  split; [good|]. split; [left; split; [|reflexivity]; exists (P ["d"]%string); split; [lead_in linked_reachable|dir_here]|].
  split; [|split; [discriminate|vm_compute; reflexivity]].
  exists (P ["d"]%string). split; [reflexivity|]. split; [good|]. split; [|split; [lead_in linked_reachable|dir_here]].
  apply (fresh_dir (m_heap linked) (m_next linked)); [apply (reachable_wf _ linked_reachable)|dir_here].
Qed.
(** Where it does not succeed, nothing changes. *)
Theorem C39_copy_missing s cs o v recursive ignore follow fuel : reachable s -> silent s -> good_path cs -> leads (view s) cs o ->
  o = Missing \/ o = Loop -> u_copy B fuel recursive ignore follow (mem_uri cs) v s = (Raise FileDoesNotExistError, s).
Proof. intros R Q G L H. exact (copy_missing s cs o v fuel recursive ignore follow (reachable_wf s R) Q G L H). Qed.
Theorem C39_copy_directory s cs q v ignore follow fuel : reachable s -> silent s -> good_path cs -> leads (view s) cs (Found q) ->
  is_edir (view s q) -> u_copy B fuel false ignore follow (mem_uri cs) v s = (Raise AssertionError, s).
Proof. intros R Q G L H. exact (copy_not_file s cs q v fuel ignore follow (reachable_wf s R) Q G L H). Qed.
Theorem C39_copy_unwritable s cs d n q data mt mo ct ignore fuel : reachable s -> silent s -> placed (view s) cs d n ->
  leads (view s) cs (Found q) -> view s q = Some (EFile data mt mo) -> good_path ct ->
  (forall cd, copy_dest (view s) n ct cd -> good_path cd) ->
  (forall cd p, copy_dest (view s) n ct cd -> ~ writable (view s) (mem_uri cd) p) ->
  exists e s', u_copy B fuel false ignore true (mem_uri cs) (mem_uri ct) s = (Raise e, s') /\ same_tree (view s) (view s').
Proof.
  intros R Q (init & -> & G & F & Li & D) L E Gt Gd H.
  destruct (copy_file_fails s (reachable_wf s R) Q init n G q data mt mo L E fuel ignore ct Gt Gd H) as (e & s' & X & _ & _ & T). eauto.
Qed.
(** /dead is a link to a missing place and cannot be written. *)
Lemma demo_not_dir cs o : leads (view demo) cs o -> (forall q, o = Found q -> ~ is_edir (view demo q)) -> ~ to_dir (view demo) cs.
Proof. apply not_to_dir, reachable_wf, demo_reachable. Qed.
Example C39_copy_unwritable_witness : good_path (P ["dead"]%string) /\
  (forall cd, copy_dest (view demo) (lit "f") (P ["dead"]%string) cd -> cd = P ["dead"]%string) /\
  forall p, ~ writable (view demo) (U ["dead"]%string) p.
Proof.
  assert (L : leads (view demo) (P ["dead"]%string) Missing) by lead_in demo_reachable.
  assert (G : good_path (P ["dead"]%string)) by good.
  split; [exact G|]. split.
  - intros cd [[T _]|[_ ->]]; [|reflexivity]. exfalso. revert T. apply (demo_not_dir _ Missing L). discriminate.
  - intros p H. inversion H as [? Pl|q De Ef]; subst.
    + inversion Pl as [|init n d A Li D N| | | |]. pose proof (addr_inj _ _ _ A (mem_addr _ G)) as X.
      change (P ["dead"]%string) with ([] ++ [lit "dead"]) in X. apply app_inj_tail in X as [-> ->].
      inversion Li; subst. vm_compute in N. discriminate.
    + destruct De as (cs & A & Lq). rewrite (addr_inj _ _ _ A (mem_addr _ G)) in Lq.
      pose proof (leads_det (m_heap demo) (m_next demo) (reachable_wf _ demo_reachable) _ _ _ L Lq). discriminate.
Qed.
(** A destination directory written with a trailing slash gets an entry with the empty name. *)
Theorem C39_slash_refuted : let u := slashed "memory:///d/e/" in let r := u_copy B 9 false [] true (U ["d"; "f"]%string) u demo in
  fst r = Ok tt /\ view (snd r) (P ["d"; "e"; "f"]%string) = None /\ is_efile (view (snd r) (P ["d"; "e"; ""]%string)).
Proof. cbv zeta. split; [vm_compute; reflexivity|]. split; [vm_compute; reflexivity|file_here]. Qed.
(** A source path through a link named like its last component cannot be copied ([twice]: /a/l -> /d, /d/l a file). *)
Theorem C39_refuted : leads (view twice) (P ["a"; "l"; "l"]%string) (Found (P ["d"; "l"]%string)) /\
  forall fuel, fst (u_copy B fuel false [] true (U ["a"; "l"; "l"]%string) (U ["new"]%string) twice) = Raise AttributeError.
Proof. split; [lead|intros fuel; vm_compute; reflexivity]. Qed.

(** ** C40 *)
(** Partial: the destination does not lead to the source file.  However the copy ends, the source is not
    changed, nor is anything but the destination. *)
Theorem C40_source_kept_partial s cs d n q data mt mo ct ignore fuel r s' :
  reachable s -> silent s -> placed (view s) cs d n -> leads (view s) cs (Found q) -> view s q = Some (EFile data mt mo) ->
  good_path ct -> (forall cd, copy_dest (view s) n ct cd -> good_path cd /\ ~ leads (view s) cd (Found q)) ->
  u_copy B fuel false ignore true (mem_uri cs) (mem_uri ct) s = (r, s') ->
  (same_tree (view s) (view s') /\ exists e, r = Raise e) \/
  (exists p, p <> q /\ put_at (view s) (view s') p (EFile data mt mo) /\ r = Ok tt).
Proof.
  intros R Q (init & -> & G & F & Li & D) L E Gt H X.
  exact (copy_keeps s init n d q data mt mo fuel ignore ct r s' (reachable_wf s R) Q G F Li D L E Gt H X).
Qed.
Example C40_witness : exists cs d n q data mt mo ct, reachable demo /\ silent demo /\ placed (view demo) cs d n /\
  leads (view demo) cs (Found q) /\ view demo q = Some (EFile data mt mo) /\ good_path ct /\
  (forall cd, copy_dest (view demo) n ct cd -> good_path cd /\ ~ leads (view demo) cd (Found q)).
Proof.
  exists (P ["d"; "f"]%string), (P ["d"]%string), (lit "f"), (P ["d"; "f"]%string). do 3 eexists. exists (P ["e"]%string).
  split; [apply demo_reachable|]. split; [apply demo_silent|].
  split; [apply (demo_placed ["d"]%string "f"%string); [good|dir_here]|].
  split; [apply demo_at; efile|]. split; [vm_compute; reflexivity|]. split; [good|].
  assert (L : leads (view demo) (P ["e"]%string) (Found (P ["e"]%string))) by (apply demo_at; efile).
  intros cd [[T _]|[_ ->]].
  - exfalso. revert T. apply (demo_not_dir _ _ L). intros q E (? & ? & X). injection E as <-. vm_compute in X. discriminate.
  - split; [good|]. intros L'. pose proof (leads_det (m_heap demo) (m_next demo) (reachable_wf _ demo_reachable) _ _ _ L L') as E. discriminate.
Qed.
(** Copying a file onto itself (by whatever path) empties it. *)
Theorem C40_self s cs d n q data mt mo ct cd follow ignore fuel :
  reachable s -> silent s -> placed (view s) cs d n -> leads (view s) cs (Found q) -> view s q = Some (EFile data mt mo) ->
  follow = true \/ ~ is_elink (view s (d ++ [n])) ->
  good_path ct -> copy_dest (view s) n ct cd -> good_path cd -> leads (view s) cd (Found q) ->
  exists s', u_copy B fuel false ignore follow (mem_uri cs) (mem_uri ct) s = (Ok tt, s') /\
    put_at (view s) (view s') q (EFile [] (m_now s) 0).
Proof.
  intros R Q Pl L E Fo Gt Cd Gd Ld. pose proof (reachable_wf s R) as W. pose proof (placed_islink s cs d n W Pl) as I.
  destruct Pl as (init & -> & G & F & Li & D).
  destruct (copy_self s W Q init n G q data mt mo L E fuel ignore follow _ ct cd I (follow_or s d n follow Fo) Gt Gd Cd Ld) as (s' & X & _ & _ & Pt).
  eauto.
Qed.
Theorem C40_refuted : reachable demo /\ is_efile (view demo (P ["d"; "f"]%string)) /\
  (exists x data mt mo, view demo (P ["d"; "f"]%string) = Some (EFile (x :: data) mt mo)) /\
  forall fuel, let r := u_copy B fuel false [] true (U ["d"; "f"]%string) (U ["d"; "f"]%string) demo in
    fst r = Ok tt /\ view (snd r) (P ["d"; "f"]%string) = Some (EFile [] (m_now demo) 0).
Proof.
  split; [apply demo_reachable|]. split; [file_here|]. split; [do 4 eexists; vm_compute; reflexivity|].
  intros fuel. cbv zeta. split; vm_compute; reflexivity.
Qed.
(** Copying a link onto itself without following it deletes the link and raises. *)
Theorem C40_link_self s cs d n tg lmt lmo q data mt mo ignore fuel :
  reachable s -> silent s -> placed (view s) cs d n -> view s (d ++ [n]) = Some (ELink tg lmt lmo) ->
  leads (view s) cs (Found q) -> view s q = Some (EFile data mt mo) ->
  exists s', u_copy B fuel false ignore false (mem_uri cs) (mem_uri cs) s = (Raise (OSError ENOENT), s') /\ cut_at (view s) (view s') (d ++ [n]).
Proof.
  intros R Q (init & -> & G & F & Li & D) El L E.
  destruct (copy_link_onto_itself s init n d tg lmt lmo q data mt mo fuel ignore) as (s' & X & _ & _ & C); eauto. now apply reachable_wf.
Qed.

(** ** C41 *)
(** The general form.  [visits] are the directories the walk enters, [copied] says which entry there is below
    the destination; [gap] says that the destination is missing: d/b1/... with [d] an existing directory.
    Partial: ordinary names, no blanks at the ends of directory names (C42_blank_refuted), no link on the way
    named like a component after it, destination not below the source (C43), and every link visited is
    answered (with followlinks: leads to something), whatever is put below the destination. *)
Theorem C41_copy_tree_partial s cs d0 n ct cd d b follow ignore q0 fuel :
  reachable s -> silent s -> placed (view s) cs d0 n -> leads (view s) cs (Found q0) -> is_edir (view s q0) ->
  follow = true \/ ~ is_elink (view s (d0 ++ [n])) ->
  good_path ct -> good_path cd -> copy_dest (view s) n ct cd -> gap (view s) cd d b -> b <> [] ->
  (forall r q m, visits (view s) follow ignore cs r q -> view s (q ++ [m]) <> None ->
     good_path ((cs ++ r) ++ [m]) /\ fresh_last (view s) (cs ++ r) m /\
     exists o, settled (view s) (d ++ firstn 1 b) ((cs ++ r) ++ [m]) o /\ answers o /\ (follow = true -> exists x, o = Found x)) ->
  (forall r q, visits (view s) follow ignore cs r q -> q <> d /\ Forall unpadded r /\ (length r < fuel)%nat) ->
  (length b < fuel)%nat ->
  exists s', u_copy B fuel true ignore follow (mem_uri cs) (mem_uri ct) s = (Ok tt, s') /\ same_rest s s' /\
    reproduced (view s) (view s') d b (m_now s) (copied (view s) follow ignore cs (m_now s)).
Proof.
  intros R Q Pl L D Fo Gt Gd Cd Gp Nb H Hf Hb. pose proof (reachable_wf s R) as W. pose proof (placed_islink s cs d0 n W Pl) as I.
  destruct Pl as (init & -> & G & F & Li & Di).
  destruct (copy_tree s init n ct cd d b follow ignore q0 fuel) as (s' & X & _ & SR & Re); eauto.
  destruct Fo as [->|Fo]; [now left|]. right. rewrite I. now rewrite not_elink.
Qed.
(** A directory given by its own path, nothing ignored; links are copied as links, or there are none. *)
Theorem C41_copy_real_partial s init n ct cd d b follow fuel : let q := init ++ [n] in
  reachable s -> silent s -> is_edir (view s q) -> (forall r, view s (q ++ r) <> None -> good_path (q ++ r)) ->
  (forall r, is_edir (view s (q ++ r)) -> Forall unpadded r) ->
  (forall r, is_elink (view s (q ++ r)) -> follow = false /\ exists o, settled (view s) (d ++ firstn 1 b) (q ++ r) o /\ answers o) ->
  good_path ct -> good_path cd -> copy_dest (view s) n ct cd -> gap (view s) cd d b -> b <> [] -> (forall r, d <> q ++ r) ->
  (m_next s <= fuel)%nat -> (length b < fuel)%nat ->
  exists s', u_copy B fuel true [] follow (mem_uri q) (mem_uri ct) s = (Ok tt, s') /\ same_rest s s' /\
    reproduced (view s) (view s') d b (m_now s) (fun y e => exists e0, view s (q ++ y) = Some e0 /\ e = stamp (m_now s) e0).
Proof.
  intros q R Q D G U Lk Gt Gd Cd Gp Nb Ap Hf Hb.
  destruct (copy_real s init n ct cd d b follow fuel (reachable_wf s R) Q D G U Lk Gt Gd Cd Gp Nb Ap Hf Hb) as (s' & X & _ & SR & Re). eauto.
Qed.

(** /d/f, /d/l -> /o, /o/g; copying /d to /x following links. *)
Definition trip : mst := state_of
  [OpMkdir (U ["d"]); make_file ["d"; "f"]; OpWrite (mkHandle 2 false true) (VBytes (lit "hello")); OpMkdir (U ["o"]);
   make_file ["o"; "g"]; OpSymlink (U ["o"]) (U ["d"; "l"])]%string.
Lemma trip_reachable : reachable trip. Proof. apply state_reachable. Qed.
Lemma trip_wf : wf trip. Proof. apply reachable_wf, trip_reachable. Qed.
Lemma trip_missing z : view trip (P ["x"]%string ++ z) = None.
Proof. apply below_none. vm_compute. reflexivity. Qed.
Definition trip_dirs : list (list str * list str) := [([], P ["d"]); (P ["l"], P ["o"])]%string.
(** The entries of a concrete directory. *)
Ltac entries_of W H := apply (places_all _ _ W) in H;
  match type of H with In _ ?l => let v := eval vm_compute in l in let E := fresh in
    assert (E : l = v) by (vm_compute; reflexivity); rewrite E in H; clear E end; cbn [In] in H; repeat (destruct H as [H|H]; [try discriminate H|]); try contradiction.
Lemma trip_visits r q : visits (view trip) true [] (P ["d"]%string) r q -> In (r, q) trip_dirs.
Proof.
  intros V. induction V as [q L D|r q n q' V IH N _ L D _].
  - left. f_equal. assert (X : leads (view trip) (P ["d"]%string) (Found (P ["d"]%string))) by lead_in trip_reachable.
    pose proof (leads_det (m_heap trip) (m_next trip) trip_wf _ _ _ X L) as E. now injection E.
  - destruct IH as [E|[E|[]]]; injection E as <- <-.
    + entries_of trip_wf N; injection N as <-.
      * exfalso. assert (X : leads (view trip) (P ["d"; "f"]%string) (Found (P ["d"; "f"]%string))) by lead_in trip_reachable.
        pose proof (leads_det (m_heap trip) (m_next trip) trip_wf _ _ _ X L) as E. injection E as <-.
        destruct D as (? & ? & D). vm_compute in D. discriminate.
      * right. left. f_equal. assert (X : leads (view trip) (P ["d"; "l"]%string) (Found (P ["o"]%string))) by lead_in trip_reachable.
        pose proof (leads_det (m_heap trip) (m_next trip) trip_wf _ _ _ X L) as E. now injection E.
    + exfalso. entries_of trip_wf N; injection N as <-.
      assert (X : leads (view trip) (P ["d"; "l"; "g"]%string) (Found (P ["o"; "g"]%string))) by lead_in trip_reachable.
      pose proof (leads_det (m_heap trip) (m_next trip) trip_wf _ _ _ X L) as E. injection E as <-.
      destruct D as (? & ? & D). vm_compute in D. discriminate.
Qed.
Lemma trip_entry r q m : In (r, q) trip_dirs -> view trip (q ++ [m]) <> None ->
  In (r, m) [([], lit "f"); ([], lit "l"); (P ["l"], lit "g")]%string.
Proof.
  intros [E|[E|[]]] N; injection E as <- <-; entries_of trip_wf N; injection N as <-; cbn; auto.
Qed.
Lemma free_x s z : wf s -> view s (P ["x"]%string) = None -> view s (P ["x"]%string ++ z) = None.
Proof. intros W H. now apply below_none. Qed.
Lemma gap_top s : wf s -> view s (P ["x"]%string) = None -> gap (view s) (P ["x"]%string) [] (P ["x"]%string).
Proof.
  intros W H. exists []. split; [reflexivity|]. split; [constructor|]. split; [now apply root_dir|].
  intros n b' E. injection E as <- _. exact H.
Qed.
Lemma dest_top s n : wf s -> view s (P ["x"]%string) = None -> copy_dest (view s) n (P ["x"]%string) (P ["x"]%string).
Proof.
  intros W H. right. split; [|reflexivity]. apply (not_to_dir s _ Missing W); [|discriminate].
  apply rs_missing; [now apply root_dir|exact H].
Qed.
Ltac fresh_path := let E := fresh in intros pre post ? E;
  repeat (destruct pre as [|? pre]; [discriminate E|first [discriminate E|injection E as <- E]]).
Ltac settle R := apply settled_found; [intros z; apply free_x; [apply (reachable_wf _ R)|vm_compute; reflexivity]|lead_in R].
Ltac pad := repeat constructor; let E := fresh in intros ? ? [E|E];
  [injection E as <- _; reflexivity|apply (f_equal (@rev _)) in E; rewrite rev_app_distr in E; cbn in E; injection E as <- _; reflexivity].
Example C41_copy_tree_witness : exists s cs d0 n ct cd d b q0 fuel,
  reachable s /\ silent s /\ placed (view s) cs d0 n /\ leads (view s) cs (Found q0) /\ is_edir (view s q0) /\
  good_path ct /\ good_path cd /\ copy_dest (view s) n ct cd /\ gap (view s) cd d b /\ b <> [] /\
  (forall r q m, visits (view s) true [] cs r q -> view s (q ++ [m]) <> None ->
     good_path ((cs ++ r) ++ [m]) /\ fresh_last (view s) (cs ++ r) m /\
     exists o, settled (view s) (d ++ firstn 1 b) ((cs ++ r) ++ [m]) o /\ answers o /\ (true = true -> exists x, o = Found x)) /\
  (forall r q, visits (view s) true [] cs r q -> q <> d /\ Forall unpadded r /\ (length r < fuel)%nat) /\
  (length b < fuel)%nat /\
  copied (view s) true [] cs 5 (P ["l"; "g"]%string) (EFile [] 5 0).
Proof.
  exists trip, (P ["d"]%string), [], (lit "d"), (P ["x"]%string), (P ["x"]%string), [], (P ["x"]%string), (P ["d"]%string), 5%nat.
  split; [apply trip_reachable|]. split; [apply state_silent; vm_compute; reflexivity|].
  split; [exists []; split; [reflexivity|]; split; [good|]; split; [intros [|? ?] ? ? E; discriminate E|]; split; [constructor|dir_here]|].
  split; [lead_in trip_reachable|]. split; [dir_here|]. split; [good|]. split; [good|].
  split; [apply dest_top; [apply trip_wf|vm_compute; reflexivity]|].
  split; [apply gap_top; [apply trip_wf|vm_compute; reflexivity]|]. split; [discriminate|].
  split; [|split; [|split; [cbn; lia|]]].
  - intros r q m V N. apply trip_visits in V. pose proof (trip_entry _ _ _ V N) as X.
    destruct X as [E|[E|[E|[]]]]; injection E as <- <-; (split; [good|split; [fresh_path|]]).
    + exists (Found (P ["d"; "f"]%string)). split; [settle trip_reachable|]. split; [cbv; intuition discriminate|eauto].
    + exists (Found (P ["o"]%string)). split; [settle trip_reachable|]. split; [cbv; intuition discriminate|eauto].
    + exists (Found (P ["o"; "g"]%string)). split; [settle trip_reachable|]. split; [cbv; intuition discriminate|eauto].
  - intros r q V. apply trip_visits in V. destruct V as [E|[E|[]]]; injection E as <- <-; (split; [discriminate|split; [pad|cbn; lia]]).
  - apply (cp_file _ true [] _ _ (P ["l"]%string) (P ["o"]%string) (lit "g") (P ["o"; "g"]%string) [] 5%Z 0%Z); auto.
    + apply (v_down _ true [] _ [] (P ["d"]%string) (lit "l") (P ["o"]%string)); auto; [|vm_compute; discriminate|lead_in trip_reachable|dir_here].
      apply v_top; [lead_in trip_reachable|dir_here].
    + vm_compute. discriminate.
    + lead_in trip_reachable.
Qed.
Lemma trip_below r : view trip (P ["d"]%string ++ r) <> None -> In r [[]; P ["f"]; P ["l"]]%string.
Proof.
  intros N. entries_of trip_wf N; injection N as <-; cbn; auto.
Qed.
Lemma some_entry {o : option entry} : is_efile o \/ is_edir o \/ is_elink o -> o <> None.
Proof. intros [(? & ? & ? & ->)|[(? & ? & ->)|(? & ? & ? & ->)]]; discriminate. Qed.
Example C41_copy_real_witness : exists s init n ct cd d b follow, let q := init ++ [n] in
  reachable s /\ silent s /\ is_edir (view s q) /\ (forall r, view s (q ++ r) <> None -> good_path (q ++ r)) /\
  (forall r, is_edir (view s (q ++ r)) -> Forall unpadded r) /\
  (forall r, is_elink (view s (q ++ r)) -> follow = false /\ exists o, settled (view s) (d ++ firstn 1 b) (q ++ r) o /\ answers o) /\
  good_path ct /\ good_path cd /\ copy_dest (view s) n ct cd /\ gap (view s) cd d b /\ b <> [] /\ (forall r, d <> q ++ r) /\
  (exists r, is_elink (view s (q ++ r))) /\ (exists r, is_efile (view s (q ++ r))).
Proof.
  exists trip, [], (lit "d"), (P ["x"]%string), (P ["x"]%string), [], (P ["x"]%string), false. cbv zeta.
  split; [apply trip_reachable|]. split; [apply state_silent; vm_compute; reflexivity|]. split; [dir_here|].
  split; [|split; [|split; [|split; [good|split; [good|]]]]].
  - intros r N. apply trip_below in N. destruct N as [<-|[<-|[<-|[]]]]; good.
  - intros r N. pose proof (trip_below r (some_entry (or_intror (or_introl N)))) as X.
    destruct X as [<-|[<-|[<-|[]]]]; pad.
  - intros r N. split; [reflexivity|]. pose proof (trip_below r (some_entry (or_intror (or_intror N)))) as X.
    destruct X as [<-|[<-|[<-|[]]]]; try (exfalso; revert N; not_link).
    exists (Found (P ["o"]%string)). split; [settle trip_reachable|]. cbv; intuition discriminate.
  - split; [apply dest_top; [apply trip_wf|vm_compute; reflexivity]|].
    split; [apply gap_top; [apply trip_wf|vm_compute; reflexivity]|]. split; [discriminate|]. split; [discriminate|].
    split; [exists (P ["l"]%string); file_here|exists (P ["f"]%string); file_here].
Qed.
(** A link through a file inside the tree makes the copy raise, though links are to be copied as links. *)
Theorem C41_refuted : reachable through_file /\ is_edir (view through_file (P ["d"]%string)) /\
  view through_file (P ["x"]%string) = None /\
  forall fuel, fst (u_copy B (S (S fuel)) true [] false (U ["d"]%string) (U ["x"]%string) through_file) = Raise AttributeError.
Proof. split; [apply state_reachable|]. split; [dir_here|]. split; [vm_compute; reflexivity|intros fuel; vm_compute; reflexivity]. Qed.
(** A link to a missing place, links followed. *)
Definition dangling : mst := state_of [OpMkdir (U ["d"]); OpSymlink (U ["no"]) (U ["d"; "l"])]%string.
Theorem C41_dead_refuted : reachable dangling /\ is_edir (view dangling (P ["d"]%string)) /\
  forall fuel, fst (u_copy B (S (S fuel)) true [] true (U ["d"]%string) (U ["x"]%string) dangling) = Raise (OSError ENOENT).
Proof. split; [apply state_reachable|]. split; [dir_here|]. intros fuel. vm_compute. reflexivity. Qed.

(** ** C42 *)
(** Where it works: C41_copy_tree_partial and C41_copy_real_partial.  It does not from the root: the paths
    below the destination are cut out of the source paths by length, and the root's is one too short. *)
Definition short : mst := state_of [OpMkdir (U ["abc"]); make_file ["abc"; "f"]]%string.
Theorem C42_root_refuted : reachable short /\ view short (P ["x"]%string) = None /\
  forall fuel, fst (u_copy B (S (S (S fuel))) true [] true (U []) (U ["x"]%string) short) = Raise (OSError ENOENT).
Proof. split; [apply state_reachable|]. split; [vm_compute; reflexivity|]. intros fuel. vm_compute. reflexivity. Qed.
Theorem C42_slash_refuted : reachable short /\ is_edir (view short (P ["abc"]%string)) /\
  forall fuel, fst (u_copy B fuel true [] true (slashed "memory:///abc/") (U ["x"]%string) short) = Raise FileDoesNotExistError.
Proof. split; [apply state_reachable|]. split; [dir_here|]. intros fuel. vm_compute. reflexivity. Qed.
(** A directory name with a blank in front: the copy of the directory is made, but its content is put
    somewhere else (which does not exist). *)
Definition blanks : mst := state_of [OpMkdir (U ["abc"]); OpMkdir (U ["abc"; " def"]); make_file ["abc"; " def"; "g"]]%string.
Theorem C42_blank_refuted : reachable blanks /\ is_efile (view blanks (P ["abc"; " def"; "g"]%string)) /\
  forall fuel, fst (u_copy B (S (S (S fuel))) true [] true (U ["abc"]%string) (U ["x"]%string) blanks) = Raise (OSError ENOENT).
Proof. split; [apply state_reachable|]. split; [file_here|]. intros fuel. vm_compute. reflexivity. Qed.

(** ** C43 *)
(** Partial: under the conditions of C41_copy_real_partial. *)
Theorem C43_terminates_partial s init n ct cd d b follow : let q := init ++ [n] in
  reachable s -> silent s -> is_edir (view s q) -> (forall r, view s (q ++ r) <> None -> good_path (q ++ r)) ->
  (forall r, is_edir (view s (q ++ r)) -> Forall unpadded r) ->
  (forall r, is_elink (view s (q ++ r)) -> follow = false /\ exists o, settled (view s) (d ++ firstn 1 b) (q ++ r) o /\ answers o) ->
  good_path ct -> good_path cd -> copy_dest (view s) n ct cd -> gap (view s) cd d b -> b <> [] -> (forall r, d <> q ++ r) ->
  exists fuel0, forall fuel, (fuel0 <= fuel)%nat -> fst (u_copy B fuel true [] follow (mem_uri q) (mem_uri ct) s) <> Raise OutOfFuel.
Proof.
  intros q R Q D G U Lk Gt Gd Cd Gp Nb Ap. exists (m_next s + S (length b))%nat. intros fuel Hf.
  destruct (C41_copy_real_partial s init n ct cd d b follow fuel R Q D G U Lk Gt Gd Cd Gp Nb Ap) as (s' & X & _); try lia.
  fold q in X. rewrite X. discriminate.
Qed.
(** It is false in general: a copy of an empty directory into itself does not end. *)
Theorem C43_refuted s q m follow fuel : reachable s -> silent s -> q <> [] -> good_path (q ++ [m]) -> unpadded m ->
  is_edir (view s q) -> (forall n, view s (q ++ [n]) = None) ->
  fst (u_copy B (S (S fuel)) true [] follow (mem_uri q) (mem_uri (q ++ [m])) s) = Raise OutOfFuel.
Proof. intros R. exact (copy_below s q m follow fuel (reachable_wf s R)). Qed.
Example C43_refuted_witness : reachable demo /\ silent demo /\ good_path (P ["d"; "e"]%string ++ [lit "x"]) /\ unpadded (lit "x") /\
  is_edir (view demo (P ["d"; "e"]%string)) /\ (forall n, view demo (P ["d"; "e"]%string ++ [n]) = None).
Proof.
  split; [apply demo_reachable|]. split; [apply demo_silent|]. split; [good|]. split; [|split; [dir_here|]].
  - assert (X : Forall unpadded [lit "x"]) by pad. now inversion X.
  - intros n. destruct (view demo (P ["d"; "e"]%string ++ [n])) eqn:E; [|reflexivity]. exfalso.
    assert (N : view demo (P ["d"; "e"]%string ++ [n]) <> None) by congruence.
    entries_of (reachable_wf _ demo_reachable) N.
Qed.

(** ** C44 *)
(** Partial: ordinary paths, and the destination is not the source: neither the file nor, when the source is a
    link, the link. *)
Theorem C44_move_file_partial s cs d n q data mt mo ct cd p fuel :
  reachable s -> silent s -> placed (view s) cs d n -> leads (view s) cs (Found q) -> view s q = Some (EFile data mt mo) ->
  good_path ct -> copy_dest (view s) n ct cd -> good_path cd -> writable (view s) (mem_uri cd) p -> p <> q -> p <> d ++ [n] ->
  exists s', u_move B fuel (mem_uri cs) (mem_uri ct) s = (Ok tt, s') /\ moved (view s) (view s') p (d ++ [n]) (EFile data mt mo) /\ same_rest s s'.
Proof.
  intros R Q (init & -> & G & F & Li & D) L E Gt Cd Gd Wr N1 N2.
  destruct (move_file s (reachable_wf s R) Q init n d G F Li D q data mt mo L E fuel ct cd p Gt Gd Cd Wr N1 N2) as (s' & X & _ & SR & Mv). eauto.
Qed.
Example C44_move_file_witness : exists cs d n q data mt mo ct cd p, reachable demo /\ silent demo /\ placed (view demo) cs d n /\
  leads (view demo) cs (Found q) /\ view demo q = Some (EFile data mt mo) /\ good_path ct /\ copy_dest (view demo) n ct cd /\ good_path cd /\
  writable (view demo) (mem_uri cd) p /\ p <> q /\ p <> d ++ [n].
Proof.
  destruct C39_copy_file_witness as (cs & d & n & q & data & mt & mo & ct & cd & p & R & Q & Pl & L & E & Gt & Cd & Gd & Wr & N & _).
  exists (P ["d"; "f"]%string), (P ["d"]%string), (lit "f"), (P ["d"; "f"]%string). do 3 eexists.
  exists (P ["e"]%string), (P ["e"]%string), (P ["e"]%string).
  split; [apply demo_reachable|]. split; [apply demo_silent|].
  split; [apply (demo_placed ["d"]%string "f"%string); [good|dir_here]|].
  split; [apply demo_at; efile|]. split; [vm_compute; reflexivity|]. split; [good|].
  assert (X : leads (view demo) (P ["e"]%string) (Found (P ["e"]%string))) by (apply demo_at; efile).
  split; [|split; [good|split; [|split; discriminate]]].
  - right. split; [|reflexivity]. apply (demo_not_dir _ _ X). intros x Ex (? & ? & Y). injection Ex as <-. vm_compute in Y. discriminate.
  - apply wr_file; [|file_here]. apply demo_denotes; [good|efile].
Qed.
(** A directory without links, to a missing destination outside it. *)
Theorem C44_move_dir_partial s init n ct cd d b fuel : let q := init ++ [n] in
  reachable s -> silent s -> is_edir (view s q) -> (forall r, view s (q ++ r) <> None -> good_path (q ++ r)) ->
  (forall r, is_edir (view s (q ++ r)) -> Forall unpadded r) -> (forall r, ~ is_elink (view s (q ++ r))) ->
  good_path ct -> good_path cd -> copy_dest (view s) n ct cd -> gap (view s) cd d b -> b <> [] -> (forall r, d <> q ++ r) ->
  (m_next s <= fuel)%nat -> (length b < fuel)%nat ->
  exists s', u_move B fuel (mem_uri q) (mem_uri ct) s = (Ok tt, s') /\ same_rest s s' /\
    (forall r, view s' (q ++ r) = None) /\
    (forall y e, y <> [] -> view s' (d ++ b ++ y) = Some e <-> exists e0, view s (q ++ y) = Some e0 /\ e = stamp (m_now s) e0) /\
    (forall b1 b2, b = b1 ++ b2 -> b1 <> [] -> view s' (d ++ b1) = Some (EDir (m_now s) 0)) /\
    (forall x, (forall z, x <> d ++ firstn 1 b ++ z) -> (forall r, x <> q ++ r) -> view s' x = view s x).
Proof.
  intros q R Q D G U Lk Gt Gd Cd Gp Nb Ap Hf Hb.
  destruct (move_dir s init n ct cd d b fuel (reachable_wf s R) Q D G U Lk Gt Gd Cd Gp Nb Ap Hf Hb) as (s' & X & _ & Y). eauto.
Qed.
Example C44_move_dir_witness : exists init n ct cd d b, let q := init ++ [n] in
  reachable demo /\ silent demo /\ is_edir (view demo q) /\ (forall r, view demo (q ++ r) <> None -> good_path (q ++ r)) /\
  (forall r, is_edir (view demo (q ++ r)) -> Forall unpadded r) /\ (forall r, ~ is_elink (view demo (q ++ r))) /\
  good_path ct /\ good_path cd /\ copy_dest (view demo) n ct cd /\ gap (view demo) cd d b /\ b <> [] /\ (forall r, d <> q ++ r) /\
  exists r, is_efile (view demo (q ++ r)).
Proof.
  assert (Bl : forall r, view demo (P ["d"]%string ++ r) <> None -> In r [[]; P ["f"]; P ["e"]]%string).
  { intros r N. entries_of (reachable_wf _ demo_reachable) N; injection N as <-; cbn; auto. }
  exists [], (lit "d"), (P ["x"]%string), (P ["x"]%string), [], (P ["x"]%string). cbv zeta.
  split; [apply demo_reachable|]. split; [apply demo_silent|]. split; [dir_here|].
  split; [intros r N; apply Bl in N; destruct N as [<-|[<-|[<-|[]]]]; good|].
  split; [intros r N; pose proof (Bl r (some_entry (or_intror (or_introl N)))) as X; destruct X as [<-|[<-|[<-|[]]]]; pad|].
  split; [intros r N; pose proof (Bl r (some_entry (or_intror (or_intror N)))) as X; destruct X as [<-|[<-|[<-|[]]]]; revert N; not_link|].
  split; [good|]. split; [good|].
  split; [apply dest_top; [apply reachable_wf, demo_reachable|vm_compute; reflexivity]|].
  split; [apply gap_top; [apply reachable_wf, demo_reachable|vm_compute; reflexivity]|]. split; [discriminate|]. split; [discriminate|].
  exists (P ["f"]%string). file_here.
Qed.
(** Moving a file onto itself deletes it. *)
Theorem C44_self s cs d n data mt mo ct cd fuel : let q := d ++ [n] in
  reachable s -> silent s -> placed (view s) cs d n -> view s q = Some (EFile data mt mo) ->
  good_path ct -> copy_dest (view s) n ct cd -> good_path cd -> leads (view s) cd (Found q) ->
  exists s', u_move B fuel (mem_uri cs) (mem_uri ct) s = (Ok tt, s') /\ cut_at (view s) (view s') q.
Proof.
  intros q R Q (init & -> & G & F & Li & D) E Gt Cd Gd Ld. pose proof (reachable_wf s R) as W.
  assert (L : leads (view s) (init ++ [n]) (Found q)).
  { apply (rs_app _ _ [] init [n] d _ Li). apply rs_step; [exact D|left; now exists data, mt, mo|constructor]. }
  destruct (move_self s W Q init n d G F Li D q data mt mo L E fuel ct cd Gt Gd Cd Ld eq_refl) as (s' & X & _ & _ & C). eauto.
Qed.
Theorem C44_refuted : reachable demo /\ is_efile (view demo (P ["d"; "f"]%string)) /\
  forall fuel, let r := u_move B fuel (U ["d"; "f"]%string) (U ["d"; "f"]%string) demo in
    fst r = Ok tt /\ view (snd r) (P ["d"; "f"]%string) = None.
Proof.
  split; [apply demo_reachable|]. split; [file_here|]. intros fuel. cbv zeta. split; vm_compute; reflexivity.
Qed.

(** ** C45 *)
(** Partial: a file whose destination cannot be written; and a directory whose destination is missing: however the
    copy fails, move fails in the same way and everything that was there before is unchanged. *)
Theorem C45_file_partial s cs d n q data mt mo ct fuel :
  reachable s -> silent s -> placed (view s) cs d n -> leads (view s) cs (Found q) -> view s q = Some (EFile data mt mo) ->
  good_path ct -> (forall cd, copy_dest (view s) n ct cd -> good_path cd) ->
  (forall cd p, copy_dest (view s) n ct cd -> ~ writable (view s) (mem_uri cd) p) ->
  exists e s', u_move B fuel (mem_uri cs) (mem_uri ct) s = (Raise e, s') /\ same_tree (view s) (view s').
Proof.
  intros R Q (init & -> & G & F & Li & D) L E Gt Gd H.
  destruct (move_file_fails s (reachable_wf s R) Q init n G q data mt mo L E fuel ct Gt Gd H) as (e & s' & X & _ & _ & T). eauto.
Qed.
Theorem C45_dir_partial s init n ct cd d b fuel q0 e s1 : let cs := init ++ [n] in
  reachable s -> silent s -> (forall x, view s x <> None -> Forall name_ok x /\ Forall unpadded x) ->
  good_path cs -> good_path ct -> good_path cd -> Forall unpadded cd -> copy_dest (view s) n ct cd -> gap (view s) cd d b -> b <> [] ->
  leads (view s) cs (Found q0) -> is_edir (view s q0) ->
  u_copy B fuel true [] true (mem_uri cs) (mem_uri ct) s = (Raise e, s1) ->
  u_move B fuel (mem_uri cs) (mem_uri ct) s = (Raise e, s1) /\ forall x, view s x <> None -> view s1 x = view s x.
Proof. intros cs R. exact (move_dir_fails s init n ct cd d b fuel q0 e s1 (reachable_wf s R)). Qed.
Example C45_dir_witness : exists init n ct cd d b q0 s1, let cs := init ++ [n] in
  reachable dangling /\ silent dangling /\ (forall x, view dangling x <> None -> Forall name_ok x /\ Forall unpadded x) /\
  good_path cs /\ good_path ct /\ good_path cd /\ Forall unpadded cd /\ copy_dest (view dangling) n ct cd /\ gap (view dangling) cd d b /\ b <> [] /\
  leads (view dangling) cs (Found q0) /\ is_edir (view dangling q0) /\
  u_copy B 5 true [] true (mem_uri cs) (mem_uri ct) dangling = (Raise (OSError ENOENT), s1).
Proof.
  assert (W : wf dangling) by apply reachable_wf, state_reachable.
  exists [], (lit "d"), (P ["x"]%string), (P ["x"]%string), [], (P ["x"]%string), (P ["d"]%string), (snd (u_copy B 5 true [] true (U ["d"]%string) (U ["x"]%string) dangling)). cbv zeta.
  split; [apply state_reachable|]. split; [apply state_silent; vm_compute; reflexivity|].
  split; [intros x N; entries_of W N; subst x|].
  - split; constructor.
  - split; [|pad]. assert (Gd : good_path (P ["d"]%string)) by good. apply Gd.
  - split; [|pad]. assert (Gd : good_path (P ["d"; "l"]%string)) by good. apply Gd.
  - split; [good|]. split; [good|]. split; [good|]. split; [pad|].
    split; [apply dest_top; [exact W|vm_compute; reflexivity]|].
    split; [apply gap_top; [exact W|vm_compute; reflexivity]|]. split; [discriminate|].
    split; [lead|]. split; [dir_here|].
    assert (E : fst (u_copy B 5 true [] true (U ["d"]%string) (U ["x"]%string) dangling) = Raise (OSError ENOENT)) by (vm_compute; reflexivity).
    change (mem_uri ([] ++ [lit "d"])) with (U ["d"]%string). change (mem_uri (P ["x"]%string)) with (U ["x"]%string).
    rewrite <- E. apply surjective_pairing.
Qed.
(** False when the destination is an existing directory whose entry of that name leads back to the source: /b/a -> /a,
    and /a/g is a link to a missing place.  Moving /a to /b raises, and /a/f has lost its content. *)
Definition backlink : mst := state_of
  [OpMkdir (U ["a"]); make_file ["a"; "f"]; OpWrite (mkHandle 2 false true) (VBytes (lit "hello"));
   OpSymlink (U ["no"]) (U ["a"; "g"]); OpMkdir (U ["b"]); OpSymlink (U ["a"]) (U ["b"; "a"])]%string.
Theorem C45_refuted : reachable backlink /\ view backlink (P ["a"; "f"]%string) = Some (EFile (lit "hello") 5 0) /\
  forall fuel, let r := u_move B (S (S fuel)) (U ["a"]%string) (U ["b"]%string) backlink in
    fst r = Raise (OSError ENOENT) /\ view (snd r) (P ["a"; "f"]%string) = Some (EFile [] 5 0).
Proof.
  split; [apply state_reachable|]. split; [vm_compute; reflexivity|]. intros fuel. cbv zeta. split; vm_compute; reflexivity.
Qed.

Print Assumptions C39_copy_file_partial.
Print Assumptions C39_copy_link_partial.
Print Assumptions C39_copy_missing.
Print Assumptions C39_copy_directory.
Print Assumptions C39_copy_unwritable.
Print Assumptions C39_slash_refuted.
Print Assumptions C39_refuted.
Print Assumptions C40_source_kept_partial.
Print Assumptions C40_self.
Print Assumptions C40_refuted.
Print Assumptions C40_link_self.
Print Assumptions C41_copy_tree_partial.
Print Assumptions C41_copy_real_partial.
Print Assumptions C41_refuted.
Print Assumptions C41_dead_refuted.
Print Assumptions C42_root_refuted.
Print Assumptions C42_slash_refuted.
Print Assumptions C42_blank_refuted.
Print Assumptions C43_terminates_partial.
Print Assumptions C43_refuted.
Print Assumptions C44_move_file_partial.
Print Assumptions C44_move_dir_partial.
Print Assumptions C44_self.
Print Assumptions C44_refuted.
Print Assumptions C45_file_partial.
Print Assumptions C45_dir_partial.
Print Assumptions C45_refuted.
