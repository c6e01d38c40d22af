(** Properties C22-C33, C36, C37, C48, C49, C51, C59: the memory backend.  [reachable] states are those
    any sequence of operations leads to; [view] is the tree stored in a state, [leads]/[denotes]/[place]
    say independently of the code what a path stands for (SpecMem.v). *)
From Verif Require Import Str Exc Utf8 UriParse BaseUri StrFacts Utf8Facts SpecUri Mem SpecMem SpecFile MemOps.
From Verif Require Import UriFacts2 UriFacts3 MemFacts MemFacts2 MemFacts3 MemFacts4 MemFacts5 MemFacts6 MemFacts7 MemFacts8 MemFacts9 MemUri MemFacts10 MemFacts11.
From Coq Require Import Sorted.

(** ** A concrete state for the examples: /d/f with content, /d/e empty, /l -> /d, /dead -> /nowhere,
       /loop -> /loop, /e an empty file, /lf -> /d/f/x, /l2/l2 -> /d *)
Definition P (l : list String.string) : list str := map lit l.
Definition U (l : list String.string) : uri := mem_uri (P l).
Local Open Scope string_scope.
Definition demo_ops : list op :=
  [OpMkdir (U ["d"]); OpOpen (U ["d"; "f"]) (Some (lit "wb"));
   OpWrite (mkHandle 2 false true) (VBytes (lit "hello" ++ [10%N] ++ lit "world"));
   OpMkdir (U ["d"; "e"]); OpSymlink (U ["d"]) (U ["l"]); OpSymlink (U ["nowhere"]) (U ["dead"]);
   OpSymlink (U ["loop"]) (U ["loop"]); OpOpen (U ["e"]) (Some (lit "w"));
   OpSymlink (U ["d"; "f"; "x"]) (U ["lf"]); OpSetInfo (U ["d"; "f"]) (Some 420%Z) (Some 99%Z) true;
   OpTick 7].
Definition demo : mst := run_ops demo_ops (init_mem 5 0).
Lemma demo_reachable : reachable demo. Proof. now exists 5%Z, 0%nat, demo_ops. Qed.

Ltac free := let c := fresh in let H1 := fresh in let H2 := fresh in
  intros c H1 H2; cbn in H1, H2; intuition (subst; discriminate).
Lemma not_contains pat s : contains pat s = false -> forall x y, (s <> x ++ pat ++ y)%list.
Proof. apply contains_no. Qed.
Ltac good :=
  split; [repeat constructor; try discriminate; try free; now apply not_contains
         |let E := fresh in intros ? ? E ?; injection E as <- <-; discriminate].
Lemma demo_addr l : good_path (P l) -> addr (U l) (P l).
Proof. apply mem_addr. Qed.
Lemma demo_at p : is_efile (view demo p) \/ is_edir (view demo p) -> leads (view demo) p (Found p).
Proof. apply resolves_entry. Qed.
Lemma demo_denotes l : good_path (P l) -> is_efile (view demo (P l)) \/ is_edir (view demo (P l)) ->
  denotes (view demo) (U l) (Found (P l)).
Proof. intros G H. exists (P l). split; [now apply mem_addr|now apply demo_at]. Qed.
Ltac edir := right; do 2 eexists; vm_compute; reflexivity.
Ltac efile := left; do 3 eexists; vm_compute; reflexivity.
Lemma demo_free l n : good_path (P (l ++ [n])) -> is_edir (view demo (P l)) -> view demo (P (l ++ [n])) = None ->
  place (view demo) (U (l ++ [n])) (Free (P (l ++ [n]))).
Proof.
  intros G D N. unfold P in *. rewrite map_app in *. cbn [map] in *. apply pl_free with (init := map lit l) (n := lit n); auto.
  - unfold U, P. rewrite map_app. now apply mem_addr.
  - apply demo_at. now right.
Qed.
Local Close Scope string_scope.

(** ** C22 *)
Theorem C22_tree_wf s : reachable s ->
  is_edir (view s []) /\
  (forall p n, view s (p ++ [n]) <> None -> is_edir (view s p)) /\
  (forall i es mt mo n j, i < m_next s -> m_heap s i = NDir es mt mo -> In (n, j) es -> j < m_next s) /\
  (forall i es mt mo, i < m_next s -> m_heap s i = NDir es mt mo -> NoDup (map fst es)) /\
  (forall p q i, phys (m_heap s) root_id p = Some i -> phys (m_heap s) root_id q = Some i -> p = q) /\
  (forall u l s', mem_listdir u s = (Ok l, s') -> StronglySorted slt l /\ NoDup l).
Proof. exact (c22 s). Qed.
Example C22_witness : reachable demo /\ view demo (P ["d"; "f"]%string) <> None.
Proof. split; [apply demo_reachable|vm_compute; discriminate]. Qed.

(** ** C23 *)
(** Partial: paths that run through a file or a dead link are left out; there the tests raise
    (C24).  The statement of C23 only asks for paths whose parent is a directory; but such a path can be a
    link into a file, see C23_refuted. *)
Theorem C23_classify_partial s u cs o : reachable s -> addr u cs -> leads (view s) cs o -> ~ In o [Dead; NotDir; BadLink] ->
  exists e f d, mem_exists u s = (Ok e, s) /\ mem_isfile u s = (Ok f, s) /\ mem_isdir u s = (Ok d, s) /\
    (e = true <-> exists q, o = Found q) /\
    (f = true <-> exists q, o = Found q /\ is_efile (view s q)) /\
    (d = true <-> exists q, o = Found q /\ is_edir (view s q)) /\
    e = xorb f d /\ andb f d = false.
Proof. intros R. apply classify. now apply reachable_wf. Qed.
(** islink() looks at the entry alone. *)
Theorem C23_islink_partial s u init n d : reachable s -> addr u (init ++ [n]) -> leads (view s) init (Found d) -> is_edir (view s d) ->
  fresh_last (view s) init n ->
  exists b, mem_islink u s = (Ok b, s) /\ (b = true <-> is_elink (view s (d ++ [n]))).
Proof.
  intros R A L D F. rewrite (islink_found s (reachable_wf s R) u init n d) by auto.
  eexists. split; [reflexivity|]. unfold entry_is_link, is_elink.
  destruct (view s (d ++ [n])) as [[]|]; split; try discriminate; eauto; intros (a & b & c & E); discriminate.
Qed.
(** A link to a missing place, and a link on a cycle, does not exist. *)
Theorem C23_dangling_partial s u d n tg mt mo cs : reachable s -> addr u (d ++ [n]) -> view s (d ++ [n]) = Some (ELink tg mt mo) ->
  addr tg cs -> resolves (view s) 31 [] cs Missing ->
  mem_exists u s = (Ok false, s) /\ mem_isfile u s = (Ok false, s) /\ mem_isdir u s = (Ok false, s) /\ mem_islink u s = (Ok true, s).
Proof.
  intros R A V At L. pose proof (reachable_wf s R) as W.
  assert (D : is_edir (view s d)) by (apply (tree_parent (m_heap s) d n); change (view s (d ++ [n]) <> None); rewrite V; discriminate).
  assert (Ld : leads (view s) d (Found d)) by (now apply (resolves_dir (m_heap s))).
  assert (Lm : leads (view s) (d ++ [n]) Missing) by (eapply leads_snoc; eauto; eapply link_follow; eauto).
  rewrite (exists_spec s W u _ _ A Lm), (isfile_spec s W u _ _ A Lm), (isdir_spec s W u _ _ A Lm).
  rewrite (islink_found s W u d n d); auto; [now rewrite V|]. now apply (fresh_dir (m_heap s) (m_next s)).
Qed.
Theorem C23_cyclic_partial s u p n : reachable s -> addr u p -> chain (view s) (S n) p p ->
  mem_exists u s = (Ok false, s) /\ mem_isfile u s = (Ok false, s) /\ mem_isdir u s = (Ok false, s) /\ mem_islink u s = (Ok true, s).
Proof.
  intros R A C. pose proof (reachable_wf s R) as W.
  assert (L : leads (view s) p Loop) by (now apply (cycle_loop (m_heap s) (m_next s) W n)).
  destruct (loop_tests s u p W A L) as (H1 & H2 & H3 & _). do 3 (split; [assumption|]).
  inversion C as [|n' p0 p' q Ar C']; subst. destruct (arrow_snoc (m_heap s) (m_next s) W p p' Ar) as (d & x & -> & D).
  rewrite (islink_found s W u d x d); auto.
  - destruct Ar as (tg & mt & mo & E & _). now rewrite E.
  - now apply (fresh_dir (m_heap s) (m_next s)).
  - now apply (resolves_dir (m_heap s)).
Qed.
Example C23_witness :
  (addr (U ["l"; "f"]%string) (P ["l"; "f"]%string) /\ leads (view demo) (P ["l"; "f"]%string) (Found (P ["d"; "f"]%string))) /\
  (addr (U ["dead"]%string) (P ["dead"]%string) /\ resolves (view demo) 31 [] (P ["nowhere"]%string) Missing) /\
  chain (view demo) 1 (P ["loop"]%string) (P ["loop"]%string).
Proof.
  split; [split|split; [split|]].
  - apply demo_addr. good.
  - eapply rs_link with (target := U ["d"]%string) (cs := P ["d"]%string); try (vm_compute; reflexivity).
    + do 2 eexists. vm_compute. reflexivity.
    + apply demo_addr. good.
    + apply resolves_entry. edir.
    + apply rs_step; [do 2 eexists; vm_compute; reflexivity|efile|constructor].
  - apply demo_addr. good.
  - apply rs_missing; [do 2 eexists; vm_compute; reflexivity|vm_compute; reflexivity].
  - eapply ch_step; [|constructor]. exists (U ["loop"]%string), 5%Z, 0%Z. split; [vm_compute; reflexivity|]. apply demo_addr. good.
Qed.
(** /lf is a link to /d/f/x, where /d/f is a file: exists() raises though the parent is a directory.  And in
    the state after [mkdir /l2; symlink /d -> /l], the path /l/l makes islink() raise, because the first link
    is taken for the last component. *)
Theorem C23_refuted :
  fst (mem_exists (U ["lf"]%string) demo) = Raise AttributeError /\
  fst (mem_exists (U ["l"; "e"]%string) demo) = Ok true /\ fst (mem_islink (U ["l"; "l"]%string) demo) = Raise AttributeError.
Proof. vm_compute. auto. Qed.

(** ** C24 *)
(** Partial: exactly when the tests return; the other cases exist (C24_refuted). *)
Theorem C24_no_raise_partial s u cs o : reachable s -> addr u cs -> leads (view s) cs o ->
  ((exists b, mem_exists u s = (Ok b, s)) <-> ~ In o [Dead; NotDir; BadLink]) /\
  ((exists b, mem_isfile u s = (Ok b, s)) <-> ~ In o [Dead; NotDir; BadLink]) /\
  ((exists b, mem_isdir u s = (Ok b, s)) <-> ~ In o [Dead; NotDir; BadLink]).
Proof. intros R. apply tests_total. now apply reachable_wf. Qed.
(** islink() also raises on the way through a loop. *)
Theorem C24_islink_partial s u init n o : reachable s -> addr u (init ++ [n]) -> fresh_last (view s) init n -> leads (view s) init o ->
  ((exists b, mem_islink u s = (Ok b, s)) <->
   (exists d, o = Found d /\ is_edir (view s d)) \/ (forall d, o <> Found d) /\ leads (view s) (init ++ [n]) Missing).
Proof.
  intros R A F L. pose proof (reachable_wf s R) as W. destruct (outcome_cases o) as [[d ->]|N].
  - destruct (edir_dec (view s d)) as [D|D].
    + rewrite (islink_found s W u init n d) by auto. split; eauto.
    + rewrite (islink_notdir s W u init n d) by auto. split; [intros [b E]; discriminate|].
      intros [(d' & E & D')|[N _]]; [injection E as <-; easy|now destruct (N d)].
  - destruct (leads_total (m_heap s) (init ++ [n])) as [o' L'].
    rewrite (islink_fail s W u init n o o') by auto. split.
    + intros [b E]. right. split; auto. destruct o'; try discriminate. exact L'.
    + intros [(d & -> & _)|[_ M]]; [now destruct (N d)|].
      assert (o' = Missing) by (eapply resolves_det; eauto). subst. eauto.
Qed.
Example C24_witness : leads (view demo) (P ["d"; "nothing"]%string) Missing /\ addr (U ["d"; "nothing"]%string) (P ["d"; "nothing"]%string).
Proof.
  split.
  - eapply rs_step; [do 2 eexists; vm_compute; reflexivity|edir|].
    apply rs_missing; [do 2 eexists; vm_compute; reflexivity|vm_compute; reflexivity].
  - apply demo_addr. good.
Qed.
Theorem C24_refuted :
  reachable demo /\
  fst (mem_exists (U ["d"; "f"; "x"]%string) demo) = Raise AttributeError /\
  fst (mem_isfile (U ["d"; "f"; "x"]%string) demo) = Raise AttributeError /\
  fst (mem_isdir (U ["dead"; "x"]%string) demo) = Raise AttributeError /\
  fst (mem_islink (U ["loop"; "x"]%string) demo) = Raise (OSError ELOOP).
Proof. split; [apply demo_reachable|]. vm_compute. auto. Qed.

(** ** C25, C26 *)
(** Where u.open('w') succeeds: on a free name in a directory, or on a file, perhaps through links. *)
Theorem C25_written_read_partial s u p ds wm rm : reachable s -> writable (view s) u p ->
  has_char 114 wm = false -> has_char 119 wm = true -> has_char 114 rm = true -> has_char 98 rm = true ->
  exists s', (write_all u wm (map VBytes ds) ;; read_all u (Some rm)) s = (Ok (VBytes (concat ds)), s').
Proof.
  intros R Wr A B C D. destruct (write_read s u p ds wm rm) as (s' & E & _); auto; [now apply reachable_wf|]. eauto.
Qed.
(** Every path but the root for which open('w') succeeds is of that kind. *)
Theorem C25_success_partial s u wm hd s1 : reachable s -> ~ addr u [] -> has_char 114 wm = false -> has_char 119 wm = true ->
  mem_open u (Some wm) s = (Ok hd, s1) -> exists p, writable (view s) u p.
Proof.
  intros R N A B. rewrite mem_open_write by auto. apply open_write_inv; auto. now apply reachable_wf.
Qed.
Example C25_witness : writable (view demo) (U ["d"; "f"]%string) (P ["d"; "f"]%string) /\
  writable (view demo) (U ["d"; "new"]%string) (P ["d"; "new"]%string).
Proof.
  split.
  - apply wr_file; [apply demo_denotes; [good|efile]|]. do 3 eexists. vm_compute. reflexivity.
  - apply wr_free. apply (demo_free ["d"] "new")%string; [good| |vm_compute; reflexivity].
    do 2 eexists. vm_compute. reflexivity.
Qed.
(** The root can be opened for writing (a file named '' appears in it) but not read back. *)
Theorem C25_refuted :
  fst ((write_all (U []) (lit "wb") [VBytes (lit "x")] ;; read_all (U []) (Some (lit "rb"))) demo) = Raise AttributeError /\
  fst (mem_listdir (U []) (snd (mem_open (U []) (Some (lit "wb")) demo))) = Ok (map lit [""; "d"; "dead"; "e"; "l"; "lf"; "loop"]%string).
Proof. vm_compute. auto. Qed.

Theorem C26_write_changes_one s u p ds wm : reachable s -> writable (view s) u p ->
  has_char 114 wm = false -> has_char 119 wm = true ->
  exists s' hd, write_all u wm (map VBytes ds) s = (Ok hd, s') /\ put_at (view s) (view s') p (EFile (concat ds) (m_now s) 0).
Proof.
  intros R Wr A B. destruct (write_all_run s u _ p ds wm (reachable_wf s R) Wr A B eq_refl) as (s' & hd & f & H). exists s', hd. tauto.
Qed.
(** In every other case open('w') fails and changes nothing, except on the root. *)
Theorem C26_write_fails s u wm : reachable s -> ~ addr u [] -> (forall p, ~ writable (view s) u p) ->
  has_char 114 wm = false -> has_char 119 wm = true ->
  exists e s', mem_open u (Some wm) s = (Raise e, s') /\ same_tree (view s) (view s').
Proof.
  intros R N Wr A B. destruct (mem_open u (Some wm) s) as [[hd|e] s'] eqn:E.
  - exfalso. destruct (C25_success_partial s u wm hd s' R N A B E) as [p H]. now apply (Wr p).
  - exists e, s'. split; auto. pose proof (safe_open u (Some wm) s (reachable_wf s R)) as [_ H]. rewrite E in H. now apply (H e).
Qed.
Example C26_witness : writable (view demo) (U ["d"; "f"]%string) (P ["d"; "f"]%string) /\
  is_edir (view demo (P ["d"; "e"]%string)) /\ view demo (P ["d"; "f"]%string) <> Some (EFile (lit "new") 7 0).
Proof. split; [apply C25_witness|]. split; [do 2 eexists; vm_compute; reflexivity|vm_compute; discriminate]. Qed.

(** ** C27 *)
Theorem C27_reading s u q data mt mo m zs : reachable s -> denotes (view s) u (Found q) -> view s q = Some (EFile data mt mo) ->
  has_char 114 m = true -> has_char 98 m = true ->
  exists outs rest s', read_sizes u m zs s = (Ok (map VBytes outs), s') /\ same_tree (view s) (view s') /\
    outs = fst (slices data zs) /\ concat outs ++ rest = data /\ (Exists (fun z => z < 0)%Z zs -> rest = []).
Proof.
  intros R D E A B. destruct (read_sizes_run s u q data mt mo m zs) as (s' & H & T); auto; [now apply reachable_wf|].
  exists (fst (slices data zs)), (snd (slices data zs)), s'. split; [exact H|]. split; [exact T|]. split; [reflexivity|].
  split; [apply slices_concat|]. intros Ex. apply Exists_exists in Ex as (z & Hin & Hz). now apply (slices_all data zs z).
Qed.
Example C27_witness : denotes (view demo) (U ["d"; "f"]%string) (Found (P ["d"; "f"]%string)) /\
  view demo (P ["d"; "f"]%string) = Some (EFile (lit "hello" ++ [10%N] ++ lit "world") 99 420) /\
  fst (read_sizes (U ["d"; "f"]%string) (lit "rb") [2; 0; 5; -1; 3]%Z demo)
  = Ok (map VBytes [lit "he"; []; lit "llo" ++ [10%N] ++ lit "w"; lit "orld"; []]).
Proof. split; [apply demo_denotes; [good|efile]|]. split; vm_compute; reflexivity. Qed.

(** ** C28 *)
(** Partial: the file must not be empty. *)
Theorem C28_append_partial s u q data mt mo ds m : reachable s -> denotes (view s) u (Found q) -> view s q = Some (EFile data mt mo) ->
  data <> [] -> has_char 114 m = false -> has_char 119 m = false -> has_char 97 m = true ->
  exists s' hd, write_all u m (map VBytes ds) s = (Ok hd, s') /\
    put_at (view s) (view s') q (EFile (data ++ concat ds) (match ds with [] => mt | _ => m_now s end) mo).
Proof. intros R. apply append_run. now apply reachable_wf. Qed.
Example C28_witness : denotes (view demo) (U ["d"; "f"]%string) (Found (P ["d"; "f"]%string)) /\
  fst (read_all (U ["d"; "f"]%string) (Some (lit "r")) (snd (write_all (U ["d"; "f"]%string) (lit "a") [VStr (lit "!")] demo)))
  = Ok (VStr (lit "hello" ++ [10%N] ++ lit "world!")).
Proof. split; [apply demo_denotes; [good|efile]|]. vm_compute. reflexivity. Qed.
(** Appending to an empty file inserts a NUL byte: len() of an empty file is 1. *)
Theorem C28_refuted :
  view demo (P ["e"]%string) = Some (EFile [] 5 0) /\
  fst (read_all (U ["e"]%string) (Some (lit "rb")) (snd (write_all (U ["e"]%string) (lit "a") [VStr (lit "x")] demo)))
  = Ok (VBytes [0%N; 120%N]).
Proof. vm_compute. auto. Qed.

(** ** C29 *)
Theorem C29_unreadable s u o hd s1 : has_char 114 o = false -> mem_open u (Some o) s = (Ok hd, s1) ->
  forall s2 z, h_read hd z s2 = (Raise (OSError EBADF), s2).
Proof. intros A B s2 z. apply unreadable_read. eapply unreadable; eauto. Qed.
Example C29_witness : exists hd s1, mem_open (U ["d"; "f"]%string) (Some (lit "a")) demo = (Ok hd, s1) /\
  m_heap s1 (h_node hd) <> m_heap s1 0%nat.
Proof. eexists _, _. split; [vm_compute; reflexivity|vm_compute; discriminate]. Qed.
(** readline() and iteration are not protected in this way. *)
Theorem C29_boundary_refuted :
  fst ((let! hd <- mem_open (U ["d"; "f"]%string) (Some (lit "ab")); h_seek hd 0 0 ;; h_readline hd) demo)
  = Ok (VBytes (lit "hello" ++ [10%N])).
Proof. vm_compute. reflexivity. Qed.

(** ** C30 *)
Theorem C30_text_binary s u p ts wm : reachable s -> writable (view s) u p ->
  has_char 114 wm = false -> has_char 119 wm = true -> has_char 98 wm = false -> Forall text_ok ts ->
  exists hd s1 s2 s3 b, write_all u wm (map VStr ts) s = (Ok hd, s1) /\
    utf8_encode (concat ts) = Ok b /\
    read_all u (Some (lit "rb")) s1 = (Ok (VBytes b), s2) /\
    read_all u (Some (lit "r")) s2 = (Ok (VStr (concat ts)), s3) /\
    put_at (view s) (view s1) p (EFile b (m_now s) 0).
Proof. intros R. apply text_roundtrip. now apply reachable_wf. Qed.
Example C30_witness : writable (view demo) (U ["d"; "f"]%string) (P ["d"; "f"]%string) /\ Forall text_ok [[233%N; 10%N]; [128512%N]] /\
  fst (read_all (U ["d"; "f"]%string) (Some (lit "rb")) (snd (write_all (U ["d"; "f"]%string) (lit "w") [VStr [233%N]; VStr [128512%N]] demo)))
  = Ok (VBytes [195; 169; 240; 159; 152; 128]%N).
Proof. split; [apply C25_witness|]. split; [repeat constructor|vm_compute; reflexivity]. Qed.

(** ** C31 *)
Theorem C31_lines s u q data mt mo m fuel : reachable s -> denotes (view s) u (Found q) -> view s q = Some (EFile data mt mo) ->
  has_char 114 m = true -> has_char 98 m = true -> (length data < fuel)%nat ->
  exists s' ls, lines_of u (Some m) fuel s = (Ok (map VBytes ls), s') /\ is_lines data ls /\ same_tree (view s) (view s').
Proof. intros R. apply lines_bytes. now apply reachable_wf. Qed.
Theorem C31_lines_text s u q t b mt mo m fuel : reachable s -> denotes (view s) u (Found q) ->
  view s q = Some (EFile b mt mo) -> text_ok t -> utf8_encode t = Ok b ->
  match m with None => True | Some o => has_char 114 o = true /\ has_char 98 o = false end -> (length t < fuel)%nat ->
  exists s' ls, lines_of u m fuel s = (Ok (map VStr ls), s') /\ is_lines t ls /\ same_tree (view s) (view s').
Proof.
  intros R D E Ht Eb. rewrite encode_enc in Eb by auto. injection Eb as <-. apply lines_text with (q := q) (mt := mt) (mo := mo); auto.
  now apply reachable_wf.
Qed.
Example C31_witness : denotes (view demo) (U ["d"; "f"]%string) (Found (P ["d"; "f"]%string)) /\
  fst (lines_of (U ["d"; "f"]%string) None 20 demo) = Ok [VStr (lit "hello" ++ [10%N]); VStr (lit "world")].
Proof. split; [apply demo_denotes; [good|efile]|]. vm_compute. reflexivity. Qed.

(** ** C32 *)
Theorem C32_mkdir_free s u p : reachable s -> place (view s) u (Free p) ->
  exists s', mem_mkdir u s = (Ok tt, s') /\ put_at (view s) (view s') p (EDir (m_now s) 0) /\ forall r, r <> [] -> view s' (p ++ r) = None.
Proof.
  intros R Pl. destruct (make_free s (reachable_wf s R) u (fun s => NDir [] (m_now s) 0) p Pl) as (s' & E & _ & Pt & _).
  { intros es Hes. injection Hes as <-. reflexivity. }
  rewrite mkdir_make. exists s'. split; [exact E|]. split; [exact Pt|]. intros r Hr. destruct Pt as [_ Pt].
  rewrite Pt.
  - apply below_none. inversion Pl; subst. assumption.
  - intros Ep. rewrite <- (app_nil_r p) in Ep at 2. apply app_inv_head in Ep. easy.
Qed.
Theorem C32_mkdir_taken s u p : reachable s -> place (view s) u (Taken p) -> mem_mkdir u s = (Raise (OSError EEXIST), s).
Proof. intros R. rewrite mkdir_make. now apply make_taken, reachable_wf. Qed.
Theorem C32_mkdir_missing s u init n o : reachable s -> addr u (init ++ [n]) -> leads (view s) init o -> In o [Missing; Dead] ->
  mem_mkdir u s = (Raise (OSError ENOENT), s).
Proof.
  intros R A L Ho. rewrite mkdir_make. apply make_noplace; [now apply reachable_wf|].
  replace (OSError ENOENT) with (err_of o) by (destruct Ho as [<-|[<-|[]]]; reflexivity).
  eapply pl_fail; eauto. intros d ->. destruct Ho as [H|[H|[]]]; discriminate.
Qed.
Example C32_witness : place (view demo) (U ["d"; "new"]%string) (Free (P ["d"; "new"]%string)) /\
  place (view demo) (U ["l"]%string) (Taken (P ["l"]%string)) /\ leads (view demo) (P ["x"]%string) Missing.
Proof.
  split; [|split].
  - apply (demo_free ["d"] "new")%string; [good| |vm_compute; reflexivity]. do 2 eexists. vm_compute. reflexivity.
  - apply pl_taken with (init := []) (d := []); [apply demo_addr; good|constructor|do 2 eexists; vm_compute; reflexivity|vm_compute; discriminate].
  - apply rs_missing; [do 2 eexists; vm_compute; reflexivity|vm_compute; reflexivity].
Qed.

(** ** C33 *)
Theorem C33_listdir s u cs q : reachable s -> addr u cs -> Forall (fun c => c <> []) cs -> leads (view s) cs (Found q) -> is_edir (view s q) ->
  exists l, mem_listdir u s = (Ok l, s) /\ StronglySorted slt l /\ NoDup l /\
    forall n, In n l <-> is_efile (view s (q ++ [n])) \/ is_edir (view s (q ++ [n])) \/ is_elink (view s (q ++ [n])).
Proof.
  intros R A N L D. destruct (listdir_spec s (reachable_wf s R) u cs q A) as (l & E & S & I); auto; [now rewrite proper_filter|].
  exists l. split; [exact E|]. split; [exact S|]. split; [now apply slt_NoDup|].
  intros n. rewrite I. destruct (entry_cases (view s (q ++ [n]))) as [H|[H|[H|H]]].
  - rewrite H. split; [congruence|]. intros [(a & b & c & K)|[(a & b & K)|(a & b & c & K)]]; discriminate.
  - split; [auto|]. intros _. destruct H as (a & b & c & K). rewrite K. discriminate.
  - split; [auto|]. intros _. destruct H as (a & b & K). rewrite K. discriminate.
  - split; [auto|]. intros _. destruct H as (a & b & c & K). rewrite K. discriminate.
Qed.
Example C33_witness : leads (view demo) (P ["d"]%string) (Found (P ["d"]%string)) /\ is_edir (view demo (P ["d"]%string)) /\
  fst (mem_listdir (U ["d"]%string) demo) = Ok (map lit ["e"; "f"]%string).
Proof. split; [apply demo_at; edir|]. split; [do 2 eexists; vm_compute; reflexivity|vm_compute; reflexivity]. Qed.
(** The order is by code points: a proper prefix comes first, otherwise the first different character decides. *)
Theorem C33_order a b : slt a b <-> exists x, (exists y r, b = x ++ y :: r /\ a = x) \/ (exists c d r r', a = x ++ c :: r /\ b = x ++ d :: r' /\ (c < d)%N).
Proof. exact (slt_spec a b). Qed.

(** ** C36 *)
(** Partial: looking the link up agrees as long as the target needs at most 31 links inside each other
    (the link itself is the 32nd); and on a target that is a loop.  Beyond that see C36_refuted. *)
Theorem C36_symlink_partial s target u cs p : reachable s -> regular (view s) u cs -> place (view s) u (Free p) ->
  exists s', mem_symlink target u s = (Ok tt, s') /\
    put_at (view s) (view s') p (ELink target (m_now s) 0) /\
    mem_islink u s' = (Ok true, s') /\ mem_readlink u s' = (Ok target, s') /\
    forall ct k o, addr target ct -> (k <= 31)%nat -> resolves (view s') k [] ct o -> o <> Loop -> leads (view s') cs o.
Proof.
  intros R Rg Pl. destruct (symlink_run s target u cs p (reachable_wf s R) Rg Pl) as (s' & A & _ & B & _ & _ & C & D & E).
  exists s'. auto.
Qed.
(** Two URIs that lead to the same outcome answer alike. *)
Theorem C36_same_answers_partial s u v cs ct o : reachable s -> addr u cs -> addr v ct -> leads (view s) cs o -> leads (view s) ct o ->
  mem_exists u s = mem_exists v s /\ mem_isfile u s = mem_isfile v s /\ mem_isdir u s = mem_isdir v s /\
  mem_info u true s = mem_info v true s /\ mem_mtime u s = mem_mtime v s /\
  (forall m, match m with None => True | Some m => has_char 114 m = true end -> mem_open u m s = mem_open v m s) /\
  (Forall (fun c => c <> []) cs -> Forall (fun c => c <> []) ct -> mem_listdir u s = mem_listdir v s).
Proof. intros R. apply same_answers. now apply reachable_wf. Qed.
Example C36_witness :
  regular (view demo) (U ["d"; "k"]%string) (P ["d"; "k"]%string) /\
  place (view demo) (U ["d"; "k"]%string) (Free (P ["d"; "k"]%string)) /\
  let s' := snd (mem_symlink (U ["d"; "f"]%string) (U ["d"; "k"]%string) demo) in
  fst (read_all (U ["d"; "k"]%string) (Some (lit "rb")) s') = fst (read_all (U ["d"; "f"]%string) (Some (lit "rb")) s').
Proof.
  split; [|split].
  - apply mem_regular; [good|]. intros init n E. change (P ["d"; "k"]%string) with (P ["d"]%string ++ [lit "k"]) in E.
    apply snoc_inj in E as [<- <-]. apply (fresh_dir (m_heap demo) (m_next demo)).
    + apply reachable_wf, demo_reachable.
    + do 2 eexists. vm_compute. reflexivity.
  - apply (demo_free ["d"] "k")%string; [good| |vm_compute; reflexivity]. do 2 eexists. vm_compute. reflexivity.
  - vm_compute. reflexivity.
Qed.
(** A link to the first of 32 links: the target exists, the link does not. *)
Definition ladder (n : nat) : mst :=
  run_ops (map (fun i => OpSymlink (mem_uri [lit "k" ++ repeat 120%N i]) (mem_uri [lit "k" ++ repeat 120%N (S i)])) (seq 0 n))
    (run_ops [OpMkdir (U ["k"]%string)] (init_mem 0 0)).
Theorem C36_refuted : reachable (ladder 33) /\
  fst (mem_readlink (mem_uri [lit "k" ++ repeat 120%N 33]) (ladder 33)) = Ok (mem_uri [lit "k" ++ repeat 120%N 32]) /\
  fst (mem_exists (mem_uri [lit "k" ++ repeat 120%N 32]) (ladder 33)) = Ok true /\
  fst (mem_exists (mem_uri [lit "k" ++ repeat 120%N 33]) (ladder 33)) = Ok false.
Proof. split; [apply reachable_ops, reachable_ops, reachable_init|]. vm_compute. auto. Qed.

(** ** C37 *)
(** Every lookup comes to an end with one outcome. *)
Theorem C37_decided s cs : exists o, leads (view s) cs o /\ forall o', leads (view s) cs o' -> o' = o.
Proof.
  destruct (leads_total (m_heap s) cs) as [o L]. exists o. split; [exact L|]. intros o' L'. eapply resolves_det; eauto.
Qed.
Theorem C37_cycle s u p n : reachable s -> addr u p -> chain (view s) (S n) p p ->
  mem_exists u s = (Ok false, s) /\ mem_isfile u s = (Ok false, s) /\ mem_isdir u s = (Ok false, s) /\
  mem_info u true s = (Raise (OSError ELOOP), s) /\
  (forall o, has_char 114 o = true \/ has_char 119 o = true \/ has_char 97 o = true -> mem_open u (Some o) s = (Raise (OSError ELOOP), s)) /\
  (Forall (fun c => c <> []) p -> mem_listdir u s = (Raise (OSError ELOOP), s)).
Proof.
  intros R A C. pose proof (reachable_wf s R) as W.
  assert (L : leads (view s) p Loop) by (now apply (cycle_loop (m_heap s) (m_next s) W n)).
  inversion C as [|n' p0 p' q Ar C']; subst. eapply loop_ops; eauto.
Qed.
Theorem C37_chain s u p q n : reachable s -> addr u p -> chain (view s) n p q -> is_efile (view s q) \/ is_edir (view s q) ->
  ((n <= 32)%nat -> denotes (view s) u (Found q)) /\
  ((n > 32)%nat ->
     mem_exists u s = (Ok false, s) /\ mem_isfile u s = (Ok false, s) /\ mem_isdir u s = (Ok false, s) /\
     mem_info u true s = (Raise (OSError ELOOP), s) /\
     (forall o, has_char 114 o = true \/ has_char 119 o = true \/ has_char 97 o = true -> mem_open u (Some o) s = (Raise (OSError ELOOP), s)) /\
     (Forall (fun c => c <> []) p -> mem_listdir u s = (Raise (OSError ELOOP), s))).
Proof.
  intros R A C K. pose proof (reachable_wf s R) as W. split; intros Hn.
  - exists p. split; auto. eapply chain_found; eauto.
  - assert (L : leads (view s) p Loop) by (eapply (chain_loop (m_heap s) (m_next s)); eauto).
    inversion C as [|n' p0 p' q' Ar C']; subst; [lia|]. eapply loop_ops; eauto.
Qed.
(** Being denoted means being found by the operations: e.g. the content is read. *)
Theorem C37_found s u q : reachable s -> denotes (view s) u (Found q) ->
  mem_exists u s = (Ok true, s) /\
  (forall d mt mo, view s q = Some (EFile d mt mo) -> exists s', read_all u (Some (lit "rb")) s = (Ok (VBytes d), s')).
Proof.
  intros R D. pose proof (reachable_wf s R) as W. split.
  - destruct D as (cs & A & L). destruct (classify s u cs (Found q) W A L) as (e & f & d & E & _ & _ & He & _).
    + intros [H|[H|[H|[]]]]; discriminate.
    + rewrite E. replace e with true; auto. symmetry. apply He. eauto.
  - intros d mt mo V. destruct (read_all_run s u (Some (lit "rb")) q d mt mo W D V) as (s' & E & _); [reflexivity|]. eauto.
Qed.
Example C37_witness : chain (view demo) 1 (P ["loop"]%string) (P ["loop"]%string) /\
  chain (view demo) 1 (P ["l"]%string) (P ["d"]%string) /\ is_edir (view demo (P ["d"]%string)) /\
  fst (mem_exists (mem_uri [lit "k" ++ repeat 120%N 32]) (ladder 40)) = Ok true /\
  fst (mem_info (mem_uri [lit "k" ++ repeat 120%N 33]) true (ladder 40)) = Raise (OSError ELOOP).
Proof.
  split; [|split; [|split; [|split]]].
  - eapply ch_step; [|constructor]. exists (U ["loop"]%string), 5%Z, 0%Z. split; [vm_compute; reflexivity|]. apply demo_addr. good.
  - eapply ch_step; [|constructor]. exists (U ["d"]%string), 5%Z, 0%Z. split; [vm_compute; reflexivity|]. apply demo_addr. good.
  - do 2 eexists; vm_compute; reflexivity.
  - vm_compute. reflexivity.
  - vm_compute. reflexivity.
Qed.

(** ** C48 *)
(** Partial: both masks consist of execute bits. *)
Theorem C48_exec_bits_partial s u q e m : reachable s -> denotes (view s) u (Found q) -> view s q = Some e -> Z.land m exec_mask = m ->
  exists s', mem_set_exec u m s = (Ok tt, s') /\
    (forall k, Z.land k exec_mask = k -> mem_isexec u k s' = (Ok (negb (Z.land m k =? 0)%Z), s')) /\
    exists mode', put_at (view s) (view s') q (with_attrs e (e_mtime e) mode') /\
      Z.land mode' (Z.lnot exec_mask) = Z.land (e_mode e) (Z.lnot exec_mask).
Proof.
  intros R D E Hm. destruct (set_exec_run s u q e m (reachable_wf s R) D E) as (s' & Es & W' & D' & Pt).
  exists s'. split; [exact Es|]. split.
  - intros k Hk. rewrite (isexec_run s' u q _ k W' D' (put_here _ _ _ _ Pt)), with_attrs_mode. now rewrite mask_bits.
  - eexists. split; [exact Pt|]. now apply mask_keep.
Qed.
Example C48_witness : denotes (view demo) (U ["d"; "f"]%string) (Found (P ["d"; "f"]%string)) /\ Z.land 65 exec_mask = 65%Z /\
  exists s', mem_set_exec (U ["d"; "f"]%string) 65 demo = (Ok tt, s') /\ fst (mem_info (U ["d"; "f"]%string) true s') = Ok (mkBunch 99 485 11).
Proof. split; [apply demo_denotes; [good|efile]|]. split; [reflexivity|]. eexists. split; vm_compute; reflexivity. Qed.
(** A mask with other bits changes them, and a test with other bits answers for them. *)
Theorem C48_refuted : let s' := snd (mem_set_exec (U ["d"; "f"]%string) 2 demo) in
  fst (mem_set_exec (U ["d"; "f"]%string) 2 demo) = Ok tt /\
  fst (mem_info (U ["d"; "f"]%string) true s') = Ok (mkBunch 99 422 11) /\ fst (mem_isexec (U ["d"; "f"]%string) 4 s') = Ok true.
Proof. vm_compute. auto. Qed.

(** ** C49 *)
(** Partial: with followlinks=False, paths with an earlier link named like the last component are left out. *)
Theorem C49_info_partial s u follow q e mode mtime : reachable s -> entry_at (view s) u follow q -> view s q = Some e ->
  exists s', mem_set_info u mode mtime follow s = (Ok tt, s') /\
    let mt := match mtime with Some x => x | None => e_mtime e end in
    let mo := match mode with Some x => x | None => e_mode e end in
    mem_info u follow s' = (Ok (mkBunch mt mo (e_size e)), s') /\
    put_at (view s) (view s') q (with_attrs e mt mo).
Proof.
  intros R At E. pose proof (reachable_wf s R) as W.
  destruct (set_info_spec s W u follow q e mode mtime At E) as (s' & Es & W' & _ & Pt).
  exists s'. split; [exact Es|]. cbv zeta. split; [|exact Pt].
  rewrite (info_spec s' W' u follow q _ (entry_at_shape _ _ _ _ _ (put_same_shape _ _ _ _ _ Pt E (same_kind_attrs _ _ _)) At) (put_here _ _ _ _ Pt)).
  now rewrite with_attrs_mode, with_attrs_mtime, with_attrs_size.
Qed.
Example C49_witness : entry_at (view demo) (U ["l"]%string) false (P ["l"]%string) /\ entry_at (view demo) (U ["l"]%string) true (P ["d"]%string).
Proof.
  split.
  - apply ea_self with (cs := P ["l"]%string); [|apply C32_witness].
    apply mem_regular; [good|]. intros init n E. change (P ["l"]%string) with ([] ++ [lit "l"]) in E.
    apply snoc_inj in E as [<- <-]. intros pre post d Ep. destruct pre; discriminate.
  - apply ea_follow. exists (P ["l"]%string). split; [apply demo_addr; good|].
    eapply rs_link with (target := U ["d"]%string) (cs := P ["d"]%string); try (vm_compute; reflexivity).
    + do 2 eexists. vm_compute. reflexivity.
    + apply demo_addr. good.
    + apply resolves_entry. edir.
    + constructor.
Qed.
Theorem C49_refuted :
  fst (mem_info (U ["l"; "l"]%string) false (snd (mem_mkdir (U ["d"; "l"]%string) demo))) = Raise AttributeError /\
  fst (mem_isdir (U ["l"; "l"]%string) (snd (mem_mkdir (U ["d"; "l"]%string) demo))) = Ok true.
Proof. vm_compute. auto. Qed.

(** ** C51 *)
Theorem C51_failure_changes_nothing s o e : reachable s -> fst (run_op o s) = Raise e ->
  same_tree (view s) (view (snd (run_op o s))).
Proof. intros R. apply run_op_safe. now apply reachable_wf. Qed.
Example C51_witness : fst (run_op (OpMkdir (U ["d"]%string)) demo) = Raise (OSError EEXIST) /\
  fst (run_op (OpOpen (U ["x"; "y"]%string) (Some (lit "w"))) demo) = Raise (OSError ENOENT) /\
  fst (run_op (OpRemovedir (U ["d"]%string)) demo) = Raise (OSError ENOTEMPTY).
Proof. vm_compute. auto. Qed.

(** ** C59 *)
(** Partial: listing, and removing when last() gives the same name. *)
Theorem C59_trailing_slash_partial s u v cs : addr u cs -> addr v (cs ++ [[]]) ->
  mem_listdir u s = mem_listdir v s /\
  (u_last u = u_last v -> mem_removefile u s = mem_removefile v s /\ mem_removedir u s = mem_removedir v s).
Proof. intros A B. split; [now apply (slash_listdir u v cs)|now apply (slash_remove u v cs)]. Qed.
Definition slashed (t : String.string) : uri := match URI (lit t) cSlash [] with Ok u => u | Raise _ => U [] end.
Example C59_witness : addr (U ["d"]%string) (P ["d"]%string) /\ addr (slashed "memory:///d/") (P ["d"]%string ++ [[]]) /\
  u_last (U ["d"]%string) = u_last (slashed "memory:///d/").
Proof.
  split; [apply demo_addr; good|]. split; [|vm_compute; reflexivity].
  split; [vm_compute; reflexivity|]. split; [|discriminate].
  repeat constructor; cbn; intuition discriminate.
Qed.
Theorem C59_refuted :
  fst (mem_isdir (U ["d"]%string) demo) = Ok true /\ fst (mem_isdir (slashed "memory:///d/") demo) = Ok false /\
  fst (mem_exists (slashed "memory:///d/") demo) = Ok false /\
  fst (mem_listdir (U ["d"]%string) (snd (mem_mkdir (slashed "memory:///d/") demo))) = Ok (map lit [""; "e"; "f"]%string).
Proof. vm_compute. auto. Qed.

Print Assumptions C22_tree_wf.
Print Assumptions C23_classify_partial.
Print Assumptions C23_islink_partial.
Print Assumptions C23_dangling_partial.
Print Assumptions C23_cyclic_partial.
Print Assumptions C23_refuted.
Print Assumptions C24_no_raise_partial.
Print Assumptions C24_islink_partial.
Print Assumptions C24_refuted.
Print Assumptions C25_written_read_partial.
Print Assumptions C25_success_partial.
Print Assumptions C25_refuted.
Print Assumptions C26_write_changes_one.
Print Assumptions C26_write_fails.
Print Assumptions C27_reading.
Print Assumptions C28_append_partial.
Print Assumptions C28_refuted.
Print Assumptions C29_unreadable.
Print Assumptions C29_boundary_refuted.
Print Assumptions C30_text_binary.
Print Assumptions C31_lines.
Print Assumptions C31_lines_text.
Print Assumptions C32_mkdir_free.
Print Assumptions C32_mkdir_taken.
Print Assumptions C32_mkdir_missing.
Print Assumptions C33_listdir.
Print Assumptions C33_order.
Print Assumptions C36_symlink_partial.
Print Assumptions C36_same_answers_partial.
Print Assumptions C36_refuted.
Print Assumptions C37_decided.
Print Assumptions C37_cycle.
Print Assumptions C37_chain.
Print Assumptions C37_found.
Print Assumptions C48_exec_bits_partial.
Print Assumptions C48_refuted.
Print Assumptions C49_info_partial.
Print Assumptions C49_refuted.
Print Assumptions C51_failure_changes_nothing.
Print Assumptions C59_trailing_slash_partial.
Print Assumptions C59_refuted.
