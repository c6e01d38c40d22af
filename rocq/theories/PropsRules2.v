(** Properties C97 to C99: complete rules for copies, moves, md5, glob and makedirs of a memory file system.
    SpecCopy.v has the rules. *)
From Coq Require Import Sorting.Sorted.
From Verif Require Import Str Exc Utf8 UriParse BaseUri StrFacts SpecUri Mem SpecMem SpecHandle MemOps Generic UriOps SpecExact SpecCopy SpecGen Fnmatch SpecFn FnFacts.
From Verif Require Import MemFacts MemFacts2 MemFacts3 MemFacts4 MemFacts5 MemFacts6 MemFacts7 MemFacts9 MemUri GenFacts1 GenFacts5 GenFacts6 GenFacts11 HandleFacts ExactFacts ExactFacts2 ExactFacts3.
From Verif Require Import CopyFacts CopyFacts2 CopyFacts3 CopyFacts4 CopyFacts5 PropsMem PropsGeneric PropsRules.
Local Open Scope string_scope.
Local Open Scope list_scope.
Local Notation B := mem_backend.

(** ** C97: copy without recursive *)
Theorem C97_copy s fuel ign follow u v r t' : reachable s -> silent s -> copies (view s) (m_now s) follow u v r t' ->
  exists s', u_copy B fuel false ign follow u v s = (r, s') /\ same_tree t' (view s') /\ same_rest s s'.
Proof.
  intros R Q C. destruct (run_u_copy s (reachable_wf s R) Q fuel ign follow u v r t' C) as (s' & E & _ & SR & T). eauto.
Qed.
(** For any two URIs there is a rule. *)
Theorem C97_cases s follow u v : reachable s -> silent s -> exists r t', copies (view s) (m_now s) follow u v r t'.
Proof. intros R Q. apply copies_total; auto. now apply reachable_wf. Qed.

Definition path_dec : forall p q : list str, {p = q} + {p <> q} := list_eq_dec (list_eq_dec N.eq_dec).
Definition with_entry (t : tree) (p : list str) (e : entry) : tree := fun x => if path_dec x p then Some e else t x.
Lemma with_entry_put t p e : put_at t (with_entry t p e) p e.
Proof. unfold with_entry. split; [now destruct (path_dec p p)|intros x Hx; now destruct (path_dec x p)]. Qed.
Lemma wb_reaches s w cw p start mode d t1 : wf s -> addr w cw -> cw <> [] -> opening (view s) (m_now s) (Some (lit "wb")) w (Opens p start mode) ->
  put_at (view s) t1 p (EFile d (m_now s) 0) -> goes t1 w true (At p).
Proof.
  intros W Aw Nw O P1. apply (go_path t1 w true cw _ Aw). apply re_found.
  assert (Kp : view s p = None \/ exists e0, view s p = Some e0 /\ same_kind e0 (EFile d (m_now s) 0)).
  { destruct (opening_wb s _ _ O) as (_ & _ & [K|(a & b & c & K)] & _); [now left|right; eexists; split; [exact K|exact I]]. }
  inversion O as [cs r Aw' X|]; subst. pose proof (addr_inj _ _ _ Aw Aw') as <-.
  assert (Tw : to_write cw = cw) by (destruct cw; [congruence|reflexivity]).
  inversion X; try discriminate; subst; rewrite Tw in *; subst; [|eapply put_grows; eauto].
  match goal with L0 : leads _ _ (Found ?d0), D : is_edir _ |- _ => apply rs_app with d0; [eapply put_grows; eauto|];
    apply rs_step; [destruct D as (a & b & D); exists a, b; rewrite <- D; apply (proj2 P1); intros E; rewrite <- (app_nil_r d0) in E at 1; apply app_inv_head in E; discriminate E
                   |left; do 3 eexists; exact (proj1 P1)|apply rs_end] end.
Qed.
(** The usual case: the file at [q] is copied to the place [p] that [w] opens.  [p] has the data, time and mode; a file copied
    onto itself is empty. *)
Theorem C97_plain s fuel ign follow u v w cu cw q d mt mo l p start mode :
  reachable s -> silent s -> addr u cu -> leads (view s) cu (Found q) -> view s q = Some (EFile d mt mo) ->
  aim (view s) u v (Ok w) -> links (view s) u (Ok l) -> l = false \/ follow = true -> u_scheme u = u_scheme v ->
  addr w cw -> cw <> [] -> opening (view s) (m_now s) (Some (lit "wb")) w (Opens p start mode) ->
  exists s', u_copy B fuel false ign follow u v s = (Ok tt, s') /\ same_rest s s' /\
    put_at (view s) (view s') p (if path_dec p q then EFile [] (m_now s) 0 else EFile d mt mo).
Proof.
  intros R Q Au L Tq A Lk Fo Sc Aw Nw O. pose proof (reachable_wf s R) as W.
  set (d1 := if path_dec p q then [] else d). set (t1 := with_entry (view s) p (EFile d1 (m_now s) 0)).
  pose proof (with_entry_put (view s) p (EFile d1 (m_now s) 0)) as P1. fold t1 in P1.
  set (e := if path_dec p q then EFile [] (m_now s) 0 else EFile d mt mo).
  assert (T1q : t1 q = Some e).
  { unfold e, d1 in *. destruct (path_dec p q) as [<-|N]; [apply P1|]. rewrite <- Tq. apply P1. congruence. }
  assert (C : copies (view s) (m_now s) follow u v (Ok tt) (with_entry t1 p e)).
  { apply co_data with w l q true; auto.
    - replace (Ok true) with (test_rule (view s) is_file_e (Found q)) by (cbn; now rewrite Tq). now apply te_path with cu.
    - apply (go_path _ _ _ cu _ Au). now apply re_found.
    - now split.
    - apply wr_stat with p start mode d1 t1 (At p) e; auto.
      + exists d, mt, mo. split; [exact Tq|]. unfold d1. destruct (path_dec p q); split; congruence.
      + now apply wb_reaches with s cw start mode d1.
      + cbn [attr_rule]. rewrite (proj1 P1). apply ch_puts. replace (with_attrs _ _ _) with e; [apply with_entry_put|].
        unfold e, d1. now destruct (path_dec p q). }
  destruct (C97_copy s fuel ign follow u v _ _ R Q C) as (s' & E & T & SR). exists s'. split; [exact E|]. split; [exact SR|].
  split.
  - rewrite (T p). apply with_entry_put.
  - intros x N. rewrite (T x). rewrite (proj2 (with_entry_put t1 p e) x N). now apply P1.
Qed.
(** /d/f copied to /l, a link to /d, is emptied; the copy to /e is one. *)
Example C97_witness :
  aim (view demo) (U ["d"; "f"]) (U ["l"]) (Ok (U ["l"; "f"])) /\
  opening (view demo) 7 (Some (lit "wb")) (U ["l"; "f"]) (Opens (P ["d"; "f"]) (mkO [] 0 7) 0) /\
  (exists s', u_copy B 0 false [] false (U ["d"; "f"]) (U ["l"]) demo = (Ok tt, s') /\ same_rest demo s' /\
    put_at (view demo) (view s') (P ["d"; "f"]) (EFile [] 7 0)) /\
  (exists s', u_copy B 0 false [] false (U ["d"; "f"]) (U ["e"]) demo = (Ok tt, s') /\ same_rest demo s' /\
    exists d, d <> [] /\ put_at (view demo) (view s') (P ["e"]) (EFile d 99 420)).
Proof.
  assert (Ad : forall l, good_path (P l) -> addr (U l) (P l)) by (intros l; apply demo_addr).
  assert (Af : addr (U ["d"; "f"]) (P ["d"; "f"])) by (apply Ad; good).
  assert (Alf : addr (U ["l"; "f"]) (P ["l"; "f"])) by (apply Ad; good).
  assert (Al : addr (U ["l"]) (P ["l"])) by (apply Ad; good).
  assert (Ae : addr (U ["e"]) (P ["e"])) by (apply Ad; good).
  assert (Lf : leads (view demo) (P ["d"; "f"]) (Found (P ["d"; "f"]))) by (apply demo_at; efile).
  assert (Le : leads (view demo) (P ["e"]) (Found (P ["e"]))) by (apply demo_at; efile).
  assert (Llf : leads (view demo) (P ["l"; "f"]) (Found (P ["d"; "f"]))).
  { apply (rs_app (view demo) 32 [] (P ["l"]) (P ["f"]) (P ["d"])); [exact demo_l|].
    apply (rs_step _ 32 (P ["d"]) (lit "f") []); [do 2 eexists; vm_compute; reflexivity|efile|apply rs_end]. }
  assert (A1 : aim (view demo) (U ["d"; "f"]) (U ["l"]) (Ok (U ["l"; "f"]))).
  { replace (Ok (U ["l"; "f"])) with (u_div (U ["l"]) (u_last (U ["d"; "f"]))) by (vm_compute; reflexivity). apply aim_into.
    replace (Ok true) with (test_rule (view demo) is_dir_e (Found (P ["d"]))) by (vm_compute; reflexivity). apply te_path with (P ["l"]); [exact Al|exact demo_l]. }
  assert (A2 : aim (view demo) (U ["d"; "f"]) (U ["e"]) (Ok (U ["e"]))).
  { apply aim_at. replace (Ok false) with (test_rule (view demo) is_dir_e (Found (P ["e"]))) by (vm_compute; reflexivity). apply te_path with (P ["e"]); [exact Ae|exact Le]. }
  assert (Lk : links (view demo) (U ["d"; "f"]) (Ok false)).
  { replace (Ok false) with (link_rule (view demo) (Entry (P ["d"; "f"]))) by (vm_compute; reflexivity). apply lk_path with (P ["d"; "f"]); [exact Af|].
    apply (sp_entry (view demo) (P ["d"]) (lit "f") (P ["d"])).
    - apply (fresh_dir (m_heap demo) (m_next demo)); [apply (reachable_wf demo demo_reachable)|do 2 eexists; vm_compute; reflexivity].
    - apply demo_at; edir.
    - do 2 eexists; vm_compute; reflexivity.
    - vm_compute; discriminate. }
  assert (O1 : opening (view demo) 7 (Some (lit "wb")) (U ["l"; "f"]) (Opens (P ["d"; "f"]) (mkO [] 0 7) 0)).
  { apply (op_path _ _ _ _ (P ["l"; "f"]) _ Alf). apply or_file; [reflexivity|reflexivity|exact Llf|do 3 eexists; vm_compute; reflexivity]. }
  assert (O2 : opening (view demo) 7 (Some (lit "wb")) (U ["e"]) (Opens (P ["e"]) (mkO [] 0 7) 0)).
  { apply (op_path _ _ _ _ (P ["e"]) _ Ae). apply or_file; [reflexivity|reflexivity|exact Le|do 3 eexists; vm_compute; reflexivity]. }
  assert (Sc : u_scheme (U ["d"; "f"]) = u_scheme (U ["l"])) by (vm_compute; reflexivity).
  assert (Se : u_scheme (U ["d"; "f"]) = u_scheme (U ["e"])) by (vm_compute; reflexivity).
  assert (Nn : m_now demo = 7%Z) by (vm_compute; reflexivity).
  assert (Tf : exists d, d <> [] /\ view demo (P ["d"; "f"]) = Some (EFile d 99 420)) by (eexists; split; [|vm_compute; reflexivity]; discriminate).
  destruct Tf as (d & Nd & Tf). rewrite <- Nn in O1, O2.
  split; [exact A1|]. split; [rewrite <- Nn at 1; exact O1|]. split.
  - destruct (C97_plain demo 0 [] false _ _ _ _ _ _ _ _ _ _ _ _ _ demo_reachable demo_silent Af Lf Tf A1 Lk (or_introl eq_refl) Sc Alf ltac:(discriminate) O1) as (s' & E & SR & Pt).
    exists s'. split; [exact E|]. split; [exact SR|]. rewrite Nn in Pt. destruct (path_dec (P ["d"; "f"]) (P ["d"; "f"])); [exact Pt|congruence].
  - destruct (C97_plain demo 0 [] false _ _ _ _ _ _ _ _ _ _ _ _ _ demo_reachable demo_silent Af Lf Tf A2 Lk (or_introl eq_refl) Se Ae ltac:(discriminate) O2) as (s' & E & SR & Pt).
    exists s'. split; [exact E|]. split; [exact SR|]. exists d. split; [exact Nd|]. destruct (path_dec (P ["e"]) (P ["d"; "f"])) as [X|_]; [discriminate X|exact Pt].
Qed.

(** ** C98: move of anything but a directory *)
Theorem C98_move s fuel u v r t' : reachable s -> silent s -> moves (view s) (m_now s) u v r t' ->
  exists s', u_move B fuel u v s = (r, s') /\ same_tree t' (view s') /\ same_rest s s'.
Proof.
  intros R Q C. destruct (run_moves s (reachable_wf s R) Q fuel u v r t' C) as (s' & E & _ & SR & T). eauto.
Qed.
Theorem C98_cases s u v : reachable s -> silent s -> (forall cs q, addr u cs -> leads (view s) cs (Found q) -> ~ is_edir (view s q)) ->
  exists r t', moves (view s) (m_now s) u v r t'.
Proof. intros R Q N. apply moves_total; auto. now apply reachable_wf. Qed.
(** /d/f moved to /l, a link to /d, is lost. *)
Example C98_witness : exists t', moves (view demo) (m_now demo) (U ["d"; "f"]) (U ["l"]) (Ok tt) t' /\ t' (P ["d"; "f"]) = None.
Proof.
  destruct (C98_cases demo (U ["d"; "f"]) (U ["l"]) demo_reachable demo_silent) as (r & t' & M).
  { intros cs q A L. assert (A' : addr (U ["d"; "f"]) (P ["d"; "f"])) by (apply demo_addr; good). rewrite (addr_inj _ _ _ A A') in L.
    assert (Lf : leads (view demo) (P ["d"; "f"]) (Found (P ["d"; "f"]))) by (apply demo_at; efile).
    pose proof (leads_det (m_heap demo) (m_next demo) (reachable_wf demo demo_reachable) _ _ _ L Lf) as X. assert (Eq : q = P ["d"; "f"]) by congruence. clear X. subst q.
    intros (a & b & D). assert (Y : is_efile (view demo (P ["d"; "f"]))) by (do 3 eexists; vm_compute; reflexivity). destruct Y as (x & y & z & Y). congruence. }
  destruct (C98_move demo 0 _ _ r t' demo_reachable demo_silent M) as (s' & E & T & _).
  assert (Er : r = Ok tt) by (apply (f_equal fst) in E; cbn [fst] in E; rewrite <- E; vm_compute; reflexivity). subst r.
  exists t'. split; [exact M|]. rewrite <- (T (P ["d"; "f"])). apply (f_equal snd) in E. cbn [snd] in E. rewrite <- E. vm_compute. reflexivity.
Qed.

(** ** C99: md5, glob and makedirs *)
Theorem C99_md5 {D} (H : list N -> D) s u r : reachable s -> silent s -> opening (view s) (m_now s) (Some (lit "rb")) u r ->
  match r with
  | Refused e => u_md5 H u s = (Raise e, s)
  | Opens _ start _ => exists s', u_md5 H u s = (Ok (H (o_data start)), s') /\ same_tree (view s) (view s') /\ same_rest s s'
  end.
Proof.
  intros R Q O. pose proof (run_md5 s (reachable_wf s R) Q H u r O) as X. destruct r as [e|q start mode]; [exact X|].
  destruct X as (s' & E & _ & SR & T). eauto.
Qed.
Lemma silent_vetoes s u name : silent s -> vetoes s u name = None.
Proof.
  intros Q. unfold vetoes. destruct (u_path u) as [|c p]; [reflexivity|]. destruct (dget p (m_cbs s)) as [[cb|]|] eqn:E; auto.
  apply (Q p). now apply dget_In.
Qed.
Theorem C99_glob s u cs o pat : reachable s -> silent s -> addr u cs -> leads (view s) (proper cs) o ->
  match o with
  | Found q =>
      (is_edir (view s q) -> exists l, u_glob B fnmatch u pat s = (all_ok (u_div u) l, s) /\ StronglySorted slt l /\
         forall n, In n l <-> view s (q ++ [n]) <> None /\ shell pat n) /\
      (is_efile (view s q) -> u_glob B fnmatch u pat s = (Raise AttributeError, s))
  | _ => u_glob B fnmatch u pat s = (Raise (err_of o), s)
  end.
Proof.
  intros R Q A L. pose proof (reachable_wf s R) as W.
  assert (Hk : u_glob B fnmatch u pat s = fs_glob B fnmatch u pat s) by (unfold u_glob; apply (hooked_allowed u cs); [exact A|now apply silent_vetoes]).
  rewrite Hk. unfold fs_glob. assert (Y := C92_listdir s u cs o R A L (silent_vetoes s u _ Q)). destruct o as [q| | | | |].
  - split; intros K.
    + destruct (proj1 Y K) as (l & E & S & I). exists (filter (fun n => fnmatch n pat) l).
      rewrite (bind_ok _ _ s l s E). rewrite run_glob_loop. cbn [app]. split; [now destruct (all_ok (u_div u) _)|].
      split; [now apply ss_filter|]. intros n. rewrite filter_In, I, fnmatch_spec. reflexivity.
    + apply bind_raise. exact (proj2 Y K).
  - apply bind_raise. exact Y.
  - apply bind_raise. exact Y.
  - apply bind_raise. exact Y.
  - apply bind_raise. exact Y.
  - apply bind_raise. exact Y.
Qed.
Lemma gap_dec s cs : wf s -> (exists d b, gap (view s) cs d b) \/ forall d b, ~ gap (view s) cs d b.
Proof.
  intros W.
  assert (At : forall a b, (exists d, leads (view s) a (Found d) /\ is_edir (view s d) /\ forall n b', b = n :: b' -> view s (d ++ [n]) = None) \/
    ~ exists d, leads (view s) a (Found d) /\ is_edir (view s d) /\ forall n b', b = n :: b' -> view s (d ++ [n]) = None).
  { intros a b. destruct (leads_total (m_heap s) a) as [o L]. destruct (outcome_cases o) as [[d ->]|N].
    - destruct (edir_dec (view s d)) as [D|D].
      + destruct b as [|n b]; [left; exists d; repeat split; auto; discriminate|]. destruct (view s (d ++ [n])) eqn:E.
        * right. intros (d' & L' & _ & X). pose proof (leads_det (m_heap s) (m_next s) W _ _ _ L L') as Y. injection Y as <-. specialize (X n b eq_refl). congruence.
        * left. exists d. repeat split; auto. intros x b' Eb. injection Eb as <- _. exact E.
      + right. intros (d' & L' & D' & _). pose proof (leads_det (m_heap s) (m_next s) W _ _ _ L L') as Y. injection Y as <-. contradiction.
    - right. intros (d' & L' & _). apply (N d'). exact (leads_det (m_heap s) (m_next s) W _ _ _ L L'). }
  assert (X : forall b a0, (exists a b0 d, b = a ++ b0 /\ leads (view s) (a0 ++ a) (Found d) /\ is_edir (view s d) /\ forall n b', b0 = n :: b' -> view s (d ++ [n]) = None) \/
    forall a b0 d, b = a ++ b0 -> leads (view s) (a0 ++ a) (Found d) -> is_edir (view s d) -> (forall n b', b0 = n :: b' -> view s (d ++ [n]) = None) -> False).
  { induction b as [|n b IH]; intros a0.
    - destruct (At (a0 ++ []) []) as [(d & X)|X]; [left; exists [], [], d; auto|]. right. intros a b0 d E L D N.
      symmetry in E. apply app_eq_nil in E as [-> ->]. apply X. exists d. auto.
    - destruct (At (a0 ++ []) (n :: b)) as [(d & X)|X]; [left; exists [], (n :: b), d; auto|].
      destruct (IH (a0 ++ [n])) as [(a & b0 & d & -> & L & Y)|Y].
      + left. exists (n :: a), b0, d. rewrite <- app_assoc in L. auto.
      + right. intros [|x a] b0 d E L D N; cbn [app] in E; [subst b0; apply X; exists d; auto|]. injection E as -> ->.
        apply (Y a b0 d); auto. now rewrite <- app_assoc. }
  destruct (X cs []) as [(a & b & d & E & L & D & N)|Y]; [left; exists d, b, a; auto|right].
  intros d b (a & E & L & D & N). exact (Y a b d E L D N).
Qed.
(** makedirs of an ordinary path: an existing directory [d] followed by new names [b] (none if the path is a directory),
    where the new directories are made; or else an exception. *)
Theorem C99_makedirs s cs o fuel : reachable s -> silent s -> good_path cs -> leads (view s) cs o -> (length cs < fuel)%nat ->
  (exists d b, gap (view s) cs d b /\ exists s', u_makedirs B fuel (mem_uri cs) s = (Ok tt, s') /\
     dirs_added (view s) (view s') d b (m_now s) /\ same_rest s s') \/
  (forall d b, ~ gap (view s) cs d b) /\ u_makedirs B fuel (mem_uri cs) s = (Raise (mk_exc o), s).
Proof.
  intros R Q G L F. destruct (gap_dec s cs (reachable_wf s R)) as [(d & b & H)|N].
  - left. exists d, b. split; [exact H|]. destruct (C38_makedirs_partial s cs d b fuel R Q G H) as (s' & E & A & SR & _); [|eauto].
    destruct H as (a & -> & _). rewrite app_length in F. lia.
  - right. split; [exact N|]. unfold u_makedirs. rewrite run_hooked by auto. apply makedirs_exact; auto. now apply reachable_wf.
Qed.
(** md5 of a directory; glob on the directory /d; makedirs through a file, a link to nowhere and a cycle. *)
Example C99_witness : opening (view demo) 7 (Some (lit "rb")) (U ["d"]) (Refused AttributeError) /\
  u_glob B fnmatch (U ["l"]) (lit "[!e]") demo = (Ok [U ["l"; "f"]], demo) /\
  leads (view demo) (P ["e"; "x"]) NotDir /\ (forall d b, ~ gap (view demo) (P ["e"; "x"]) d b) /\
  u_makedirs B 3 (U ["e"; "x"]) demo = (Raise AttributeError, demo) /\ u_makedirs B 3 (U ["dead"]) demo = (Raise (OSError EEXIST), demo).
Proof.
  assert (Ad : addr (U ["d"]) (P ["d"])) by (apply demo_addr; good). assert (Al : addr (U ["l"]) (P ["l"])) by (apply demo_addr; good).
  assert (G1 : good_path (P ["e"; "x"])) by good. assert (G2 : good_path (P ["dead"])) by good.
  assert (L : leads (view demo) (P ["e"; "x"]) NotDir).
  { apply (rs_app (view demo) 32 [] (P ["e"]) (P ["x"]) (P ["e"])); [apply demo_at; efile|]. apply rs_notdir. intros (a & b & E). vm_compute in E. discriminate E. }
  assert (Ex : fst (u_makedirs B 3 (U ["e"; "x"]) demo) = Raise AttributeError) by (vm_compute; reflexivity).
  assert (Ed : fst (u_makedirs B 3 (U ["dead"]) demo) = Raise (OSError EEXIST)) by (vm_compute; reflexivity).
  split; [|split; [|split; [exact L|]]].
  - apply (op_path _ _ _ _ (P ["d"]) _ Ad).
    apply (or_dir _ _ _ _ (P ["d"])).
    + left; reflexivity.
    + apply demo_at; edir.
    + do 2 eexists; vm_compute; reflexivity.
  - assert (X := C99_glob demo (U ["l"]) (P ["l"]) (Found (P ["d"])) (lit "[!e]") demo_reachable demo_silent Al demo_l).
    destruct X as [X _]. destruct X as (l & E & _); [do 2 eexists; vm_compute; reflexivity|]. rewrite E. f_equal.
    apply (f_equal fst) in E. cbn [fst] in E. rewrite <- E. vm_compute. reflexivity.
  - destruct (C99_makedirs demo (P ["e"; "x"]) NotDir 3 demo_reachable demo_silent G1 L ltac:(cbn; lia)) as [(d & b & _ & s' & E & _)|[N E]].
    { unfold U in Ex. rewrite E in Ex. discriminate Ex. }
    split; [exact N|]. split; [exact E|].
    destruct (leads_total (m_heap demo) (P ["dead"])) as [o Lo].
    destruct (C99_makedirs demo (P ["dead"]) o 3 demo_reachable demo_silent G2 Lo ltac:(cbn; lia)) as [(d & b & _ & s' & Y & _)|[_ Y]]; fold (U ["dead"]) in Y; rewrite Y in Ed; [discriminate Ed|].
    cbn [fst] in Ed. now rewrite Y, Ed.
Qed.

Print Assumptions C97_copy.
Print Assumptions C97_cases.
Print Assumptions C97_plain.
Print Assumptions C98_move.
Print Assumptions C98_cases.
Print Assumptions C99_md5.
Print Assumptions C99_glob.
Print Assumptions C99_makedirs.
