(** C149: the calls a method of a URI makes of its connection. *)
From Coq Require Import String Lia.
From Verif Require Import Str StrFacts Exc UriParse BaseUri Mem Generic Fnmatch Plug SpecPlug SpecCalls CallsFacts CallsFacts2 CallsFacts3.
Local Open Scope string_scope.
Local Open Scope list_scope.

Scheme tour_mut := Induction for tour Sort Prop
with descents_mut := Induction for descents Sort Prop.

Section Props.
Context {S F V : Type}.
Variables (truthy : V -> bool) (bytes_of : V -> option (list N)) (fnm : str -> str -> bool).
Notation run := (run_pop truthy bytes_of fnm).
Notation ev := (ev F V).
Notation protocol := (protocol truthy bytes_of fnm).
Implicit Type c : own S F V.

Lemma f_ans {A} c n (k : A -> pans F V) (L : A -> list ev -> Prop) m : fits c n L m -> fits c n (fun r t => exists a, r = k a /\ L a t) (ans k m).
Proof.
  intros H. unfold ans. eapply f_iff; [|apply f_bind; [exact H|intros a; apply f_ret]]. intros r t. cbn. split.
  - intros (a & t1 & t2 & A1 & (-> & ->) & ->). rewrite app_nil_r. eauto.
  - intros (a & -> & A1). exists a, t, []. rewrite app_nil_r. auto.
Qed.
Lemma f_asks {A} c n name u (k : A -> pans F V) m (e : A -> ev) : one c m e ->
  fits c n (fun r t => exists a, r = k a /\ t = [hook name u; e a]) (asks c name u k m).
Proof.
  intros H. unfold asks. eapply f_iff; [|apply f_then'; [apply one_hook|intros ?; apply f_ans, f_one; exact H]]. intros r t. cbn. split.
  - intros ([] & t' & (a & -> & ->) & ->). eauto.
  - intros (a & -> & ->). exists tt. eauto 6.
Qed.
Ltac simple_op H := eapply f_iff; [|apply f_asks; apply H]; intros r t; cbn -[lit]; split;
  [intros (x & -> & ->); try destruct x; constructor|inversion 1; subst; try (eexists; split; reflexivity); exists tt; split; reflexivity].
Ltac rev_op rev H := destruct rev; cbn [only_rev];
  [simple_op H|eapply f_iff; [|apply f_raise]; intros r t; cbn; split; [easy|inversion 1]].

Lemma f_move c n kn u v : fits c n (fun _ t => exists f t1 t2, clones truthy (given (o_internal_copy c)) kn (negb f) [] true u v t1 /\
  removes (negb f) u t2 /\ t = hook "move" u :: q_isfile u f ++ t1 ++ t2) (p_move truthy c n kn u v).
Proof.
  unfold p_move. eapply f_iff; [|apply f_then'; [apply one_hook|intros ?; apply t_isfile; intros f; apply f_if;
    (apply f_bind; [apply f_clones|intros ?; apply f_remove])]].
  intros [] t. cbn. split.
  - intros ([] & t' & (f & t1 & H & ->) & ->). exists f. destruct f; destruct H as ([] & t2 & t3 & A & B & ->); exists t2, t3; cbn; auto.
  - intros (f & t1 & t2 & A & B & ->). exists tt. eexists. split; [|reflexivity]. exists f. eexists. split; [|reflexivity].
    destruct f; exists tt, t1, t2; cbn in *; auto.
Qed.

Lemma f_run c n o : fits c n (protocol (given (o_internal_copy c)) o) (run c n o).
Proof.
  destruct o; cbn [run_pop].
  - eapply f_iff; [|apply f_ans, f_clones]. intros r t. cbn. split; [intros ([] & -> & H); now constructor|inversion 1; subst; now exists tt].
  - simple_op (one_copystat c).
  - eapply f_iff; [|apply f_ans, f_move]. intros r t. cbn. split.
    + intros ([] & -> & f & t1 & t2 & H & K & ->). now apply (pr_move truthy bytes_of fnm _ known u v f t1 t2).
    + inversion 1; subst. exists tt. split; [easy|]. do 3 eexists. split; [eassumption|]. split; [eassumption|reflexivity].
  - eapply f_iff; [|apply f_ans, f_remove]. intros r t. cbn. split; [intros ([] & -> & H); now constructor|inversion 1; subst; now exists tt].
  - eapply f_iff; [|apply f_ans, f_open]. intros r t. cbn -[lit]. split; [intros (f & -> & ->); constructor|inversion 1; subst; eauto].
  - eapply f_iff; [|apply f_ans, f_u_makedirs]. intros r t. cbn -[lit]. split.
    + intros ([] & -> & t' & H & ->). now apply pr_makedirs.
    + inversion 1; subst. exists tt. eauto.
  - simple_op (one_mkdir c).
  - simple_op (one_exists c).
  - simple_op (one_isfile c).
  - simple_op (one_isdir c).
  - simple_op (one_isexec c).
  - simple_op (one_set_exec c).
  - simple_op (one_islink c).
  - simple_op (one_readlink c).
  - simple_op (one_symlink c).
  - simple_op (one_mtime c).
  - eapply f_iff; [|apply f_ans, f_walk]. intros r t. cbn -[lit]. split.
    + intros (rows & -> & t' & H & ->). now apply pr_walk.
    + inversion 1; subst. eauto.
  - simple_op (one_listdir c).
  - simple_op (one_info c).
  - simple_op (one_sync c).
  - eapply f_iff; [|apply f_ans, f_glob]. intros r t. cbn -[lit]. split.
    + intros (l & -> & names & H & ->). now apply pr_glob.
    + inversion 1; subst. eauto.
  - eapply f_iff; [|apply f_ans, f_md5]. intros r t. cbn -[lit opening]. split.
    + intros (bs & -> & f & t' & H & ->). now apply pr_md5.
    + inversion 1; subst. eauto 6.
  - simple_op (one_lock c).
  - simple_op (one_manipulate c).
  - rev_op rev (one_switch c).
  - rev_op rev (one_update c).
  - rev_op rev (one_log c).
  - rev_op rev (one_log_by_time c).
Qed.

(** What a method that returns has called. *)
Theorem C149_calls c n o s a s' : run c n o s = (Ok a, s') ->
  exists t, protocol (defines c MInternal) o a t /\ steps c s t s'.
Proof. apply (proj1 (f_run c n o)). Qed.
(** What the calls are, decides: where a class can answer a list of calls, and the budget suffices, that is the run. *)
Theorem C149_answers c n o s a s' t : protocol (defines c MInternal) o a t -> steps c s t s' -> (length t < n)%nat ->
  run c n o s = (Ok a, s').
Proof. apply (proj2 (f_run c n o)). Qed.

(** *** Consequences *)
Section Tours.
Variable Q : list ev -> Prop.
Hypothesis Qn : Q [].
Hypothesis Qa : forall t1 t2, Q t1 -> Q t2 -> Q (t1 ++ t2).
Hypothesis Ql : forall u l, Q [EListdir u l].
Hypothesis Qd : forall u b, Q [EIsdir u b].
Hypothesis Qi : forall u b, Q (q_islink u b).
Lemma told_q u ns ds fs t : told u ns ds fs t -> Q t.
Proof. induction 1; auto; [apply (Qa [_])|apply (Qa [_])]; auto. Qed.
Lemma tour_q td fl (visit : uri -> list str -> list str -> list str -> list row -> list ev -> Prop) u rows t : (forall u ds fs ds' rows t, visit u ds fs ds' rows t -> Q t) -> tour td fl visit u rows t -> Q t.
Proof.
  intros Hv H. induction H using tour_mut with (P0 := fun u ds rows t _ => Q t); auto.
  - apply (Qa [_]); auto. apply Qa; [now apply told_q in t|]. apply Qa; eauto.
  - apply (Qa [_]); auto. apply Qa; [now apply told_q in t|]. apply Qa; eauto.
Qed.
End Tours.

(** Questions ask only: no call but these, no file opened but for reading. *)
Definition harmless (e : ev) : Prop :=
  match e with
  | EHook _ _ | ERead _ _ _ | EExit _ | EListdir _ _ | EExists _ _ | EIsfile _ _ | EIsdir _ _ | EIsexec _ _ _ | EIslink _ _
  | EReadlink _ _ | EMtime _ _ => True
  | EOpen _ m _ => m = Some (lit "rb")
  | _ => False
  end.
Definition question (o : pop V) : Prop :=
  match o with
  | PExists _ | PIsfile _ | PIsdir _ | PIsexec _ _ | PIslink _ | PReadlink _ | PMtime _ | PWalk _ _ _ | PListdir _ | PGlob _ _ | PMd5 _ => True
  | _ => False
  end.
Theorem C149_questions own o a t : protocol own o a t -> question o -> Forall harmless t.
Proof.
  intros H q. destruct H; try contradiction; try (repeat (constructor; cbn; auto); fail).
  - constructor; [exact I|]. revert H. apply tour_q; try (intros; repeat (constructor; cbn; auto); fail).
    + intros t1 t2. apply Forall_app_2 || (intros; apply Forall_app; auto).
    + intros ? ? ? ? ? ? V0. inversion V0; subst. constructor.
  - constructor; [exact I|]. apply Forall_app. split; [repeat constructor|]. apply Forall_app. split; [|repeat constructor].
    induction H; repeat (constructor; cbn; auto).
Qed.

(** A copy made call by call: what is written goes to files opened for writing; no directory is removed, and a file only where
    a link is put. *)
Definition careful (t : list ev) : Prop :=
  (forall g v, In (EWrite g v) t -> exists w, In (EOpen w (Some (lit "wb")) g) t) /\
  (forall u m f, In (EOpen u m f) t -> m = Some (lit "rb") \/ m = Some (lit "wb")) /\
  (forall u, ~ In (ERemovedir u) t) /\
  (forall u, In (ERemovefile u) t -> exists w, In (ESymlink w u) t).
Lemma careful_nil : careful []. Proof. repeat split; [intros g v J|intros u m f J|intros u J|intros u J]; destruct J. Qed.
Lemma careful_app t1 t2 : careful t1 -> careful t2 -> careful (t1 ++ t2).
Proof.
  intros (A1 & A2 & A3 & A4) (B1 & B2 & B3 & B4). repeat split.
  - intros g v H. apply in_app_iff in H as [H|H]; [apply A1 in H as [w H]|apply B1 in H as [w H]]; exists w; apply in_app_iff; auto.
  - intros u m f H. apply in_app_iff in H as [H|H]; eauto.
  - intros u H. apply in_app_iff in H as [H|H]; [now apply (A3 u)|now apply (B3 u)].
  - intros u H. apply in_app_iff in H as [H|H]; [apply A4 in H as [w H]|apply B4 in H as [w H]]; exists w; apply in_app_iff; auto.
Qed.
Definition quiet (e : ev) : Prop := match e with EWrite _ _ | EOpen _ _ _ | ERemovedir _ | ERemovefile _ => False | _ => True end.
Lemma careful_one e : quiet e -> careful [e].
Proof. intros H. repeat split; [intros g v J|intros u m f J|intros u J|intros u J]; cbn in J; destruct J as [J|[]]; subst e; contradiction. Qed.
Lemma careful_cons e t : quiet e -> careful t -> careful (e :: t).
Proof. intros H. apply (careful_app [e]). now apply careful_one. Qed.
Ltac calm := repeat (first [apply careful_nil | apply careful_cons; [exact I|]]).
Lemma contents_careful u v t : contents truthy u v t -> careful t.
Proof.
  intros H. destruct H as [f g t H].
  assert (B : forall e, In e t -> (exists v, e = ERead f 8192 v) \/ exists v, e = EWrite g v).
  { induction H; intros e J; cbn in J; [destruct J as [<-|[]]; eauto|]. destruct J as [<-|[<-|J]]; eauto. }
  assert (E : forall e, In e (opening u "rb" f ++ opening v "wb" g ++ t ++ [EExit g; EExit f]) ->
    e = EOpen u (Some (lit "rb")) f \/ e = EOpen v (Some (lit "wb")) g \/ (exists v, e = EWrite g v) \/ quiet e).
  { intros e J. rewrite !in_app_iff in J. unfold opening in J. destruct J as [J|[J|[J|J]]].
    - cbn [In] in J. destruct J as [<-|[<-|[]]]; cbn; auto.
    - cbn [In] in J. destruct J as [<-|[<-|[]]]; cbn; auto.
    - destruct (B e J) as [[x ->]|[x ->]]; cbn; eauto.
    - cbn [In] in J. destruct J as [<-|[<-|[]]]; cbn; auto. }
  repeat split.
  - intros g' x J. exists v. apply E in J as [J|[J|[[y J]|J]]]; try discriminate; [|contradiction]. inversion J; subst.
    apply in_app_iff. right. apply in_app_iff. left. right. now left.
  - intros w m f' J. apply E in J as [J|[J|[[y J]|J]]]; try discriminate; [| |contradiction]; inversion J; auto.
  - intros w J. apply E in J as [J|[J|[[y J]|J]]]; try discriminate; contradiction.
  - intros w J. apply E in J as [J|[J|[[y J]|J]]]; try discriminate; contradiction.
Qed.
Lemma relinks_careful u v t : relinks u v t -> careful t.
Proof.
  intros H. destruct H; cbn; calm.
  repeat split; intros; cbn in *.
  - decompose [or] H; try discriminate; contradiction.
  - decompose [or] H; try discriminate; contradiction.
  - intros H. decompose [or] H; try discriminate; contradiction.
  - decompose [or] H; try discriminate; try contradiction. inversion H0; subst. eauto.
Qed.
Lemma makes_careful u t : makes u t -> careful t.
Proof.
  induction 1; cbn; calm; repeat (apply careful_app); auto; calm.
Qed.
Lemma entry_careful fl same u v t : entry truthy fl same u v t -> careful t.
Proof.
  intros H. destruct H; cbn; calm; [now apply relinks_careful in H0|]. apply careful_app; [now apply contents_careful in H0|].
  unfold stats. destruct same; calm.
Qed.
Lemma rebuilds_careful fl same ig src dst u ds fs ds' rows t : rebuilds truthy fl same ig src dst u ds fs ds' rows t -> careful t.
Proof.
  intros H. destruct H. apply careful_app.
  - clear H1. induction H0; auto; [calm| |].
    + cbn. calm. apply careful_app; [now apply relinks_careful in H4|easy].
    + cbn. calm. apply careful_app; [now apply makes_careful in H4|easy].
  - clear H0. induction H1; [calm|]. apply careful_app; [now apply entry_careful in H2|easy].
Qed.
Theorem C149_copies own kn r ig fl u v a t : protocol own (PCopy kn r ig fl u v) a t ->
  t = [hook "copy" u; EInternal u v r ig] \/ careful t.
Proof.
  inversion 1; subst. match goal with C : clones _ _ _ _ _ _ _ _ _ |- _ => inversion C; subst end; [now left|right]. apply careful_cons; [exact I|].
  match goal with C : dups _ _ _ _ _ _ _ |- _ => clear - C; destruct C as [? ? ? ? H3|? ? ? ? ? H4|? ? ? ? ? ? ? ? H4 H5] end; cbn -[lit]; calm.
  - now apply entry_careful in H3.
  - now apply relinks_careful in H4.
  - apply careful_app; [now apply makes_careful in H4|]. calm.
    revert H5. apply tour_q; try (intros; calm; fail); [intros t3 t4; apply careful_app|].
    intros ? ? ? ? ? ?. apply rebuilds_careful.
Qed.
End Props.
Print Assumptions C149_calls.
Print Assumptions C149_answers.
Print Assumptions C149_questions.
Print Assumptions C149_copies.

(** *** Cases *)
Definition W : Type := list (ev str bool).
Definition noted {A} (f : A -> ev str bool) (a : A) : M W A := fun s => (Ok a, s ++ [f a]).
Definition found (u : uri) (l : list string) : bool := existsb (fun x => str_eqb (lit x) (u_path u)) l.
(** A class that notes its calls.  The directories /, /s, /s/d, the files /s/a and /s/d/b, the link /s/l.  A file is its path; one
    block is read of each. *)
Definition scribe (internal : bool) : own W str bool :=
  mkOwn W str bool (Some (fun u n => noted (fun _ => EHook u n) tt))
    (Some (fun u o => noted (EOpen u o) (u_path u)))
    (fun f n => fun s => noted (ERead f n) (negb (existsb (fun e => match e with ERead g _ _ => str_eqb f g | _ => false end) s)) s)
    (fun f v => noted (fun _ => EWrite f v) tt) (fun f => noted (fun _ => EExit f) tt)
    (Some (fun u => noted (EListdir u) (if found u ["/s"] then [lit "l"; lit "d"; lit "a"] else if found u ["/s/d"] then [lit "b"] else [])))
    (Some (fun u => noted (fun _ => ERemovefile u) tt)) (Some (fun u => noted (fun _ => ERemovedir u) tt))
    (Some (fun u => noted (fun _ => EMkdir u) tt)) (Some (fun u => noted (EExists u) (found u ["/"; "/s"; "/s/d"; "/s/a"; "/s/d/b"])))
    (Some (fun u => noted (EIsfile u) (found u ["/s/a"; "/s/d/b"]))) (Some (fun u => noted (EIsdir u) (found u ["/"; "/s"; "/s/d"])))
    None None None (Some (fun u => noted (EIslink u) (found u ["/s/l"]))) (Some (fun u => noted (EReadlink u) u))
    (Some (fun t l => noted (fun _ => ESymlink t l) tt)) None None None (Some (fun u v => noted (fun _ => ECopystat u v) tt)) None None
    (if internal then Some (fun u v r ig => noted (fun _ => EInternal u v r ig) tt) else None) false None None None None.
Definition U1 (t : string) : uri :=
  match mk_uri UBase (lit t) cSlash [] with Ok u => u | Raise _ => mkUri UBase [] 0%N (mkParsed None None [] [] None [] None None None 0 []) [] None None end.
Definition run2 : own W str bool -> nat -> pop bool -> M W (pans str bool) := run_pop (fun b : bool => b) (fun _ => Some [7%N]) fnmatch.
Lemma noted_ok {A} (f : A -> ev str bool) a s : noted f a s = (Ok a, s ++ [f a]). Proof. reflexivity. Qed.

Example C149_md5_witness :
  run2 (scribe false) 9 (PMd5 (U1 "svn:///s/a")) [] =
  (Ok (RBytes [7%N]), let u := U1 "svn:///s/a" in let f := lit "/s/a" in
    [hook "md5" u; hook "open" u; EOpen u (Some (lit "rb")) f; ERead f 4096 true; ERead f 4096 false; EExit f]).
Proof. vm_compute. reflexivity. Qed.
(** A tree with a link, copied without following it; the directory it goes to is made, the link is made again. *)
Example C149_copy_witness :
  run2 (scribe true) 9 (PCopy false true [] false (U1 "svn:///s") (U1 "hg:///t")) [] =
  (Ok RUnit, let s := U1 "svn:///s" in let sa := U1 "svn:///s/a" in let sd := U1 "svn:///s/d" in let sl := U1 "svn:///s/l" in let sb := U1 "svn:///s/d/b" in
    let t := U1 "hg:///t" in let ta := U1 "hg:///t/a" in let td := U1 "hg:///t/d" in let tl := U1 "hg:///t/l" in let tb := U1 "hg:///t/d/b" in
    let top := U1 "hg:///" in
    [hook "copy" s; hook "exists" s; EExists s true] ++ q_isdir s true ++ q_isdir t false ++ q_islink s false ++
    [hook "makedirs" t] ++ q_isdir t false ++ q_isdir top true ++ [hook "mkdir" t; EMkdir t] ++
    [hook "walk" s; EListdir s [lit "l"; lit "d"; lit "a"]; EIsdir sa false; EIsdir sd true; EIsdir sl false] ++
    q_islink sd false ++ [hook "makedirs" td] ++ q_isdir td false ++ q_isdir t false ++
      (q_isdir t false ++ q_isdir top true ++ [hook "mkdir" t; EMkdir t]) ++ [hook "mkdir" td; EMkdir td] ++
    q_islink sa false ++ opening sa "rb" (lit "/s/a") ++ opening ta "wb" (lit "/t/a") ++
      [ERead (lit "/s/a") 8192 true; EWrite (lit "/t/a") true; ERead (lit "/s/a") 8192 false; EExit (lit "/t/a"); EExit (lit "/s/a")] ++
    q_islink sl true ++ [EIslink sl true] ++ q_isfile tl false ++ [EReadlink sl sl; ESymlink sl tl] ++
    q_islink sd false ++ [EListdir sd [lit "b"]; EIsdir sb false] ++
    q_islink sb false ++ opening sb "rb" (lit "/s/d/b") ++ opening tb "wb" (lit "/t/d/b") ++
      [ERead (lit "/s/d/b") 8192 true; EWrite (lit "/t/d/b") true; ERead (lit "/s/d/b") 8192 false; EExit (lit "/t/d/b"); EExit (lit "/s/d/b")]).
Proof. vm_compute. reflexivity. Qed.
Example C149_remove_witness :
  run2 (scribe true) 9 (PRemove true (U1 "svn:///s")) [] =
  (Ok RUnit, let s := U1 "svn:///s" in let sa := U1 "svn:///s/a" in let sd := U1 "svn:///s/d" in let sl := U1 "svn:///s/l" in let sb := U1 "svn:///s/d/b" in
    [hook "remove" s; EIslink s false; EExists s true; EIsdir s true] ++
    [EListdir s [lit "l"; lit "d"; lit "a"]; EIsdir sa false; EIsdir sd true; EIsdir sl false] ++
    q_islink sd false ++ [EListdir sd [lit "b"]; EIsdir sb false; ERemovefile sb] ++
    [ERemovefile sa; ERemovefile sl] ++ [EIslink sd false; ERemovedir sd] ++ [EIslink s false; ERemovedir s]).
Proof. vm_compute. reflexivity. Qed.
(** The class's own [internal_copy], where both objects are known to have the connection. *)
Example C149_internal_witness :
  run2 (scribe true) 9 (PMove true (U1 "svn:///s/a") (U1 "svn:///t")) [] =
  (Ok RUnit, let u := U1 "svn:///s/a" in let v := U1 "svn:///t" in
    [hook "move" u] ++ q_isfile u true ++ [hook "copy" u; EInternal u v false []] ++
    [hook "remove" u; EIslink u false; EExists u true; EIsdir u false; EIsfile u true; ERemovefile u]).
Proof. vm_compute. reflexivity. Qed.
(** ... so that C149_calls and C149_answers speak of real runs: *)
Example C149_answers_witness :
  let u := U1 "svn:///s/a" in let f := lit "/s/a" in
  let t := [hook "md5" u; hook "open" u; EOpen u (Some (lit "rb")) f; ERead f 4096 true; ERead f 4096 false; EExit f] in
  protocol (fun b : bool => b) (fun _ => Some [7%N]) fnmatch (defines (scribe false) MInternal) (PMd5 u) (RBytes [7%N]) t /\
  steps (scribe false) [] t t /\ (length t < 9)%nat.
Proof.
  cbn zeta. split; [|split; [|cbn; lia]].
  - apply (pr_md5 _ _ _ _ (U1 "svn:///s/a") (lit "/s/a") [7%N] [ERead (lit "/s/a") 4096 true; ERead (lit "/s/a") 4096 false]).
    apply (fe_more _ _ _ true [7%N] []); auto. now apply fe_end.
  - repeat (eapply st_cons; [vm_compute; reflexivity|]). apply st_nil.
Qed.
