(** C137-C144: classes derived from FileSystem. *)
From Coq Require Import String.
From Verif Require Import Str Exc UriParse BaseUri Mem Generic Fnmatch Plug SpecPlug PlugFacts PlugFacts2.
Local Open Scope string_scope.
Local Open Scope list_scope.

Section Props.
Context {S F V : Type}.
Variables (truthy : V -> bool) (bytes_of : V -> option (list N)) (fnm : str -> str -> bool).
Notation run := (run_pop truthy bytes_of fnm).
Implicit Type c : own S F V.

(** *** C137: methods a backend does not define *)
Lemma no {A} (o : option A) : given o = false -> o = None. Proof. now destruct o. Qed.
Theorem C137_missing c n o u name e s : missing c o u name e -> run c n o s = (Raise (fst (hook_then c u name e s)), snd (hook_then c u name e s)).
Proof.
  intros H; destruct H; cbn [defines] in *; repeat match goal with H : given _ = false |- _ => apply no in H end;
    cbn [run_pop]; unfold asks, ans, p_open, hook_then, c_hook, c_open, c_listdir, c_mkdir, c_exists, c_isfile, c_isdir, c_isexec, c_set_exec, c_islink, c_readlink,
      c_symlink, c_supports, c_info, c_sync, c_mtime, c_copystat, c_lock, c_manipulate;
    repeat match goal with H : _ = None |- _ => rewrite H; clear H end; unfold bind, raise, ret;
    (destruct (o_hook c) as [h|]; [|reflexivity]; destruct (h _ _ _) as [[[]|?] ?]; reflexivity).
Qed.
Theorem C137_bare c n o s : bare c -> run c (Datatypes.S n) o s = (Raise (bare_exc (o_revisioned c) o), s).
Proof.
  intros H.
  assert (Q : forall m, m <> MRead -> m <> MWrite -> m <> MExit -> defines c m = false) by exact H.
  pose proof (no _ (Q MHook ltac:(discriminate) ltac:(discriminate) ltac:(discriminate))) as Q1.
  pose proof (no _ (Q MOpen ltac:(discriminate) ltac:(discriminate) ltac:(discriminate))) as Q2.
  pose proof (no _ (Q MListdir ltac:(discriminate) ltac:(discriminate) ltac:(discriminate))) as Q3.
  pose proof (no _ (Q MMkdir ltac:(discriminate) ltac:(discriminate) ltac:(discriminate))) as Q4.
  pose proof (no _ (Q MExists ltac:(discriminate) ltac:(discriminate) ltac:(discriminate))) as Q5.
  pose proof (no _ (Q MIsfile ltac:(discriminate) ltac:(discriminate) ltac:(discriminate))) as Q6.
  pose proof (no _ (Q MIsdir ltac:(discriminate) ltac:(discriminate) ltac:(discriminate))) as Q7.
  pose proof (no _ (Q MIsexec ltac:(discriminate) ltac:(discriminate) ltac:(discriminate))) as Q8.
  pose proof (no _ (Q MSetExec ltac:(discriminate) ltac:(discriminate) ltac:(discriminate))) as Q9.
  pose proof (no _ (Q MSupports ltac:(discriminate) ltac:(discriminate) ltac:(discriminate))) as Q10.
  pose proof (no _ (Q MIslink ltac:(discriminate) ltac:(discriminate) ltac:(discriminate))) as Q11.
  pose proof (no _ (Q MReadlink ltac:(discriminate) ltac:(discriminate) ltac:(discriminate))) as Q12.
  pose proof (no _ (Q MSymlink ltac:(discriminate) ltac:(discriminate) ltac:(discriminate))) as Q13.
  pose proof (no _ (Q MInfo ltac:(discriminate) ltac:(discriminate) ltac:(discriminate))) as Q14.
  pose proof (no _ (Q MSync ltac:(discriminate) ltac:(discriminate) ltac:(discriminate))) as Q15.
  pose proof (no _ (Q MMtime ltac:(discriminate) ltac:(discriminate) ltac:(discriminate))) as Q16.
  pose proof (no _ (Q MCopystat ltac:(discriminate) ltac:(discriminate) ltac:(discriminate))) as Q17.
  pose proof (no _ (Q MLock ltac:(discriminate) ltac:(discriminate) ltac:(discriminate))) as Q18.
  pose proof (no _ (Q MManipulate ltac:(discriminate) ltac:(discriminate) ltac:(discriminate))) as Q19.
  pose proof (no _ (Q MInternal ltac:(discriminate) ltac:(discriminate) ltac:(discriminate))) as Q20.
  pose proof (no _ (Q MSwitch ltac:(discriminate) ltac:(discriminate) ltac:(discriminate))) as Q21.
  pose proof (no _ (Q MUpdate ltac:(discriminate) ltac:(discriminate) ltac:(discriminate))) as Q22.
  pose proof (no _ (Q MLog ltac:(discriminate) ltac:(discriminate) ltac:(discriminate))) as Q23.
  pose proof (no _ (Q MLogByTime ltac:(discriminate) ltac:(discriminate) ltac:(discriminate))) as Q24.
  destruct o as [| | | | | | | | | | | | | | | | | | | | | | | |rev0 ? ?|rev0 ? ? ?|rev0 ? ? ?|rev0 ? ? ?]; cbn [run_pop bare_exc]; unfold only_rev, asks, ans, p_open, p_copy, fs_copy, p_move, p_md5, with_file, u_remove, u_makedirs, u_walk, u_glob, fs_glob, u_exists, u_isfile, u_isdir,
    u_listdir, hooked; cbn [class_backend b_hook b_exists b_isfile b_isdir b_islink b_listdir fs_makedirs walk_gen];
    unfold u_isdir, hooked, p_open; cbn [b_hook b_isdir];
    unfold c_hook, c_open, c_listdir, c_mkdir, c_exists, c_isfile, c_isdir, c_isexec, c_set_exec, c_islink, c_readlink,
      c_symlink, c_supports, c_info, c_sync, c_mtime, c_copystat, c_lock, c_manipulate, c_switch, c_update, c_log, c_log_by_time;
    rewrite ?Q1, ?Q2, ?Q3, ?Q4, ?Q5, ?Q6, ?Q7, ?Q8, ?Q9, ?Q10, ?Q11, ?Q12, ?Q13, ?Q14, ?Q15, ?Q16, ?Q17, ?Q18, ?Q19, ?Q20, ?Q21, ?Q22, ?Q23, ?Q24;
    try reflexivity; try (destruct rev0; cbn; try reflexivity; destruct (o_revisioned c); reflexivity).
  cbn [class_backend b_hook b_isdir]. unfold c_hook, c_isdir. rewrite ?Q1, ?Q7. reflexivity.
Qed.

(** *** C138: what a method of a URI needs *)
Theorem C138_needs c c' n o : (forall m, In m (needs o) -> same_method c c' m) -> forall s, run c n o s = run c' n o s.
Proof.
  intros H s. destruct (run_keep truthy bytes_of fnm (fun _ => True) (fun _ => True) (fun _ _ => Logic.I) c c' n o (same_ready c c' o H) s Logic.I) as [E _]. exact E.
Qed.

(** *** C139: a backend that has what a method needs *)
Theorem C139_provided c n o s : (forall m, In m (needs o) -> provides c m) -> (forall m, In m (needs o) -> never_missing c m) ->
  fst (run c n o s) <> Raise NotImplementedError.
Proof.
  intros D H. assert (EK : forall e, e <> NotImplementedError -> e <> NotImplementedError) by auto.
  destruct (run_keep truthy bytes_of fnm (fun _ => True) (fun e => e <> NotImplementedError) EK c c n o) with (s := s) as (_ & _ & R); [|exact Logic.I|].
  - apply sound_ready; [exact EK|exact H|]. intros m q. specialize (D m q). unfold ends, has_or.
    destruct m; cbn [provides] in D; auto; destruct D; auto.
  - intros E. now apply (R _ E).
Qed.

(** *** C141: invariants of the backend *)
Theorem C141_invariant (I : S -> Prop) c n o s : (forall m, In m (needs o) -> keeps_inv I c m) -> I s -> I (snd (run c n o s)).
Proof.
  intros H i. destruct (run_keep truthy bytes_of fnm I (fun _ => True) (fun _ _ => Logic.I) c c n o) with (s := s) as (_ & R & _); [|exact i|exact R].
  apply sound_ready; [auto|exact H|]. intros m q. unfold ends, has_or. destruct m; auto.
Qed.

(** *** C140: backends without links *)
Lemma linkless_never c n : linkless c -> o_islink c = None -> forall u s, fst (b_islink (class_backend truthy c n) u s) <> Ok true.
Proof.
  intros L E u s. cbn [class_backend b_islink]. unfold c_islink, linkless, c_supports in *. rewrite E. destruct (o_supports c) as [f|]; [|contradiction].
  specialize (L s). unfold bind. destruct (f s) as [[[]|e] s']; cbn in *; [congruence|discriminate|discriminate].
Qed.
Theorem C140_copy c n kn r ig u v s : linkless c -> defines c MIslink = false ->
  run c n (PCopy kn r ig true u v) s = run c n (PCopy kn r ig false u v) s.
Proof.
  intros L D. apply no in D. cbn [run_pop]. unfold ans, p_copy. apply eqm_bind; [|intros; apply eqm_refl]. apply eqm_bind; [apply eqm_refl|]. intros _.
  assert (H := eqm_copy _ (linkless_never c n L D) n r ig true false u v). destruct (o_internal_copy c); [destruct kn; [apply eqm_refl|]|]; exact H.
Qed.
Theorem C140_walk c n td u s : linkless c -> defines c MIslink = false -> run c n (PWalk td true u) s = run c n (PWalk td false u) s.
Proof.
  intros L D. apply no in D. cbn [run_pop]. unfold ans, u_walk, hooked. apply eqm_bind; [|intros; apply eqm_refl]. apply eqm_bind; [apply eqm_refl|]. intros _.
  apply eqm_walk; [now apply linkless_never|]. intros. apply eqm_refl.
Qed.
(** What the hook does before the call: its exception is that of the call. *)
Definition after_hook (c : own S F V) (u : uri) (n : str) (s : S) (r : S -> res (pans F V) * S) : res (pans F V) * S :=
  match o_hook c with
  | None => r s
  | Some h => match h u n s with (Ok _, s') => r s' | (Raise e, s') => (Raise e, s') end
  end.
Theorem C140_links c n u v s f : o_supports c = Some f -> (forall s, fst (f s) = Ok false) ->
  (defines c MIslink = false -> run c n (PIslink u) s = after_hook c u (lit "islink") s (fun s => (Ok (RBool false), snd (f s)))) /\
  (defines c MReadlink = false -> run c n (PReadlink u) s = after_hook c u (lit "readlink") s (fun s => (Raise OperationIsNotSupportedOnPlatform, snd (f s)))) /\
  (defines c MSymlink = false -> run c n (PSymlink u v) s = after_hook c u (lit "symlink") s (fun s => (Raise OperationIsNotSupportedOnPlatform, snd (f s)))).
Proof.
  intros E Q. assert (K : forall s, f s = (Ok false, snd (f s))) by (intros s0; rewrite <- (Q s0); now destruct (f s0)). cbn [run_pop]. unfold asks, ans, c_hook, after_hook.
  split; [|split]; intros D; apply no in D; unfold c_islink, c_readlink, c_symlink, c_supports; rewrite D, E; unfold bind, ret;
    (destruct (o_hook c) as [h|]; [destruct (h u _ s) as [[[]|e] s1]; [|reflexivity]|]); rewrite K; reflexivity.
Qed.

(** *** C142: a backend's own way to copy *)
Theorem C142_used_partial c n r ig fl u v s f : o_internal_copy c = Some f ->
  run c n (PCopy true r ig fl u v) s = after_hook c u (lit "copy") s (fun s => (match fst (f u v r ig s) with Ok _ => Ok RUnit | Raise e => Raise e end, snd (f u v r ig s))).
Proof.
  intros E. cbn [run_pop]. unfold ans, p_copy, c_hook, after_hook. rewrite E. unfold bind, ret.
  destruct (o_hook c) as [h|]; [destruct (h u _ s) as [[[]|e] s1]; [|reflexivity]|]; destruct (f u v r ig _) as [[[]|e] s']; reflexivity.
Qed.
(** A destination that is a new object is copied to as if there was no [internal_copy]. *)
Theorem C142_new_refuted c c' n r ig fl u v s : (forall m, m <> MInternal -> same_method c c' m) ->
  run c n (PCopy false r ig fl u v) s = run c' n (PCopy false r ig fl u v) s.
Proof.
  intros H. apply C138_needs. intros m q. apply H. intros ->. destruct r, fl; cbn in q; intuition discriminate.
Qed.

(** *** C143: URIs with revisions *)
Theorem C143_missing_partial c n u r cl l a b s : o_revisioned c = true ->
  (defines c MUpdate = false -> run c n (PUpdate true u r cl) s = after_hook c u (lit "update") s (fun s => (Raise NotImplementedError, s))) /\
  (defines c MLog = false -> run c n (PLog true u l []) s = after_hook c u (lit "log") s (fun s => (Raise NotImplementedError, s))) /\
  (defines c MLogByTime = false -> run c n (PLogByTime true u a b) s = after_hook c u (lit "log_by_time") s (fun s => (Raise NotImplementedError, s))).
Proof.
  intros E. cbn [run_pop]. unfold only_rev, asks, ans, c_hook, after_hook.
  split; [|split]; intros D; apply no in D; unfold c_update, c_log, c_log_by_time; rewrite D, E; unfold bind, ret;
    (destruct (o_hook c) as [h|]; [destruct (h u _ s) as [[[]|e] s1]|]); reflexivity.
Qed.
Theorem C143_refuted c n u br l k x s : o_revisioned c = true ->
  (defines c MSwitch = false -> run c n (PSwitch true u br) s = after_hook c u (lit "switch") s (fun s => (Raise TypeError, s))) /\
  (defines c MLog = false -> run c n (PLog true u l (x :: k)) s = after_hook c u (lit "log") s (fun s => (Raise TypeError, s))).
Proof.
  intros E. cbn [run_pop]. unfold only_rev, asks, ans, c_hook, after_hook.
  split; intros D; apply no in D; unfold c_switch, c_log; rewrite D, E; unfold bind, ret;
    (destruct (o_hook c) as [h|]; [destruct (h u _ s) as [[[]|e] s1]|]); reflexivity.
Qed.
(** URIs of other classes have no such methods; other backends neither. *)
Theorem C143_others c n u br r cl l k a b s :
  run c n (PSwitch false u br) s = (Raise AttributeError, s) /\ run c n (PUpdate false u r cl) s = (Raise AttributeError, s) /\
  run c n (PLog false u l k) s = (Raise AttributeError, s) /\ run c n (PLogByTime false u a b) s = (Raise AttributeError, s).
Proof. repeat split. Qed.
End Props.
Print Assumptions C137_missing.
Print Assumptions C137_bare.
Print Assumptions C138_needs.
Print Assumptions C139_provided.
Print Assumptions C140_copy.
Print Assumptions C140_walk.
Print Assumptions C140_links.
Print Assumptions C141_invariant.
Print Assumptions C142_used_partial.
Print Assumptions C142_new_refuted.
Print Assumptions C143_missing_partial.
Print Assumptions C143_refuted.
Print Assumptions C143_others.

(** *** C138: everything listed is needed.  A family of classes that write down which of their methods are called: given
    sets of directories, files and links, with or without a method [islink] of their own. *)
Record cfg := mkCfg { g_dirs : list str; g_files : list str; g_links : list str; g_list : list (str * list str); g_own_links : bool; g_internal : bool }.
Definition note {A} (m : meth) (a : A) : M (list meth) A := fun s => (Ok a, m :: s).
Definition count_reads (s : list meth) : nat := List.length (filter (fun m => match m with MRead => true | _ => false end) s).
Definition at_ (u : uri) (l : list str) : bool := str_in (u_path u) l.
Definition names_of (g : cfg) (u : uri) : list str := match find (fun p => str_eqb (fst p) (u_path u)) (g_list g) with Some p => snd p | None => [] end.
Definition cls (g : cfg) : own (list meth) unit bool :=
  mkOwn _ _ _ (Some (fun _ _ => note MHook tt)) (Some (fun _ _ => note MOpen tt))
    (fun _ _ s => (Ok (Nat.even (count_reads s)), MRead :: s)) (fun _ _ => note MWrite tt) (fun _ => note MExit tt)
    (Some (fun u => note MListdir (names_of g u))) (Some (fun _ => note MRemovefile tt)) (Some (fun _ => note MRemovedir tt)) (Some (fun _ => note MMkdir tt))
    (Some (fun u => note MExists (at_ u (g_dirs g ++ g_files g)))) (Some (fun u => note MIsfile (at_ u (g_files g)))) (Some (fun u => note MIsdir (at_ u (g_dirs g))))
    (Some (fun _ _ => note MIsexec true)) (Some (fun _ _ => note MSetExec tt)) (Some (note MSupports false))
    (if g_own_links g then Some (fun u => note MIslink (at_ u (g_links g))) else None)
    (if g_own_links g then Some (fun u => note MReadlink u) else None)
    (if g_own_links g then Some (fun _ _ => note MSymlink tt) else None)
    (Some (fun _ _ _ => note MInfo true)) (Some (fun _ _ _ => note MSync tt)) (Some (fun _ => note MMtime true)) (Some (fun _ _ => note MCopystat tt))
    (Some (fun _ _ _ => note MLock true)) (Some (fun _ _ => note MManipulate tt))
    (if g_internal g then Some (fun _ _ _ _ => note MInternal tt) else None)
    true (Some (fun _ _ => note MSwitch true)) (Some (fun _ _ _ => note MUpdate true)) (Some (fun _ _ _ => note MLog true)) (Some (fun _ _ _ => note MLogByTime true)).
(** The class with one method replaced by one that raises *)
Definition bad : exc := UserError 77.
Definition spoil (m : meth) (c : own (list meth) unit bool) : own (list meth) unit bool :=
  let i := fun (m' : meth) => match m, m' with
    | MHook, MHook | MOpen, MOpen | MRead, MRead | MWrite, MWrite | MExit, MExit | MListdir, MListdir | MRemovefile, MRemovefile | MRemovedir, MRemovedir
    | MMkdir, MMkdir | MExists, MExists | MIsfile, MIsfile | MIsdir, MIsdir | MIsexec, MIsexec | MSetExec, MSetExec | MSupports, MSupports | MIslink, MIslink
    | MReadlink, MReadlink | MSymlink, MSymlink | MInfo, MInfo | MSync, MSync | MMtime, MMtime | MCopystat, MCopystat | MLock, MLock | MManipulate, MManipulate
    | MInternal, MInternal | MSwitch, MSwitch | MUpdate, MUpdate | MLog, MLog | MLogByTime, MLogByTime => true | _, _ => false end in
  mkOwn _ _ _ (if i MHook then Some (fun _ _ => raise bad) else o_hook c) (if i MOpen then Some (fun _ _ => raise bad) else o_open c)
    (if i MRead then fun _ _ => raise bad else o_read c) (if i MWrite then fun _ _ => raise bad else o_write c) (if i MExit then fun _ => raise bad else o_exit c)
    (if i MListdir then Some (fun _ => raise bad) else o_listdir c) (if i MRemovefile then Some (fun _ => raise bad) else o_removefile c)
    (if i MRemovedir then Some (fun _ => raise bad) else o_removedir c) (if i MMkdir then Some (fun _ => raise bad) else o_mkdir c)
    (if i MExists then Some (fun _ => raise bad) else o_exists c) (if i MIsfile then Some (fun _ => raise bad) else o_isfile c)
    (if i MIsdir then Some (fun _ => raise bad) else o_isdir c) (if i MIsexec then Some (fun _ _ => raise bad) else o_isexec c)
    (if i MSetExec then Some (fun _ _ => raise bad) else o_set_exec c) (if i MSupports then Some (raise bad) else o_supports c)
    (if i MIslink then Some (fun _ => raise bad) else o_islink c) (if i MReadlink then Some (fun _ => raise bad) else o_readlink c)
    (if i MSymlink then Some (fun _ _ => raise bad) else o_symlink c) (if i MInfo then Some (fun _ _ _ => raise bad) else o_info c)
    (if i MSync then Some (fun _ _ _ => raise bad) else o_sync c) (if i MMtime then Some (fun _ => raise bad) else o_mtime c)
    (if i MCopystat then Some (fun _ _ => raise bad) else o_copystat c) (if i MLock then Some (fun _ _ _ => raise bad) else o_lock c)
    (if i MManipulate then Some (fun _ _ => raise bad) else o_manipulate c) (if i MInternal then Some (fun _ _ _ _ => raise bad) else o_internal_copy c)
    (o_revisioned c) (if i MSwitch then Some (fun _ _ => raise bad) else o_switch c) (if i MUpdate then Some (fun _ _ _ => raise bad) else o_update c)
    (if i MLog then Some (fun _ _ _ => raise bad) else o_log c) (if i MLogByTime then Some (fun _ _ _ => raise bad) else o_log_by_time c).
Lemma spoil_same m m' c : m' <> m -> same_method c (spoil m c) m'.
Proof.
  intros D. destruct m'; destruct m; try (now elim D); cbn; try (split; [|reflexivity]); auto;
    unfold same0, same1, same2, same3, same4; match goal with |- match ?x with _ => _ end => destruct x; auto | _ => idtac end.
Qed.

Definition U0 (t : string) : uri := match mk_uri UBase (lit t) cSlash [] with Ok u => u | Raise _ => mkUri UBase [] 0%N (mkParsed None None [] [] None [] None None None 0 []) [] None None end.
Definition SRC : uri := U0 "svn:///s".
Definition DST : uri := U0 "svn:///t".
(** The same method with the same flags, on two given URIs *)
Definition shape (o : pop bool) : pop bool :=
  match o with
  | PCopy kn r _ fl _ _ => PCopy kn r [] fl SRC DST
  | PCopystat _ _ => PCopystat SRC DST
  | PMove kn _ _ => PMove kn SRC DST
  | PRemove r _ => PRemove r SRC
  | POpen _ _ => POpen SRC None
  | PMakedirs _ => PMakedirs SRC
  | PMkdir _ => PMkdir SRC
  | PExists _ => PExists SRC
  | PIsfile _ => PIsfile SRC
  | PIsdir _ => PIsdir SRC
  | PIsexec _ _ => PIsexec SRC 1
  | PSetExec _ _ => PSetExec SRC 1
  | PIslink _ => PIslink SRC
  | PReadlink _ => PReadlink SRC
  | PSymlink _ _ => PSymlink SRC DST
  | PMtime _ => PMtime SRC
  | PWalk td fl _ => PWalk td fl SRC
  | PListdir _ => PListdir SRC
  | PInfo _ _ fl => PInfo SRC None fl
  | PSync _ _ _ => PSync SRC DST []
  | PGlob _ _ => PGlob SRC (lit "*")
  | PMd5 _ => PMd5 SRC
  | PLock _ a b => PLock SRC a b
  | PManipulate _ _ => PManipulate SRC []
  | PSwitch rev _ _ => PSwitch rev SRC []
  | PUpdate rev _ a b => PUpdate rev SRC a b
  | PLog rev _ _ _ => PLog rev SRC 0 []
  | PLogByTime rev _ _ _ => PLogByTime rev SRC None None
  end.
Definition run1 : own (list meth) unit bool -> nat -> pop bool -> M (list meth) (pans unit bool) := run_pop (fun b : bool => b) (fun _ => Some []) fnmatch.
Definition hit (r : res (pans unit bool) * list meth) : bool := match fst r with Raise (UserError 77) => true | _ => false end.
Definition shows (o : pop bool) (m : meth) (g : cfg) : bool := negb (hit (run1 (cls g) 9 o [])) && hit (run1 (spoil m (cls g)) 9 o []).
Definition cfgs : list cfg :=
  [ mkCfg [] [lit "/s"] [] [] true false; mkCfg [] [lit "/s"] [] [] false false; mkCfg [] [lit "/s"; lit "/t"] [lit "/s"] [] true false;
    mkCfg [lit "/"; lit "/s"; lit "/s/d"] [lit "/s/a"] [] [(lit "/s", [lit "a"; lit "d"])] true false;
    mkCfg [lit "/"; lit "/s"; lit "/s/d"] [lit "/s/a"] [] [(lit "/s", [lit "a"; lit "d"])] false false;
    mkCfg [lit "/s"] [lit "/t"] [lit "/s"] [] true false; mkCfg [] [lit "/s"] [] [] true true; mkCfg [lit "/"] [] [] [] true false ].
Definition shown (o : pop bool) (m : meth) : bool := existsb (shows o m) cfgs.
Lemma shown_differs o m : shown o m = true -> exists c c' s, (forall m', m' <> m -> same_method c c' m') /\ run1 c 9 o s <> run1 c' 9 o s.
Proof.
  intros H. apply existsb_exists in H as (g & _ & H). exists (cls g), (spoil m (cls g)), []. split; [intros m' D; now apply spoil_same|]. intros E.
  unfold shows in H. rewrite <- E in H. destruct (hit (run1 (cls g) 9 o [])); discriminate.
Qed.
Definition tf : list bool := [true; false].
Definition shapes : list (pop bool) :=
  flat_map (fun kn => flat_map (fun r => map (fun fl => PCopy kn r [] fl SRC DST) tf) tf) tf ++ map (fun kn => PMove kn SRC DST) tf ++ map (fun r => PRemove r SRC) tf
  ++ flat_map (fun td => map (fun fl => PWalk td fl SRC) tf) tf ++ map (fun fl => PInfo SRC None fl) tf
  ++ flat_map (fun a => map (fun b => PLock SRC a b) tf) tf ++ map (fun rev => PSwitch rev SRC []) tf ++ map (fun rev => PLog rev SRC 0 []) tf ++ map (fun rev => PLogByTime rev SRC None None) tf
  ++ flat_map (fun rev => flat_map (fun a => map (fun b => PUpdate rev SRC a b) tf) tf) tf
  ++ [PCopystat SRC DST; POpen SRC None; PMakedirs SRC; PMkdir SRC; PExists SRC; PIsfile SRC; PIsdir SRC; PIsexec SRC 1; PSetExec SRC 1; PIslink SRC; PReadlink SRC;
      PSymlink SRC DST; PMtime SRC; PListdir SRC; PSync SRC DST []; PGlob SRC (lit "*"); PMd5 SRC; PManipulate SRC []].
Lemma shape_in o : In (shape o) shapes.
Proof. destruct o; cbn [shape]; repeat match goal with b : bool |- _ => destruct b end; unfold shapes; repeat rewrite ?in_app_iff; cbn [flat_map map app tf In]; intuition. Qed.
Lemma shape_needs o : needs (shape o) = needs o. Proof. now destruct o. Qed.
Lemma all_shown : forallb (fun o => forallb (shown o) (needs o)) shapes = true. Proof. vm_compute. reflexivity. Qed.
Theorem C138_all_needed (o : pop bool) m : In m (needs o) ->
  exists (c c' : own (list meth) unit bool) s, (forall m', m' <> m -> same_method c c' m') /\ run1 c 9 (shape o) s <> run1 c' 9 (shape o) s.
Proof.
  intros H. apply shown_differs. pose proof (proj1 (forallb_forall _ _) all_shown _ (shape_in o)) as X. cbn beta in X. rewrite shape_needs in X.
  exact (proj1 (forallb_forall _ _) X _ H).
Qed.
Print Assumptions C138_all_needed.

(** *** Concrete cases *)
(** A class without any method; one with a hook but no [listdir] *)
Definition empty_class (rev : bool) : own (list meth) unit bool :=
  mkOwn _ _ _ None None (fun _ _ => note MRead true) (fun _ _ => note MWrite tt) (fun _ => note MExit tt) None None None None None None None None None None None None None None None None
    None None None None rev None None None None.
Example C137_witness :
  bare (empty_class true) /\ run1 (empty_class true) 9 (PMove false SRC DST) [] = (Raise NotImplementedError, []) /\
  run1 (empty_class true) 9 (PSwitch true SRC []) [] = (Raise TypeError, []) /\
  (let c := mkOwn _ _ _ (Some (fun _ _ => note MHook tt)) None (fun _ _ => note MRead true) (fun _ _ => note MWrite tt) (fun _ => note MExit tt) None None None None None None None None None None None
       None None None None None None None None None true None None None None in
   missing c (PListdir SRC) SRC (lit "listdir") NotImplementedError /\ run1 c 9 (PListdir SRC) [] = (Raise NotImplementedError, [MHook])).
Proof. split; [intros []; now intros|]. split; [vm_compute; reflexivity|]. split; [vm_compute; reflexivity|]. split; [now constructor|vm_compute; reflexivity]. Qed.

(** A directory with a file and a directory, moved: all the class has is used, nothing is missing. *)
Definition G4 : cfg := mkCfg [lit "/"; lit "/s"; lit "/s/d"] [lit "/s/a"] [] [(lit "/s", [lit "a"; lit "d"])] false false.
Example C139_witness :
  (forall m, In m (needs (PMove false SRC DST : pop bool)) -> provides (cls G4) m /\ never_missing (cls G4) m) /\
  run1 (cls G4) 9 (PMove false SRC DST) [] = (Ok RUnit, snd (run1 (cls G4) 9 (PMove false SRC DST) [])) /\
  List.length (snd (run1 (cls G4) 9 (PMove false SRC DST) [])) = 68%nat.
Proof.
  split; [|split; vm_compute; reflexivity]. intros m q. split.
  - assert (L : linkless (cls G4)) by (intros s; cbn; discriminate). destruct m; cbn; auto.
  - destruct m; cbn; auto; unfold sound; intros; split; auto; discriminate.
Qed.
Example C140_witness :
  linkless (cls G4) /\ defines (cls G4) MIslink = false /\
  fst (run1 (cls G4) 9 (PCopy false true [] true SRC DST) []) = Ok RUnit /\
  fst (run1 (cls G4) 9 (PWalk true true SRC) []) = Ok (RWalk [(SRC, [lit "d"], [lit "a"]); (U0 "svn:///s/d", [], [])]).
Proof. split; [intros s; cbn; discriminate|]. repeat split; vm_compute; reflexivity. Qed.
(** Walking calls nothing that changes anything. *)
Example C141_witness :
  let I := fun s : list meth => forall m, In m s -> In m [MHook; MListdir; MIsdir; MSupports; MIslink] in
  (forall m, In m (needs (PWalk true true SRC : pop bool)) -> keeps_inv I (cls G4) m) /\ I [] /\
  List.length (snd (run1 (cls G4) 9 (PWalk true true SRC) [])) = 7%nat.
Proof.
  intros I. split; [|split; [intros m []|vm_compute; reflexivity]]. intros m q. cbn in q.
  assert (T : forall A (a : A) x, In x [MHook; MListdir; MIsdir; MSupports; MIslink] -> sound I (fun _ => True) (note x a)).
  { intros A a x J s i. split; [|auto]. intros y [<-|Y]; [exact J|now apply i]. }
  destruct q as [<-|[<-|[<-|[<-|[<-|[]]]]]]; cbn; try exact Logic.I; intros; apply T; cbn; tauto.
Qed.
(** [internal_copy] is used for an object that has been used before, and not for a new one. *)
Definition G7 : cfg := mkCfg [] [lit "/s"] [] [] true true.
Example C142_witness :
  defines (cls G7) MInternal = true /\ run1 (cls G7) 9 (PCopy true false [] false SRC DST) [] = (Ok RUnit, [MInternal; MHook]) /\
  fst (run1 (cls G7) 9 (PCopy false false [] false SRC DST) []) = Ok RUnit /\
  forallb (fun m => match m with MInternal => false | _ => true end) (snd (run1 (cls G7) 9 (PCopy false false [] false SRC DST) [])) = true.
Proof. repeat split; vm_compute; reflexivity. Qed.
Example C142_plain_witness :
  let c := mkOwn _ _ _ None None (fun _ _ => note MRead true) (fun _ _ => note MWrite tt) (fun _ => note MExit tt) None None None None None None None None None None None None None None None None
    None None None (Some (fun _ _ _ _ => note MInternal tt)) false None None None None : own (list meth) unit bool in
  defines c MHook = false /\ run1 c 9 (PCopy true true [] true SRC DST) [] = (Ok RUnit, [MInternal]).
Proof. split; vm_compute; reflexivity. Qed.
Example C143_witness :
  run1 (empty_class true) 9 (PSwitch true SRC (lit "b")) [] = (Raise TypeError, []) /\
  run1 (empty_class true) 9 (PUpdate true SRC true false) [] = (Raise NotImplementedError, []) /\
  run1 (cls G4) 9 (PSwitch true SRC (lit "b")) [] = (Ok (RVal true), [MSwitch; MHook]).
Proof. repeat split; vm_compute; reflexivity. Qed.
