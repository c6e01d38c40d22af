(** Theorems on several memory connections at once (C110-C113). *)
From Coq Require Import Lia.
From Verif Require Import Str Exc Utf8 UriParse BaseUri Mem MemOps SpecMem Generic UriOps Prog Registry SpecReg RegFacts RegFacts2 Net Pair SpecNet
  NetFacts NetFacts2 NetFacts3 NetFacts4 NetFacts5 NetFacts6 NetFacts7 NetFacts8 NetFacts9 NetFacts10.
From Verif Require PropsMem.
Open Scope string_scope. Open Scope list_scope.

(** ** C110 *)
(** Whatever was done in a process: the file system of every connection is one the theorems on one file system speak of. *)
Theorem C110_reachable N hs c : net_reach (N, hs) -> reachable (fs_of N c).
Proof. intros H. apply net_reach_ok in H. apply (ok_fs _ _ (proj1 H)). Qed.
(** A call whose URIs belong to the connection [c]: the answer, the file system of [c] and the open files are those of the
    call on that file system alone, and nothing else changes but the time [c] was last used. *)
Theorem C110_call a u c k N hs0 hs : net_reach (N, hs0) -> authority a -> ours a u -> open_as (n_reg N) (u_key u) c -> tidy (fs_of N c) ->
  call_in a k -> (forall t, k <> CTick t) -> forall r s' hs', do_call k (fs_of N c, hs) = (r, (s', hs')) ->
  exists N', net_call k (N, map (pair c) hs) = (r, (N', map (pair c) hs')) /\ framed c N N' /\ fs_of N' c = s' /\ tidy s' /\ (forall x, r = Ok x -> answer_in a x).
Proof.
  intros H A O Hc Td I NT r s' hs' E. apply net_reach_ok in H. pose proof (served_open a 0 N u c A (proj1 H) O Hc) as S.
  destruct (call_served a c k N hs A S (proj1 (tidy_nodes _) Td) I NT) as (N' & E1 & [F1 F2 F3 F4]). rewrite E in *. cbn [fst snd] in *. exists N'.
  split; [exact E1|]. split; [exact F1|]. split; [exact F2|]. split; [now apply tidy_nodes|exact F4].
Qed.
(** The first use of a connection: as on an empty file system. *)
Theorem C110_first a u k N hs0 : net_reach (N, hs0) -> authority a -> call_in a k -> first_uri k = Some u -> hostless (u_key u) ->
  (forall i, ~ open_as (n_reg N) (u_key u) i) -> forall r s' hs', do_call k (fresh N, []) = (r, (s', hs')) ->
  exists c N', net_call k (N, []) = (r, (N', map (pair c) hs')) /\ opened (u_key u) c N N' /\ fs_of N' c = s' /\ tidy s' /\ (forall x, r = Ok x -> answer_in a x).
Proof.
  intros H A I Fu Ho Nn r s' hs' E. apply net_reach_ok in H. pose proof (call_first a k u I Fu) as O.
  pose proof (starts_call k u [] N Fu) as Sc. destruct (connect_ours a 0 u N A (proj1 H) O) as [c Hc|H1 H2|c N1 H1 H2 H3 H4 H5]; [destruct (Nn c Hc)|contradiction|].
  specialize (Sc (connect_served a u c N1 A O H3)). assert (NT : forall t, k <> CTick t) by (intros t ->; discriminate Fu).
  assert (Td : tidyq noq (fs_of N1 c)) by (rewrite H5; intros j; cbn; now intros).
  destruct (call_served a c k N1 [] A H3 Td I NT) as (N' & E1 & [F1 F2 F3 F4]). rewrite H5 in *. fold (fresh N) in *. rewrite E in *. cbn [fst snd map] in *. exists c, N'.
  split; [now rewrite Sc|]. split; [|split; [exact F2|split; [now apply tidy_nodes|exact F4]]]. destruct H2. destruct F1. constructor; try congruence; try assumption; intros i Hi; [rewrite fr_used, op_used by exact Hi|rewrite fr_fs, op_fs by exact Hi]; reflexivity.
Qed.
Definition nu (s : string) : uri := match URI (lit s) cSlash [] with Ok u => u | Raise _ => PropsMem.U [] end.
Ltac auth := split; [repeat (constructor; [vm_compute; intuition discriminate|]); constructor|discriminate].
Ltac mine x := exists (lit x); split; [vm_compute; intuition discriminate|split; [first [left; reflexivity|right; eexists; reflexivity]|vm_compute; reflexivity]].
(** Two file systems: in joe's there is the directory /d with a file, in the other one nothing. *)
Definition both_open : nsession := fold_left (fun σ e => net_event e σ)
  [NCall (CUri 5 (UMkdir (nu "memory://joe@/d"))); NCall (COpen (nu "memory://joe@/d/f") (Some (lit "wb"))); NCall (CWrite 0 (VBytes (lit "xyz"))); NCall (CUri 5 (UExists (nu "memory:///d")))]
  (init_net 1800 7, []).
Lemma both_reach : net_reach both_open. Proof. eexists _, _, _. reflexivity. Qed.
Example C110_witness :
  authority (lit "joe@") /\ ours (lit "joe@") (nu "memory://joe@/d") /\ open_as (n_reg (fst both_open)) (u_key (nu "memory://joe@/d")) 0 /\ tidy (fs_of (fst both_open) 0)
  /\ call_in (lit "joe@") (CUri 5 (UListdir (nu "memory://joe@/d")))
  /\ fst (net_call (CUri 5 (UListdir (nu "memory://joe@/d"))) both_open) = Ok (ANames [lit "f"])
  /\ fst (net_call (CUri 5 (UListdir (nu "memory:///d"))) both_open) = Raise (OSError ENOENT)
  /\ r_next (n_reg (fst both_open)) = 2.
Proof.
  split; [auth|]. split; [mine "/d"|]. split; [exists (u_key (nu "memory://joe@/d")); split; [now repeat split|vm_compute; now left]|].
  split; [|split; [constructor; [mine "/d"|constructor]|vm_compute; repeat split]].
  intros i es mt mo H n j Hj. destruct i as [|[|[|i]]]; vm_compute in H; try discriminate H.
  - injection H as <- _ _. destruct Hj as [E|[]]. injection E as <- _. vm_compute. intuition discriminate.
  - injection H as <- _ _. destruct Hj as [E|[]]. injection E as <- _. vm_compute. intuition discriminate.
  - injection H as <- _ _. destruct Hj.
Qed.
Example C110_first_witness :
  hostless (u_key (nu "memory://sue@/d")) /\ (forall i, ~ open_as (n_reg (fst both_open)) (u_key (nu "memory://sue@/d")) i)
  /\ fst (net_call (CUri 5 (UListdir (nu "memory://sue@/"))) both_open) = Ok (ANames []) /\ fst (do_call (CUri 5 (UListdir (nu "memory://sue@/"))) (fresh (fst both_open), [])) = Ok (ANames []).
Proof.
  split; [vm_compute; auto|]. split; [|vm_compute; repeat split].
  intros i (k & S & I). vm_compute in I. destruct I as [E|[E|[]]]; injection E as <- _; destruct S as (_ & _ & _ & S & _); vm_compute in S; discriminate S.
Qed.
Print Assumptions C110_reachable.
Print Assumptions C110_call.
Print Assumptions C110_first.

(** ** C111 *)
(** A program that works on the connection of [a] gets what it would get if it had the file system for itself, whatever
    is done to other connections in between, by calls, through open files and by clean-ups. *)
Theorem C111_apart {X} a u c (p : prog X) N ho x : net_reach (N, ho) -> authority a -> ours a u -> open_as (n_reg N) (u_key u) c -> (forall i, tidy (fs_of N i)) ->
  (forall h, In h ho -> fst h <> c) -> prog_in a p -> woven a p N [] ho x -> x = fst (run p (fs_of N c, [])).
Proof.
  intros H A O Hc Td Ho P W. apply net_reach_ok in H. destruct H as [K Lt]. pose proof (served_open a 0 N u c A K O Hc) as S.
  apply (woven_live a X p N [] ho x _ A W P).
  - constructor; auto; [intros i; apply tidy_nodes, Td|]. apply Forall_forall. intros h Hh v Ov. rewrite (proj2 S v Ov). intros E. injection E as E. now apply (Ho h Hh).
  - exists c, []. split; [exact S|]. split; [reflexivity|]. split; [|now exists u]. split; [constructor|]. cbn. pose proof (MemFacts9.reachable_wf _ (ok_fs _ _ K c)) as Wf.
    constructor; auto; [now intros q|intros w []|intros w w' []].
Qed.
(** The same for a program that is the first to use the connection: it starts with an empty file system. *)
Theorem C111_first {X} a u k (f : res answer -> prog X) N ho x : net_reach (N, ho) -> authority a -> first_uri k = Some u -> hostless (u_key u) ->
  (forall i, ~ open_as (n_reg N) (u_key u) i) -> (forall i, tidy (fs_of N i)) -> prog_in a (Call k f) -> woven a (Call k f) N [] ho x ->
  x = fst (run (Call k f) (init_mem (r_now (n_reg N)) 0, [])).
Proof.
  intros H A Fu Hl Nn Td P W. apply net_reach_ok in H. destruct H as [K Lt]. cbn [fst snd] in K, Lt. inversion P as [|? ? I Pf]; subst. pose proof (call_first a k u I Fu) as O.
  apply (woven_new a X k f N ho x u A W P); auto. constructor; auto; [intros i; apply tidy_nodes, Td|]. apply Forall_forall. intros h Hh v Ov.
  rewrite (ours_key a A v u Ov O). rewrite (proj1 (open_none _ _ (ok_reg _ _ K)) Nn). discriminate.
Qed.
(** joe writes and lists; in between someone else makes and removes a directory of the same name, and the
    connection of "memory:///", not used for long, is dropped. *)
Definition joes : prog (res answer) :=
  Call (COpen (nu "memory://joe@/d/g") (Some (lit "wb"))) (fun _ => Call (CWrite 0 (VBytes (lit "q"))) (fun _ => Call (CUri 5 (UListdir (nu "memory://joe@/d"))) Done)).
Lemma away_user a b u v : authority a -> authority b -> ours a u -> ours b v -> k_user (u_key u) <> k_user (u_key v) -> away a b.
Proof.
  intros A B Ou Ov D x y Ox Oy (_ & _ & _ & E & _). rewrite (ours_key a A x u Ox Ou), (ours_key b B y v Oy Ov) in E. contradiction.
Qed.
Definition wn : nsession := fold_left (fun σ e => net_event e σ) [NCall (CTick 2000); NCall (CUri 5 (UExists (nu "memory://joe@/")))] both_open.
Lemma step_mine a {X} k (f : res answer -> prog X) N hs ho x :
  woven a (f (fst (net_call k (N, hs)))) (fst (snd (net_call k (N, hs)))) (snd (snd (net_call k (N, hs)))) ho x -> woven a (Call k f) N hs ho x.
Proof. destruct (net_call k (N, hs)) as [r [N' hs']] eqn:E. intros W. exact (wv_mine a k f N hs ho r N' hs' x E W). Qed.
Lemma step_other a {X} k (p : prog X) N hs ho x : call_elsewhere a k ->
  woven a p (fst (snd (net_call k (N, ho)))) hs (snd (snd (net_call k (N, ho)))) x -> woven a p N hs ho x.
Proof. intros C. destruct (net_call k (N, ho)) as [r [N' ho']] eqn:E. intros W. exact (wv_other a k p N hs ho r N' ho' x C E W). Qed.
Lemma step_clean a {X} force (p : prog X) N hs ho x : (forall u c, ours a u -> open_as (n_reg N) (u_key u) c -> ~ due force (n_reg N) c) ->
  woven a p (snd (net_cleanup force N)) hs ho x -> woven a p N hs ho x.
Proof. intros C. destruct (net_cleanup force N) as [r N'] eqn:E. intros W. exact (wv_clean a force p N hs ho r N' x C E W). Qed.
Lemma step_done a {X} (x y : X) N hs ho : x = y -> woven a (Done x) N hs ho y.
Proof. intros ->. constructor. Qed.
Example C111_witness : prog_in (lit "joe@") joes /\ away (lit "joe@") [] /\ woven (lit "joe@") joes (fst wn) [] [] (Ok (ANames [lit "f"; lit "g"]))
  /\ fst (run joes (fs_of (fst wn) 0, [])) = Ok (ANames [lit "f"; lit "g"]).
Proof.
  assert (J : authority (lit "joe@")) by auth. assert (Nn : authority []) by auth.
  assert (Aw : away (lit "joe@") []). { apply (away_user _ _ (nu "memory://joe@/d") (nu "memory:///d")); auto; [mine "/d"|mine "/d"|vm_compute; discriminate]. }
  split; [|split; [exact Aw|split; [|vm_compute; reflexivity]]].
  - constructor; [mine "/d/g"|]. intros _ _. constructor; [exact Logic.I|]. intros _ _. constructor; [constructor; [mine "/d"|constructor]|]. intros r _. constructor.
  - apply (step_clean _ false).
    { intros u c Ou (k & S & I). rewrite (ours_key _ J u (nu "memory://joe@/d") Ou) in S by mine "/d". vm_compute in I. destruct I as [E|[E|[]]]; injection E as <- <-.
      - intros [X|X]; [discriminate X|]. vm_compute in X. discriminate X.
      - destruct S as (_ & _ & _ & S & _). vm_compute in S. discriminate S. }
    apply (step_other _ (CUri 5 (UMkdir (nu "memory:///d")))); [constructor; [exists []; split; [exact Nn|split; [exact Aw|mine "/d"]]|constructor]|].
    apply step_mine.
    apply (step_other _ (COpen (nu "memory:///d/h") (Some (lit "wb")))); [exists []; split; [exact Nn|split; [exact Aw|mine "/d/h"]]|].
    apply step_mine.
    apply (step_other _ (CUri 5 (URemove true (nu "memory:///d")))); [constructor; [exists []; split; [exact Nn|split; [exact Aw|mine "/d"]]|constructor]|].
    apply step_mine, step_done. vm_compute. reflexivity.
Qed.
Print Assumptions C111_apart.
Print Assumptions C111_first.

(** ** C112 *)
(** Files in a memory file system last as long as the process: false.  A clean-up, which a thread of the registry does
    every five minutes, drops connections not used for half an hour, and the next use of the URI finds an empty file system. *)
Theorem C112_refuted : exists now l u, let σ := fold_left (fun σ e => net_event e σ) l (init_net 1800 now, []) in
  fst (net_call (CUri 5 (UIsfile u)) σ) = Ok (ABool true) /\ let σ' := net_event (NClean false) (net_event (NCall (CTick (now + 1801))) σ) in
  fst (net_call (CUri 5 (UIsfile u)) σ') = Ok (ABool false) /\ fst (net_call (CTell 0) σ') = Ok (ANat 3).
Proof.
  exists 7%Z, [NCall (COpen (nu "memory:///f") (Some (lit "wb"))); NCall (CWrite 0 (VBytes (lit "xyz")))], (nu "memory:///f"). vm_compute. repeat split.
Qed.
(** Exactly: the connections that are due are gone, so that the next use of their URIs is a first use (C110_first); the
    file systems stay as they are for the files that are open. *)
Theorem C112_dropped force N hs k c : net_reach (N, hs) -> open_as (n_reg N) k c -> due force (n_reg N) c ->
  (forall i, ~ open_as (n_reg (snd (net_cleanup force N))) k i) /\ (forall i, fs_of (snd (net_cleanup force N)) i = fs_of N i).
Proof.
  intros H Hc D. apply net_reach_ok in H. destruct H as [K _]. cbn [fst] in K. pose proof (ok_reg _ _ K) as G. unfold net_cleanup.
  rewrite (cleanup_is force (fun _ => false) (n_reg N) (ri_uniq _ G)). cbn [snd n_reg r_conns]. split; [|reflexivity].
  intros i (k' & S & I). cbn [r_conns] in I. apply filter_In in I. destruct I as [I X]. assert (i = c) as -> .
  { apply open_kget in Hc; [|exact G]. assert (Hi : kget k (r_conns (n_reg N)) = Some i) by (apply open_kget; [exact G|now exists k']). congruence. }
  unfold keep in X. cbn [snd] in X. apply dueb_due in D. rewrite D in X. discriminate.
Qed.
(** Any other connection is still there, and its file system too. *)
Theorem C112_kept_partial force N hs k c : net_reach (N, hs) -> open_as (n_reg N) k c -> ~ due force (n_reg N) c ->
  open_as (n_reg (snd (net_cleanup force N))) k c /\ (forall i, fs_of (snd (net_cleanup force N)) i = fs_of N i).
Proof.
  intros H (k' & S & I) D. apply net_reach_ok in H. destruct H as [K _]. cbn [fst] in K. pose proof (ok_reg _ _ K) as G. unfold net_cleanup.
  rewrite (cleanup_is force (fun _ => false) (n_reg N) (ri_uniq _ G)). cbn [snd n_reg]. split; [|reflexivity]. exists k'. split; [exact S|]. cbn [r_conns]. apply filter_In. split; [exact I|].
  unfold keep. cbn [snd]. destruct (dueb force (n_reg N) (r_now (n_reg N)) c) eqn:E; [|reflexivity]. destruct D. now apply dueb_due.
Qed.
(** Reading and writing open files is not a use of the connection. *)
Theorem C112_handles k N hs r N' hs' : first_uri k = None -> (forall t, k <> CTick t) -> net_call k (N, hs) = (r, (N', hs')) -> n_reg N' = n_reg N /\ hs' = hs.
Proof.
  intros F NT E. assert (X : forall j f, on_nhandle j f (N, hs) = (r, (N', hs')) -> n_reg N' = n_reg N /\ hs' = hs).
  { intros j f. unfold on_nhandle. cbn [fst snd]. destruct (nth_error hs j) as [[c h]|]; [|intros E1; injection E1 as <- <- <-; now split].
    unfold on_net. cbn [fst snd]. pose proof (at_next c (f h) N) as G. destruct (at_conn c (f h) N). intros E1. injection E1 as <- <- <-. now split. }
  destruct k; try discriminate; cbn [net_call] in E; try exact (X _ _ E). now destruct (NT now).
Qed.
Example C112_witness : let σ := net_event (NCall (CTick 2000)) both_open in
  net_reach σ /\ open_as (n_reg (fst σ)) (u_key (nu "memory://joe@/")) 0 /\ due false (n_reg (fst σ)) 0 /\ open_as (n_reg (fst wn)) (u_key (nu "memory://joe@/")) 0 /\ ~ due false (n_reg (fst wn)) 0.
Proof.
  assert (S : same_key (u_key (nu "memory://joe@/")) (u_key (nu "memory://joe@/d"))) by (vm_compute; repeat split; auto).
  split; [|split; [exists (u_key (nu "memory://joe@/d")); split; [exact S|vm_compute; now left]|split; [right; vm_compute; reflexivity|split; [exists (u_key (nu "memory://joe@/d")); split; [exact S|vm_compute; now left]|]]]].
  - exists 1800%Z, 7%Z. eexists. unfold both_open. match goal with |- net_event ?e (fold_left ?f ?l ?i) = _ => instantiate (1 := l ++ [e]); now rewrite fold_left_app end.
  - intros [X|X]; [discriminate X|]. vm_compute in X. discriminate X.
Qed.
(** A program that starts with an empty file system and calls some method of a URI there at least once in every
    clean_timeout before a clean-up never loses a file: it gets what it would get alone, whatever is done to other
    connections in between and whenever the cleaner thread cleans up. *)
Theorem C112_used_partial {X} a u t k (f : res answer -> prog X) N ho x : net_reach (N, ho) -> authority a -> first_uri k = Some u -> hostless (u_key u) ->
  (forall i, ~ open_as (n_reg N) (u_key u) i) -> (forall i, tidy (fs_of N i)) -> prog_in a (Call k f) -> timely a t (Call k f) N [] ho x ->
  x = fst (run (Call k f) (init_mem (r_now (n_reg N)) 0, [])).
Proof.
  intros H A Fu Hl Nn Td P W. apply net_reach_ok in H. destruct H as [K Lt]. cbn [fst snd] in K, Lt. inversion P as [|? ? I Pf]; subst. pose proof (call_first a k u I Fu) as O.
  apply (timely_new a X t k f N ho x u A W P); auto. constructor; auto; [intros i; apply tidy_nodes, Td|]. apply Forall_forall. intros h Hh v Ov.
  rewrite (ours_key a A v u Ov O). rewrite (proj1 (open_none _ _ (ok_reg _ _ K)) Nn). discriminate.
Qed.
(** Touched every 1700 seconds, with a clean-up each time, the directory stays. *)
Definition touching : prog (list (res answer)) :=
  Call (CUri 5 (UMkdir (nu "memory://joe@/d"))) (fun r1 => Call (CTick 1707) (fun _ => Call (CUri 5 (UExists (nu "memory://joe@/e"))) (fun r2 =>
  Call (CTick 3407) (fun _ => Call (CUri 5 (UIsdir (nu "memory://joe@/d"))) (fun r3 => Done [r1; r2; r3]))))).
Lemma timely_mine {X} a t k (f : res answer -> prog X) N hs ho x : let s := net_call k (N, hs) in
  timely a (match first_uri k with Some _ => Some (r_now (n_reg N)) | None => t end) (f (fst s)) (fst (snd s)) (snd (snd s)) ho x -> timely a t (Call k f) N hs ho x.
Proof. cbv zeta. apply tm_mine. now destruct (net_call k (N, hs)) as [r [N' hs']]. Qed.
Lemma timely_clean {X} a t (p : prog X) N hs ho x : (forall t0, t = Some t0 -> (r_now (n_reg N) - t0 <= r_timeout (n_reg N))%Z) ->
  timely a t p (snd (net_cleanup false N)) hs ho x -> timely a t p N hs ho x.
Proof. intros D. apply (tm_clean a t p N hs ho (fst (net_cleanup false N))); [exact D|]. now destruct (net_cleanup false N). Qed.
Lemma timely_done {X} a t (p : prog X) N hs ho x : p = Done x -> timely a t p N hs ho x. Proof. intros ->. constructor. Qed.
Example C112_used_witness : prog_in (lit "joe@") touching /\ timely (lit "joe@") None touching (init_net 1800 7) [] [] [Ok AUnit; Ok (ABool false); Ok (ABool true)].
Proof.
  split.
  - constructor; [constructor; [mine "/d"|constructor]|]. intros r1 _. constructor; [exact Logic.I|]. intros _ _. constructor; [constructor; [mine "/e"|constructor]|]. intros r2 _.
    constructor; [exact Logic.I|]. intros _ _. constructor; [constructor; [mine "/d"|constructor]|]. intros r3 _. constructor.
  - apply timely_clean; [discriminate|]. apply timely_mine, timely_mine, timely_clean; [intros t0 E; injection E as <-; vm_compute; discriminate|].
    apply timely_mine, timely_mine, timely_clean; [intros t0 E; injection E as <-; vm_compute; discriminate|]. apply timely_mine, timely_done. vm_compute. reflexivity.
Qed.
Print Assumptions C112_refuted.
Print Assumptions C112_used_partial.
Print Assumptions C112_dropped.
Print Assumptions C112_kept_partial.
Print Assumptions C112_handles.

(** ** C113 *)
(** A memory URI with a host: every method raises AssertionError, and nothing changes, not even the registry. *)
Theorem C113_host a u k N hs0 hs : net_reach (N, hs0) -> authority a -> first_uri k = Some u -> ours a u -> ~ hostless (u_key u) ->
  net_call k (N, hs) = (Raise AssertionError, (N, hs)).
Proof.
  intros H A Fu O Ho. apply net_reach_ok in H. destruct H as [K _]. cbn [fst] in K.
  pose proof (starts_call k u hs N Fu) as Sc. destruct (connect_ours a 0 u N A K O) as [c Hc|H1 H2|c N1 H1 H2 H3 H4 H5]; [|exact Sc|contradiction].
  destruct Hc as (k' & S & Ik). pose proof (ok_host _ _ K k' c Ik) as Hn. apply factory_hostless in Hn. destruct Ho. destruct S as (_ & S & _). unfold hostless in *. now rewrite S.
Qed.
Example C113_witness : authority (lit "joe@box") /\ ours (lit "joe@box") (nu "memory://joe@box/d") /\ ~ hostless (u_key (nu "memory://joe@box/d")).
Proof. split; [auth|]. split; [mine "/d"|]. vm_compute. intros [H|H]; discriminate. Qed.
Print Assumptions C113_host.

(** ** C114 *)
(** The authority of a memory URI says which file system, and nothing else: false.  makedirs() asks for the parent, and
    that of "memory://joe@/d" is "memory://joe@", which has no path. *)
Theorem C114_refuted : exists l, let σ := fold_left (fun σ e => net_event e σ) l (init_net 1800 7, []) in
  fst (net_call (CUri 9 (UMakedirs (nu "memory:///d/e"))) σ) = Ok AUnit /\ fst (net_call (CUri 9 (UMakedirs (nu "memory://joe@/d/e"))) σ) = Raise AssertionError
  /\ fst (net_call (CUri 9 (UListdir (nu "memory:///"))) σ) = Ok (ANames []) /\ fst (net_call (CUri 9 (UListdir (nu "memory://joe@/"))) σ) = Ok (ANames []).
Proof. exists []. vm_compute. repeat split. Qed.
(** For the methods that need neither the parent nor joined names: two URIs with one path, whatever else they consist of,
    get the same answer from one file system and do the same to it. *)
Theorem C114_path_partial fuel o o' u v s : u_path u = u_path v -> uop_uri o = u -> at_uri v o = Some o' ->
  (forall p, u_path u = cSlash :: p -> callback_at s p = None) -> ask fuel o s = ask fuel o' s.
Proof. intros E U H Q. exact (path_ask u v E s Q fuel o o' U H). Qed.
Example C114_witness : u_path (nu "memory://joe@/d") = u_path (nu "memory:///d")
  /\ at_uri (nu "memory:///d") (UMkdir (nu "memory://joe@/d")) = Some (UMkdir (nu "memory:///d"))
  /\ fst (ask 5 (UMkdir (nu "memory://joe@/d")) (init_mem 7 0)) = Ok AUnit.
Proof. vm_compute. repeat split. Qed.
(** For all methods but symlink() and the callbacks of _manipulate(), which keep a URI: on one file system without
    callbacks, URIs written with another authority have the same effect, and answers that differ at most in the authority
    of the URIs in them.  copy() and move() of the root, which has no name, are left out; and the methods that make the
    directories above need two authorities that are not empty. *)
Theorem C114_all_partial a b fuel o f s : authority a -> authority b -> (forall u, In u (uris_of o) -> rewritten a b u (f u)) ->
  ~ keeps_uri o -> ~ names_root o -> (goes_up o -> a <> [] /\ b <> []) -> tidy s -> (forall p, callback_at s p = None) ->
  snd (ask fuel o s) = snd (ask fuel (map_uris f o) s) /\ rewritten_result a b (fst (ask fuel o s)) (fst (ask fuel (map_uris f o) s)).
Proof. exact (two_authorities a b fuel o f s). Qed.
Definition as_ann (u : uri) : uri := match URI (lit "memory://ann@" ++ u_path u) cSlash [] with Ok v => v | Raise _ => u end.
Definition made_de : mst := snd (ask 9 (UMakedirs (nu "memory://joe@/d/e")) (snd (ask 9 (UMkdir (nu "memory://joe@/d")) (init_mem 7 0)))).
Example C114_all_witness : let o := UGlob (nu "memory://joe@/d") (lit "*") in
  authority (lit "joe@") /\ authority (lit "ann@") /\ (forall u, In u (uris_of o) -> rewritten (lit "joe@") (lit "ann@") u (as_ann u)) /\ tidy made_de /\ (forall p, callback_at made_de p = None)
  /\ fst (ask 9 (UMakedirs (nu "memory://joe@/d/e/f")) made_de) = Ok AUnit /\ fst (ask 9 o made_de) = Ok (AUris [nu "memory://joe@/d/e"])
  /\ fst (ask 9 (map_uris as_ann o) made_de) = Ok (AUris [nu "memory://ann@/d/e"]).
Proof.
  split; [auth|]. split; [auth|]. split.
  { intros u [<-|[]]. exists (lit "/d"). split; [vm_compute; intuition discriminate|]. split; [right; eexists; reflexivity|]. vm_compute. now split. }
  split; [|split; [intros p; vm_compute; reflexivity|vm_compute; repeat split]].
  intros i es mt mo H n j Hj. destruct i as [|[|[|i]]]; vm_compute in H; try discriminate H; injection H as <- _ _; try (destruct Hj; fail); destruct Hj as [E|[]]; injection E as <- _; vm_compute; intuition discriminate.
Qed.
Print Assumptions C114_refuted.
Print Assumptions C114_path_partial.
Print Assumptions C114_all_partial.
