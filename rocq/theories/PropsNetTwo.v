(** Theorems on calls whose URIs belong to two memory connections (C157). *)
From Coq Require Import Lia.
From Verif Require Import Str Exc Utf8 UriParse BaseUri SpecUri Mem MemOps SpecMem Generic SpecGen UriOps Prog Registry SpecReg RegFacts RegFacts2
  MemFacts MemFacts2 MemFacts3 MemFacts4 MemFacts5 MemFacts6 MemFacts7 MemFacts9 World Net Pair SpecNet SpecNetTwo NetFacts NetFacts2 NetFacts3 NetFacts4 NetFacts5 NetFacts11 NetFacts12.
From Verif Require PropsMem PropsNet.
Open Scope string_scope. Open Scope list_scope.

(** Copying and moving with URIs of the connections [c] and [d]: as on these two file systems alone (World.v), where
    [side] tells the URIs of the one from those of the other; nothing else changes but the times [c] and [d] were last
    used. *)
Theorem C157_copy a b c d side N hs0 hs u0 v0 : net_reach (N, hs0) -> authority a -> authority b -> ours a u0 -> ours b v0 ->
  open_as (n_reg N) (u_key u0) c -> open_as (n_reg N) (u_key v0) d -> c <> d -> tidy (fs_of N c) -> tidy (fs_of N d) ->
  (forall u, ours a u -> side u = true) -> (forall u, ours b u -> side u = false) ->
  forall fuel recursive ignore followlinks u v, ours a u \/ ours b u -> ours a v \/ ours b v ->
  forall r s t, u_copy (world mem_backend mem_backend mem_fetch mem_put mem_fetch mem_put side) fuel recursive ignore followlinks u v (fs_of N c, fs_of N d) = (r, (s, t)) ->
  exists N', net_call (CUri fuel (UCopy recursive ignore followlinks u v)) (N, hs) = (match r with Ok _ => Ok AUnit | Raise e => Raise e end, (N', hs)) /\
    fs_of N' c = s /\ fs_of N' d = t /\ framed2 c d N N' /\ tidy s /\ tidy t.
Proof.
  intros H A B Oa Ob Hc Hd D Tc Td Sa Sb fuel rc ig fl u v Pu Pv r s t E. apply net_reach_ok in H. destruct H as [K _]. cbn [fst] in K.
  pose proof (served_open a 0 N u0 c A K Oa Hc) as Va. pose proof (served_open b 0 N v0 d B K Ob Hd) as Vb.
  assert (R0 : R2 c d N (fs_of N c, fs_of N d) N).
  { pose proof (reachable_wf _ (ok_fs _ _ K c)) as Wc. pose proof (reachable_wf _ (ok_fs _ _ K d)) as Wd. apply tidy_nodes in Tc, Td.
    exact (conj eq_refl (conj eq_refl (conj (framed2_refl c d N) (conj Tc (conj Td (conj Wc Wd)))))). }
  destruct (copy2 a b c d N side A B Va Vb D Sa Sb fuel rc ig fl u v Pu Pv _ _ R0) as (E1 & (F1 & F2 & F3 & F4 & F5 & _) & _).
  change (two side) with (world mem_backend mem_backend mem_fetch mem_put mem_fetch mem_put side) in *. rewrite E in *. cbn [fst snd] in *.
  cbn [net_call net_ask]. unfold on_net, nanswered, bind. cbn [fst snd]. destruct (u_copy net_backend fuel rc ig fl u v N) as [r' N']. cbn [fst snd] in *. subst r'.
  exists N'. split; [now destruct r|]. split; [exact F1|]. split; [exact F2|]. split; [exact F3|]. split; now apply tidy_nodes.
Qed.
Theorem C157_move a b c d side N hs0 hs u0 v0 : net_reach (N, hs0) -> authority a -> authority b -> ours a u0 -> ours b v0 ->
  open_as (n_reg N) (u_key u0) c -> open_as (n_reg N) (u_key v0) d -> c <> d -> tidy (fs_of N c) -> tidy (fs_of N d) ->
  (forall u, ours a u -> side u = true) -> (forall u, ours b u -> side u = false) ->
  forall fuel u v, ours a u \/ ours b u -> ours a v \/ ours b v ->
  forall r s t, u_move (world mem_backend mem_backend mem_fetch mem_put mem_fetch mem_put side) fuel u v (fs_of N c, fs_of N d) = (r, (s, t)) ->
  exists N', net_call (CUri fuel (UMove u v)) (N, hs) = (match r with Ok _ => Ok AUnit | Raise e => Raise e end, (N', hs)) /\
    fs_of N' c = s /\ fs_of N' d = t /\ framed2 c d N N' /\ tidy s /\ tidy t.
Proof.
  intros H A B Oa Ob Hc Hd D Tc Td Sa Sb fuel u v Pu Pv r s t E. apply net_reach_ok in H. destruct H as [K _]. cbn [fst] in K.
  pose proof (served_open a 0 N u0 c A K Oa Hc) as Va. pose proof (served_open b 0 N v0 d B K Ob Hd) as Vb.
  assert (R0 : R2 c d N (fs_of N c, fs_of N d) N).
  { pose proof (reachable_wf _ (ok_fs _ _ K c)) as Wc. pose proof (reachable_wf _ (ok_fs _ _ K d)) as Wd. apply tidy_nodes in Tc, Td.
    exact (conj eq_refl (conj eq_refl (conj (framed2_refl c d N) (conj Tc (conj Td (conj Wc Wd)))))). }
  destruct (move2 a b c d N side A B Va Vb D Sa Sb fuel u v Pu Pv _ _ R0) as (E1 & (F1 & F2 & F3 & F4 & F5 & _) & _).
  change (two side) with (world mem_backend mem_backend mem_fetch mem_put mem_fetch mem_put side) in *. rewrite E in *. cbn [fst snd] in *.
  cbn [net_call net_ask]. unfold on_net, nanswered, bind. cbn [fst snd]. destruct (u_move net_backend fuel u v N) as [r' N']. cbn [fst snd] in *. subst r'.
  exists N'. split; [now destruct r|]. split; [exact F1|]. split; [exact F2|]. split; [exact F3|]. split; now apply tidy_nodes.
Qed.
(** The users tell the connections apart: the file systems are those of the theorems on [mem_mem]. *)
Theorem C157_users a b u v : authority a -> authority b -> ours a u -> ours b v -> k_user (u_key u) <> k_user (u_key v) ->
  let side := fun x => opt_eqb (u_user x) (k_user (u_key u)) in
  (forall x, ours a x -> side x = true) /\ (forall x, ours b x -> side x = false) /\
  world mem_backend mem_backend mem_fetch mem_put mem_fetch mem_put side = mem_mem (k_user (u_key u)).
Proof.
  intros A B Ou Ov N. cbn zeta.
  assert (Eo : forall p q : option str, opt_eqb p q = true <-> p = q).
  { intros [p|] [q|]; cbn; split; try easy; [intros E; f_equal; now apply StrFacts.str_eqb_eq|intros E; injection E as ->; apply StrFacts.str_eqb_refl]. }
  split; [|split; [|reflexivity]].
  - intros x Ox. apply Eo. rewrite <- (ours_key a A x u Ox Ou). reflexivity.
  - intros x Ox. destruct (opt_eqb (u_user x) (k_user (u_key u))) eqn:E; [|reflexivity]. apply Eo in E. exfalso. apply N. rewrite <- E, <- (ours_key b B x v Ox Ov). reflexivity.
Qed.
(** A file goes from [c] to [d] with its content, and nothing else there changes.  Its times and permissions do not: the
    code sets them on what has the destination's path in the source's own file system, and if nothing has, it raises an
    error although the copy is there. *)
Theorem C157_file a b c d N hs0 hs u v cu cv p data mt mo fuel ignore followlinks o : net_reach (N, hs0) -> authority a -> authority b -> ours a u -> ours b v ->
  open_as (n_reg N) (u_key u) c -> open_as (n_reg N) (u_key v) d -> c <> d -> tidy (fs_of N c) -> tidy (fs_of N d) -> silent (fs_of N c) -> silent (fs_of N d) ->
  addr u cu -> view (fs_of N c) cu = Some (EFile data mt mo) -> addr v cv -> writable (view (fs_of N d)) v p -> leads (view (fs_of N c)) cv o ->
  exists r N', net_call (CUri fuel (UCopy false ignore followlinks u v)) (N, hs) = (r, (N', hs)) /\ framed2 c d N N' /\
    put_at (view (fs_of N d)) (view (fs_of N' d)) p (EFile data (r_now (n_reg N)) 0) /\
    match o with
    | Found q => r = Ok AUnit /\ exists e, view (fs_of N c) q = Some e /\ put_at (view (fs_of N c)) (view (fs_of N' c)) q (with_attrs e mt mo)
    | _ => r = Raise (err_of o) /\ same_tree (view (fs_of N c)) (view (fs_of N' c))
    end.
Proof.
  intros H A B Ou Ov Hc Hd D Tc Td Qc Qd Au Eu Av Wr Lo. pose proof (net_reach_ok _ H) as [K _]. cbn [fst] in K.
  set (side := fun x => key_eqb (u_key x) (u_key u)).
  assert (Sa : forall x, ours a x -> side x = true) by (intros x Ox; unfold side; rewrite (ours_key a A x u Ox Ou); apply key_eqb_refl).
  assert (Nk : key_eqb (u_key v) (u_key u) = false).
  { destruct (key_eqb (u_key v) (u_key u)) eqn:E; [|reflexivity]. exfalso. apply D. apply key_eqb_eq in E. pose proof (ok_reg _ _ K) as G.
    apply open_kget in Hc; [|exact G]. apply open_kget in Hd; [|exact G]. rewrite (kget_same _ _ _ E) in Hd. congruence. }
  assert (Sb : forall x, ours b x -> side x = false) by (intros x Ox; unfold side; now rewrite (ours_key b B x v Ox Ov)).
  pose proof (reachable_wf _ (ok_fs _ _ K c)) as Wc. pose proof (reachable_wf _ (ok_fs _ _ K d)) as Wd.
  assert (Sc : u_scheme u = u_scheme v).
  { pose proof (proj1 (key_plain a A u Ou)) as E1. pose proof (proj1 (key_plain b B v Ov)) as E2. cbn in E1, E2. congruence. }
  destruct (file_two side (fs_of N c) (fs_of N d) u v cu p data mt mo fuel ignore followlinks Wc Wd Qc Qd (Sa u Ou) (Sb v Ov) Sc Au Eu Wr) as (s1 & t1 & W1 & Tr & Pt & E).
  destruct (mem_copystat u v s1) as [r s2] eqn:Ec.
  destruct (C157_copy a b c d side N hs0 hs u v H A B Ou Ov Hc Hd D Tc Td Sa Sb fuel false ignore followlinks u v (or_introl Ou) (or_intror Ov) _ _ _ E) as (N' & En & F1 & F2 & F3 & _).
  exists (match r with Ok _ => Ok AUnit | Raise e => Raise e end), N'. split; [exact En|]. split; [exact F3|]. rewrite F1, F2. split; [exact Pt|].
  assert (Lu : leads (view s1) cu (Found cu)) by (apply (WorldFacts3.real_leads s1); left; rewrite Tr, Eu; repeat eexists).
  assert (Lv : leads (view s1) cv o) by exact (MemFacts7.leads_shape _ _ _ _ (MemFacts7.same_shape_same _ _ Tr) Lo).
  assert (Nf : (forall q, o <> Found q) -> r = Raise (err_of o) /\ s2 = s1).
  { intros X. pose proof (MemFacts4.run_lookup_fail s1 W1 v cv o Av Lv X) as Y. unfold mem_copystat, bind in Ec.
    destruct (MemFacts4.run_lookup_found s1 W1 u cu cu Au Lu) as (i & _ & Z & _). rewrite Z, Y in Ec. injection Ec as <- <-. now split. }
  destruct o as [q| | | | |]; try (destruct Nf as [-> ->]; [discriminate|]; split; [reflexivity|exact Tr]).
  destruct (leads_phys (m_heap s1) (m_next s1) W1 cv q Lv) as (j & Pj & _).
  pose proof (view_node s1 q j Pj) as Vj.
  destruct (copystat_spec s1 W1 u v cu q (EFile data mt mo) (entry_of (m_heap s1 j))) as (s3 & R3 & _ & _ & P3); auto; [now exists cu|now exists cv|rewrite Tr; exact Eu|].
  rewrite R3 in Ec. injection Ec as <- <-. split; [reflexivity|]. exists (entry_of (m_heap s1 j)). split; [rewrite <- Tr; exact Vj|].
  destruct P3 as [P3 P4]. split; [exact P3|]. intros x Hx. rewrite <- Tr. now apply P4.
Qed.
(** copystat, symlink and sync with URIs of two connections: the connection of the first alone is used; the second one
    is a path in it. *)
Theorem C157_alone a b c N hs0 hs u v fuel o : net_reach (N, hs0) -> authority a -> authority b -> ours a u -> ours b v ->
  open_as (n_reg N) (u_key u) c -> tidy (fs_of N c) -> In o [UCopystat u v; USymlink u v; USync u v] ->
  forall r s, ask fuel o (fs_of N c) = (r, s) ->
  exists N', net_call (CUri fuel o) (N, hs) = (r, (N', hs)) /\ framed c N N' /\ fs_of N' c = s /\ tidy s.
Proof.
  intros H A B Ou Ov Hc Tc I r s E. apply net_reach_ok in H. destruct H as [K _]. cbn [fst] in K. pose proof (served_open a 0 N u c A K Ou Hc) as Va.
  assert (Nt : neat noq any (ask fuel o)).
  { destruct I as [<-|[<-|[<-|[]]]]; cbn [ask]; (apply (neat_bind noq any); [apply hooked_neat|intros ? _; now apply neat_ret]).
    - apply neat_copystat.
    - apply (neat_symlink noq noq_incl). now apply (path_noq b).
    - apply neat_raise. }
  assert (R0 : R c N (fs_of N c) N) by (split; [reflexivity|split; [apply framed_refl|now apply tidy_nodes]]).
  destruct (method_both a c N A Va any u (ask fuel o) Ou Nt _ _ R0) as (E1 & (F1 & F2 & F3) & _). rewrite E in *. cbn [fst snd] in *.
  assert (En : net_ask fuel o = method u (ask fuel o)) by (destruct I as [<-|[<-|[<-|[]]]]; reflexivity).
  cbn [net_call]. unfold on_net. cbn [fst snd]. rewrite En. destruct (method u (ask fuel o) N) as [r' N']. cbn [fst snd] in *. subst r'. exists N'.
  split; [reflexivity|]. split; [exact F2|]. split; [exact F1|now apply tidy_nodes].
Qed.
Print Assumptions C157_copy.
Print Assumptions C157_move.
Print Assumptions C157_users.
Print Assumptions C157_file.
Print Assumptions C157_alone.
(** /d/f of joe's file system is copied to /g of the other one: it is there, and the call raises an error; to /d: it is
    there, and joe's /d has got the times of the file. *)
Definition two_open : nsession := PropsNet.both_open.
Example C157_witness :
  let u := PropsNet.nu "memory://joe@/d/f" in let v := PropsNet.nu "memory:///g" in let w := PropsNet.nu "memory:///d" in
  ours (lit "joe@") u /\ ours [] v /\ ours [] w /\ k_user (u_key u) <> k_user (u_key v) /\
  open_as (n_reg (fst two_open)) (u_key u) 0 /\ open_as (n_reg (fst two_open)) (u_key v) 1 /\ silent (fs_of (fst two_open) 0) /\ silent (fs_of (fst two_open) 1) /\
  tidy (fs_of (fst two_open) 0) /\ tidy (fs_of (fst two_open) 1) /\
  addr u [lit "d"; lit "f"] /\ view (fs_of (fst two_open) 0) [lit "d"; lit "f"] = Some (EFile (lit "xyz") 7 0) /\
  addr v [lit "g"] /\ writable (view (fs_of (fst two_open) 1)) v [lit "g"] /\ leads (view (fs_of (fst two_open) 0)) [lit "g"] Missing /\
  addr w [lit "d"] /\ writable (view (fs_of (fst two_open) 1)) w [lit "d"] /\ leads (view (fs_of (fst two_open) 0)) [lit "d"] (Found [lit "d"]) /\
  (let x := net_call (CUri 5 (UCopy false [] true u v)) two_open in fst x = Raise (OSError ENOENT) /\ view (fs_of (fst (snd x)) 1) [lit "g"] = Some (EFile (lit "xyz") 7 0)) /\
  (let x := net_call (CUri 5 (UMove u w)) two_open in
   fst x = Ok AUnit /\ view (fs_of (fst (snd x)) 1) [lit "d"] = Some (EFile (lit "xyz") 7 0) /\ view (fs_of (fst (snd x)) 0) [lit "d"; lit "f"] = None) /\
  (let x := net_call (CUri 5 (UCopystat u w)) two_open in fst x = Ok AUnit /\ fst (ask 5 (UCopystat u w) (fs_of (fst two_open) 0)) = Ok AUnit).
Proof.
  cbn zeta. split; [PropsNet.mine "/d/f"|]. split; [PropsNet.mine "/g"|]. split; [PropsNet.mine "/d"|]. split; [vm_compute; discriminate|].
  split; [exists (u_key (PropsNet.nu "memory://joe@/d")); split; [now repeat split|vm_compute; now left]|].
  split; [exists (u_key (PropsNet.nu "memory:///d")); split; [now repeat split|vm_compute; right; now left]|].
  split; [intros p cb x n I; vm_compute in I; tauto|]. split; [intros p cb x n I; vm_compute in I; tauto|].
  split.
  { intros i es mt mo H n j Hj. destruct i as [|[|[|i]]]; vm_compute in H; try discriminate H.
    - injection H as <- _ _. destruct Hj as [E|[]]. injection E as <- _. vm_compute. intuition discriminate.
    - injection H as <- _ _. destruct Hj as [E|[]]. injection E as <- _. vm_compute. intuition discriminate.
    - injection H as <- _ _. destruct Hj. }
  split.
  { intros i es mt mo H n j Hj. destruct i as [|i]; vm_compute in H; try discriminate H; injection H as <- _ _; destruct Hj. }
  assert (Ad : forall cs x, u_path x = abs_path cs -> Forall (fun c => existsb (N.eqb cSlash) c = false) cs -> cs <> [[]] -> addr x cs).
  { intros cs x E F Ne. split; [exact E|]. split; [|exact Ne]. eapply Forall_impl; [|exact F]. cbn. intros c Hc I. assert (T : existsb (N.eqb cSlash) c = true) by (apply existsb_exists; exists cSlash; split; [exact I|apply N.eqb_refl]). congruence. }
  assert (A1 : addr (PropsNet.nu "memory://joe@/d/f") [lit "d"; lit "f"]) by (apply Ad; [vm_compute; reflexivity|repeat constructor|discriminate]).
  assert (A2 : addr (PropsNet.nu "memory:///g") [lit "g"]) by (apply Ad; [vm_compute; reflexivity|repeat constructor|discriminate]).
  assert (A3 : addr (PropsNet.nu "memory:///d") [lit "d"]) by (apply Ad; [vm_compute; reflexivity|repeat constructor|discriminate]).
  assert (Wr : forall x n, addr x [n] -> view (fs_of (fst two_open) 1) [n] = None -> writable (view (fs_of (fst two_open) 1)) x [n]).
  { intros x n A E. apply wr_free. apply (pl_free _ x [] n []); [exact A|constructor|vm_compute; repeat eexists|exact E]. }
  split; [exact A1|]. split; [vm_compute; reflexivity|]. split; [exact A2|]. split; [apply Wr; [exact A2|vm_compute; reflexivity]|].
  split; [apply rs_missing; [vm_compute; repeat eexists|vm_compute; reflexivity]|].
  split; [exact A3|]. split; [apply Wr; [exact A3|vm_compute; reflexivity]|].
  split; [apply (WorldFacts3.real_leads (fs_of (fst two_open) 0)); right; vm_compute; repeat eexists|].
  split; [vm_compute; split; reflexivity|]. split; [vm_compute; repeat split; reflexivity|vm_compute; split; reflexivity].
Qed.
