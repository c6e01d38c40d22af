(** C166: copy() of a local file stopped before any of its system calls, and called again. *)
From Coq Require Import Lia Sorted.
From Verif Require Import Str Exc Utf8 UriParse BaseUri StrFacts Utf8Facts SpecUri Mem SpecMem MemOps Generic SpecGen UriOps.
From Verif Require Import UriFacts2 UriFacts3 MemFacts MemFacts2 MemFacts3 MemFacts4 MemFacts5 MemFacts6 MemFacts7 MemFacts9 MemUri MemFacts10 PropsMem.
From Verif Require Import GenFacts1 GenFacts2 GenFacts3 GenFacts4 GenFacts5 Enum PropsGeneric PropsCopy PropsWalk Fnmatch SpecFn.
From Verif Require Import Misc Posix Local SpecLocal Program LocalFacts1 LocalFacts2 LocalFacts3 LocalFacts4 LocalFacts5 LocalFacts6 LocalFacts7 LocalFacts8 LocalFacts9 LocalFacts10.
From Verif Require Import LocalFacts11 LocalFacts12 LocalFacts13 LocalFacts14 LocalFacts15 LocalFacts16 LocalFacts17 PropsLocal2.
From Verif Require Import PropsLocal3 LocProg LocSteps SpecPosix SpecStay LocalFacts18 StayFacts2 PropsRetry PropsRetry2 PropsRetry3 PropsSteps.
From Verif Require Resp LocTwin LocalFacts19.
From Coq Require Import String.
Open Scope nat_scope.
Open Scope list_scope.

Lemma gap_itself y q f d n : ordinary y -> plain_path q -> plook y f (abs_path q) = Ok (Gap d n) -> d ++ [n] = q.
Proof.
  intros O Pq E. destruct (ordinary_mirror y O) as (s & R & Q & Mi & Hl). assert (T : twin s y) by (split; auto; now apply reachable_wf).
  pose proof (look s y T q f Pq) as L. rewrite E in L. inversion L; now subst.
Qed.
Section Copy.
Variables (x : pst) (i : list str) (n : str) (q q' : list str).
Hypothesis Ox : ordinary x.
Hypothesis Pi : plain_path (i ++ [n]).
Hypothesis Pq : plain_path q.
Hypothesis Pq' : plain_path q'.
Hypothesis Hg : goes_to x n q q'.
Hypothesis Hw : is_file_at x q' \/ free_at x q'.
(** All is as it was but what is at the destination, which is a file or as it was *)
Definition copying (y : pst) : Prop :=
  ordinary y /\ p_cwd y = p_cwd x /\ p_now y = p_now x /\ p_umask y = p_umask x /\
  (forall z, z <> q' -> pget z (p_tree y) = pget z (p_tree x)) /\ (pget q' (p_tree y) = pget q' (p_tree x) \/ is_file_at y q').
Lemma copying_set y d mo mt : copying y -> sound (set_tree y (pset q' (PFile d mo mt) (p_tree y))) -> copying (set_tree y (pset q' (PFile d mo mt) (p_tree y))).
Proof.
  intros (O & A & B & C & D & _) S. split; [constructor|].
  - exact S.
  - intros r tg. cbn [p_tree set_tree]. rewrite pget_pset. destruct (path_eqb r q'); [discriminate|apply (or_unlinked _ O)].
  - intros r. cbn [p_tree set_tree]. rewrite pget_pset. destruct (path_eqb r q') eqn:E; [|apply (or_names _ O)]. apply path_eqb_spec in E as ->. intros _. exact Pq'.
  - split; [exact A|]. split; [exact B|]. split; [exact C|]. split; [|right; exists d, mo, mt; cbn [p_tree set_tree]; now rewrite pget_pset, path_eqb_refl].
    intros z N. cbn [p_tree set_tree]. rewrite pget_pset. destruct (path_eqb z q') eqn:E; [|now apply D]. apply path_eqb_spec in E. now subst.
Qed.
Lemma copying_open e : gives copying (fun r => r = q') (unless_stopped e (os_open_w (abs_path q'))).
Proof.
  intros [y [|k]] H; cbn [fst snd] in *; [split; [exact H|discriminate]|]. pose proof (resp_sound (os_open_w (abs_path q')) y (LocTwin.open_w_resp _) (or_sound _ (proj1 H))) as So.
  unfold unless_stopped. cbn [fst snd]. unfold os_open_w, refuse_slashed in *. rewrite slashed_abs in * by apply Pq'. unfold sys_open_w in *. destruct (plook y true (abs_path q')) as [[r [d mo mt|mo mt|tg]|d m]|z] eqn:L; cbn [fst snd] in *; try (split; [exact H|discriminate]).
  - apply (found_itself y q') in L; [|apply H|exact Pq']. subst r. split; [now apply copying_set|]. now intros a [= <-].
  - apply (gap_itself y q') in L; [|apply H|exact Pq']. rewrite L in *. split; [now apply copying_set|]. now intros a [= <-].
Qed.
Lemma copying_append b : holds copying (fd_append q' b).
Proof.
  intros y H. pose proof (resp_sound (fd_append q' b) y (LocTwin.append_resp _ _) (or_sound _ (proj1 H))) as So. unfold fd_append in *. cbn [snd] in *.
  destruct (pget q' (p_tree y)) as [[d mo mt| |]|]; try exact H. destruct b; [exact H|]. now apply copying_set.
Qed.
Lemma copying_stat s : holds copying (sh_copystat s (abs_path q')).
Proof.
  intros y H. pose proof (resp_sound (sh_copystat s (abs_path q')) y (LocTwin.copystat_resp _ _) (or_sound _ (proj1 H))) as So. unfold sh_copystat in *.
  destruct (plook y true s) as [[r en|]|]; cbn [snd] in *; try exact H; destruct (plook y true (abs_path q')) as [[r' en'|]|] eqn:L; cbn [snd] in *; try exact H.
  pose proof (look_spot y true _ _ L) as Sp. cbn in Sp. apply (found_itself y q') in L; [|apply H|exact Pq']. subst r'.
  assert (F : exists d mo mt, en' = PFile d mo mt).
  { destruct H as (_ & _ & _ & _ & _ & [E|(d & mo & mt & E)]); [|exists d, mo, mt; congruence]. destruct Hw as [(d & mo & mt & E')|[E' _]]; [exists d, mo, mt; congruence|congruence]. }
  destruct F as (d & mo & mt & ->). cbn [with_stat] in *. now apply copying_set.
Qed.
Lemma copying_isdir e : gives copying (fun b => b = true <-> is_dir_at x q) (unless_stopped e (path_isdir (abs_path q))).
Proof.
  intros [y [|k]] H; cbn [fst snd] in *; [split; [exact H|discriminate]|]. unfold unless_stopped. cbn [fst snd]. unfold path_isdir. rewrite test_run. cbn [fst snd]. split; [exact H|]. intros b [= <-].
  assert (E : is_dir_at x q <-> is_dir_at y q).
  { destruct H as (_ & _ & _ & _ & D & E). destruct (path_dec q q') as [->|N]; [|unfold is_dir_at; now rewrite (D q N)].
    split; intros (mo & mt & G); exfalso; [destruct Hw as [(? & ? & ? & E')|[E' _]]; congruence|]. destruct E as [E|(? & ? & ? & E)]; [|congruence]. destruct Hw as [(? & ? & ? & E')|[E' _]]; congruence. }
  rewrite E. unfold tests. split.
  - destruct (plook y true (abs_path q)) as [[r [| |]|]|] eqn:L; try discriminate. intros _. pose proof (look_spot y true _ _ L) as Sp. cbn in Sp. apply (found_itself y q) in L; [|apply H|exact Pq]. subst r. eexists _, _. exact Sp.
  - intros (mo & mt & G). rewrite (look_at y (or_sound _ (proj1 H)) true q _ (pp_names _ Pq) G); [reflexivity|discriminate].
Qed.
Lemma copying_nolink e s : gives copying (fun b => b = false) (unless_stopped e (path_islink s)).
Proof.
  intros [y [|k]] H; cbn [fst snd] in *; [split; [exact H|discriminate]|]. unfold unless_stopped. cbn [fst snd]. unfold path_islink. rewrite test_run. cbn [fst snd]. split; [exact H|]. intros b [= <-].
  unfold tests. destruct (plook y false s) as [[r [| |tg]|]|] eqn:L; try reflexivity. pose proof (look_spot y false _ _ L) as Sp. cbn in Sp. now apply (or_unlinked _ (proj1 H)) in Sp.
Qed.
Lemma copying_kept e fuel ig fl : kept copying (u_copy (st_backend (@unless_stopped e)) fuel false ig fl (file_uri (i ++ [n])) (file_uri q)).
Proof.
  unfold u_copy, hooked. apply kept_bind; [apply kept_ret|]. intros _. unfold fs_copy. cbv zeta. apply kept_bind; [unfold u_exists, hooked; apply kept_bind; [apply kept_ret|intros _; apply kept_test]|].
  intros [|]; cbn [negb]; [|apply kept_bind; [apply kept_lift|intros; apply kept_raise]]. apply kept_bind; [unfold u_isfile, hooked; apply kept_bind; [apply kept_ret|intros _; apply kept_test]|]. intros [|]; cbn [negb]; [|apply kept_raise].
  apply (gives_bind _ (fun b => b = true <-> is_dir_at x q)).
  { unfold u_isdir, hooked. apply (gives_then _ (fun _ => True)); [now apply gives_ret|]. intros _ _. cbn [st_backend b_isdir]. rewrite LocalFacts19.local_path by exact Pq. apply copying_isdir. }
  intros dd Hd. apply (gives_bind _ (fun v => v = file_uri q')).
  { destruct Hg as [[D E]|[D E]].
    - rewrite (proj2 Hd D). apply gives_lift. intros v. rewrite file_last, file_div by (try (rewrite <- E; apply Pq'); apply pn_name; destruct (Forall_app plain_name i [n]) as [F _]; destruct (F (pp_names _ Pi)) as [_ F']; now inversion F'). rewrite <- E. now intros [= <-].
    - destruct dd; [now destruct (D (proj1 Hd eq_refl))|]. apply gives_ret. now rewrite E. }
  intros v ->. unfold copy_entry. apply (gives_bind _ (fun b => b = false)).
  { unfold u_islink, hooked. apply (gives_then _ (fun _ => True)); [now apply gives_ret|]. intros _ _. apply copying_nolink. }
  intros l ->. cbn [andb]. apply kept_bind.
  - cbn [st_backend b_copy_content]. unfold st_copy_content. rewrite !LocalFacts19.local_path by assumption. apply kept_bind; [apply kept_step, holds_quiet; now intros y|]. intros r. apply (gives_bind _ _ _ _ (copying_open e)). intros r' ->.
    apply kept_bind; [apply kept_step, holds_quiet; now intros y|]. intros d. apply kept_step, copying_append.
  - intros _. match goal with |- kept _ (if ?c then _ else _) => destruct c end; [|apply kept_ret]. cbn [st_backend b_copystat]. rewrite (LocalFacts19.local_path q') by assumption. apply kept_step, copying_stat.
Qed.
End Copy.
Fixpoint copied_often (u v : uri) (l : list (exc * nat * nat * list str * bool)) (x : pst) : pst :=
  match l with [] => x | (e, k, fuel, ig, fl) :: l' => copied_often u v l' (fst (snd (kask e (LCopy fuel false ig fl u v) (x, k)))) end.
(** ** Stopped any number of times: all is as it was but the destination, which is as it was or a file *)
Theorem C166_stopped x i n q q' u v l : ordinary x -> file_at (i ++ [n]) u -> file_at q v -> plain_path q' -> goes_to x n q q' -> is_file_at x q' \/ free_at x q' ->
  let y := copied_often u v l x in ordinary y /\ p_cwd y = p_cwd x /\ p_now y = p_now x /\ p_umask y = p_umask x /\
  (forall z, z <> q' -> pget z (p_tree y) = pget z (p_tree x)) /\ (pget q' (p_tree y) = pget q' (p_tree x) \/ is_file_at y q').
Proof.
  intros O Hu Hv P' G W. rewrite (file_at_eq _ _ Hu), (file_at_eq _ _ Hv). enough (Z : forall y, copying x q' y -> copying x q' (copied_often (file_uri (i ++ [n])) (file_uri q) l y)).
  { apply Z. split; [exact O|]. repeat split. now left. }
  induction l as [|[[[[e k] fuel] ig] fl] l IH]; intros y H; cbn [copied_often]; [exact H|]. apply IH. unfold kask. cbn [stask]. unfold told. apply (kept_bind (copying x q')); [|intros a; apply kept_ret|exact H].
  apply (copying_kept x i n q q'); auto; [apply Hu|apply Hv].
Qed.
(** ** Called once more it returns, and the contents are those of a copy that was never stopped *)
Theorem C166_again x i n q q' u v d l ignore follow fuel : ordinary x -> file_at (i ++ [n]) u -> file_at q v -> plain_path q' ->
  content x (i ++ [n]) = Some (Some d) -> goes_to x n q q' -> is_file_at x q' \/ free_at x q' -> q' <> i ++ [n] ->
  exists x', lask (LCopy fuel false ignore follow u v) (copied_often u v l x) = (Ok LUnit, x') /\ content x' q' = Some (Some d) /\ forall z, z <> q' -> content x' z = content x z.
Proof.
  intros O Hu Hv P' Hc G W N. pose proof (C166_stopped x i n q q' u v l O Hu Hv P' G W) as H. set (y := copied_often u v l x) in *. cbv zeta in H. destruct H as (Oy & _ & _ & _ & K & K').
  assert (Wy : is_file_at y q' \/ free_at y q').
  { destruct K' as [E|F]; [|now left]. destruct W as [(a & mo & mt & F)|(F & j & m & E1 & (mo & mt & D))]; [left; exists a, mo, mt; congruence|]. right. split; [congruence|]. exists j, m. split; [exact E1|]. exists mo, mt. rewrite K; [exact D|]. intros ->. apply (f_equal (@List.length str)) in E1. rewrite app_length in E1. cbn in E1. lia. }
  assert (Gy : goes_to y n q q').
  { assert (X : is_dir_at x q <-> is_dir_at y q).
    { destruct (path_dec q q') as [->|Nq]; [|unfold is_dir_at; now rewrite (K q Nq)]. split; intros (mo & mt & E); exfalso; [destruct W as [(? & ? & ? & E')|[E' _]]; congruence|destruct Wy as [(? & ? & ? & E')|[E' _]]; congruence]. }
    destruct G as [[D E]|[D E]]; [left|right]; (split; [now rewrite <- X|exact E]). }
  assert (Cy : content y (i ++ [n]) = Some (Some d)) by (unfold content in *; rewrite K; auto).
  destruct (C67_copy_file_partial y i n q q' u v d ignore follow fuel Oy Hu Hv P' Cy Gy Wy N) as (x' & E & _ & E1 & E2). exists x'. split; [cbn [lask]; unfold said, bind; rewrite E; reflexivity|]. split; [exact E1|].
  intros z Nz. rewrite E2 by exact Nz. unfold content. now rewrite K.
Qed.
(** ** Cases: a file is copied into a directory, stopped at each place in turn after two other stops *)
Theorem C166_witness : let u := file_uri (map lit ["a"; "f"]%string) in let v := file_uri (map lit ["b"]%string) in let q' := map lit ["b"; "f"]%string in
  let l k := [(UserError 0, 2, 0, [], true); (UserError 1, 6, 0, [], false); (UserError 2, k, 0, [], true)] in
  ordinary loc1 /\ file_at (map lit ["a"]%string ++ [lit "f"]) u /\ file_at (map lit ["b"]%string) v /\ plain_path q' /\ content loc1 (map lit ["a"; "f"]%string) = Some (Some (lit "hello")) /\
  goes_to loc1 (lit "f") (map lit ["b"]%string) q' /\ free_at loc1 q' /\
  map (fun k => content (copied_often u v [(UserError 2, k, 0, [], true)] loc1) q') (seq 0 10) = repeat None 6 ++ repeat (Some (Some [])) 2 ++ repeat (Some (Some (lit "hello"))) 2 /\
  map (fun k => content (copied_often u v (l k) loc1) q') (seq 0 10) = repeat (Some (Some [])) 8 ++ repeat (Some (Some (lit "hello"))) 2 /\
  map (fun k => content (snd (lask (LCopy 0 false [] true u v) (copied_often u v (l k) loc1))) q') (seq 0 10) = repeat (Some (Some (lit "hello"))) 10.
Proof.
  cbv zeta. split; [apply loc1_ordinary|]. split; [split; [apply plain_b_ok; reflexivity|apply file_uri_eq, plain_b_ok; reflexivity]|]. split; [split; [apply plain_b_ok; reflexivity|apply file_uri_eq, plain_b_ok; reflexivity]|].
  split; [apply plain_b_ok; reflexivity|]. split; [reflexivity|]. split; [left; split; [now exists 493%Z, 5%Z|reflexivity]|]. split; [split; [reflexivity|]; exists (map lit ["b"]%string), (lit "f"); split; [reflexivity|now exists 493%Z, 5%Z]|].
  vm_compute. auto.
Qed.
Print Assumptions C166_stopped.
Print Assumptions C166_again.
Print Assumptions C166_witness.
