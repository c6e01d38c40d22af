(** Property C61: the context managers. *)
From Coq Require Import Lia String.
From Verif Require Import Str Exc UriParse BaseUri StrFacts SpecUri UriFacts4 Misc.

Lemma path_eqb_eq a b : path_eqb a b = true <-> a = b.
Proof.
  revert b. induction a as [|x a IH]; intros [|y b]; cbn; try (split; congruence). rewrite andb_true_iff, str_eqb_eq, IH. split; [intros [-> ->]|intros [= -> ->]]; auto.
Qed.
Lemma has_path_In p l : has_path p l = true <-> In p l.
Proof.
  unfold has_path. rewrite existsb_exists. split.
  - intros (x & H & E). apply path_eqb_eq in E. now subst.
  - intros H. exists p. split; [exact H|]. now apply path_eqb_eq.
Qed.

(** Names of directories as they can be. *)
Definition dir_name (n : str) : Prop := n <> [] /\ n <> dot /\ n <> dotdot /\ ~ In cSlash n.
(** A possible file system: the parents of everything exist. *)
Record os_ok (s : ost) : Prop := {
  os_root : In [] (o_dirs s);
  os_up : forall d n, In (d ++ [n]) (o_dirs s) -> In d (o_dirs s) /\ dir_name n;
  os_files : forall d n, In (d ++ [n]) (o_files s) -> In d (o_dirs s) }.

Lemma os_names s d : os_ok s -> In d (o_dirs s) -> Forall dir_name d.
Proof.
  intros W. induction d as [|n d IH] using rev_ind; intros H; [constructor|]. apply (os_up s W) in H as [H N]. apply Forall_app. auto.
Qed.
Lemma os_prefix s d r : os_ok s -> In (d ++ r) (o_dirs s) -> In d (o_dirs s).
Proof.
  intros W. induction r as [|n r IH] using rev_ind; intros H; [now rewrite app_nil_r in H|]. rewrite app_assoc in H. apply (os_up s W) in H as [H _]. auto.
Qed.
Lemma walk_names s r : os_ok s -> Forall dir_name r -> forall d, In (d ++ r) (o_dirs s) -> walk_steps (o_dirs s) d r = Some (d ++ r).
Proof.
  intros W. induction r as [|n r IH]; intros F d H; cbn [walk_steps].
  - rewrite app_nil_r in *. now rewrite (proj2 (has_path_In _ _) H).
  - inversion F as [|? ? (A & B & C & _) F']; subst. rewrite (proj2 (has_path_In _ _) (os_prefix s d (n :: r) W H)).
    destruct (str_eqb n []) eqn:E1; [now apply str_eqb_eq in E1|]. destruct (str_eqb n dot) eqn:E2; [now apply str_eqb_eq in E2|].
    destruct (str_eqb n dotdot) eqn:E3; [now apply str_eqb_eq in E3|]. cbn [orb]. rewrite IH; auto; rewrite <- app_assoc; auto.
Qed.
Lemma split_flat (d : list str) : Forall dir_name d -> split_on cSlash (flat_map (fun c : str => cSlash :: c) d) = [] :: d.
Proof.
  induction d as [|n d IH] using rev_ind; intros F; [reflexivity|]. apply Forall_app in F as [F N]. inversion N as [|? ? (_ & _ & _ & Nn) _]; subst.
  rewrite flat_map_app. cbn [flat_map]. rewrite app_nil_r, split_on_gen, IH, (split_on_none cSlash n) by auto. reflexivity.
Qed.
Lemma split_abs d : Forall dir_name d -> split_on cSlash (abs_path d) = [] :: match d with [] => [[]] | _ => d end.
Proof. intros F. destruct d as [|x d]; [reflexivity|]. now apply split_flat. Qed.
Lemma find_abs s d : os_ok s -> In d (o_dirs s) -> find_dir s (abs_path d) = Some d.
Proof.
  intros W H. pose proof (os_names s d W H) as F. unfold find_dir, start_of.
  assert (P : prefixb [cSlash] (abs_path d) = true) by (now destruct d). destruct (abs_path d) eqn:E; [now destruct d|]. rewrite <- E in *. rewrite P, split_abs by auto.
  cbn [walk_steps]. rewrite (proj2 (has_path_In _ _) (os_root s W)). cbn [str_eqb orb]. destruct d as [|x d].
  - cbn [walk_steps]. rewrite (proj2 (has_path_In _ _) (os_root s W)). cbn [str_eqb orb]. rewrite ?(proj2 (has_path_In _ _) (os_root s W)). reflexivity.
  - now apply (walk_names s (x :: d) W F []).
Qed.

(** ** WorkingDirectory *)
(** For every body - it may change the directory, use other WorkingDirectory objects, raise - that leaves the
    directory itself in place. *)
Theorem C61_working_directory_partial {A} (u : uri) (body : M ost A) s : os_ok s -> In (o_cwd s) (o_dirs s) ->
  forall d, find_dir s (u_path u) = Some d ->
  let s1 := mkO d (o_dirs s) (o_files s) in
  let s2 := snd (body s1) in os_ok s2 -> In (o_cwd s) (o_dirs s2) ->
  fst (with_wd u body s) = fst (body s1) /\
  o_cwd (snd (with_wd u body s)) = o_cwd s /\ o_dirs (snd (with_wd u body s)) = o_dirs s2 /\ o_files (snd (with_wd u body s)) = o_files s2.
Proof.
  intros W H d E s1 s2 W2 H2. destruct (body s1) as [r s2'] eqn:Eb. cbn [snd] in s2. subst s2. cbn [fst].
  assert (X : with_wd u body s = (r, mkO (o_cwd s) (o_dirs s2') (o_files s2'))).
  { unfold with_wd, wd_new, bind, os_getcwd. rewrite (proj2 (has_path_In _ _) H). unfold ret, with_, wd_enter, wd_exit, os_chdir. cbn [fst snd].
    rewrite E. fold s1. rewrite Eb. now rewrite find_abs. }
  rewrite X. auto.
Qed.
Print Assumptions C61_working_directory_partial.
(** If the directory cannot be entered nothing happens at all. *)
Theorem C61_working_directory_missing {A} (u : uri) (body : M ost A) s : In (o_cwd s) (o_dirs s) -> find_dir s (u_path u) = None ->
  with_wd u body s = (Raise (OSError ENOENT), s).
Proof.
  intros H E. unfold with_wd, wd_new, bind, os_getcwd. rewrite (proj2 (has_path_In _ _) H). cbn [ret]. unfold with_, wd_enter, os_chdir. cbn [snd]. now rewrite E.
Qed.
Print Assumptions C61_working_directory_missing.


(** *** Examples *)
Open Scope string_scope.
Definition here (l : list String.string) : list str := map lit l.
Definition home : ost := mkO (here ["home"; "me"]) [[]; here ["home"]; here ["home"; "me"]; here ["tmp"]] [here ["tmp"; "t"]].
Lemma home_ok : os_ok home.
Proof.
  constructor.
  - now left.
  - intros d n H. cbn [home o_dirs In] in H. destruct H as [H|[H|[H|[H|[]]]]].
    + now destruct d.
    + apply (app_inj_tail [] d (lit "home") n) in H as [<- <-]. split; [now left|]. repeat split; try discriminate. cbn. intuition discriminate.
    + apply (app_inj_tail [lit "home"] d (lit "me") n) in H as [<- <-]. split; [cbn; auto|]. repeat split; try discriminate. cbn. intuition discriminate.
    + apply (app_inj_tail [] d (lit "tmp") n) in H as [<- <-]. split; [now left|]. repeat split; try discriminate. cbn. intuition discriminate.
  - intros d n [H|[]]. apply (app_inj_tail [lit "tmp"] d (lit "t") n) in H as [<- <-]. cbn. auto.
Qed.
(** Two nested, and an exception. *)
Example C61_working_directory_witness : exists u w, URI (lit "/tmp") cSlash [] = Ok u /\ URI (lit "file:///home/me/../..") cSlash [] = Ok w /\
  find_dir home (u_path u) = Some (here ["tmp"]) /\
  let body := with_wd w (let! c <- os_getcwd; if str_eqb c (lit "/") then raise (UserError 1) else ret tt) in
  fst (with_wd u body home) = Raise (UserError 1) /\ snd (with_wd u body home) = home.
Proof.
  destruct (URI (lit "/tmp") cSlash []) as [u|] eqn:E; [|vm_compute in E; discriminate].
  destruct (URI (lit "file:///home/me/../..") cSlash []) as [w|] eqn:Ew; [|vm_compute in Ew; discriminate].
  exists u, w. split; [reflexivity|]. split; [reflexivity|]. vm_compute in E. injection E as <-. vm_compute in Ew. injection Ew as <-.
  split; [vm_compute; reflexivity|]. split; vm_compute; reflexivity.
Qed.
(** A body that removes the directory to go back to: an exception, and the working directory stays. *)
Definition rmdir_me : M ost unit := fun s => (Ok tt, mkO (o_cwd s) [[]; here ["home"]; here ["tmp"]] (o_files s)).
Theorem C61_refuted : exists u, URI (lit "/tmp") cSlash [] = Ok u /\ os_ok home /\
  fst (with_wd u rmdir_me home) = Raise (OSError ENOENT) /\ o_cwd (snd (with_wd u rmdir_me home)) = here ["tmp"].
Proof.
  destruct (URI (lit "/tmp") cSlash []) as [u|] eqn:E; [|vm_compute in E; discriminate]. exists u. split; [reflexivity|]. split; [apply home_ok|].
  vm_compute in E. injection E as <-. split; vm_compute; reflexivity.
Qed.
Print Assumptions C61_refuted.
(** An object made before the directory is changed restores the wrong one, in every state. *)
Theorem C61_early_refuted {A} (u : uri) (body : M ost A) s d d' : os_ok s -> In (o_cwd s) (o_dirs s) -> In d (o_dirs s) ->
  find_dir (mkO d (o_dirs s) (o_files s)) (u_path u) = Some d' ->
  let s2 := snd (body (mkO d' (o_dirs s) (o_files s))) in os_ok s2 -> In (o_cwd s) (o_dirs s2) ->
  let later := snd ((let! o <- wd_new u; os_chdir (abs_path d) ;; with_ (wd_enter o) (wd_exit o) body) s) in
  o_cwd later = o_cwd s.
Proof.
  intros W H Hd E s2 W2 H2. unfold wd_new, bind at 1 2, os_getcwd. rewrite (proj2 (has_path_In _ _) H). cbn [ret]. unfold bind, os_chdir at 1.
  rewrite find_abs by auto. unfold with_, wd_enter, wd_exit. cbn [fst snd]. unfold os_chdir at 1. rewrite E. cbn [o_dirs o_files].
  destruct (body _) as [r s2'] eqn:Eb. cbn [snd] in s2. subst s2. unfold os_chdir. rewrite find_abs by auto. reflexivity.
Qed.
Print Assumptions C61_early_refuted.

(** ** TempFileHandle *)
(** Given an absolute name, the file is gone after every exit; the outcome is the body's unless that has deleted the
    file before. *)
Theorem C61_temp_partial {A} (p : str) (body : M ost A) s f : prefixb [cSlash] p = true -> os_ok s -> find_entry s p = Some f -> In f (o_files s) ->
  o_dirs (snd (body s)) = o_dirs s ->
  let r := with_temp p body s in
  ~ In f (o_files (snd r)) /\
  (In f (o_files (snd (body s))) -> fst r = fst (body s)) /\
  (~ In f (o_files (snd (body s))) -> fst r = Raise (OSError ENOENT)) /\
  (forall g, g <> f -> (In g (o_files (snd r)) <-> In g (o_files (snd (body s))))) /\
  o_cwd (snd r) = o_cwd (snd (body s)).
Proof.
  intros Ab W E Hf Ed r. unfold r, with_temp, bind, os_open. rewrite E, (proj2 (has_path_In _ _) Hf). unfold with_, ret. destruct (body s) as [x s2] eqn:Eb. cbn [snd fst] in *.
  unfold temp_close, os_unlink.
  assert (E2 : find_entry s2 p = Some f). { rewrite <- E. unfold find_entry, start_of. now rewrite Ab, Ed. }
  rewrite E2. destruct (has_path f (o_files s2)) eqn:Hp; cbn [fst snd o_files o_cwd].
  - apply has_path_In in Hp. split; [|split; [|split; [|split]]]; auto.
    + rewrite filter_In. intros [_ X]. rewrite (proj2 (path_eqb_eq f f) eq_refl) in X. discriminate.
    + intros X. contradiction.
    + intros g Ng. rewrite filter_In. split; [tauto|]. intros X. split; [exact X|]. destruct (path_eqb f g) eqn:Eg; [apply path_eqb_eq in Eg; congruence|reflexivity].
  - assert (N : ~ In f (o_files s2)) by (intros X; apply has_path_In in X; congruence). split; [|split; [|split; [|split]]]; auto; try tauto.
Qed.
Print Assumptions C61_temp_partial.
(** If the body has removed the directory of the file, or changed to one from which the name cannot be found, the block ends in an
    exception, whatever the outcome of the body; nothing is deleted. *)
Theorem C61_temp_lost_partial {A} (p : str) (body : M ost A) s f : find_entry s p = Some f -> In f (o_files s) -> find_entry (snd (body s)) p = None ->
  with_temp p body s = (Raise (OSError ENOENT), snd (body s)).
Proof.
  intros E Hf N. unfold with_temp, bind, os_open. rewrite E, (proj2 (has_path_In _ _) Hf). unfold with_, ret. destruct (body s) as [x s2] eqn:Eb. cbn [snd fst] in *.
  unfold temp_close, os_unlink. now rewrite N.
Qed.
Print Assumptions C61_temp_lost_partial.
Example C61_temp_lost_witness : find_entry home (lit "/tmp/t") = Some (here ["tmp"; "t"]) /\ let body : M ost unit := fun s => (Ok tt, mkO (o_cwd s) (filter (fun d => negb (path_eqb d (here ["tmp"]))) (o_dirs s)) []) in
  find_entry (snd (body home)) (lit "/tmp/t") = None /\ fst (with_temp (lit "/tmp/t") body home) = Raise (OSError ENOENT).
Proof. repeat split; vm_compute; reflexivity. Qed.
Example C61_temp_witness : os_ok home /\ find_entry home (lit "/tmp/t") = Some (here ["tmp"; "t"]) /\
  with_temp (lit "/tmp/t") (raise (UserError 3) : M ost unit) home = (Raise (UserError 3), mkO (o_cwd home) (o_dirs home) []).
Proof. split; [apply home_ok|]. split; vm_compute; reflexivity. Qed.
(** A relative name, and a body that changes the directory: the file stays, and an exception comes. *)
Theorem C61_temp_refuted : os_ok home /\ let s := mkO (here ["tmp"]) (o_dirs home) (o_files home) in
  let r := with_temp (lit "t") (os_chdir (lit "/home")) s in
  fst r = Raise (OSError ENOENT) /\ o_files (snd r) = [here ["tmp"; "t"]].
Proof. split; [apply home_ok|]. split; vm_compute; reflexivity. Qed.
Print Assumptions C61_temp_refuted.
(** Closing the file inside the block, as one may with other files, makes the block end in an exception. *)
Theorem C61_twice_refuted (p : str) s f : prefixb [cSlash] p = true -> os_ok s -> find_entry s p = Some f -> In f (o_files s) ->
  fst (with_temp p (temp_close p) s) = Raise (OSError ENOENT) /\ fst (temp_close p s) = Ok tt.
Proof.
  intros Ab W E Hf. assert (X : temp_close p s = (Ok tt, mkO (o_cwd s) (o_dirs s) (filter (fun x => negb (path_eqb f x)) (o_files s)))).
  { unfold temp_close, os_unlink. now rewrite E, (proj2 (has_path_In _ _) Hf). }
  split; [|now rewrite X]. pose proof (C61_temp_partial p (temp_close p) s f Ab W E Hf) as H. rewrite X in H. cbn [snd o_dirs o_files] in H.
  destruct (H eq_refl) as (_ & _ & H3 & _). apply H3. rewrite filter_In. intros [_ Y]. now rewrite (proj2 (path_eqb_eq f f) eq_refl) in Y.
Qed.
Print Assumptions C61_twice_refuted.

(** ** LookupExceptionClass *)
(** For every body that does not use the same object again. *)
Theorem C61_lookup_class_partial {A} (x : nat) (body : nat -> M lst A) s :
  let o := l_next s in
  let inside := snd ((let! o <- lec_new; lec_enter o x) s) in
  l_prev (snd (body o inside)) o = l_cls s ->
  l_cls inside = Some x /\ fst (with_lec x body s) = fst (body o inside) /\ l_cls (snd (with_lec x body s)) = l_cls s.
Proof.
  intros o inside K. split; [reflexivity|]. subst o inside. unfold with_lec, bind, lec_new, with_, lec_enter, lec_exit in *. cbn [l_cls l_prev l_next fst snd] in *.
  destruct (body _ _) as [r s2]. cbn [fst snd l_cls] in *. auto.
Qed.
Print Assumptions C61_lookup_class_partial.
(** Every nesting, with every exception caught or not: the class is the one from before, and inside it is the one asked for. *)
Lemma exec_keeps p : forall s, l_cls (snd (exec p s)) = l_cls s /\ l_next s <= l_next (snd (exec p s)) /\
  forall o, o < l_next s -> l_prev (snd (exec p s)) o = l_prev s o.
Proof.
  induction p as [m|p IHp q IHq|p IHp q IHq|x p IHp]; intros s; cbn [exec].
  - auto.
  - unfold bind. destruct (IHp s) as (A & B & C). destruct (exec p s) as [[y|e] s1]; cbn [snd] in *; [|auto].
    destruct (IHq s1) as (A' & B' & C'). split; [congruence|]. split; [lia|]. intros o Ho. rewrite C' by lia. auto.
  - destruct (IHp s) as (A & B & C). destruct (exec p s) as [[y|e] s1]; cbn [snd] in *; [auto|].
    destruct (IHq s1) as (A' & B' & C'). split; [congruence|]. split; [lia|]. intros o Ho. rewrite C' by lia. auto.
  - unfold with_lec, bind, lec_new, with_, lec_enter, lec_exit. cbn [l_cls l_prev l_next].
    match goal with |- context [exec p ?s1] => specialize (IHp s1); destruct (exec p s1) as [r s2] end. cbn [snd l_cls l_prev l_next fst] in *. destruct IHp as (A & B & C).
    split; [|split; [lia|]].
    + rewrite C by lia. now rewrite Nat.eqb_refl.
    + intros o Ho. rewrite C by lia. destruct (Nat.eqb_spec o (l_next s)); [lia|reflexivity].
Qed.
Theorem C61_nesting p s : l_cls (snd (exec p s)) = l_cls s.
Proof. apply exec_keeps. Qed.
Print Assumptions C61_nesting.
Theorem C61_inside x m s : fst (exec (PWith x (PDo m)) s) = m (Some x).
Proof. cbn. now destruct (m (Some x)). Qed.
Print Assumptions C61_inside.
Example C61_nesting_witness : let p := PTry (PWith 1 (PSeq (PWith 2 (PDo (fun c => match c with Some 2 => Ok tt | _ => Raise KeyError end))) (PDo (fun c => match c with Some 1 => Raise (UserError 5) | _ => Ok tt end)))) (PDo (fun c => match c with Some 0 => Ok tt | _ => Raise KeyError end)) in
  fst (exec p (mkL (Some 0) (fun _ => None) 0)) = Ok tt.
Proof. vm_compute. reflexivity. Qed.
(** The same object used inside itself leaves its class behind. *)
Theorem C61_reentrant_refuted x s : l_cls s <> Some x ->
  l_cls (snd (with_lec x (fun o => with_ (lec_enter o x) (lec_exit o) (ret tt)) s)) = Some x.
Proof. intros _. unfold with_lec, bind, lec_new, with_, lec_enter, lec_exit, ret. cbn. now rewrite Nat.eqb_refl. Qed.
Print Assumptions C61_reentrant_refuted.
(** So do two threads when the first to enter is the first to leave. *)
Theorem C61_threads_refuted o1 o2 x1 x2 s : o1 <> o2 ->
  l_cls (snd ((lec_enter o1 x1 ;; lec_enter o2 x2 ;; lec_exit o1 ;; lec_exit o2) s)) = Some x1.
Proof. intros N. unfold bind, lec_enter, lec_exit. cbn. now rewrite Nat.eqb_refl. Qed.
Print Assumptions C61_threads_refuted.
