(** Of a memory URI the operations use the path only. *)
From Verif Require Import Str Exc Utf8 UriParse BaseUri Mem MemOps Generic Fnmatch UriOps Prog Registry Net SpecNet.

Section Path.
Variables u v : uri.
Hypothesis E : u_path u = u_path v.
Lemma path_path : mem_path u = mem_path v. Proof. unfold mem_path. now rewrite E. Qed.
Lemma path_get h th f : get_node_for_path h th u f = get_node_for_path h th v f. Proof. unfold get_node_for_path. now rewrite path_path. Qed.
Lemma path_lookup f th : lookup u f th = lookup v f th. Proof. unfold lookup, get_node_for_path. now rewrite path_path. Qed.
Lemma path_node f : lookup_node u f = lookup_node v f. Proof. unfold lookup_node. now rewrite path_lookup. Qed.
Lemma path_read b : open_for_read u b = open_for_read v b. Proof. unfold open_for_read. now rewrite ?path_path, ?path_node. Qed.
Lemma path_append b : open_for_append u b = open_for_append v b. Proof. unfold open_for_append. now rewrite ?path_path, ?path_node, ?path_lookup. Qed.
Lemma path_write b : open_for_write u b = open_for_write v b. Proof. unfold open_for_write. now rewrite ?path_path, ?path_node, ?path_lookup. Qed.
Lemma path_mem_open o : mem_open u o = mem_open v o. Proof. unfold mem_open. now rewrite path_read, path_append, path_write. Qed.
Variable s : mst.
Hypothesis Q : forall p, u_path u = cSlash :: p -> callback_at s p = None.
Lemma path_hooked {B} n n' (m m' : M mst B) : m s = m' s -> n = n' -> bind (mem_hook u n) (fun _ => m) s = bind (mem_hook v n') (fun _ => m') s.
Proof.
  intros H <-. unfold mem_hook, bind, lift. rewrite path_path. destruct (mem_path v) as [p|e] eqn:Ep; [|reflexivity].
  assert (C : callback_at s p = None).
  { apply Q. rewrite E. unfold mem_path in Ep. destruct (u_path v) as [|x l]; [discriminate|]. destruct (N.eqb_spec x cSlash) as [->|]; [|discriminate]. now injection Ep as ->. }
  unfold callback_at in C. destruct (dget p (m_cbs s)) as [[cb|]|]; [discriminate|exact H|exact H].
Qed.
Lemma path_open o : u_open u o s = u_open v o s.
Proof. unfold u_open. apply path_hooked; [|reflexivity]. now rewrite path_mem_open. Qed.
Lemma path_ask fuel o o' : uop_uri o = u -> at_uri v o = Some o' -> ask fuel o s = ask fuel o' s.
Proof.
  intros U H.
  assert (An : forall B (f : B -> answer) (m m' : M mst B), m s = m' s -> answered f m s = answered f m' s) by (intros B f m m' X; unfold answered, bind; now rewrite X).
  destruct o; cbn [at_uri uop_uri] in *; try discriminate; injection H as <-; subst; cbn [ask]; apply An;
    unfold u_mkdir, u_exists, u_isfile, u_isdir, u_islink, u_listdir, hooked, u_md5; cbn [b_hook b_mkdir b_exists b_isfile b_isdir b_islink b_listdir mem_backend];
    try (apply path_hooked; [|reflexivity]);
    unfold mem_mkdir, mem_exists, mem_isfile, mem_isdir, mem_islink, mem_listdir, mem_isexec, mem_set_exec, mem_readlink, mem_mtime, mem_info, mem_set_info, mem_manip_mtime, mem_manip_callback.
  all: try apply path_open.
  all: try (now rewrite ?path_path, ?path_node, ?path_lookup).
  all: try (now rewrite path_mem_open).
  all: try (unfold bind, lift, ret; rewrite path_path; destruct (mem_path v) as [[|]|]; rewrite ?path_node, ?path_get; reflexivity).
  pose proof (path_open (Some (lit "rb"))) as Po. unfold bind at 1. rewrite Po. reflexivity.
Qed.
End Path.
