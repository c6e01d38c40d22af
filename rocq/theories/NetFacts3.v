(** A method of a URI whose connection is there does what it does on that connection's file system alone. *)
From Verif Require Import Str Exc Utf8 UriParse BaseUri StrFacts Mem MemOps Generic Fnmatch UriOps Prog Registry SpecReg RegFacts RegFacts2 Net Pair SpecNet NetFacts NetFacts2.

Lemma framed_refl c N : framed c N N. Proof. now constructor. Qed.
Lemma framed_trans c N1 N2 N3 : framed c N1 N2 -> framed c N2 N3 -> framed c N1 N3.
Proof.
  intros A B. constructor; try (intros i Hi).
  all: first [rewrite (fr_conns _ _ _ B); apply A|rewrite (fr_schemes _ _ _ B); apply A|rewrite (fr_next _ _ _ B); apply A|rewrite (fr_closed _ _ _ B); apply A|rewrite (fr_timeout _ _ _ B); apply A
             |rewrite (fr_now _ _ _ B); apply A|rewrite (fr_used _ _ _ B i Hi); now apply A|rewrite (fr_fs _ _ _ B i Hi); now apply A|rewrite (fr_epoch _ _ _ B); apply A].
Qed.

(** The connection of the URIs of [a] is there *)
Definition served (a : str) (c : nat) (N : net) : Prop :=
  (exists f, sget (Some (lit "memory")) (r_schemes (n_reg N)) = Some f) /\ forall u, ours a u -> kget (u_key u) (r_conns (n_reg N)) = Some c.
Lemma served_framed a c d N N' : framed d N N' -> served a c N -> served a c N'.
Proof. intros F [S1 S2]. split; [now rewrite (fr_schemes _ _ _ F)|]. intros u O. rewrite (fr_conns _ _ _ F). now apply S2. Qed.

Lemma set_used_framed c N : framed c N (mkNet (set_used (n_reg N) c (r_now (n_reg N))) (n_fs N) (n_epoch N) (n_held N)).
Proof. constructor; cbn; auto. intros i Hi. apply Nat.eqb_neq in Hi. now rewrite Hi. Qed.
Lemma connect_served a u c N : authority a -> ours a u -> served a c N -> connect u N = (Ok c, N).
Proof.
  intros A O [[f Sf] K]. destruct (key_plain a A u O) as (K1 & _ & K3). unfold connect, uri_connection. rewrite K3. cbn [existsb].
  assert (E : get_connection (u_key u) (n_reg N) = (Ok c, n_reg N)).
  { destruct (lookup_cases (u_key u) (n_reg N)) as [H|g d H1 H2|g e H1 H2 H3|g H1 H2 H3].
    - rewrite K1 in H. congruence.
    - rewrite (K u O) in H2. now injection H2 as ->.
    - rewrite (K u O) in H2. discriminate.
    - rewrite (K u O) in H2. discriminate. }
  rewrite E, Nat.eqb_refl. now destruct N.
Qed.
Lemma enter_served a u c N : authority a -> ours a u -> served a c N ->
  enter u N = (Ok c, mkNet (set_used (n_reg N) c (r_now (n_reg N))) (n_fs N) (n_epoch N) (n_held N)).
Proof. intros A O S. unfold enter, bind. now rewrite (connect_served a u c N A O S). Qed.

Section Served.
Variables (a : str) (c : nat) (N0 : net).
Hypothesis A : authority a.
Hypothesis S0 : served a c N0.
Definition R (s : mst) (N : net) : Prop := fs_of N c = s /\ framed c N0 N /\ tidyq noq s.

Lemma R_served s N : R s N -> served a c N.
Proof. intros (_ & F & _). exact (served_framed a c c N0 N F S0). Qed.
Lemma at_framed {B} (m : M mst B) N : framed c N (snd (at_conn c m N)).
Proof.
  unfold at_conn. destruct (m (fs_of N c)) as [r s]. constructor; cbn; auto. intros i Hi. apply Nat.eqb_neq in Hi. now rewrite Hi.
Qed.
Lemma at_both {B} (Q : B -> Prop) (m : M mst B) : neat noq Q m -> both R Q m (at_conn c m).
Proof.
  intros H s N (E & F & T). subst s. destruct (H _ T) as (H1 & H2 & H3 & H4).
  pose proof (at_framed m N) as AF. unfold at_conn in *. destruct (m (fs_of N c)) as [r s'] eqn:Em. cbn [fst snd] in *.
  split; [reflexivity|]. split; [|exact H4]. split; [|split; [exact (framed_trans _ _ _ _ F AF)|exact H1]].
  unfold fs_of. cbn. rewrite Nat.eqb_refl. unfold fs_of in H2, H3. cbn in H2, H3. rewrite <- H2, <- H3. now destruct s'.
Qed.
Lemma within_both {B} (Q : B -> Prop) u (m : M mst B) : ours a u -> neat noq Q m -> both R Q m (within u m).
Proof.
  intros O H s N HR. pose proof (R_served s N HR) as [_ S2]. unfold within, bind, current. rewrite (S2 u O). now apply at_both.
Qed.
Lemma enter_R s N : R s N -> R s (mkNet (set_used (n_reg N) c (r_now (n_reg N))) (n_fs N) (n_epoch N) (n_held N)).
Proof. intros (E & F & T). split; [exact E|]. split; [|exact T]. exact (framed_trans _ _ _ _ F (set_used_framed c N)). Qed.
Lemma enter_is u s N : ours a u -> R s N -> enter u N = (Ok c, mkNet (set_used (n_reg N) c (r_now (n_reg N))) (n_fs N) (n_epoch N) (n_held N)).
Proof. intros O HR. apply (enter_served a); auto. exact (R_served s N HR). Qed.
Lemma method_both {B} (Q : B -> Prop) u (m : M mst B) : ours a u -> neat noq Q m -> both R Q m (method u m).
Proof.
  intros O H s N HR. unfold method, bind. rewrite (enter_is u s N O HR). apply at_both; [exact H|]. now apply enter_R.
Qed.
Lemma content_both u v : ours a u -> ours a v -> both R any (mem_copy_content u v) (net_content u v).
Proof.
  intros Ou Ov s N HR. unfold net_content. rewrite (ours_key a A u v Ou Ov), key_eqb_refl. unfold bind.
  rewrite (enter_is u s N Ou HR). rewrite (enter_is v s _ Ov (enter_R s N HR)). apply at_both; [apply (neat_content noq noq_incl); apply (path_noq a); assumption|]. now apply enter_R, enter_R.
Qed.
Lemma net_paired : paired R mem_backend net_backend (ours a) noq any (fun u => u_path u <> []).
Proof.
  constructor; cbn [b_hook b_exists b_isfile b_isdir b_islink b_listdir b_removefile b_removedir b_mkdir b_readlink b_copystat b_copy_content b_removefile_by b_symlink_by mem_backend net_backend].
  - intros u n O. apply method_both; [exact O|apply neat_hook].
  - intros u O. apply within_both; [exact O|apply neat_exists].
  - intros u O. apply within_both; [exact O|apply neat_isfile].
  - intros u O. apply within_both; [exact O|apply neat_isdir].
  - intros u O. apply within_both; [exact O|apply neat_islink].
  - intros u O. apply within_both; [exact O|apply neat_listdir].
  - intros u O. apply within_both; [exact O|apply neat_removefile].
  - intros u O. apply within_both; [exact O|apply neat_removedir].
  - intros u O. apply within_both; [exact O|apply (neat_mkdir noq noq_incl); now apply (path_noq a)].
  - intros u O. apply within_both; [exact O|apply neat_readlink].
  - intros u v O _. apply within_both; [exact O|apply neat_copystat].
  - apply content_both.
  - intros w u O _. apply within_both; [exact O|apply neat_removefile].
  - intros w t u O _ O'. apply within_both; [exact O|apply (neat_symlink noq noq_incl); now apply (path_noq a)].
Qed.

Lemma answered_both {B} (Q : B -> Prop) (f : B -> answer) m1 m2 : both R Q m1 m2 -> (forall x, Q x -> answer_in a (f x)) -> both R (answer_in a) (answered f m1) (nanswered f m2).
Proof. intros H W. apply (both_bind R Q); [exact H|]. intros x q. apply both_ret. now apply W. Qed.
Lemma answered_neat {B} (f : B -> answer) (m : M mst B) : neat noq any m -> (forall x, answer_in a (f x)) -> neat noq (answer_in a) (answered f m).
Proof. intros H W. apply (neat_bind noq any); [exact H|]. intros x _. now apply neat_ret. Qed.
Lemma hooked_neat {B} (Q : B -> Prop) n u (m : M mst B) : neat noq Q m -> neat noq Q (hooked mem_backend n u m).
Proof. intros H. apply (neat_bind noq any); [apply neat_hook|]. now intros _ _. Qed.

Lemma ask_both fuel o : Forall (ours a) (uris_of o) -> both R (answer_in a) (ask fuel o) (net_ask fuel o).
Proof.
  intros H. pose proof net_paired as K.
  pose proof (ours_div a A) as Dv. pose proof (ours_split a A) as Sp. pose proof (last_noq a A) as La. pose proof (rest_noq a A) as Re.
  destruct o; cbn [uris_of uop_uri] in H; repeat match goal with H : Forall _ (_ :: _) |- _ => inversion H; subst; clear H end; cbn [ask net_ask].
  all: try (apply method_both; [assumption|]; apply answered_neat; [|now intros]; match goal with |- neat noq _ (hooked _ _ _ _) => apply hooked_neat | _ => idtac end).
  - apply (answered_both any); [eapply both_copy; eauto|now intros].
  - apply neat_copystat.
  - apply (answered_both any); [eapply both_move; eauto|now intros].
  - apply (answered_both any); [eapply both_remove; eauto|now intros].
  - apply (neat_open noq noq_incl). now apply (path_noq a).
  - apply (answered_both any); [eapply both_makedirs; eauto|now intros].
  - apply (answered_both any); [eapply both_mkdir; eauto|now intros].
  - apply (answered_both any); [eapply both_exists; eauto|now intros].
  - apply (answered_both any); [eapply both_isfile; eauto|now intros].
  - apply (answered_both any); [eapply both_isdir; eauto|now intros].
  - apply neat_isexec.
  - apply neat_set_exec.
  - apply (answered_both any); [eapply both_islink; eauto|now intros].
  - apply neat_readlink.
  - apply (neat_symlink noq noq_incl). now apply (path_noq a).
  - apply neat_mtime.
  - eapply answered_both; [eapply both_walk; eauto|]. intros l W. cbn. eapply Forall_impl; [|exact W]. cbn. tauto.
  - apply (answered_both any); [apply (both_any R (Forall noq)); eapply both_listdir; eauto|now intros].
  - apply neat_info.
  - apply neat_set_info.
  - apply neat_raise.
  - eapply answered_both; [eapply both_glob; eauto|]. now intros l W.
  - apply (neat_md5 noq noq_incl). now apply (path_noq a).
  - now apply neat_ret.
  - apply neat_manip_mtime.
  - apply neat_manip_callback.
Qed.
End Served.
