(** The memory backend with two authorities. *)
From Verif Require Import Str Exc Utf8 UriParse BaseUri StrFacts UriFacts SpecUri UriFacts2 UriFacts3 UriFacts7 Mem MemOps Prog UriOps SpecNet NetFacts Generic Fnmatch Alike AuthFacts NetFacts2 NetFacts8 GenFacts11 Pair.

(** One file system without callbacks and question marks *)
Definition one (s1 s2 : mst) : Prop := s1 = s2 /\ tidyq noq s1 /\ forall p, callback_at s1 p = None.
Lemma one_fun {A} (Q : A -> Prop) (m1 m2 : M mst A) : (forall s, m1 s = m2 s) -> neat noq Q m1 -> blind m1 -> alike one (same Q) m1 m2.
Proof.
  intros E N B s1 s2 (<- & T & C). rewrite <- E. destruct (N s1 T) as (T' & _ & _ & q). split.
  - split; [reflexivity|]. split; [exact T'|]. intros p. unfold callback_at. rewrite (blind_keeps m1 B s1). exact (C p).
  - destruct (fst (m1 s1)) as [x|e]; cbn [rel]; [|reflexivity]. split; [reflexivity|auto].
Qed.
Lemma one_eq {A} (m1 m2 : M mst A) : (forall s, m1 s = m2 s) -> neat noq any m1 -> blind m1 -> alike one eq m1 m2.
Proof. intros E N B. apply (alike_weak one (same any)); [now apply one_fun|]. now intros x y [-> _]. Qed.
Lemma one_what {A} (m1 m2 : M mst A) : (forall s, m1 s = m2 s) -> neat noq any m1 -> blind m1 -> alike one whatever m1 m2.
Proof. intros E N B. apply (alike_what one eq). now apply one_eq. Qed.
Lemma blind_fwrite i d : blind (file_write i d).
Proof. unfold file_write. apply blind_bind; [apply blind_file|]. intros f. destruct (bio_write (f_data f) (f_pos f) d). apply blind_get; [reflexivity|]. intros s. apply blind_set_file. Qed.
Lemma blind_copyfile n : forall h k z, blind (copyfileobj n h k z).
Proof.
  induction n as [|n IH]; intros h k z; cbn [copyfileobj]; [apply blind_raise|]. apply blind_bind; [apply blind_hread|]. intros v.
  assert (W : blind (h_write k v ;; copyfileobj n h k z)).
  { apply blind_bind; [|intros _; apply IH]. unfold h_write. apply blind_bind; [apply blind_lift|]. intros [s|d]; [apply blind_raise|apply blind_fwrite]. }
  destruct v as [[|c s]|[|c s]]; try exact W; apply blind_ret.
Qed.

Section Auths.
Variables a b : str.
Hypothesis A : authority a. Hypothesis B : authority b.
Hypothesis Ca : exists q, creds a = Ok q. Hypothesis Cb : exists q, creds b = Ok q.
Notation T := (twins a b).
Lemma one_hook u v n : T u v -> alike one whatever (mem_hook u n) (mem_hook v n).
Proof.
  intros t s1 s2 (<- & Q & C). unfold mem_hook, bind, lift. rewrite <- (path_path u v (twins_path a b A B u v t)). destruct (mem_path u) as [p|e]; cbn [fst snd]; [|split; [now split|reflexivity]].
  specialize (C p) as Cp. unfold callback_at in Cp. destruct (dget p (m_cbs s1)) as [[cb|]|]; [discriminate| |]; (split; [now split|exact I]).
Qed.
Lemma one_hooked {X Y} (Q : X -> Y -> Prop) n u v m m' : T u v -> alike one Q m m' -> alike one Q (hooked mem_backend n u m) (hooked mem_backend n v m').
Proof. intros t H. unfold hooked. apply (alike_bind one whatever); [now apply one_hook|]. now intros _ _ _. Qed.
Lemma clear u v : T u v -> clear_path noq u. Proof. intros t. apply (path_noq a A). apply t. Qed.
Lemma one_open u v o : T u v -> alike one eq (u_open u o) (u_open v o).
Proof.
  intros t. unfold u_open. apply (alike_bind one whatever); [now apply one_hook|]. intros _ _ _. apply one_eq.
  - intros s. now rewrite (path_mem_open u v (twins_path a b A B u v t)).
  - apply neat_mem_open; [exact noq_incl|exact (clear u v t)].
  - apply blind_open.
Qed.
Lemma one_content u v u' v' : T u v -> T u' v' -> alike one whatever (mem_copy_content u u') (mem_copy_content v v').
Proof.
  intros t t'. unfold mem_copy_content. apply (alike_bind one eq); [now apply one_open|]. intros h h' <-. apply (alike_bind one eq); [now apply one_open|]. intros k k' <-.
  apply (alike_bind one eq); [apply one_eq; [reflexivity|apply neat_get_file|apply blind_file]|]. intros f f' <-. apply one_what; [reflexivity|apply neat_copyfileobj|apply blind_copyfile].
Qed.
Ltac pt t := intros s; pose proof (twins_path a b A B _ _ t) as Ep;
  try (now rewrite ?(path_path _ _ Ep), ?(path_node _ _ Ep), ?(path_lookup _ _ Ep));
  unfold bind, lift, ret; rewrite (path_path _ _ Ep); destruct (mem_path _) as [[|]|]; rewrite ?(path_node _ _ Ep), ?(path_get _ _ Ep); reflexivity.
Lemma one_exists u v : T u v -> alike one eq (mem_exists u) (mem_exists v).
Proof. intros t. apply one_eq; [unfold mem_exists; pt t|apply neat_exists|apply blind_exists]. Qed.
Lemma one_isfile u v : T u v -> alike one eq (mem_isfile u) (mem_isfile v).
Proof. intros t. apply one_eq; [unfold mem_isfile; pt t|apply neat_isfile|apply blind_isfile]. Qed.
Lemma one_isdir u v : T u v -> alike one (same (fun _ => u_path u <> [])) (mem_isdir u) (mem_isdir v).
Proof. intros t. apply one_fun; [unfold mem_isdir; pt t|apply neat_isdir|apply blind_isdir]. Qed.
Lemma one_islink u v : T u v -> alike one eq (mem_islink u) (mem_islink v).
Proof. intros t. apply one_eq; [unfold mem_islink; pt t|apply neat_islink|apply blind_islink]. Qed.
Lemma one_listdir u v : T u v -> alike one (same (Forall noq)) (mem_listdir u) (mem_listdir v).
Proof. intros t. apply one_fun; [unfold mem_listdir; pt t|apply neat_listdir|apply blind_listdir]. Qed.
Lemma last_of u v p : T u v -> mem_path u = Ok p -> p <> [] -> u_last u = u_last v.
Proof.
  intros t E H. unfold mem_path in E. destruct (u_path u) as [|c w] eqn:Eu; [discriminate|]. destruct (N.eqb c cSlash); [|discriminate]. injection E as ->.
  apply (twins_last a b A B u v t); rewrite Eu; [discriminate|]. intros X. now injection X as _ X.
Qed.
Ltac taken t := intros s; pose proof (twins_path a b A B _ _ t) as Ep; unfold bind, lift; rewrite <- (path_path _ _ Ep);
  let p := fresh "p" in let E := fresh "E" in destruct (mem_path _) as [p|] eqn:E; [|reflexivity];
  destruct p as [|c p]; [reflexivity|now rewrite (last_of _ _ _ t E) by discriminate].
Lemma one_removefile u v : T u v -> alike one whatever (mem_removefile u) (mem_removefile v).
Proof. intros t. apply one_what; [unfold mem_removefile; taken t|apply neat_removefile|apply blind_removefile]. Qed.
Lemma one_removedir u v : T u v -> alike one whatever (mem_removedir u) (mem_removedir v).
Proof. intros t. apply one_what; [unfold mem_removedir; taken t|apply neat_removedir|apply blind_removedir]. Qed.
Lemma one_mkdir u v : T u v -> alike one whatever (mem_mkdir u) (mem_mkdir v).
Proof. intros t. apply one_what; [unfold mem_mkdir; pt t|apply neat_mkdir; [exact noq_incl|exact (clear u v t)]|apply blind_mkdir]. Qed.
Lemma one_readlink u v : T u v -> alike one eq (mem_readlink u) (mem_readlink v).
Proof. intros t. apply one_eq; [unfold mem_readlink; pt t|apply neat_readlink|apply blind_readlink]. Qed.
Lemma one_symlink x u v : T u v -> alike one whatever (mem_symlink x u) (mem_symlink x v).
Proof. intros t. apply one_what; [unfold mem_symlink; pt t|apply neat_symlink; [exact noq_incl|exact (clear u v t)]|apply blind_symlink]. Qed.
Lemma one_copystat u v u' v' : T u v -> T u' v' -> alike one whatever (mem_copystat u u') (mem_copystat v v').
Proof.
  intros t t'. apply one_what; [|apply neat_copystat|apply blind_copystat]. intros s. unfold mem_copystat.
  now rewrite (path_node u v (twins_path a b A B _ _ t)), (path_node u' v' (twins_path a b A B _ _ t')).
Qed.
Lemma one_matched : matched one mem_backend mem_backend T noq eq (fun u => u_path u <> []).
Proof.
  split; cbn [b_hook b_exists b_isfile b_isdir b_islink b_listdir b_removefile b_removedir b_mkdir b_readlink b_copystat b_copy_content b_removefile_by b_symlink_by mem_backend];
    auto using one_hook, one_exists, one_isfile, one_isdir, one_islink, one_listdir, one_removefile, one_removedir, one_mkdir, one_readlink, one_copystat, one_content.
  intros u v t t' u' v' _ <- tw. now apply one_symlink.
Qed.

(** Every method *)
Definition has_name (u : uri) : Prop := u_path u <> [] /\ u_path u <> [cSlash].
Definition told (x y : answer) : Prop := rewritten_answer a b x y.
Lemma told_eq (f : uri -> uri) x : (forall l, x <> AUris l) -> (forall l, x <> AWalk l) -> told x x.
Proof. intros H1 H2. destruct x; cbn; auto; [now destruct (H1 l)|now destruct (H2 l)]. Qed.
Lemma says_unit {X Y} (m : M mst X) (m' : M mst Y) : alike one whatever m m' -> alike one told (answered (fun _ => AUnit) m) (answered (fun _ => AUnit) m').
Proof. intros H. unfold answered. apply (alike_bind one whatever); [exact H|]. intros _ _ _. apply alike_ret. reflexivity. Qed.
Lemma says_same {X} (f : X -> answer) (m m' : M mst X) : (forall x, told (f x) (f x)) -> alike one eq m m' -> alike one told (answered f m) (answered f m').
Proof. intros F H. unfold answered. apply (alike_bind one eq); [exact H|]. intros x y <-. now apply alike_ret. Qed.
Lemma path_eq {X} (m : uri -> M mst X) u v : T u v -> (forall s, m u s = m v s) -> neat noq any (m u) -> blind (m u) -> alike one eq (m u) (m v).
Proof. intros t E N Bl. now apply one_eq. Qed.
Ltac nodes t := intros s; now rewrite (path_node _ _ (twins_path a b A B _ _ t)).
Lemma one_isexec u v x : T u v -> alike one eq (mem_isexec u x) (mem_isexec v x).
Proof. intros t. apply one_eq; [unfold mem_isexec, mem_info; nodes t|apply neat_isexec|apply blind_isexec]. Qed.
Lemma one_set_exec u v x : T u v -> alike one eq (mem_set_exec u x) (mem_set_exec v x).
Proof. intros t. apply one_eq; [unfold mem_set_exec, mem_info, mem_set_info; nodes t|apply neat_set_exec|apply blind_set_exec]. Qed.
Lemma one_mtime u v : T u v -> alike one eq (mem_mtime u) (mem_mtime v).
Proof. intros t. apply one_eq; [unfold mem_mtime; nodes t|apply neat_mtime|apply blind_mtime]. Qed.
Lemma one_info u v f : T u v -> alike one eq (mem_info u f) (mem_info v f).
Proof. intros t. apply one_eq; [unfold mem_info; nodes t|apply neat_info|apply blind_info]. Qed.
Lemma one_set_info u v mo mt f : T u v -> alike one eq (mem_set_info u mo mt f) (mem_set_info v mo mt f).
Proof. intros t. apply one_eq; [unfold mem_set_info; nodes t|apply neat_set_info|apply blind_set_info]. Qed.
Lemma one_manip u v x : T u v -> alike one eq (mem_manip_mtime u x) (mem_manip_mtime v x).
Proof. intros t. apply one_eq; [unfold mem_manip_mtime; nodes t|apply neat_manip_mtime|apply blind_manip]. Qed.
Lemma one_md5 {D} (H : list N -> D) u v : T u v -> alike one eq (u_md5 H u) (u_md5 H v).
Proof.
  intros t. unfold u_md5. apply (alike_bind one whatever); [now apply one_hook|]. intros _ _ _. apply (alike_bind one eq); [now apply one_open|]. intros h h' <-.
  apply (alike_bind one eq); [apply one_eq; [reflexivity|apply neat_get_file|apply blind_file]|]. intros f f' <-.
  apply (alike_bind one eq); [apply one_eq; [reflexivity|apply neat_hash|apply blind_hash]|]. intros x x' <-. now apply alike_ret.
Qed.
Lemma in_rewritten u v : T u v -> rewritten a b u v. Proof. apply tw_made. Qed.
Lemma rewritten_uris l l' : Forall2 T l l' -> Forall2 (rewritten a b) l l'.
Proof. induction 1; constructor; auto using in_rewritten. Qed.
Lemma one_ask fuel o f : (forall u, In u (uris_of o) -> T u (f u)) -> ~ keeps_uri o -> ~ names_root o -> (goes_up o -> a <> [] /\ b <> []) ->
  alike one told (ask fuel o) (ask fuel (map_uris f o)).
Proof.
  intros H K R G. pose proof one_matched as Km.
  assert (St := twins_str a b A B). assert (Dv := twins_div a b A B Ca Cb). assert (Sc := twins_scheme a b A B).
  assert (Ls : forall u v, T u v -> has_name u -> u_last u = u_last v /\ noq (u_last u)) by (intros u v t [h1 h2]; now apply (twins_last a b A B)).
  assert (Sp : a <> [] /\ b <> [] -> forall u v, T u v -> u_path u <> [] -> rel (fun x y => T (fst x) (fst y) /\ snd x = snd y) (u_split u) (u_split v)).
  { intros [h1 h2] u v t. now apply (twins_split a b A B Ca Cb). }
  assert (Rs := twins_rest a b A B).
  destruct o; cbn [uris_of uop_uri map_uris ask names_root goes_up keeps_uri] in *;
    try (assert (t : T u (f u)) by (apply H; cbn; auto)); try (assert (t' : T v (f v)) by (apply H; cbn; auto)).
  all: try (exfalso; now apply K).
  - apply says_unit. assert (Hn : has_name u) by (split; intros X; apply R; auto). destruct recursive.
    + specialize (Sp (G I)). eapply alike_copy with (Rt := fun u => u_path u <> []) (Lt := has_name); eauto.
    + eapply alike_copy_one with (Rt := fun u => u_path u <> []) (Lt := has_name); eauto.
  - apply says_unit, one_hooked; [exact t|]. now apply one_copystat.
  - apply says_unit. assert (Hn : has_name u) by (split; intros X; apply R; auto). specialize (Sp (G I)).
    eapply alike_move with (Rt := fun u => u_path u <> []) (Lt := has_name); eauto.
  - apply says_unit. eapply alike_remove; eauto.
  - apply says_unit. apply (alike_what one eq). now apply one_open.
  - apply says_unit. specialize (Sp (G I)). eapply alike_makedirs; eauto.
  - apply says_unit. eapply alike_mkdir; eauto.
  - apply says_same; [easy|]. eapply alike_exists; eauto.
  - apply says_same; [easy|]. eapply alike_isfile; eauto.
  - apply says_same; [easy|]. eapply alike_isdir; eauto.
  - apply says_same; [easy|]. apply one_hooked; [exact t|]. now apply one_isexec.
  - apply says_unit, (alike_what one eq). apply one_hooked; [exact t|]. now apply one_set_exec.
  - apply says_same; [easy|]. eapply alike_islink; eauto.
  - apply says_same; [easy|]. apply one_hooked; [exact t|]. now apply one_readlink.
  - apply says_same; [easy|]. apply one_hooked; [exact t|]. now apply one_mtime.
  - unfold answered. eapply (alike_bind one); [eapply alike_walk; eauto|]. intros x y W. apply alike_ret. cbn. induction W as [|p q x y (W1 & W2 & W3) W IH]; constructor; auto using in_rewritten.
  - apply says_same; [easy|]. apply (alike_weak one (same (Forall noq))); [eapply alike_listdir; eauto|]. now intros x y [-> _].
  - apply says_same; [easy|]. apply one_hooked; [exact t|]. now apply one_info.
  - apply says_unit, (alike_what one eq). apply one_hooked; [exact t|]. now apply one_set_info.
  - apply says_unit, one_hooked; [exact t|]. apply alike_raise.
  - unfold answered. eapply (alike_bind one); [eapply alike_glob; eauto|]. intros x y W. apply alike_ret. now apply rewritten_uris.
  - apply says_same; [easy|]. now apply one_md5.
  - apply says_unit, one_hooked; [exact t|]. now apply alike_ret.
  - apply says_unit, (alike_what one eq). apply one_hooked; [apply H; cbn; auto|]. apply one_manip. apply H. cbn. auto.
Qed.
End Auths.

Lemma ours_creds a u : authority a -> ours a u -> exists q, creds a = Ok q.
Proof. intros A O. destruct (sh_parsed _ _ (ours_shape a A u O)) as (p & f & us & pw & ho & po & H & _). exists (us, pw, ho, po). exact H. Qed.
Lemma rewritten_ours a b u v : rewritten a b u v -> ours a u /\ ours b v.
Proof. intros (x & Hx & Rx & E1 & E2). split; exists x; auto. Qed.
Lemma rewritten_twins a b u v : authority a -> authority b -> rewritten a b u v -> twins a b u v.
Proof.
  intros A B H. destruct (rewritten_ours a b u v H) as [O O']. destruct H as (x & Hx & Rx & E1 & E2).
  destruct (made_twins a b A B (ours_creds a u A O) (ours_creds b v B O') x Hx Rx) as (u' & v' & F1 & F2 & T).
  assert (X : Ok u' = Ok u) by (etransitivity; [symmetry; exact F1|exact E1]). assert (Y : Ok v' = Ok v) by (etransitivity; [symmetry; exact F2|exact E2]).
  injection X as <-. injection Y as <-. exact T.
Qed.
Theorem two_authorities a b fuel o f s : authority a -> authority b -> (forall u, In u (uris_of o) -> rewritten a b u (f u)) ->
  ~ keeps_uri o -> ~ names_root o -> (goes_up o -> a <> [] /\ b <> []) -> tidy s -> (forall p, callback_at s p = None) ->
  snd (ask fuel o s) = snd (ask fuel (map_uris f o) s) /\ rewritten_result a b (fst (ask fuel o s)) (fst (ask fuel (map_uris f o) s)).
Proof.
  intros A B H K R G Td C. assert (X : exists u, In u (uris_of o)) by (destruct o; cbn; eauto). destruct X as (u & I). destruct (rewritten_ours a b _ _ (H u I)) as [O O'].
  assert (Al : alike one (told a b) (ask fuel o) (ask fuel (map_uris f o))).
  { apply one_ask; eauto using ours_creds, rewritten_twins. }
  destruct (Al s s) as ((E & _) & Q); [split; [reflexivity|]; split; [now apply tidy_nodes|exact C]|]. split; [exact E|].
  revert Q. unfold rewritten_result, rel. destruct (fst (ask fuel o s)), (fst (ask fuel (map_uris f o) s)); auto.
Qed.
