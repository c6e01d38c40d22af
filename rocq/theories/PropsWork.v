(** C127: WorkingDirectory and local files. *)
From Verif Require Import Str Exc UriParse BaseUri StrFacts SpecUri SpecParse SpecNames Mem Misc Generic Posix Local LocProg SpecLocal SpecPosix WorkDir SpecWork.
From Verif Require Import MemFacts7 LocalFacts1 PosixFacts PosixFacts2 PosixFacts3 PropsUri PropsParse PropsUriRules PropsLocal3 Resp LocalFacts15 LocTwin.
Local Open Scope string_scope.
Local Open Scope list_scope.

(** ** Walking down real directories *)
Lemma up_dir x d r : sound x -> is_dir_at x (d ++ r) -> is_dir_at x d.
Proof.
  intros So. revert d. induction r as [|n r IH] using rev_ind; intros d H; [now rewrite app_nil_r in H|].
  apply IH. rewrite app_assoc in H. destruct H as (mo & mt & H). apply (so_up x So (d ++ r) n). congruence.
Qed.
Lemma not_special c : ~ special c -> str_eqb c [] = false /\ str_eqb c dot = false /\ str_eqb c dotdot = false.
Proof.
  intros N. repeat split; apply Bool.not_true_is_false; intros E; apply str_eqb_eq in E; apply N; [left|right; left|right; right]; exact E.
Qed.
Lemma walk_down x f b l : sound x -> Forall dir_name l -> forall cur rest, is_dir_at x (cur ++ l) ->
  pwalk (p_tree x) f b cur (l ++ rest) = pwalk (p_tree x) f b (cur ++ l) rest.
Proof.
  intros So. induction 1 as [|c l (Hc & _ & _) Hl IH]; intros cur rest D; [now rewrite app_nil_r|].
  assert (D0 : is_dir_at x cur) by (eapply up_dir; eauto). assert (D1 : is_dir_at x (cur ++ [c])).
  { apply (up_dir x _ l So). now rewrite <- app_assoc. }
  destruct D0 as (mo & mt & D0), D1 as (mo1 & mt1 & D1). destruct (not_special c Hc) as (N1 & N2 & N3).
  replace (cur ++ c :: l) with ((cur ++ [c]) ++ l) in * by now rewrite <- app_assoc.
  rewrite <- (IH (cur ++ [c]) rest D). destruct b; cbn [pwalk app]; rewrite D0, N1, N2, N3, D1; reflexivity.
Qed.
Lemma walk_stay x f b cur rest : is_dir_at x cur -> pwalk (p_tree x) f b cur ([] :: rest) = pwalk (p_tree x) f b cur rest.
Proof. intros (mo & mt & D). destruct b; cbn [pwalk]; rewrite D; reflexivity. Qed.

Definition base_of (d : list str) : str := match d with [] => [] | _ => abs_path d end.
Lemma base_flat d : base_of d = flat_map (fun c => cSlash :: c) d.
Proof. now destruct d. Qed.
Lemma split_base d s : Forall dir_name d -> split_on cSlash (base_of d ++ cSlash :: s) = [] :: d ++ split_on cSlash s.
Proof.
  intros H. rewrite split_on_gen. rewrite base_flat. f_equal. cut (split_on cSlash (flat_map (fun c => cSlash :: c) d) = [] :: d); [intros ->; reflexivity|].
  induction H as [|c d (_ & Hc & _) _ IH]; [reflexivity|]. cbn [flat_map]. change ((cSlash :: c) ++ flat_map (fun c => cSlash :: c) d) with ([] ++ cSlash :: (c ++ flat_map (fun c => cSlash :: c) d)).
  rewrite split_on_app by auto. f_equal. destruct d as [|c' d]; [cbn [flat_map]; rewrite app_nil_r; now apply split_on_none|].
  cbn [flat_map] in *. change ((cSlash :: c') ++ ?r) with (cSlash :: (c' ++ r)) in *. rewrite split_on_app by auto. f_equal.
  change (cSlash :: (c' ++ flat_map (fun c => cSlash :: c) d)) with ([] ++ cSlash :: (c' ++ flat_map (fun c => cSlash :: c) d)) in IH.
  rewrite split_on_app in IH by auto. now injection IH.
Qed.
Lemma nul_base d s : Forall dir_name d -> has_char 0 (base_of d ++ cSlash :: s) = has_char 0 s.
Proof.
  intros H. apply Bool.eq_iff_eq_true. rewrite !has_char_In, in_app_iff. split.
  - intros [I|[I|I]]; [|discriminate I|exact I]. exfalso. rewrite base_flat in I. apply in_flat_map in I as (c & Ic & [I|I]); [discriminate|].
    rewrite Forall_forall in H. now apply (H c Ic).
  - intros I. right. now right.
Qed.

(** ** Relative and absolute paths *)
Definition rel_path (s : str) : Prop := s <> [] /\ forall r, s <> cSlash :: r.
Lemma drop_app a b : drop_slashes a <> [] -> drop_slashes (a ++ b) = drop_slashes a ++ b.
Proof. induction a as [|c a IH]; cbn [app drop_slashes]; [easy|]. destruct (c =? cSlash)%N; auto. Qed.
Lemma drop_end a c : c <> cSlash -> drop_slashes (a ++ [c]) <> [] /\ last (drop_slashes (a ++ [c])) 0%N = c.
Proof.
  intros N. induction a as [|e a IH]; cbn [app drop_slashes].
  - rewrite (proj2 (N.eqb_neq c cSlash) N). split; [discriminate|reflexivity].
  - destruct (e =? cSlash)%N; [exact IH|]. split; [discriminate|]. change (e :: a ++ [c]) with ((e :: a) ++ [c]). apply last_last.
Qed.
Lemma rel_chop d s : rel_path s -> rel_path (chop s) /\ chop (base_of d ++ cSlash :: s) = base_of d ++ cSlash :: chop s.
Proof.
  intros [N1 N2]. destruct s as [|c s]; [easy|]. assert (Nc : c <> cSlash) by (intros ->; now apply (N2 s)).
  destruct (drop_end (rev s) c Nc) as [D1 D2]. unfold chop at 1 3. cbn [rev] in *.
  assert (E : exists r, rev (drop_slashes (rev s ++ [c])) = c :: r).
  { destruct (rev (drop_slashes (rev s ++ [c]))) as [|e r] eqn:E; [apply (f_equal (@rev N)) in E; rewrite rev_involutive in E; now destruct (D1 E)|].
    exists r. f_equal. apply (f_equal (@rev N)) in E. rewrite rev_involutive in E. cbn [rev] in E. rewrite E, last_last in D2. exact D2. }
  destruct E as [r E]. rewrite E. split; [split; [discriminate|intros r' X; injection X as X _; now apply Nc]|].
  unfold chop. rewrite rev_app_distr. cbn [rev]. rewrite <- !app_assoc, (app_assoc (rev s)), drop_app, rev_app_distr, E by exact D1.
  cbn [app rev]. rewrite rev_involutive, <- app_assoc. cbn [app].
  destruct (base_of d ++ cSlash :: c :: r) eqn:X; [now destruct (base_of d)|reflexivity].
Qed.
Lemma slashed_base d s : rel_path s -> slashed (base_of d ++ cSlash :: s) = slashed s.
Proof.
  intros R. destruct (rel_chop d s R) as [_ E]. unfold slashed. rewrite E. f_equal. apply Bool.eq_iff_eq_true. rewrite !str_eqb_eq. split.
  - intros X. apply app_inv_head in X. now injection X.
  - now intros ->.
Qed.
Lemma piece_base d s : Forall dir_name d -> rel_path s -> last_piece (base_of d ++ cSlash :: s) = last_piece s.
Proof.
  intros H R. destruct (rel_chop d s R) as [_ E]. unfold last_piece. rewrite E, split_base by auto.
  change ([] :: d ++ split_on cSlash (chop s)) with (([] :: d) ++ split_on cSlash (chop s)). pose proof (split_on_nonnil cSlash (chop s)) as N.
  destruct (snoc_cases (split_on cSlash (chop s))) as [X|(i & n & X)]; [easy|]. rewrite X, app_assoc. now rewrite !last_last.
Qed.
Lemma look_base x d f s : sound x -> real_dir x d -> rel_path s -> plook (set_cwd x d) f s = plook x f (base_of d ++ cSlash :: s).
Proof.
  intros So (D & H) [N1 N2]. unfold plook. rewrite nul_base by auto. destruct (has_char 0 s); [reflexivity|].
  assert (P : exists r, base_of d ++ cSlash :: s = cSlash :: r) by (rewrite base_flat; destruct d; cbn; eauto). destruct P as [r P].
  assert (Ps : prefixb [cSlash] s = false) by (destruct (prefixb [cSlash] s) eqn:E; [apply prefixb_spec in E as [y E]; now destruct (N2 y)|reflexivity]).
  assert (Pb : prefixb [cSlash] (base_of d ++ cSlash :: s) = true) by (apply prefixb_spec; exists r; exact P).
  rewrite Ps, Pb, split_base by auto. cbn [p_tree p_cwd set_cwd]. rewrite walk_stay by (apply (up_dir x [] d So); exact D). rewrite (walk_down x f pbudget d So H) by exact D.
  cbn [app]. destruct s; [easy|]. rewrite P. reflexivity.
Qed.

(** ** Calls *)
(** What [m] does in the directory [d] is what [m'] does wherever the program is. *)
Definition alike_in {A} (d : list str) (x : pst) (m m' : M pst A) : Prop := m (set_cwd x d) = let (r, x') := m' x in (r, set_cwd x' d).
Lemma alike_bind {A B} d x (m m' : M pst A) (k k' : A -> M pst B) : alike_in d x m m' -> (forall a x', m' x = (Ok a, x') -> alike_in d x' (k a) (k' a)) ->
  alike_in d x (bind m k) (bind m' k').
Proof. intros H K. unfold alike_in, bind in *. rewrite H. destruct (m' x) as [[a|e] x'] eqn:E; [|reflexivity]. now apply K. Qed.
Lemma alike_ret {A} d x (a : A) : alike_in d x (ret a) (ret a). Proof. reflexivity. Qed.
Lemma alike_raise {A} d x e : alike_in d x (raise e : M pst A) (raise e). Proof. reflexivity. Qed.
Lemma alike_lift {A} d x (r : res A) : alike_in d x (lift r) (lift r). Proof. now destruct r. Qed.

Section Calls.
Variables (x : pst) (d : list str).
Hypotheses (So : sound x) (D : real_dir x d).
Variables (s t : str) (u w : uri).
Hypotheses (R : rel_path s) (Pu : u_path u = s) (Pw : u_path w = t) (Et : t = base_of d ++ cSlash :: s).
Let K f : plook (set_cwd x d) f s = plook x f t. Proof. rewrite Et. now apply look_base. Qed.
Let Kc f : plook (set_cwd x d) f (chop s) = plook x f (chop t).
Proof. destruct (rel_chop d s R) as [R' E]. rewrite Et, E. now apply look_base. Qed.
Let Ks : slashed s = slashed t. Proof. rewrite Et. symmetry. now apply slashed_base. Qed.
Let Kl : last_piece s = last_piece t. Proof. rewrite Et. symmetry. apply piece_base; [apply D|exact R]. Qed.

Ltac go := unfold alike_in; repeat (rewrite ?K, ?Kc, ?Ks, ?Kl; cbn [p_tree p_cwd p_now p_umask set_cwd set_tree];
  match goal with
  | |- context [match ?e with _ => _ end] => destruct e
  end); try reflexivity.
Lemma al_stat f : alike_in d x (os_stat f s) (os_stat f t).
Proof. unfold os_stat. go. Qed.
Lemma al_test f g : alike_in d x (os_test f g s) (os_test f g t).
Proof. unfold alike_in, os_test. rewrite (al_stat f). unfold os_stat. destruct (plook x f t) as [[p e|a b]|[]]; reflexivity. Qed.
Lemma al_listdir : alike_in d x (os_listdir s) (os_listdir t). Proof. unfold os_listdir. go. Qed.
Lemma al_unlink : alike_in d x (Posix.os_unlink s) (Posix.os_unlink t). Proof. unfold Posix.os_unlink, sys_unlink. go. Qed.
Lemma al_rmdir : alike_in d x (os_rmdir s) (os_rmdir t). Proof. unfold os_rmdir, sys_rmdir. go. Qed.
Lemma al_mkdir : alike_in d x (os_mkdir s) (os_mkdir t). Proof. unfold os_mkdir, sys_mkdir. go. Qed.
Lemma al_symlink g : alike_in d x (os_symlink g s) (os_symlink g t). Proof. unfold os_symlink, sys_symlink. go. Qed.
Lemma al_readlink : alike_in d x (os_readlink s) (os_readlink t). Proof. unfold os_readlink. go. Qed.
Lemma al_chmod m : alike_in d x (os_chmod s m) (os_chmod t m). Proof. unfold os_chmod. go. Qed.
Lemma al_open_r : alike_in d x (os_open_r s) (os_open_r t). Proof. unfold os_open_r. go. Qed.
Lemma al_open_w : alike_in d x (os_open_w s) (os_open_w t). Proof. unfold os_open_w, refuse_slashed, sys_open_w, new_pfile. go. Qed.
Lemma al_open_a : alike_in d x (os_open_a s) (os_open_a t). Proof. unfold os_open_a, refuse_slashed, sys_open_a, new_pfile. go. Qed.
End Calls.
Lemma al_data d x q : alike_in d x (fd_data q) (fd_data q). Proof. reflexivity. Qed.
Lemma al_append d x q b : alike_in d x (fd_append q b) (fd_append q b).
Proof. unfold alike_in, fd_append. cbn. destruct (pget q (p_tree x)) as [[]|]; destruct b; reflexivity. Qed.
Lemma stays_stat f p x r x' : os_stat f p x = (r, x') -> x' = x. Proof. unfold os_stat. now intros [= <- <-]. Qed.
Lemma stays_test f g p x r x' : os_test f g p x = (r, x') -> x' = x.
Proof. unfold os_test. destruct (os_stat f p x) as [y z] eqn:E. apply stays_stat in E as ->. destruct y as [|[]]; now intros [= <- <-]. Qed.
Lemma alike_said {A} d x (f : A -> lanswer) m m' : alike_in d x m m' -> alike_in d x (said f m) (said f m').
Proof. intros H. apply alike_bind; [exact H|]. intros. apply alike_ret. Qed.

Lemma under_paths d v w : under d v w -> exists s, u_path v = s /\ rel_path s /\ u_path w = base_of d ++ cSlash :: s /\ u_cls v = ULocal /\ u_cls w = ULocal.
Proof.
  intros [s C1 C2 P1 N1 N2 P2]. apply C104_path in P1, P2. exists s. repeat split; auto. rewrite P2. now destruct d.
Qed.
(** A call with a relative path in the directory [d] is the call with the absolute path. *)
Theorem C127_relative x d c c' : sound x -> real_dir x d -> rebased d c c' -> lask c (set_cwd x d) = let (r, x') := lask c' x in (r, set_cwd x' d).
Proof.
  intros So D Rb. change (alike_in d x (lask c) (lask c')).
  assert (Hinfo : forall u u' f, under d u u' -> alike_in d x (loc_info u f) (loc_info u' f) /\ forall r x', loc_info u' f x = (r, x') -> x' = x).
  { intros u u' f Un. destruct (under_paths d u u' Un) as (s & Pu & R & Pw & _). split.
    - unfold loc_info, loc_islink, path_islink. rewrite Pu, Pw. eapply alike_bind; [now apply al_test|]. intros l x' E. apply stays_test in E as ->.
      eapply alike_bind; [now apply al_stat|]. intros. apply alike_ret.
    - intros r x'. unfold loc_info, loc_islink, path_islink, bind. destruct (os_test false is_plink (u_path u') x) as [y z] eqn:E. apply stays_test in E as ->.
      destruct y as [l|]; [|now intros [= <- <-]]. destruct (os_stat _ _ x) as [y z] eqn:E. apply stays_stat in E as ->. destruct y; now intros [= <- <-]. }
  assert (Hmode : forall u u' m, under d u u' -> alike_in d x (loc_set_mode u m) (loc_set_mode u' m)).
  { intros u u' m Un. destruct (under_paths d u u' Un) as (s & Pu & R & Pw & _). unfold loc_set_mode, loc_islink, path_islink. rewrite Pu, Pw.
    eapply alike_bind; [now apply al_test|]. intros l x' E. apply stays_test in E as ->. now apply al_chmod. }
  destruct Rb; try (match goal with H : under _ _ _ |- _ => destruct (under_paths _ _ _ H) as (s & Pu & R & Pw & Cu & Cw) end).
  all: cbn [lask]; try apply alike_said.
  - destruct (under_paths _ _ _ H) as (s1 & Pu1 & R1 & Pw1 & _). unfold alike_in, loc_copystat, sh_copystat. rewrite Pu1, Pw1. destruct (under_paths _ _ _ H0) as (s2 & Pu2 & R2 & Pw2 & _). rewrite Pu2, Pw2.
    rewrite !(look_base x d true) by auto. destruct (plook x true (base_of d ++ cSlash :: s1)) as [[? ?|? ?]|?]; destruct (plook x true (base_of d ++ cSlash :: s2)) as [[? ?|? ?]|?]; reflexivity.
  - unfold u_remove, hooked. cbn [b_hook b_islink b_removefile b_exists b_isdir b_removedir b_isfile loc_backend]. apply alike_bind; [apply alike_ret|]. intros [] x' E. injection E as <-.
    unfold loc_islink, path_islink, loc_removefile. rewrite Pu, Pw. eapply alike_bind; [now apply al_test|]. intros l x' E. apply stays_test in E as ->. destruct l; [now apply al_unlink|].
    unfold loc_exists, path_exists. rewrite Pu, Pw. eapply alike_bind; [now apply al_test|]. intros e x' E. apply stays_test in E as ->. destruct e; cbn [negb].
    2:{ unfold u_str. rewrite Cu, Cw. reflexivity. }
    unfold loc_isdir, path_isdir. rewrite Pu, Pw. eapply alike_bind; [now apply al_test|]. intros e x' E. apply stays_test in E as ->. destruct e.
    { unfold loc_removedir, loc_islink, path_islink. rewrite Pu, Pw. eapply alike_bind; [now apply al_test|]. intros l x' E. apply stays_test in E as ->. destruct l; [apply alike_raise|now apply al_rmdir]. }
    unfold loc_isfile, path_isfile. rewrite Pu, Pw. eapply alike_bind; [now apply al_test|]. intros e x' E. apply stays_test in E as ->. destruct e; [now apply al_unlink|apply alike_ret].
  - unfold u_mkdir, hooked. cbn [b_hook b_mkdir loc_backend]. apply alike_bind; [apply alike_ret|]. intros [] x' E. injection E as <-. unfold loc_mkdir. rewrite Pu, Pw.
    destruct s as [|a s]; [now destruct R|]. destruct (base_of d ++ cSlash :: a :: s) eqn:X; [now destruct (base_of d)|]. rewrite <- X. now apply al_mkdir.
  - unfold u_exists, hooked. apply alike_bind; [apply alike_ret|]. intros [] x' E. injection E as <-. cbn [b_exists loc_backend]. unfold loc_exists. rewrite Pu, Pw. now apply al_test.
  - unfold u_isfile, hooked. apply alike_bind; [apply alike_ret|]. intros [] x' E. injection E as <-. cbn [b_isfile loc_backend]. unfold loc_isfile. rewrite Pu, Pw. now apply al_test.
  - unfold u_isdir, hooked. apply alike_bind; [apply alike_ret|]. intros [] x' E. injection E as <-. cbn [b_isdir loc_backend]. unfold loc_isdir. rewrite Pu, Pw. now apply al_test.
  - unfold u_islink, hooked. apply alike_bind; [apply alike_ret|]. intros [] x' E. injection E as <-. cbn [b_islink loc_backend]. unfold loc_islink. rewrite Pu, Pw. now apply al_test.
  - unfold loc_isexec. apply alike_bind; [now apply Hinfo|]. intros. apply alike_ret.
  - unfold loc_set_exec. apply alike_bind; [now apply Hinfo|]. intros i x' E. apply (proj2 (Hinfo u u' true H)) in E as ->. now apply Hmode.
  - unfold loc_readlink. rewrite Pu, Pw. apply alike_bind; [now apply al_readlink|]. intros. apply alike_lift.
  - unfold loc_symlink. rewrite Pu, Pw. now apply al_symlink.
  - unfold loc_mtime. apply alike_bind; [now apply Hinfo|]. intros. apply alike_ret.
  - now apply Hinfo.
  - now apply Hmode.
  - unfold u_listdir, hooked. apply alike_bind; [apply alike_ret|]. intros [] x' E. injection E as <-. cbn [b_listdir loc_backend]. unfold loc_listdir. rewrite Pu, Pw. apply alike_bind; [now apply al_listdir|]. intros. apply alike_ret.
  - unfold loc_read_all. rewrite Pu, Pw. apply alike_bind; [now apply al_open_r|]. intros. apply al_data.
  - unfold loc_write_all. rewrite Pu, Pw. apply alike_bind; [now apply al_open_w|]. intros. apply al_append.
  - unfold loc_append_all. rewrite Pu, Pw. apply alike_bind; [now apply al_open_a|]. intros. apply al_append.
  - reflexivity.
Qed.
Print Assumptions C127_relative.

(** ** The block *)
Lemma abs_look x d : sound x -> real_dir x d -> forall f, exists mo mt, plook x f (abs_path d) = Ok (At d (PDir mo mt)).
Proof.
  intros So ((mo & mt & D) & H) f. exists mo, mt. destruct (snoc_cases d) as [->|(i & n & ->)].
  { unfold plook. cbn. rewrite D. reflexivity. }
  assert (E : abs_path (i ++ [n]) = base_of i ++ cSlash :: n).
  { unfold abs_path. destruct (i ++ [n]) eqn:X; [now destruct i|]. rewrite <- X, base_flat, flat_map_app. cbn [flat_map]. now rewrite app_nil_r. }
  apply Forall_app in H as [Hi Hn]. inversion Hn as [|? ? (Sn & Cn & Nn) _]; subst. destruct (not_special n Sn) as (N1 & N2 & N3).
  assert (Di : is_dir_at x i) by (apply (so_up x So i n); congruence).
  rewrite E, <- look_base; auto; [|now split|].
  2:{ split; [intros ->; apply Sn; now left|]. intros r ->. apply Cn. now left. }
  unfold plook. rewrite (proj2 (has_char_false 0 n) Nn). destruct n as [|c n]; [now destruct Sn; left|].
  assert (Pn : prefixb [cSlash] (c :: n) = false) by (destruct (prefixb [cSlash] (c :: n)) eqn:Y; [apply prefixb_spec in Y as [y Y]; destruct Cn; rewrite Y; now left|reflexivity]).
  rewrite Pn, split_on_none by auto. cbn [p_tree p_cwd set_cwd]. destruct Di as (mi & ti & Di). cbn [pwalk pbudget]. rewrite Di, N1, N2, N3, D. reflexivity.
Qed.
(** The body runs in the directory that the URI leads to; then the program is back where it was, if that directory is still there, and
    the outcome is that of the body. *)
Theorem C127_block {A} x u d mo mt (body : M pst A) r x2 : sound x -> real_dir x (p_cwd x) -> sees x true u (Is d (PDir mo mt)) ->
  body (set_cwd x d) = (r, x2) -> sound x2 -> is_dir_at x2 (p_cwd x) -> in_dir u body x = (r, set_cwd x2 (p_cwd x)).
Proof.
  intros So ((m0 & t0 & D) & H) Se Eb So2 D2. unfold in_dir, bind, sys_getcwd. rewrite D. unfold with_, sys_chdir at 1.
  apply sees_iff in Se. rewrite Se. cbn [answer]. rewrite Eb. unfold sys_chdir. destruct (abs_look x2 (p_cwd x) So2 (conj D2 H) true) as (m1 & t1 & E1). now rewrite E1.
Qed.
Print Assumptions C127_block.
(** If the directory of the process has been removed before, the body does not run either. *)
Theorem C127_nowhere {A} x u (body : M pst A) : ~ is_dir_at x (p_cwd x) -> in_dir u body x = (Raise (OSError ENOENT), x).
Proof.
  intros N. unfold in_dir, bind, sys_getcwd. destruct (pget (p_cwd x) (p_tree x)) as [[]|] eqn:E; try reflexivity. exfalso. apply N. unfold is_dir_at. eauto.
Qed.
Print Assumptions C127_nowhere.
(** If the URI leads to no directory, the body does not run and nothing changes. *)
Theorem C127_not_entered {A} x u o (body : M pst A) : is_dir_at x (p_cwd x) -> sees x true u o -> (forall d mo mt, o <> Is d (PDir mo mt)) ->
  exists e, in_dir u body x = (Raise e, x) /\ (forall p f, o = Is p f -> e = OSError ENOTDIR) /\ (forall e', absent o e' -> e = e').
Proof.
  intros (m0 & t0 & D) Se N. unfold in_dir, bind, sys_getcwd. rewrite D. unfold with_, sys_chdir at 1. apply sees_iff in Se. rewrite Se.
  destruct o as [p e|p n|e]; cbn [answer].
  - destruct e as [| |]; try (exfalso; eapply N; reflexivity); eexists; repeat split; try (intros ? X; now inversion X).
  - eexists; repeat split; [intros ? ? X; discriminate|]. intros e' X. now inversion X; congruence.
  - eexists; repeat split; [intros ? ? X; discriminate|]. intros e' X. inversion X; congruence.
Qed.
Print Assumptions C127_not_entered.

Lemma lask_sound c x : sound x -> sound (snd (lask c x)).
Proof. intros So. assert (E : peq x x) by (constructor; auto; constructor; auto). apply (lask_resp c x x E). Qed.
Lemma leaves_det {X} d c (k : res lanswer -> lprog X) x : leaves d (LCall c k) x -> is_dir_at (snd (lask c x)) d /\ leaves d (k (fst (lask c x))) (snd (lask c x)).
Proof. intros H. inversion H; subst. match goal with E : lask _ _ = _ |- _ => rewrite E end. now split. Qed.
Lemma program_run {X} d (p p' : lprog X) : moved_to d p p' -> forall x, sound x -> real_dir x d -> leaves d p' x ->
  lrun p (set_cwd x d) = (let (a, x') := lrun p' x in (a, set_cwd x' d)) /\ sound (snd (lrun p' x)).
Proof.
  induction 1 as [a|c c' k k' Rb _ IH]; intros x So D Lv; cbn [lrun]; [now split|]. rewrite (C127_relative x d c c' So D Rb).
  pose proof (lask_sound c' x So) as So'. apply leaves_det in Lv as [D' Lv]. destruct (lask c' x) as [r x']. cbn [fst snd] in *. apply IH; auto. split; [exact D'|apply D].
Qed.
(** A program as the body of a with-block *)
Definition body_of {X} (p : lprog X) : M pst X := fun x => let (a, x') := lrun p x in (Ok a, x').
(** Whatever the program does with the answers: in the block, with relative paths, it is the program with the absolute ones. *)
Theorem C127_program {X} x u d mo mt (p p' : lprog X) a x' : sound x -> real_dir x (p_cwd x) -> Forall dir_name d -> sees x true u (Is d (PDir mo mt)) ->
  moved_to d p p' -> leaves d p' x -> lrun p' x = (a, x') -> is_dir_at x' (p_cwd x) -> in_dir u (body_of p) x = (Ok a, set_cwd x' (p_cwd x)).
Proof.
  intros So D0 Nd Se Mv Lv Ea D'. assert (D : real_dir x d) by (split; [exists mo, mt; apply (sees_spot _ _ _ _ Se)|exact Nd]).
  destruct (program_run d p p' Mv x So D Lv) as [E So']. rewrite Ea in *. cbn [snd] in So'.
  apply (C127_block x u d mo mt (body_of p) (Ok a) (set_cwd x' d)) in Se; auto.
  - unfold body_of. now rewrite E.
  - destruct So'. constructor; assumption.
Qed.
Print Assumptions C127_program.
(** The directory from before is gone: the block ends in an exception, and the program stays where it is. *)
Theorem C127_lost {A} x u d mo mt (body : M pst A) r x2 i n : sound x -> real_dir x (p_cwd x) -> p_cwd x = i ++ [n] -> sees x true u (Is d (PDir mo mt)) ->
  body (set_cwd x d) = (r, x2) -> sound x2 -> is_dir_at x2 i -> entry_at x2 (p_cwd x) None -> in_dir u body x = (Raise (OSError ENOENT), x2).
Proof.
  intros So ((m0 & t0 & D) & H) Ep Se Eb So2 Di En. unfold in_dir, bind, sys_getcwd. rewrite D. unfold with_, sys_chdir at 1.
  apply sees_iff in Se. rewrite Se. cbn [answer]. rewrite Eb. unfold sys_chdir.
  rewrite Ep in *. assert (E : abs_path (i ++ [n]) = base_of i ++ cSlash :: n).
  { unfold abs_path. destruct (i ++ [n]) eqn:X; [now destruct i|]. rewrite <- X, base_flat, flat_map_app. cbn [flat_map]. now rewrite app_nil_r. }
  apply Forall_app in H as [Hi Hn]. inversion Hn as [|? ? (Sn & Cn & Nn) _]; subst. destruct (not_special n Sn) as (N1 & N2 & N3).
  rewrite E, <- look_base; auto; [|now split|].
  2:{ split; [intros ->; apply Sn; now left|]. intros s ->. apply Cn. now left. }
  unfold plook. rewrite (proj2 (has_char_false 0 n) Nn). destruct n as [|c n]; [now destruct Sn; left|].
  assert (Pn : prefixb [cSlash] (c :: n) = false) by (destruct (prefixb [cSlash] (c :: n)) eqn:Y; [apply prefixb_spec in Y as [y Y]; destruct Cn; rewrite Y; now left|reflexivity]).
  rewrite Pn, split_on_none by auto. cbn [p_tree p_cwd set_cwd]. destruct Di as (mi & ti & Di). cbn [pwalk pbudget]. rewrite Di, N1, N2, N3, En. reflexivity.
Qed.
Print Assumptions C127_lost.

From Verif Require Import PropsMem PropsLocal2 PropsPosix.
(** In /d/e, with u a link that leads to the directory /d by way of "..": a program that writes a file, tests it, removes /d/f if there is one. *)
Definition wprog (v w : uri) : lprog bool :=
  LCall (LWrite v [lit "x"]) (fun _ => LCall (LIsfile w) (fun r => match r with Ok (LBool true) => LCall (LRemove 0 false w) (fun _ => LDone true) | _ => LDone false end)).
Lemma path_of u s : u_path u = s -> paths u s. Proof. apply C104_path. Qed.
Lemma wprog_moved d v v' w w' : under d v v' -> under d w w' -> moved_to d (wprog v w) (wprog v' w').
Proof.
  intros H1 H2. apply mt_call; [now constructor|]. intros _. apply mt_call; [now constructor|]. intros [[]|]; try constructor. destruct b; constructor; [now constructor|]. intros. constructor.
Qed.
Example C127_nowhere_witness : let x := set_cwd loc20 (P ["gone"]) in ~ is_dir_at x (p_cwd x) /\ fst (in_dir (U "/m") (ret tt) x) = Raise (OSError ENOENT).
Proof. split; [intros (a & b & E); vm_compute in E; discriminate|vm_compute; reflexivity]. Qed.
Example C127_witness : let x := set_cwd loc20 (P ["d"; "e"]) in sound x /\ real_dir x (p_cwd x) /\ Forall dir_name (P ["d"]) /\ sees x true (U "/m") (Is (P ["d"]) (PDir 493 5)) /\
  moved_to (P ["d"]) (wprog (U "e/n") (U "f")) (wprog (U "/d/./e/n") (U "/d/./f")) /\ leaves (P ["d"]) (wprog (U "/d/./e/n") (U "/d/./f")) x /\
  (let (a, x') := lrun (wprog (U "/d/./e/n") (U "/d/./f")) x in a = true /\ is_dir_at x' (p_cwd x) /\
     pget (P ["d"; "e"; "n"]) (p_tree x') = Some (PFile (lit "x") 420 50) /\ pget (P ["d"; "f"]) (p_tree x') = None).
Proof.
  assert (Nm : forall c, str_eqb c [] || str_eqb c dot || str_eqb c dotdot || has_char cSlash c || has_char 0 c = false -> dir_name c).
  { intros c H. apply orb_false_iff in H as [H H5]. apply orb_false_iff in H as [H H4]. apply orb_false_iff in H as [H H3]. apply orb_false_iff in H as [H1 H2].
    apply has_char_false in H4, H5. split; [|now split]. intros [->|[->| ->]]; discriminate. }
  cbv zeta. split; [destruct loc20_sound; constructor; assumption|]. split; [split; [do 2 eexists; vm_compute; reflexivity|repeat (constructor; [apply Nm; vm_compute; reflexivity|]); constructor]|].
  split; [repeat (constructor; [apply Nm; vm_compute; reflexivity|]); constructor|]. split; [apply sees_iff; vm_compute; reflexivity|].
  split. { apply wprog_moved; econstructor; try (vm_compute; reflexivity); try (apply path_of; vm_compute; reflexivity); try discriminate. }
  split. { unfold wprog. repeat (eapply lv_call; [vm_compute; reflexivity|do 2 eexists; vm_compute; reflexivity|cbn]). constructor. }
  vm_compute. repeat split. do 2 eexists. reflexivity.
Qed.
