(** The methods, with other processes between their system calls. *)
From Coq Require Import Lia.
From Verif Require Import Str Exc StrFacts UriParse BaseUri SpecUri Mem SpecMem Misc Posix Local SpecLocal Generic LocProg SpecHome LocSteps SpecSteps ApartFacts2 LocalFacts1 LocalFacts6 LocalFacts15 Resp LocTwin HomeFacts1 HomeFacts2 HomeFacts3 HomeFacts4 Pair PropsHome StepFacts.
Open Scope nat_scope.

Definition move_tree (src real_dst : str) : M pst unit := fun x => match plook x true src with Ok (At p _) => copy_and_remove_tree p real_dst x | _ => (Raise OutOfFuel, x) end.
Lemma move_tree_resp a r : resp peq (move_tree a r).
Proof.
  apply resp_of; [apply tree_steady|]. intros x y E. unfold move_tree. rewrite (look_same x y true a E). destruct (plook y true a) as [[p f|d n]|e']; cbn [fst snd]; try (split; [reflexivity|apply E]).
  unfold copy_and_remove_tree. set (comps := filter _ _). destruct (parents_same comps [] x y E (so_root x (pe_x _ _ E))) as [P1 P2].
  destruct (make_parents [] comps x) as [[q|] x'], (make_parents [] comps y) as [[q'|] y']; cbn [fst snd] in *; try discriminate; injection P1 as <-.
  - destruct (is_below p q); cbn [fst snd]; (split; [reflexivity|]); [apply E|]. destruct P2. constructor; cbn; auto. now apply rename_perm.
  - now split.
Qed.
Section Step.
Variable D : list str.
Hypothesis HD : home_dir D.
Context {W1 W2 : Type}.
Variable step1 : forall A, M pst A -> M W1 A.
Variable step2 : forall A, M pst A -> M W2 A.
Variable R : W1 -> W2 -> Prop.
Hypothesis ok_step : forall A (Q : A -> Prop) m, homely D Q m -> both R Q (step1 A m) (step2 A m).
Local Hint Resolve uri_path : core.
Notation home_text := (home_text D).
Notation home_uri := (home_uri D).
Notation so Q m1 m2 := (both R Q m1 m2).
Ltac by_pair L R := apply ok_step; split; [intros x0 y0 r1 r2; apply L; auto|apply R].
Lemma so_test f g p : home_text p -> so any (step1 _ (os_test f g p)) (step2 _ (os_test f g p)). Proof. intros H. by_pair on_test test_resp. Qed.
Lemma so_stat f p : home_text p -> so any (step1 _ (os_stat f p)) (step2 _ (os_stat f p)). Proof. intros H. by_pair on_stat stat_resp. Qed.
Lemma so_unlink p : home_text p -> so any (step1 _ (os_unlink p)) (step2 _ (os_unlink p)). Proof. intros H. by_pair on_unlink unlink_resp. Qed.
Lemma so_rmdir p : home_text p -> so any (step1 _ (os_rmdir p)) (step2 _ (os_rmdir p)). Proof. intros H. by_pair on_rmdir rmdir_resp. Qed.
Lemma so_mkdir p : home_text p -> so any (step1 _ (os_mkdir p)) (step2 _ (os_mkdir p)). Proof. intros H. by_pair on_osmkdir mkdir_resp. Qed.
Lemma so_symlink t p : home_text t -> home_text p -> so any (step1 _ (os_symlink t p)) (step2 _ (os_symlink t p)). Proof. intros H H'. by_pair on_ossymlink symlink_resp. Qed.
Lemma so_readlink p : home_text p -> so home_text (step1 _ (os_readlink p)) (step2 _ (os_readlink p)). Proof. intros H. by_pair on_osreadlink readlink_resp. Qed.
Lemma so_chmod p m : home_text p -> so any (step1 _ (os_chmod p m)) (step2 _ (os_chmod p m)). Proof. intros H. by_pair on_chmod chmod_resp. Qed.
Lemma so_copystat p q : home_text p -> home_text q -> so any (step1 _ (sh_copystat p q)) (step2 _ (sh_copystat p q)). Proof. intros H H'. by_pair on_oscopystat copystat_resp. Qed.
Notation below_D := (below_D D).
Lemma so_open_r p : home_text p -> so below_D (step1 _ (os_open_r p)) (step2 _ (os_open_r p)). Proof. intros H. by_pair on_open_r open_r_resp. Qed.
Lemma so_open_w p : home_text p -> so below_D (step1 _ (os_open_w p)) (step2 _ (os_open_w p)). Proof. intros H. by_pair on_open_w open_w_resp. Qed.
Lemma so_open_a p : home_text p -> so below_D (step1 _ (os_open_a p)) (step2 _ (os_open_a p)). Proof. intros H. by_pair on_open_a open_a_resp. Qed.
Lemma so_data q : below_D q -> so any (step1 _ (fd_data q)) (step2 _ (fd_data q)). Proof. intros H. by_pair on_data data_resp. Qed.
Lemma so_append q b : below_D q -> so any (step1 _ (fd_append q b)) (step2 _ (fd_append q b)). Proof. intros H. by_pair on_append append_resp. Qed.
Lemma so_rename p q : home_text p -> home_text q -> so any (step1 _ (os_rename p q)) (step2 _ (os_rename p q)). Proof. intros H H'. by_pair on_osrename rename_resp. Qed.
Lemma so_samefile p q : home_text p -> home_text q -> so any (step1 _ (samefile p q)) (step2 _ (samefile p q)). Proof. intros H H'. by_pair on_samefile same_resp. Qed.
Lemma so_tree p q : home_text p -> home_text q -> so any (step1 _ (move_tree p q)) (step2 _ (move_tree p q)).
Proof.
  intros Hp Hq. apply ok_step. split; [|apply move_tree_resp]. intros x0 y0 r1 r2 x y T. unfold move_tree. destruct (at_look D x0 y0 HD r1 r2 true p x y Hp T) as [E S]. rewrite E.
  destruct (plook x true p) as [[r e|k n]|e]; try (split; [reflexivity|split; [exact T|discriminate]]). apply on_tree; auto. exact (seen_at D x0 y0 x y r e T (S _ eq_refl)).
Qed.
Lemma so_list u : home_uri u -> so (Forall mild) (st_listdir step1 u) (st_listdir step2 u).
Proof. intros H. apply ok_step. split; [intros x0 y0 r1 r2; now apply on_list|apply loc_listdir_resp]. Qed.
Lemma so_rd u : home_uri u -> so any (st_removedir step1 u) (st_removedir step2 u).
Proof. intros H. unfold st_removedir. eapply both_bind; [apply so_test; auto|]. intros l _. destruct l; [apply both_raise|apply so_rmdir; auto]. Qed.
Lemma so_mk u : home_uri u -> so any (st_mkdir step1 u) (st_mkdir step2 u).
Proof. intros H. unfold st_mkdir. pose proof (uri_path D HD u H) as P. destruct (u_path u); [now apply both_ret|]. now apply so_mkdir. Qed.
Lemma so_info u f : home_uri u -> so any (st_info step1 u f) (st_info step2 u f).
Proof. intros H. unfold st_info. eapply both_bind; [apply so_test; auto|]. intros l _. eapply both_bind; [apply so_stat; auto|]. intros e _. now apply both_ret. Qed.
Lemma so_setmode u m : home_uri u -> so any (st_set_mode step1 u m) (st_set_mode step2 u m).
Proof. intros H. unfold st_set_mode. eapply both_bind; [apply so_test; auto|]. intros l _. apply so_chmod; auto. Qed.
Lemma so_rl u : home_uri u -> so (fun v => home_text (u_path v)) (st_readlink step1 u) (st_readlink step2 u).
Proof. intros H. unfold st_readlink. eapply both_bind; [apply so_readlink; auto|]. intros tg Ht. apply both_lift. intros v E. now rewrite (read_path D HD tg v Ht E). Qed.
Lemma so_content u v : home_uri u -> home_uri v -> so any (st_copy_content step1 u v) (st_copy_content step2 u v).
Proof.
  intros Hu Hv. unfold st_copy_content. eapply both_bind; [apply so_open_r; auto|]. intros p Bp. eapply both_bind; [apply so_open_w; auto|]. intros q Bq. eapply both_bind; [apply so_data; auto|]. intros d _. apply so_append; auto.
Qed.
Lemma steps_pair : paired R (st_backend step1) (st_backend step2) home_uri mild (fun v => home_text (u_path v)) any.
Proof.
  constructor; cbn [st_backend b_hook b_exists b_isfile b_isdir b_islink b_listdir b_removefile b_removedir b_mkdir b_readlink b_copystat b_copy_content b_removefile_by b_symlink_by]; intros.
  - now apply both_ret.
  - apply so_test; auto.
  - apply so_test; auto.
  - eapply both_weak; [apply so_test; auto|]. now intros.
  - apply so_test; auto.
  - now apply so_list.
  - apply so_unlink; auto.
  - now apply so_rd.
  - now apply so_mk.
  - now apply so_rl.
  - apply so_copystat; auto.
  - now apply so_content.
  - apply so_unlink; auto.
  - apply so_symlink; auto.
Qed.
Lemma so_up u : roof_uri D u -> so (fun d => d = true) (u_isdir (st_backend step1) u) (u_isdir (st_backend step2) u).
Proof.
  intros U. unfold u_isdir, hooked. cbn [st_backend b_hook b_isdir]. apply (both_bind _ any); [now apply both_ret|]. intros _ _. apply ok_step. split; [|apply test_resp].
  intros x0 y0 r1 r2. exact (on_up D x0 y0 HD r1 r2 u U).
Qed.
Lemma so_file p q : home_text p -> home_text q -> so any (st_move_file step1 p q) (st_move_file step2 p q).
Proof.
  intros Hp Hq. unfold st_move_file. eapply both_bind; [apply so_samefile; auto|]. intros same _. destruct same; [apply both_raise|].
  eapply both_bind; [apply so_open_r; auto|]. intros a Ba. eapply both_bind; [apply so_open_w; auto|]. intros b Bb. eapply both_bind; [apply so_data; auto|]. intros d _.
  eapply both_bind; [apply so_append; auto|]. intros [] _. eapply both_bind; [apply so_copystat; auto|]. intros [] _. apply so_unlink; auto.
Qed.
Lemma so_fallback p d q : home_text p -> home_text q -> so any (st_move_fallback step1 p d q) (st_move_fallback step2 p d q).
Proof.
  intros Hp Hq. unfold st_move_fallback. eapply both_bind; [apply so_test; auto|]. intros l _. destruct l.
  - eapply both_bind; [apply so_readlink; auto|]. intros tg Ht. eapply both_bind; [apply so_symlink; auto|]. intros [] _. apply so_unlink; auto.
  - eapply both_bind; [apply so_test; auto|]. intros dd _. destruct dd; [|now apply so_file].
    destruct (negb (clean_path p && clean_path q) || unnamed p); [apply both_raise|]. destruct (destinsrc p d); [apply both_raise|]. now apply so_tree.
Qed.
Lemma so_shmove p q : home_text p -> home_text q -> so any (st_shmove step1 p q) (st_shmove step2 p q).
Proof.
  intros Hp Hq. unfold st_shmove. eapply both_bind; [apply so_test; auto|]. intros dd _. eapply both_bind with (Q := any); [destruct dd; [apply so_samefile; auto|now apply both_ret]|]. intros same _.
  eapply both_bind with (Q := any); [destruct same; [apply so_test; auto|now apply both_ret]|]. intros sl _. destruct (same && negb sl); [apply so_rename; auto|].
  set (r := if dd then path_join q (sh_basename p) else q). assert (Hr : home_text r) by (unfold r; destruct dd; [|exact Hq]; apply join_home; [exact HD|exact Hq|apply mild_basename, Hp]).
  eapply both_bind with (Q := any); [destruct dd; [apply so_test; auto|now apply both_ret]|]. intros th _. destruct th; [apply both_raise|].
  intros x y T. pose proof (so_rename p r Hp Hr x y T) as P. destruct (step1 _ (os_rename p r) x) as [r1 x1], (step2 _ (os_rename p r) y) as [r2 y1]. destruct P as (P1 & P2 & P3). cbn [fst snd] in *. subst r2.
  destruct r1 as [v|e]; [auto|]. destruct e; try (split; [reflexivity|split; [exact P2|discriminate]]). now apply so_fallback.
Qed.
Lemma so_move u v : home_uri u -> home_uri v -> so any (st_move step1 u v) (st_move step2 u v).
Proof.
  intros Hu Hv. unfold st_move. eapply both_bind; [apply so_test; auto|]. intros sd _. eapply both_bind with (Q := any); [destruct sd; [apply so_test; auto|now apply both_ret]|]. intros dd _.
  eapply both_bind with (Q := home_uri); [|intros w Hw; apply so_shmove; auto]. destruct dd; [|now apply both_ret]. apply both_lift. intros w E. destruct (u_basename u) as [b|e] eqn:B; [|discriminate E]. cbn [rbind] in E.
  exact (home_div D HD v b w Hv (home_basename D HD u b Hu B) E).
Qed.
Lemma so_told {A} (f : A -> lanswer) Q m1 m2 : so Q m1 m2 -> so any (told f m1) (told f m2).
Proof. intros H. unfold told. eapply both_bind; [exact H|]. intros a _. now apply both_ret. Qed.
Lemma so_stask c : lcall_in D c -> so any (stask step1 c) (stask step2 c).
Proof.
  pose proof (home_div D HD) as Dv. pose proof so_up as Upd. pose proof (fun u d n H (_ : any u) => home_split D HD u d n H) as Sp. pose proof (home_last D HD) as La. pose proof (home_rest D HD) as Re.
  pose proof steps_pair as LP.
  destruct c; cbn [lcall_in stask]; intros H; lazymatch type of H with _ /\ _ => destruct H as [H H'] | False => destruct H | _ => idtac end.
  - eapply so_told. exact (both_copy_up _ _ _ _ _ _ _ LP Dv _ Upd Sp La Re _ _ _ _ _ _ H H').
  - eapply so_told; eapply so_copystat; auto.
  - eapply so_told. now apply so_move.
  - eapply so_told. exact (both_remove _ _ _ _ _ _ _ LP Dv _ _ _ H).
  - eapply so_told. exact (both_makedirs_up _ _ _ _ _ _ _ LP _ Upd Sp _ _ H).
  - eapply so_told. now apply (both_mkdir _ _ _ _ _ _ _ LP).
  - eapply so_told. now apply (both_exists _ _ _ _ _ _ _ LP).
  - eapply so_told. now apply (both_isfile _ _ _ _ _ _ _ LP).
  - eapply so_told. now apply (both_isdir _ _ _ _ _ _ _ LP).
  - eapply so_told. now apply (both_islink _ _ _ _ _ _ _ LP).
  - apply (so_told _ any). eapply both_bind; [now apply so_info|]. intros i _. apply both_ret. exact I.
  - eapply so_told. unfold st_set_exec. eapply both_bind; [now apply so_info|]. intros i _. now apply so_setmode.
  - eapply so_told. now apply so_rl.
  - eapply so_told; unfold st_symlink; eapply so_symlink; auto.
  - apply (so_told _ any). eapply both_bind; [now apply so_info|]. intros i _. apply both_ret. exact I.
  - eapply so_told. now apply so_info.
  - eapply so_told. now apply so_setmode.
  - eapply so_told. exact (both_walk _ _ _ _ _ _ _ LP Dv _ _ _ _ H).
  - eapply so_told. now apply (both_listdir _ _ _ _ _ _ _ LP).
  - eapply so_told. exact (both_glob _ _ _ _ _ _ _ LP Dv _ _ _ H).
  - eapply so_told. unfold st_read_all. eapply both_bind; [apply so_open_r; auto|]. intros q Bq. apply so_data; auto.
  - eapply so_told. unfold st_write_all. eapply both_bind; [apply so_open_w; auto|]. intros q Bq. apply so_append; auto.
  - eapply so_told. unfold st_append_all. eapply both_bind; [apply so_open_a; auto|]. intros q Bq. apply so_append; auto.
Qed.
End Step.

(** The methods of LocProg.v *)
Lemma stask_plain c : stask (fun A (m : M pst A) => m) c = lask c.
Proof. destruct c; reflexivity. Qed.
Lemma so_sask D (HD : home_dir D) J (JD : about_rest D J) c : lcall_in D c -> both (steps_so D J) any (sask c) (lask c).
Proof. intros C. rewrite <- stask_plain. apply (so_stask D HD); [|exact C]. intros A Q m. now apply one_step. Qed.
