(** Copying a memory tree to a local destination. *)
From Verif Require Import Str Exc UriParse BaseUri StrFacts SpecUri SpecNames UriFacts Mem SpecMem MemOps Misc Generic Posix SpecLocal Local LocalFacts1.
From Verif Require Import Zip World MemFacts MemFacts2 MemFacts3 MemFacts4 MemFacts5 MemFacts6 MemFacts7 MemFacts9 MemUri MemFacts11 WorldFacts3.
From Verif Require Import SpecPosix SpecLocal SpecStay SpecInto IntoFacts IntoFacts2 IntoFacts3 IntoFacts4 IntoFacts5.
Open Scope string_scope.
Open Scope list_scope.

Section Reach.
Variables (h : nat -> node) (throw : bool).
Definition reach (i : nat) : Prop := exists p, phys h root_id p = Some i.
Hypothesis NL : forall i, reach i -> is_link (h i) = false.
Definition reaches (o : option nat) : Prop := forall i, o = Some i -> reach i.
Lemma reach_root : reach root_id. Proof. now exists []. Qed.
Lemma child_reach k c n b o : reach c -> child h throw k c n b = Ok o -> reaches o.
Proof.
  intros [p Hp] E. destruct (h c) as [|es mt mo|] eqn:Hh; [destruct k; cbn [child] in E; rewrite Hh in E; discriminate| |destruct k; cbn [child] in E; rewrite Hh in E; discriminate].
  assert (R : forall i, dget n es = Some i -> reach i) by (intros i G; exists (p ++ [n]); now rewrite phys_snoc, Hp, Hh).
  destruct (dget n es) as [i|] eqn:G; [|destruct k; cbn [child] in E; rewrite Hh, G in E; injection E as <-; intros ? X; discriminate X].
  specialize (R i eq_refl). pose proof (NL i R) as L. destruct k; cbn [child] in E; rewrite Hh, G in E; destruct (h i) eqn:Hi; try discriminate L; injection E as <-; intros ? X; now injection X as <-.
Qed.
Lemma loop_reach k f l steps : forall prev cur p c, reaches cur -> steps_loop h throw (child h throw k) f l prev cur steps = Ok (p, c) -> reaches c.
Proof.
  induction steps as [|n steps IH]; cbn [steps_loop]; intros prev cur p c Vc E.
  - injection E as <- <-. auto.
  - destruct cur as [i|]; [|discriminate]. destruct (h i) as [|es mt mo|] eqn:Hi; try discriminate.
    destruct (dhas n es).
    + destruct (child h throw k i n (if str_eqb n l then f else true)) as [o|] eqn:C; [|discriminate]. cbn [rbind] in E.
      eapply IH; [|exact E]. eapply child_reach; [|exact C]. now apply Vc.
    + destruct throw; [discriminate|]. injection E as <- <-. intros ? X; discriminate X.
Qed.
Lemma path_reach u f o : get_node_for_path h throw u f = Ok o -> reaches o.
Proof.
  unfold get_node_for_path. destruct (mem_path u) as [p|]; [|discriminate]. cbn [rbind].
  destruct p; [intros H; injection H as <-; intros i X; injection X as <-; apply reach_root|]. unfold get_node, get_node_prev.
  destruct (steps_loop h throw _ f _ None (Some root_id) _) as [[p1 c1]|] eqn:E; [|discriminate]. cbn [rbind snd]. intros H; injection H as <-.
  eapply loop_reach; [|exact E]. intros i X. injection X as <-. apply reach_root.
Qed.
End Reach.

Definition mem_j (s : mst) : Prop := wf s /\ firm_mem s.
Lemma firm_same s s' : same_tree (view s) (view s') -> firm_mem s -> firm_mem s'.
Proof. intros E [F N]. split; [intros p n; rewrite E; apply F|intros p; rewrite E; apply N]. Qed.
Lemma j_pure {A} (m : M mst A) : pure m -> guards mem_j m.
Proof. intros P s J. rewrite (P s). auto. Qed.
Lemma j_islink u : yields mem_j (mem_islink u) (fun l => l = false).
Proof.
  intros s [W [F N]]. split; [rewrite pure_islink; split; [exact W|now split]|]. intros a E. unfold mem_islink, bind, lift in E. destruct (mem_path u) as [p|]; [|discriminate E].
  destruct p as [|c p]; [now injection E as <-|]. unfold lookup in E. destruct (get_node_for_path (m_heap s) false u false) as [[i|]|] eqn:G; cbn in E; [|now injection E as <-|discriminate E].
  assert (NL : forall i, reach (m_heap s) i -> is_link (m_heap s i) = false).
  { intros j [q Hq]. destruct (m_heap s j) as [|es mt mo|t mt mo] eqn:Hj; auto. exfalso. apply (N q). exists t, mt, mo. unfold view, tree_of. rewrite Hq. cbn. now rewrite Hj. }
  injection E as <-. apply NL. eapply path_reach; eauto.
Qed.
Lemma j_list u : yields mem_j (mem_listdir u) (Forall firm_name).
Proof.
  intros s [W [F N]]. split; [rewrite pure_listdir; split; [exact W|now split]|]. intros l E. destruct (mem_listdir u s) as [r s'] eqn:H. cbn [fst] in E. subst r.
  destruct (addr_or u) as [[cs A]|A].
  2: { apply addr_none in A. unfold mem_listdir in H. unfold bind at 1, lift in H. rewrite A in H. discriminate. }
  destruct (leads_total (m_heap s) (filter nonempty cs)) as [o O].
  destruct (outcome_cases o) as [[q ->]|No].
  - destruct (edir_dec (view s q)) as [D|D].
    + destruct (listdir_spec s W u cs q A O D) as (l' & E & S & I). rewrite E in H. injection H as <- _. apply Forall_forall. intros n Hn. apply (F q n). now apply I.
    + rewrite (listdir_file s W u cs q A O D) in H. discriminate.
  - rewrite (listdir_fail s W u cs o A O No) in H. discriminate.
Qed.
Lemma j_file i to wh : guards mem_j (file_seek i to wh).
Proof.
  intros s [W F]. split; [|auto]. unfold mem_j. destruct (m_heap s i) as [f| |] eqn:E; [|unfold file_seek, get_file, get_node_obj, bind; rewrite E; split; [exact W|exact F]..].
  pose proof (run_seek s i f E to wh) as R. destruct (bio_seek _ _ _ _); [|rewrite R; split; [exact W|exact F]]. destruct R as (s' & R & U). rewrite R. cbn [snd].
  split; [eapply file_upd_wf; eauto|eapply firm_same; [|exact F]; eapply file_upd_quiet; [exact U|reflexivity..]].
Qed.
Lemma j_read i z : guards mem_j (file_read i z).
Proof.
  intros s [W F]. split; [|auto]. unfold mem_j. destruct (m_heap s i) as [f| |] eqn:E; [|unfold file_read, get_file, get_node_obj, bind; rewrite E; split; [exact W|exact F]..].
  destruct (run_read s i f E z) as (s' & R & U). rewrite R. cbn [snd].
  split; [eapply file_upd_wf; eauto|eapply firm_same; [|exact F]; eapply file_upd_quiet; [exact U|reflexivity..]].
Qed.
Lemma pure_hook u k : pure (mem_hook u k).
Proof. intros s. unfold mem_hook, bind, lift. destruct (mem_path u); [|reflexivity]. destruct (dget a (m_cbs s)) as [[cb|]|]; try reflexivity. now destruct (cb u k). Qed.
Lemma j_fetch u : guards mem_j (mem_fetch u).
Proof.
  unfold mem_fetch, u_open. apply (y_bind _ _ _ (fun _ => True)).
  - apply (y_bind _ _ _ (fun _ => True)); [apply j_pure, pure_hook|]. intros _ _. unfold mem_open. change (has_char 114 (lit "rb")) with true. cbv iota. unfold open_for_read.
    apply (y_bind _ _ _ (fun _ => True)); [apply j_pure, pure_lookup_node|]. intros i _. apply (y_bind _ _ _ (fun _ => True)); [apply j_file|]. intros _ _. now apply y_ret.
  - intros h _. apply (y_bind _ _ _ (fun _ => True)).
    + unfold h_read. destruct (negb (h_readable h)); [apply y_raise|]. apply (y_bind _ _ _ (fun _ => True)); [apply j_read|]. intros b _. apply j_pure, pure_lift.
    + intros [t|b] _; [apply y_raise|now apply y_ret].
Qed.
Theorem into_mem cs n u v D T s x fuel rc ign fl : mem_at (cs ++ [n]) u -> firm_name n -> reachable s -> firm_mem s -> landing x n v D T ->
  wrote_in x (snd (snd (u_copy mem_loc fuel rc ign fl u v (s, x)))) D T.
Proof.
  intros Z Fn Re F La. pose proof (mem_at_good _ _ Z) as G.
  assert (Eu : u = mem_uri (cs ++ [n])). { destruct Z as [_ Z]. destruct (mem_at_uri _ G) as [_ Z']. rewrite Z' in Z. now injection Z as <-. }
  subst u. assert (Ne : cs ++ [n] <> []) by (destruct cs; discriminate).
  assert (Gd : forall ms, Forall firm_name ms -> good_path ((cs ++ [n]) ++ ms)).
  { intros ms Fm. destruct G as [Ok1 Dot]. constructor; [apply Forall_app; split; [exact Ok1|eapply Forall_impl; [apply firm_ok|exact Fm]]|]. intros c l E. destruct (cs ++ [n]) as [|c' l'] eqn:Ec; [easy|]. cbn in E. injection E as <- _. now apply (Dot c' l'). }
  apply (into_other mem_backend _ _ "memory" mem_j (fun ms w => Forall firm_name ms /\ w = mem_uri ((cs ++ [n]) ++ ms)) (mem_uri (cs ++ [n])) n fl); auto.
  - discriminate.
  - intros ms w [_ ->]. reflexivity.
  - split; [constructor|now rewrite app_nil_r].
  - apply mem_last. now apply firm_ok.
  - intros. apply j_pure, pure_hook.
  - apply j_pure, pure_exists.
  - apply j_pure, pure_isfile.
  - intros. apply j_pure, pure_isdir.
  - intros ms w _ s' J. destruct (j_islink w s' J) as [J1 J2]. split; [exact J1|]. intros a E. now rewrite (J2 a E).
  - intros. apply j_list.
  - intros ms w k w' [Fm ->] Fk E. split; [apply Forall_app; auto|]. rewrite mem_div in E; [injection E as <-; now rewrite app_assoc|]. rewrite <- app_assoc. apply (Gd (ms ++ [k])). apply Forall_app; auto.
  - intros ms w [Fm ->]. split; [exact Fm|]. rewrite !good_path_path; [|now apply Gd|exact G]. rewrite (abs_under (cs ++ [n]) ms Ne). apply under_rest.
  - intros. apply j_fetch.
  - split; [now apply reachable_wf|exact F].
Qed.
