(** Every operation keeps the tree well-formed; operations that raise leave it alone. *)
From Verif Require Import Str Exc Utf8 UriParse BaseUri StrFacts Mem MemOps SpecUri SpecMem MemFacts MemFacts2 MemFacts3 MemFacts4 MemFacts5 MemFacts6 MemFacts7 MemFacts8.

Lemma same_tree_refl t : same_tree t t.
Proof. intros q. reflexivity. Qed.
Lemma same_tree_trans a b c : same_tree a b -> same_tree b c -> same_tree a c.
Proof. intros H K q. now rewrite K, H. Qed.

(** ** Lookups return allocated nodes *)
Section V.
Variables (h : nat -> node) (next : nat) (throw : bool).
Hypothesis W : wfh h next.

Definition val (o : option nat) : Prop := forall i, o = Some i -> i < next.
Lemma val_none : val None. Proof. now intros i. Qed.
Lemma val_some i : i < next -> val (Some i). Proof. intros H j E. now injection E as <-. Qed.
Lemma val_root : val (Some root_id). Proof. apply val_some. apply W. Qed.

Lemma loop_val ch f l steps : (forall c n b o, c < next -> ch c n b = Ok o -> val o) ->
  forall prev cur p c, val prev -> val cur -> steps_loop h throw ch f l prev cur steps = Ok (p, c) -> val p /\ val c.
Proof.
  intros Hc. induction steps as [|n steps IH]; cbn [steps_loop]; intros prev cur p c Vp Vc E.
  - injection E as <- <-. auto.
  - destruct cur as [i|]; [|discriminate]. destruct (h i) as [|es mt mo|] eqn:Hi; try discriminate.
    destruct (dhas n es).
    + destruct (ch i n (if str_eqb n l then f else true)) as [o|] eqn:C; [|discriminate]. cbn [rbind] in E.
      eapply IH; [| |exact E]; auto. eapply Hc; [|exact C]. now apply Vc.
    + destruct throw; [discriminate|]. injection E as <- <-. split; apply val_none.
Qed.
Lemma child_val k : forall c n b o, c < next -> child h throw k c n b = Ok o -> val o.
Proof.
  induction k as [|k IH]; intros c n b o Hc E.
  - unfold child in E. destruct (h c) as [|es mt mo|] eqn:Hh; try discriminate.
    destruct (dget n es) as [i|] eqn:G; [|injection E as <-; apply val_none].
    assert (Hi : i < next). { apply dget_In in G. now apply (wf_child _ _ W _ _ _ _ _ _ Hc Hh) in G. }
    destruct (h i); try (injection E as <-; now apply val_some). destruct b; [discriminate|]. injection E as <-. now apply val_some.
  - destruct (h c) as [|es mt mo|] eqn:Hh; try (cbn [child] in E; rewrite Hh in E; discriminate).
    destruct (dget n es) as [i|] eqn:G.
    2:{ cbn [child] in E. rewrite Hh, G in E. injection E as <-. apply val_none. }
    assert (Hi : i < next). { apply dget_In in G. now apply (wf_child _ _ W _ _ _ _ _ _ Hc Hh) in G. }
    destruct (is_link (h i)) eqn:L.
    2:{ rewrite (child_plain h throw (S k) c es mt mo n i b Hh G) in E; auto. injection E as <-. now apply val_some. }
    destruct b.
    2:{ rewrite (child_plain h throw (S k) c es mt mo n i false Hh G) in E; auto. injection E as <-. now apply val_some. }
    destruct (h i) as [| |tg mt' mo'] eqn:Hl; try discriminate.
    rewrite (child_link h throw k c n es mt mo i tg mt' mo' Hh G Hl) in E. unfold get_at in E.
    destruct (mem_path tg) as [p|]; [|discriminate]. cbn [rbind] in E.
    assert (V : forall r, match p with
              | [] => Ok (Some root_id)
              | _ :: _ => let steps := steps_of p in
                  rlet pc <- steps_loop h throw (child h throw k) true (last steps []) None (Some root_id) steps; Ok (snd pc)
              end = Ok r -> val r).
    { intros r Er. destruct p as [|x p]; [injection Er as <-; apply val_root|]. cbn zeta in Er.
      destruct (steps_loop h throw (child h throw k) true _ None (Some root_id) _) as [[p1 c1]|] eqn:SL; [|discriminate].
      cbn [rbind snd] in Er. injection Er as <-. eapply loop_val in SL; [apply SL| |apply val_none|apply val_root]. exact IH. }
    destruct (match p with [] => _ | _ :: _ => _ end) as [nd|]; [|discriminate]. specialize (V nd eq_refl).
    cbn [rbind] in E. destruct nd as [j|]; [|injection E as <-; apply val_none].
    destruct (is_link (h j)); [discriminate|]. now injection E as <-.
Qed.
Lemma prev_val steps f p c : get_node_prev h throw steps f = Ok (p, c) -> val p /\ val c.
Proof. intros E. eapply loop_val in E; [exact E| |apply val_none|apply val_root]. apply child_val. Qed.
Lemma node_val steps f o : get_node h throw steps f = Ok o -> val o.
Proof.
  unfold get_node. destruct (get_node_prev h throw steps f) as [[p c]|] eqn:E; [|discriminate].
  apply prev_val in E. intros H; injection H as <-. apply E.
Qed.
Lemma path_val u f o : get_node_for_path h throw u f = Ok o -> val o.
Proof.
  unfold get_node_for_path. destruct (mem_path u) as [p|]; [|discriminate]. cbn [rbind].
  destruct p; [intros H; injection H as <-; apply val_root|]. apply node_val.
Qed.
End V.

(** ** Pure and safe operations *)
Definition pure {A} (m : M mst A) : Prop := forall s, snd (m s) = s.
Definition safe {A} (m : M mst A) : Prop := forall s, wf s ->
  wf (snd (m s)) /\ forall e, fst (m s) = Raise e -> same_tree (view s) (view (snd (m s))).

Lemma pure_safe {A} (m : M mst A) : pure m -> safe m.
Proof. intros H s W. specialize (H s). split; [|intros e _]; rewrite H; auto. apply same_tree_refl. Qed.
Lemma pure_bind {A B} (m : M mst A) (k : A -> M mst B) : pure m -> (forall a, pure (k a)) -> pure (bind m k).
Proof.
  intros Hm Hk s. unfold bind. specialize (Hm s). destruct (m s) as [[a|] s1]; cbn in *; subst; auto. apply Hk.
Qed.
Lemma pure_ret {A} (a : A) : pure (ret a). Proof. easy. Qed.
Lemma pure_raise {A} e : pure (@raise mst A e). Proof. easy. Qed.
Lemma pure_lift {A} (r : res A) : pure (lift r). Proof. easy. Qed.
Lemma pure_fun {A} (f : mst -> res A) : pure (fun s => (f s, s)). Proof. easy. Qed.
Lemma pure_get : pure get. Proof. easy. Qed.
Lemma pure_obj i : pure (get_node_obj i). Proof. easy. Qed.
Lemma safe_bind {A B} (m : M mst A) (k : A -> M mst B) : pure m ->
  (forall s a, wf s -> m s = (Ok a, s) -> wf (snd (k a s)) /\ forall e, fst (k a s) = Raise e -> same_tree (view s) (view (snd (k a s)))) ->
  safe (bind m k).
Proof.
  intros Hm Hk s W. unfold bind. specialize (Hm s). destruct (m s) as [[a|] s1] eqn:E; cbn in Hm; subst; auto.
  cbn. split; auto. intros; apply same_tree_refl.
Qed.
Lemma safe_drop {A} (m : M mst A) : safe m -> safe (drop m).
Proof.
  intros H s W. destruct (H s W) as [X Y]. unfold drop, bind. destruct (m s) as [[a|] s1]; cbn [fst snd ret] in *; (split; [exact X|]); intros e' C; [discriminate C|]. eapply Y. reflexivity.
Qed.
Ltac pu := repeat (apply pure_bind; [|intros ?]); auto using pure_ret, pure_raise, pure_lift, pure_get, pure_obj, @pure_fun.

Ltac pum := pu; repeat (match goal with |- pure (match ?x with _ => _ end) => destruct x end; pu).

Lemma pure_lookup u f t : pure (lookup u f t). Proof. easy. Qed.
Lemma pure_lookup_node u f : pure (lookup_node u f). Proof. unfold lookup_node. pu. Qed.
Lemma pure_exists u : pure (mem_exists u).
Proof.
  unfold mem_exists. pu. destruct a; [easy|]. intros s. cbn [snd]. destruct (get_node_for_path _ _ _ _) as [[|]|e]; auto.
  destruct e; auto. now destruct e.
Qed.
Lemma pure_isfile u : pure (mem_isfile u).
Proof.
  unfold mem_isfile. pu. destruct a; [easy|]. intros s. cbn [snd]. destruct (get_node_for_path _ _ _ _) as [[|]|e]; auto.
  destruct e; auto. now destruct e.
Qed.
Lemma pure_isdir u : pure (mem_isdir u).
Proof.
  unfold mem_isdir. pu. destruct a; [easy|]. intros s. cbn [snd]. destruct (get_node_for_path _ _ _ _) as [[|]|e]; auto.
  destruct e; auto. now destruct e.
Qed.
Lemma pure_islink u : pure (mem_islink u).
Proof. unfold mem_islink. pum. Qed.
Lemma pure_readlink u : pure (mem_readlink u).
Proof. unfold mem_readlink. pum. Qed.
Lemma pure_listdir u : pure (mem_listdir u).
Proof. unfold mem_listdir. pum. Qed.
Lemma pure_info u f : pure (mem_info u f).
Proof. unfold mem_info. pum. Qed.
Lemma pure_mtime u : pure (mem_mtime u).
Proof. unfold mem_mtime. pum. Qed.
Lemma pure_isexec u m : pure (mem_isexec u m).
Proof. unfold mem_isexec. pum. Qed.
Lemma pure_get_file i : pure (get_file i).
Proof. unfold get_file. pum. Qed.

Lemma lookup_node_val s u f i : wf s -> lookup_node u f s = (Ok i, s) -> i < m_next s.
Proof.
  intros W E. unfold lookup_node, lookup, bind in E. destruct (get_node_for_path (m_heap s) true u f) as [[j|]|] eqn:G; cbn in E; try discriminate.
  injection E as <-. eapply path_val in G; [|exact W]. now apply G.
Qed.

Definition fine {A} (s : mst) (r : res A * mst) : Prop :=
  wf (snd r) /\ forall e, fst r = Raise e -> same_tree (view s) (view (snd r)).
Lemma fine_same {A} s (r : res A) : wf s -> fine s (r, s).
Proof. split; auto. intros; apply same_tree_refl. Qed.
Lemma fine_ok {A} s s' (a : A) : wf s' -> fine s (Ok a, s').
Proof. split; auto. easy. Qed.

Lemma fine_upd_attrs s i mt mo : wf s -> i < m_next s -> fine s (upd i (set_attrs (m_heap s i) mt mo) s).
Proof. intros W Hi. apply fine_ok. cbn. apply wfh_set; auto. apply set_attrs_entries. Qed.

Lemma safe_set_info u mo mt f : safe (mem_set_info u mo mt f).
Proof.
  apply safe_bind; [apply pure_lookup_node|]. intros s i W E. apply lookup_node_val in E; auto. now apply fine_upd_attrs.
Qed.
Lemma safe_manip u t : safe (mem_manip_mtime u t).
Proof.
  apply safe_bind; [apply pure_lookup_node|]. intros s i W E. apply lookup_node_val in E; auto. now apply fine_upd_attrs.
Qed.
Lemma safe_copystat u v : safe (mem_copystat u v).
Proof.
  apply safe_bind; [apply pure_lookup_node|]. intros s i W E. clear E. revert s W.
  apply safe_bind; [apply pure_lookup_node|]. intros s j W E. apply lookup_node_val in E; auto. now apply (fine_upd_attrs s j).
Qed.
Lemma safe_set_exec u m : safe (mem_set_exec u m).
Proof.
  apply safe_bind; [apply pure_info|]. intros s b W E. now apply safe_set_info.
Qed.
Lemma safe_callback u cb : safe (mem_manip_callback u cb).
Proof. apply safe_bind; [apply pure_lift|]. intros s p W E. split; auto. cbn. easy. Qed.

(** Adding and deleting entries anywhere. *)
Lemma wf_added s i n leaf es mt mo :
  wf s -> i < m_next s -> m_heap s i = NDir es mt mo -> dhas n es = false -> no_entries leaf -> wf (added s i n leaf).
Proof. intros. unfold wf, added. cbn. eapply wfh_add; eauto. Qed.
Lemma fine_del s i n : wf s -> i < m_next s -> fine s (del_child i n s).
Proof.
  intros W Hi. unfold del_child, bind, get_node_obj. destruct (m_heap s i) as [|es mt mo|] eqn:E; try now apply fine_same.
  destruct (dhas n es); [|now apply fine_same]. apply fine_ok. cbn. eapply wfh_del; eauto.
Qed.
Lemma parent_val s p i : wf s -> parent_node p s = (Ok i, s) -> i < m_next s.
Proof.
  intros W E. unfold parent_node, bind in E. destruct (get_node (m_heap s) true _ true) as [[j|]|] eqn:G; cbn in E; try discriminate.
  injection E as <-. eapply node_val in G; [|exact W]. now apply G.
Qed.
Lemma pure_parent p : pure (parent_node p). Proof. unfold parent_node. pu. Qed.
Lemma safe_make u leaf : (forall s, no_entries (leaf s)) -> safe (make u leaf).
Proof.
  intros L. apply safe_bind; [apply pure_lift|]. intros s p W _. destruct p as [|c p]; [now apply fine_same|].
  revert s W. apply safe_bind; [apply pure_parent|]. intros s i W E. apply parent_val in E; auto.
  cbn zeta. set (m := let! present <- _; _). change (fine s (m s)). subst m. unfold node_has, bind at 1 2, get_node_obj. destruct (m_heap s i) as [|es mt mo|] eqn:Hi; try now apply fine_same.
  cbn [ret]. destruct (dhas _ es) eqn:Hd; [now apply fine_same|]. cbn [get].
  change (fine s ((let! j <- alloc (leaf s); create_child i (last (steps_of (c :: p)) []) j) s)).
  rewrite (run_add s i _ (leaf s) es mt mo); auto. apply fine_ok. eapply wf_added; eauto.
Qed.
Lemma safe_mkdir u : safe (mem_mkdir u).
Proof. rewrite mkdir_make. apply safe_make. intros s es E. now injection E as <-. Qed.
Lemma safe_symlink t u : safe (mem_symlink t u).
Proof. rewrite symlink_make. apply safe_make. intros s es E. discriminate E. Qed.
Lemma safe_removefile u : safe (mem_removefile u).
Proof.
  apply safe_bind; [apply pure_lift|]. intros s p W _. revert s W. apply safe_bind; [easy|]. intros s [q c] W E. cbn [fst].
  destruct q as [i|]; [|now apply fine_same]. apply fine_del; auto.
  assert (G : get_node_prev (m_heap s) true (nonempty_steps p) false = Ok (Some i, c)) by congruence.
  eapply prev_val in G; [|exact W]. now apply (proj1 G).
Qed.
Lemma safe_removedir u : safe (mem_removedir u).
Proof.
  apply safe_bind; [apply pure_lift|]. intros s p W _. revert s W. apply safe_bind; [easy|]. intros s [q c] W E. cbn [fst].
  destruct q as [i|]; [|now apply fine_same].
  assert (G : get_node_prev (m_heap s) true (nonempty_steps p) true = Ok (Some i, c)) by congruence.
  eapply prev_val in G; [|exact W]. cbn zeta.
  set (m := let! o <- _; _). change (fine s (m s)). subst m. unfold bind at 1.
  destruct (child (m_heap s) true max_links i (u_last u) true) as [[j|]|]; try now apply fine_same.
  unfold bind at 1, lift. cbn [need]. unfold bind, get_node_obj. destruct (m_heap s j) as [|[|] ? ?|]; try now apply fine_same.
  apply fine_del; auto. now apply (proj1 G).
Qed.

(** Files. *)
Lemma fine_file_upd {A} s s' i f f' (a : A) : wf s -> file_upd s s' i f f' -> fine s (Ok a, s').
Proof. intros. apply fine_ok. eapply file_upd_wf; eauto. Qed.
Lemma fine_quiet {A} s s' i f f' (r : res A) : wf s -> file_upd s s' i f f' ->
  f_data f' = f_data f -> f_mtime f' = f_mtime f -> f_mode f' = f_mode f -> fine s (r, s').
Proof. intros. split; [eapply file_upd_wf; eauto|]. intros. eapply file_upd_quiet; eauto. Qed.
Lemma no_file {A} s i (k : file -> M mst A) : wf s -> is_file (m_heap s i) = false -> fine s (bind (get_file i) k s).
Proof.
  intros W E. unfold get_file, bind, get_node_obj. destruct (m_heap s i); try discriminate; now apply fine_same.
Qed.
Lemma file_cases s i : is_file (m_heap s i) = false \/ exists f, m_heap s i = NFile f.
Proof. destruct (m_heap s i); eauto. Qed.

Lemma safe_read hd z : safe (h_read hd z).
Proof.
  intros s W. change (fine s (h_read hd z s)). unfold h_read. destruct (h_readable hd); [|now apply fine_same]. cbn [negb].
  destruct (file_cases s (h_node hd)) as [N|(f & E)].
  - unfold bind at 1. unfold file_read, get_file, bind, get_node_obj. destruct (m_heap s (h_node hd)); try discriminate; now apply fine_same.
  - destruct (run_read s _ f E z) as (s' & R & U). unfold bind. rewrite R. unfold lift. eapply fine_quiet; eauto.
Qed.
Lemma safe_write hd v : safe (h_write hd v).
Proof.
  intros s W. change (fine s (h_write hd v s)). unfold h_write, bind at 1, lift. destruct (proxy_encode hd v) as [[t|b]|]; try now apply fine_same.
  destruct (file_cases s (h_node hd)) as [N|(f & E)].
  - now apply no_file.
  - destruct (run_write s _ f E b) as (s' & R & U). rewrite R. eapply fine_file_upd; eauto.
Qed.
Lemma safe_seek i a b : safe (file_seek i a b).
Proof.
  intros s W. change (fine s (file_seek i a b s)). destruct (file_cases s i) as [N|(f & E)].
  - now apply no_file.
  - assert (R := run_seek s i f E a b). destruct (bio_seek (f_data f) (f_pos f) a b) as [p|e].
    + destruct R as (s' & R & U). rewrite R. eapply fine_file_upd; eauto.
    + rewrite R. now apply fine_same.
Qed.
Lemma safe_tell i : safe (file_tell i).
Proof. apply pure_safe. unfold file_tell. pum. Qed.
Lemma safe_truncate i p : safe (file_truncate i p).
Proof.
  intros s W. change (fine s (file_truncate i p s)). destruct (file_cases s i) as [N|(f & E)].
  - now apply no_file.
  - assert (R := run_truncate s i f E p). cbn zeta in R.
    destruct (match p with Some z => z | None => Z.of_nat (f_pos f) end <? 0)%Z.
    + rewrite R. now apply fine_same.
    + destruct R as (s' & R & U). rewrite R. eapply fine_file_upd; eauto.
Qed.
Lemma safe_close i : safe (file_close i).
Proof.
  intros s W. change (fine s (file_close i s)). destruct (file_cases s i) as [N|(f & E)].
  - now apply no_file.
  - destruct (run_close s i f E) as (s' & R & U). rewrite R. eapply fine_file_upd; eauto.
Qed.
Lemma safe_line {A} hd (k : list N -> M mst A) : (forall b, pure (k b)) -> safe (let! b <- file_readline (h_node hd); k b).
Proof.
  intros K s W. change (fine s ((let! b <- file_readline (h_node hd); k b) s)). destruct (file_cases s (h_node hd)) as [N|(f & E)].
  - unfold bind at 1, file_readline, get_file, bind, get_node_obj. destruct (m_heap s (h_node hd)); try discriminate; now apply fine_same.
  - destruct (run_readline s _ f E) as (s' & R & U). unfold bind. rewrite R.
    specialize (K (line_of (skipn (f_pos f) (f_data f))) s'). destruct (k _ s') as [r s2]. cbn in K. subst. eapply fine_quiet; eauto.
Qed.
Lemma safe_readline hd : safe (h_readline hd).
Proof. apply safe_line. intros. apply pure_lift. Qed.
Lemma safe_next hd : safe (h_next hd).
Proof. apply safe_line. intros [|]; pu. Qed.

Lemma safe_open_read u b : safe (open_for_read u b).
Proof.
  apply safe_bind; [apply pure_lookup_node|]. intros s i W E.
  change (fine s ((file_seek i 0 0;; ret (mkHandle i true b)) s)). unfold bind.
  destruct (safe_seek i 0 0 s W) as [X Y]. destruct (file_seek i 0 0 s) as [[[]|e] s']; cbn [fst snd ret] in *; (split; [exact X|]); intros e' C; [discriminate C|]. eapply Y. reflexivity.
Qed.
Lemma safe_open_append u b : safe (open_for_append u b).
Proof.
  apply safe_bind; [apply pure_lookup_node|]. intros s i W E. revert s W E. intros s W E.
  change (fine s ((let! f <- get_file i; file_seek i (Z.of_nat (file_len (f_data f))) 0;; ret (mkHandle i false b)) s)).
  destruct (file_cases s i) as [N|(f & Ef)]; [now apply no_file|]. unfold bind at 1. rewrite (run_get s i f Ef). unfold bind.
  destruct (safe_seek i (Z.of_nat (file_len (f_data f))) 0 s W) as [X Y].
  destruct (file_seek i _ 0 s) as [[[]|e] s']; cbn [fst snd ret] in *; (split; [exact X|]); intros e' C; [discriminate C|]. eapply Y. reflexivity.
Qed.
Lemma safe_open_write u b : safe (open_for_write u b).
Proof.
  apply safe_bind; [apply pure_lift|]. intros s p W _. revert s W. apply safe_bind; [apply pure_parent|].
  intros s i W E. apply parent_val in E; auto. cbn zeta.
  set (m := let! present <- node_has i (last (steps_of p) []); _). change (fine s (m s)). subst m. unfold node_has, bind, get_node_obj.
  destruct (m_heap s i) as [|es mt mo|] eqn:Hi; try now apply fine_same. cbn [ret].
  destruct (dhas _ es) eqn:Hd.
  - destruct (child (m_heap s) true max_links i (last (steps_of p) []) true) as [o|]; [|now apply fine_same].
    destruct (match o with Some c => is_dir (m_heap s c) | None => false end); [now apply fine_same|].
    unfold lift. destruct o as [c|]; [|now apply fine_same]. cbn [need].
    destruct (file_cases s c) as [N|(f & Ef)].
    + unfold file_reset, bind, get_file, bind, get_node_obj. destruct (m_heap s c); try discriminate; now apply fine_same.
    + destruct (run_reset s c f Ef) as (s' & R & U). rewrite R. eapply fine_file_upd; eauto.
  - cbn [get]. assert (R := run_add s i (last (steps_of p) []) (new_file p (m_now s) (m_epoch s)) es mt mo E Hi).
    unfold bind in R. destruct (alloc _ s) as [[j|] s1]; [|discriminate]. rewrite R. apply fine_ok. eapply wf_added; eauto.
    intros ? D; discriminate D.
Qed.
Lemma safe_open u o : safe (mem_open u o).
Proof.
  unfold mem_open. destruct (match o with None => true | Some _ => _ end); [apply safe_open_read|].
  destruct o as [o|]; [|apply pure_safe, pure_raise]. destruct (has_char 119 o); [apply safe_open_write|].
  destruct (has_char 97 o); [apply safe_open_append|apply pure_safe, pure_raise].
Qed.

Lemma safe_clock s s' : m_heap s' = m_heap s -> m_next s' = m_next s -> wf s -> fine s (@Ok unit tt, s').
Proof. intros H N W. apply fine_ok. unfold wf. now rewrite H, N. Qed.

Theorem run_op_safe o : safe (run_op o).
Proof.
  destruct o; cbn [run_op]; try (intros s W; now apply (safe_clock s));
    try (apply safe_drop);
    auto using pure_safe, pure_exists, pure_isfile, pure_isdir, pure_islink, pure_readlink, pure_listdir, pure_info, pure_mtime,
      pure_isexec, safe_mkdir, safe_symlink, safe_removefile, safe_removedir, safe_set_info, safe_copystat, safe_set_exec,
      safe_manip, safe_callback, safe_open, safe_read, safe_write, safe_readline, safe_next.
  - apply safe_seek.
  - apply safe_tell.
  - apply safe_truncate.
  - apply safe_close.
Qed.

Lemma wf_init now ep : wf (init_mem now ep).
Proof.
  constructor; cbn.
  - lia.
  - eauto.
  - intros i es mt mo n j _ H. injection H as <- _ _. easy.
  - intros i es mt mo _ H. injection H as <- _ _. constructor.
  - intros i i' es es' mt mo mt' mo' n n' j _ _ H _. injection H as <- _ _. easy.
  - auto.
Qed.
Lemma wf_ops l : forall s, wf s -> wf (run_ops l s).
Proof. induction l as [|o l IH]; intros s W; cbn; auto. apply IH. now apply run_op_safe. Qed.
Theorem reachable_wf s : reachable s -> wf s.
Proof. intros (now & ep & l & ->). apply wf_ops, wf_init. Qed.
Lemma reachable_init now ep : reachable (init_mem now ep).
Proof. now exists now, ep, []. Qed.
Lemma reachable_step s o : reachable s -> reachable (snd (run_op o s)).
Proof.
  intros (now & ep & l & ->). exists now, ep, (l ++ [o]). unfold run_ops. now rewrite fold_left_app.
Qed.
Lemma reachable_ops s l : reachable s -> reachable (run_ops l s).
Proof.
  intros (now & ep & l0 & ->). exists now, ep, (l0 ++ l). unfold run_ops. now rewrite fold_left_app.
Qed.

(** ** Places that exist *)
Section T.
Variables (h : nat -> node) (next : nat).
Hypothesis W : wfh h next.
Local Notation t := (tree_of h).
Lemma tree_parent p n : t (p ++ [n]) <> None -> is_edir (t p).
Proof.
  unfold tree_of. destruct (phys h root_id (p ++ [n])) as [j|] eqn:E; [|easy]. intros _.
  apply phys_snoc_inv in E as (i & es & mt & mo & P & E & _). rewrite P. cbn. rewrite E. now exists mt, mo.
Qed.
Lemma resolves_dir k p : is_edir (t p) -> resolves t k [] p (Found p).
Proof.
  induction p as [|n p IH] using rev_ind; intros D; [constructor|].
  assert (D' : is_edir (t p)). { apply (tree_parent p n). destruct D as (? & ? & ->). easy. }
  eapply resolves_app; [apply IH, D'|]. apply rs_step; auto. constructor.
Qed.
Lemma resolves_entry k p : is_efile (t p) \/ is_edir (t p) -> resolves t k [] p (Found p).
Proof.
  intros H. destruct (snoc_cases p) as [->|(d & n & ->)]; [constructor|].
  assert (D : is_edir (t d)). { apply (tree_parent d n). destruct H as [(? & ? & ? & ->)|(? & ? & ->)]; easy. }
  eapply resolves_app; [apply resolves_dir, D|]. apply rs_step; auto. constructor.
Qed.
Lemma arrow_snoc p p' : arrow t p p' -> exists d n, p = d ++ [n] /\ is_edir (t d).
Proof.
  intros (tg & mt & mo & E & A). destruct (snoc_cases p) as [->|(d & n & ->)].
  - exfalso. unfold tree_of in E. cbn in E. destruct (wf_root _ _ W) as (es & mt' & mo' & E'). rewrite E' in E. discriminate.
  - exists d, n. split; auto. apply (tree_parent d n). now rewrite E.
Qed.
Lemma chain_found n p q : chain t n p q -> is_efile (t q) \/ is_edir (t q) -> forall k, (n <= k)%nat -> resolves t k [] p (Found q).
Proof.
  induction 1 as [p|n p p' q A C IH]; intros E k L.
  - now apply resolves_entry.
  - destruct k as [|k]; [lia|]. destruct (arrow_snoc _ _ A) as (d & x & -> & D). destruct A as (tg & mt & mo & Et & A).
    eapply resolves_app; [apply resolves_dir, D|]. eapply link_follow; eauto. apply IH; auto. lia.
Qed.
Lemma chain_missing n p d x : chain t n p (d ++ [x]) -> is_edir (t d) -> t (d ++ [x]) = None ->
  forall k, (n <= k)%nat -> resolves t k [] p Missing.
Proof.
  intros C. remember (d ++ [x]) as q eqn:Q. induction C as [p|n p p' q A C IH]; intros D E k L.
  - subst. eapply resolves_app; [apply resolves_dir, D|]. now apply rs_missing.
  - destruct k as [|k]; [lia|]. destruct (arrow_snoc _ _ A) as (d' & x' & -> & D'). destruct A as (tg & mt & mo & Et & A).
    eapply resolves_app; [apply resolves_dir, D'|]. eapply link_follow; eauto. apply IH; auto. lia.
Qed.
Lemma chain_loop k : forall n p q, chain t n p q -> (k < n)%nat -> resolves t k [] p Loop.
Proof.
  induction k as [|k IH]; intros n p q C L; inversion C as [|n' ? p' ? A C']; subst; try lia.
  - destruct (arrow_snoc _ _ A) as (d & x & -> & D). destruct A as (tg & mt & mo & Et & A).
    eapply resolves_app; [apply resolves_dir, D|]. apply rs_loop; auto. rewrite Et. now exists tg, mt, mo.
  - destruct (arrow_snoc _ _ A) as (d & x & -> & D). destruct A as (tg & mt & mo & Et & A).
    eapply resolves_app; [apply resolves_dir, D|]. eapply link_follow; eauto. eapply IH; eauto. lia.
Qed.
Lemma chain_app n m p q r : chain t n p q -> chain t m q r -> chain t (n + m) p r.
Proof. induction 1; intros C; auto. cbn. eapply ch_step; eauto. Qed.
Lemma chain_cycle n p m : chain t (S n) p p -> chain t (m * S n) p p.
Proof. intros C. induction m; cbn [Nat.mul]; [constructor|]. eapply chain_app; eauto. Qed.
Lemma cycle_loop n p k : chain t (S n) p p -> resolves t k [] p Loop.
Proof. intros C. eapply chain_loop; [apply (chain_cycle n p (S k)), C|]. nia. Qed.
End T.
