(** The rules of SpecCopy.v hold of the model: moves. *)
From Verif Require Import Str Exc Utf8 UriParse BaseUri StrFacts SpecUri Mem SpecMem SpecHandle SpecExact SpecCopy Generic SpecGen.
From Verif Require Import MemFacts MemFacts2 MemFacts3 MemFacts4 MemFacts5 MemFacts6 MemFacts7 MemFacts9 MemFacts10 HandleFacts GenFacts1 GenFacts6 ExactFacts ExactFacts2 ExactFacts3 CopyFacts CopyFacts2 CopyFacts3.
Local Notation B := mem_backend.

Section S.
Variable s : mst.
Hypothesis W : wf s.
Hypothesis Q : silent s.
Let t := view s.

Lemma exact_remove fuel u cs f : addr u cs -> remove_rule t u cs f -> has_effect s (u_remove B fuel false u s) f.
Proof.
  intros A X. unfold u_remove. rewrite (run_hook s Q). destruct (on_path u cs A) as [p ->]. cbn [b_islink b_exists b_isdir b_isfile b_removefile b_removedir mem_backend].
  unfold bind at 1.
  destruct X as [sp e S E|sp sp' S E S'|sp o e S E L T|sp o S E L O|sp q f S E L D Y|sp q sp' S E L F S'];
    rewrite (exact_islink s W u cs sp A S); fold t; rewrite E; [reflexivity|now apply exact_removefile with cs| | | |];
    unfold bind at 1; rewrite (exact_exists s W u cs _ A L); fold t.
  - rewrite T. reflexivity.
  - destruct O as [-> | ->]; cbn; unfold bind, lift; destruct (u_str u); reflexivity.
  - destruct D as (mt & mo & D). cbn [test_rule]. rewrite D. cbn [negb]. unfold bind at 1. rewrite (exact_isdir s W u cs _ A L). fold t. cbn [test_rule]. rewrite D. cbn [is_dir_e].
    now apply exact_removedir with cs.
  - destruct F as (d & mt & mo & F). cbn [test_rule]. rewrite F. cbn [negb]. unfold bind at 1. rewrite (exact_isdir s W u cs _ A L). fold t. cbn [test_rule]. rewrite F. cbn [is_dir_e].
    unfold bind at 1. rewrite (exact_isfile s W u cs _ A L). fold t. cbn [test_rule]. rewrite F. cbn [is_file_e]. now apply exact_removefile with cs.
Qed.
Lemma remove_wf fuel u : wf (snd (u_remove B fuel false u s)).
Proof.
  destruct (addr_cases u) as [N|[cs A]].
  - unfold u_remove. rewrite (run_hook s Q). apply addr_none in N. now rewrite N.
  - unfold u_remove. rewrite (run_hook s Q). destruct (on_path u cs A) as [p ->]. cbn [b_islink b_exists b_isdir b_isfile b_removefile b_removedir mem_backend]. unfold bind.
    pose proof (pure_islink u s) as P1. destruct (mem_islink u s) as [[[]|] s1]; cbn in P1; subst s1; auto; [now apply safe_removefile|].
    pose proof (pure_exists u s) as P1. destruct (mem_exists u s) as [[[]|] s1]; cbn in P1; subst s1; auto.
    2:{ cbn. unfold lift. destruct (u_str u); exact W. }
    cbn [negb]. pose proof (pure_isdir u s) as P1. destruct (mem_isdir u s) as [[[]|] s1]; cbn in P1; subst s1; auto; [now apply safe_removedir|].
    pose proof (pure_isfile u s) as P1. destruct (mem_isfile u s) as [[[]|] s1]; cbn in P1; subst s1; auto. now apply safe_removefile.
Qed.
Lemma run_removes fuel u f r t' : removes t u f -> changes t f r t' -> ends s (u_remove B fuel false u s) r t'.
Proof.
  intros R C. assert (H : has_effect s (u_remove B fuel false u s) f).
  { destruct R as [cs f A X|N]; [now apply exact_remove with cs|]. unfold u_remove. rewrite (run_hook s Q). apply addr_none in N. rewrite N. reflexivity. }
  destruct (changes_det _ _ _ _ _ _ C (has_changes _ _ _ H)) as [-> S]. pose proof (remove_wf fuel u) as W'.
  exists (snd (u_remove B fuel false u s)). split; [now destruct (u_remove B fuel false u s)|]. split; [exact W'|]. split; [|exact S].
  destruct f as [e| |p e|p]; cbn [has_effect] in H.
  - rewrite H. repeat split.
  - rewrite H. repeat split.
  - destruct H as (s' & -> & _ & R'). exact R'.
  - destruct H as (s' & -> & _ & R'). exact R'.
Qed.
Lemma removes_total u : exists f, removes t u f.
Proof.
  destruct (addr_cases u) as [N|[cs A]]; [eexists; now apply rm_other|].
  destruct (removedir_total s W (u_last u) (proper cs)) as [f F].
  destruct (spots_total s W cs) as [sp S]. destruct (spots_total s W (proper cs)) as [sp' S']. destruct (leads_total (m_heap s) cs) as [o L].
  destruct (link_rule t sp) as [[]|e] eqn:E; [eexists; apply rm_path with cs; [exact A|]; eapply rm_link; eauto| |eexists; apply rm_path with cs; [exact A|]; eapply rm_unknown; eauto].
  destruct o as [q| | | | |].
  - destruct (leads_real _ _ W _ _ L) as [K|K]; eexists; (apply rm_path with cs; [exact A|]); [eapply rm_file|eapply rm_dir]; eauto.
  - eexists; apply rm_path with cs; [exact A|]. eapply rm_missing; eauto.
  - eexists; apply rm_path with cs; [exact A|]. eapply rm_lost; eauto. reflexivity.
  - eexists; apply rm_path with cs; [exact A|]. eapply rm_lost; eauto. reflexivity.
  - eexists; apply rm_path with cs; [exact A|]. eapply rm_missing; eauto.
  - eexists; apply rm_path with cs; [exact A|]. eapply rm_lost; eauto. reflexivity.
Qed.
End S.

Section M.
Variable s : mst.
Hypothesis W : wf s.
Hypothesis Q : silent s.
Let t := view s.
Lemma run_u_copy fuel ign follow u v r t' : copies t (m_now s) follow u v r t' -> ends s (u_copy B fuel false ign follow u v s) r t'.
Proof.
  intros C. unfold u_copy. rewrite (run_hook s Q). destruct (addr_cases u) as [N|[cs A]].
  - assert (T : tests t any_entry u (Raise AssertionError)) by now constructor.
    assert (K : forall b, ~ tests t any_entry u (Ok b)) by (intros b X; pose proof (tests_det s W _ _ _ _ T X); discriminate).
    assert (K' : forall b, ~ tests t is_file_e u (Ok b)) by (intros b X; destruct (tests_at s _ _ _ X) as (cs & _ & A & _); now destruct (N cs)).
    destruct C as [e t' X S|t' X S|t' X X' S|e t' X|w e t' X|w r t' X|w l q same r t' X]; try (now destruct (K _ X)); try (now destruct (K' _ X)).
    pose proof (tests_det s W _ _ _ _ T X) as E. injection E as <-. apply addr_none in N. rewrite N. apply ends_here; auto using same_tree_sym.
  - destruct (on_path u cs A) as [p ->]. now apply run_copies.
Qed.
Lemma copies_same follow u v r a b : same_tree a b -> copies t (m_now s) follow u v r a -> copies t (m_now s) follow u v r b.
Proof.
  intros E.
  assert (Tr : forall c, same_tree c a -> same_tree c b) by (intros c X q; now rewrite E, X).
  assert (Ch : forall c f x, changes c f x a -> changes c f x b) by (intros c f x X; eapply changes_same; [apply same_tree_refl|exact E|exact X]).
  assert (Pt : forall c p e, put_at c a p e -> put_at c b p e) by (intros c p e [X Y]; split; [now rewrite E|intros z Hz; rewrite E; auto]).
  destruct 1 as [e a T S|a T S|a T T' S|e a T A S|w e a T A L S|w r a T A L F R|w l q same r a T A L F G Sm X].
  - apply co_lost; auto.
  - apply co_missing; auto.
  - apply co_dir; auto.
  - apply co_aim; auto.
  - apply co_unknown with w; auto.
  - apply co_link with w; auto. destruct R as [e a M|t1 x e a M G T1 S|t1 x c sl r a M G T1 P C].
    + apply rl_full. destruct M as [e' a X S|a X S|f r a X U C]; [apply mr_lost|apply mr_free|apply mr_file with f]; auto.
    + apply rl_gone with t1 x; auto.
    + apply rl_make with t1 x c sl; auto.
  - apply co_data with w l q same; auto. destruct X as [e a O S|p start mode d a O Es C1 P|p start mode d t1 x e r a O Es C1 P Te G' C].
    + apply wr_refused; auto.
    + apply wr_data with p start mode d; auto.
    + apply wr_stat with p start mode d t1 x e; auto.
Qed.
Theorem run_moves fuel u v r t' : moves t (m_now s) u v r t' -> ends s (u_move B fuel u v s) r t'.
Proof.
  assert (Hk : forall (m : M mst unit) r t', (mem_path u = Raise AssertionError -> ends s (Raise AssertionError, s) r t') -> ends s (m s) r t' -> ends s (hooked B "move" u m s) r t').
  { intros m r0 t0 H1 H2. rewrite (run_hook s Q). destruct (addr_cases u) as [N|[cs A]]; [|now destruct (on_path u cs A) as [p ->]].
    apply addr_none in N. rewrite N in *. auto. }
  assert (Nw : forall b f, tests t f u (Ok b) -> mem_path u <> Raise AssertionError).
  { intros b f T. destruct (tests_at s _ _ _ T) as (cs & _ & A & _). destruct (on_path u cs A) as [p ->]. discriminate. }
  intros X. unfold u_move. destruct X as [e t' T S|t' T S|e t' T C|t1 f r t' T C R Ch]; (apply Hk; [intros Hp|]).
  - assert (T' : tests t is_file_e u (Raise AssertionError)) by (apply te_other; exact (proj2 (addr_none u) Hp)).
    pose proof (tests_det s W _ _ _ _ T T') as E. injection E as ->. apply ends_here; auto using same_tree_sym.
  - unfold fs_move. rewrite (bind_raise _ _ s e s) by now apply run_isfile. apply ends_here; auto using same_tree_sym.
  - now destruct (Nw _ _ T).
  - assert (Tf : tests t is_file_e u (Ok false)).
    { destruct (tests_at s _ _ _ T) as (cs & o & A & L & E). assert (test_rule t is_file_e o = Ok false).
      { destruct o as [q| | | | |]; cbn [test_rule] in *; try discriminate E; auto. fold t in E. destruct (t q); [discriminate E|reflexivity]. }
      rewrite <- H. exact (te_path t is_file_e u cs o A L). }
    unfold fs_move. rewrite (bind_ok _ _ s false s) by now apply run_isfile.
    rewrite (bind_raise _ _ s (missing_exc u) s); [apply ends_here; auto using same_tree_sym|].
    unfold u_copy. rewrite (run_hook s Q). destruct (tests_at s _ _ _ T) as (cs & o & A & _). destruct (on_path u cs A) as [p ->].
    unfold fs_copy. rewrite (bind_ok _ _ s false s) by now apply run_exists. cbn [negb]. unfold missing_exc, bind, lift. destruct (u_str u); reflexivity.
  - now destruct (Nw _ _ T).
  - unfold fs_move. rewrite (bind_ok _ _ s true s) by now apply run_isfile. destruct (run_u_copy fuel [] true u v _ _ C) as (s1 & E1 & W1 & R1 & S1).
    erewrite bind_raise by exact E1. exists s1. auto.
  - now destruct (Nw _ _ T).
  - unfold fs_move. rewrite (bind_ok _ _ s true s) by now apply run_isfile. destruct (run_u_copy fuel [] true u v _ _ C) as (s1 & E1 & W1 & R1 & S1).
    erewrite bind_ok by exact E1. apply ends_then with s1; [exact R1|]. apply run_removes with f; auto.
    + eapply silent_rest; eauto.
    + now apply removes_same with t1.
    + eapply changes_same; [exact S1|apply same_tree_refl|exact Ch].
Qed.
Theorem moves_total u v : (forall cs q, addr u cs -> leads t cs (Found q) -> ~ is_edir (t q)) -> exists r t', moves t (m_now s) u v r t'.
Proof.
  intros Nd. destruct (tests_total s is_file_e u) as [[[]|e] T].
  - destruct (copies_total s W Q true u v) as (r & t1 & C). destruct (run_u_copy 0 [] true u v r t1 C) as (s1 & E1 & W1 & R1 & S1).
    apply (copies_same _ _ _ _ _ (view s1)) in C; [|exact S1]. destruct r as [[]|e]; [|exists (Raise e), (view s1); now apply mv_nocopy].
    assert (Q1 : silent s1) by (eapply silent_rest; eauto).
    destruct (removes_total s1 W1 u) as [f F]. assert (X : exists r t', changes (view s1) f r t').
    { destruct F as [cs f A F|N].
      - assert (H := exact_remove s1 W1 Q1 0 u cs f A F). eexists _, _. exact (has_changes _ _ _ H).
      - exists (Raise AssertionError), (view s1). constructor. apply same_tree_refl. }
    destruct X as (r & t' & X). exists r, t'. eapply mv_file; eauto.
  - exists (Raise (missing_exc u)), t. apply mv_missing; [|apply same_tree_refl].
    destruct (tests_at s _ _ _ T) as (cs & o & A & L & E). assert (test_rule t any_entry o = Ok false).
    { destruct o as [q| | | | |]; cbn [test_rule] in *; try discriminate E; auto. exfalso. destruct (leads_real _ _ W _ _ L) as [(a & b & c & K)|K].
      - unfold view in E. rewrite K in E. discriminate E.
      - now apply (Nd cs q A L). }
    rewrite <- H. exact (te_path t any_entry u cs o A L).
  - exists (Raise e), t. apply mv_lost; [exact T|apply same_tree_refl].
Qed.
End M.
