(** The rules of SpecCopy.v hold of the model. *)
From Verif Require Import Str Exc Utf8 UriParse BaseUri StrFacts SpecUri Mem SpecMem SpecHandle SpecExact SpecCopy Generic SpecGen.
From Verif Require Import MemFacts MemFacts2 MemFacts3 MemFacts4 MemFacts5 MemFacts6 MemFacts7 MemFacts9 MemFacts10 HandleFacts GenFacts1 GenFacts6 ExactFacts ExactFacts2 ExactFacts3 CopyFacts.
Local Notation B := mem_backend.

Lemma nowhere_hook u name s : nowhere u -> mem_hook u name s = (Raise AssertionError, s).
Proof. intros N. apply addr_none in N. unfold mem_hook, bind, lift. now rewrite N. Qed.
Lemma addr_cases u : nowhere u \/ exists cs, addr u cs.
Proof.
  destruct (mem_path u) as [p|e] eqn:P.
  - right. destruct p as [|c p].
    + exists []. apply addr_path. exists []. auto.
    + exists (steps_of (c :: p)). apply addr_path. exists (c :: p). split; [auto|]. right. split; [discriminate|reflexivity].
  - left. unfold nowhere. apply addr_none. rewrite P. f_equal. unfold mem_path in P. destruct (u_path u) as [|c r]; [congruence|]. destruct (N.eqb c cSlash); congruence.
Qed.

Lemma prefix_dec (p q : list str) : (exists r, q = p ++ r) \/ forall r, q <> p ++ r.
Proof.
  revert q. induction p as [|c p IH]; intros q; [left; now exists q|]. destruct q as [|d q]; [right; discriminate|].
  destruct (list_eq_dec N.eq_dec d c) as [->|N]; [|right; intros r X; injection X; auto].
  destruct (IH q) as [[r ->]|X]; [left; now exists r|]. right. intros r Y. injection Y as Y. now apply (X r).
Qed.
(** What a run ends with *)
Definition ends (s : mst) (x : res unit * mst) (r : res unit) (t' : tree) : Prop :=
  exists s', x = (r, s') /\ wf s' /\ same_rest s s' /\ same_tree t' (view s').
Lemma has_changes s x f : has_effect s x f -> changes (view s) f (fst x) (view (snd x)).
Proof.
  destruct f as [e| |p e|p]; cbn [has_effect].
  - intros ->. constructor. apply same_tree_refl.
  - intros ->. constructor. apply same_tree_refl.
  - intros (s' & -> & P & _). now constructor.
  - intros (s' & -> & P & _). now constructor.
Qed.
Lemma changes_det t f r r' a a' : changes t f r a -> changes t f r' a' -> r = r' /\ same_tree a a'.
Proof.
  destruct 1 as [e x S|x S|p e x [P1 P2]|p x [P1 P2]]; inversion 1 as [e' x' S'|x' S'|p' e' x' [Q1 Q2]|p' x' [Q1 Q2]]; subst; (split; [reflexivity|]); intros q.
  - now rewrite S, S'.
  - now rewrite S, S'.
  - destruct (list_eq_dec (list_eq_dec N.eq_dec) q p) as [->|N]; [congruence|]. rewrite P2, Q2; auto.
  - destruct (prefix_dec p q) as [[r ->]|N].
    + now rewrite P1, Q1.
    + rewrite P2, Q2; auto.
Qed.
Lemma effect_ends s (m : M mst unit) f r t' : wf s -> safe m -> has_effect s (m s) f -> changes (view s) f r t' -> ends s (m s) r t'.
Proof.
  intros W Sf H C. destruct (Sf s W) as [W' _]. destruct (changes_det _ _ _ _ _ _ C (has_changes _ _ _ H)) as [-> S].
  exists (snd (m s)). split; [now destruct (m s)|]. split; [exact W'|]. split; [|exact S].
  destruct f as [e| |p e|p]; cbn [has_effect] in H.
  - rewrite H. repeat split.
  - rewrite H. repeat split.
  - destruct H as (s' & -> & _ & R). exact R.
  - destruct H as (s' & -> & _ & R). exact R.
Qed.
Lemma ends_here s r t' : wf s -> same_tree t' (view s) -> ends s (r, s) r t'.
Proof. intros W S. exists s. split; [reflexivity|]. split; [exact W|]. split; [repeat split|exact S]. Qed.
Lemma ends_then s s1 x r t' : same_rest s s1 -> ends s1 x r t' -> ends s x r t'.
Proof. intros R (s' & E & W & R' & S). exists s'. split; [exact E|]. split; [exact W|]. split; [eapply same_rest_trans; eauto|exact S]. Qed.

Section S.
Variable s : mst.
Hypothesis W : wf s.
Hypothesis Q : silent s.
Let t := view s.

Lemma run_hook (name : String.string) u {A} (m : M mst A) : hooked B name u m s = match mem_path u with Ok _ => m s | Raise _ => (Raise AssertionError, s) end.
Proof.
  unfold hooked. cbn [b_hook mem_backend]. destruct (addr_cases u) as [N|[cs Au]].
  - rewrite (bind_raise _ _ s AssertionError s) by now apply nowhere_hook. apply addr_none in N. now rewrite N.
  - rewrite (bind_ok _ _ s tt s) by now apply silent_hook with cs. destruct (proj1 (addr_path u cs) Au) as (p & P & _). now rewrite P.
Qed.
Lemma on_path u cs : addr u cs -> exists p, mem_path u = Ok p.
Proof. intros A. destruct (proj1 (addr_path u cs) A) as (p & P & _). eauto. Qed.
Lemma run_tests u f (g : uri -> M mst bool) (name : String.string) r :
  (forall cs o, addr u cs -> leads t cs o -> g u s = (test_rule t f o, s)) -> tests t f u r -> hooked B name u (g u) s = (r, s).
Proof.
  intros G T. rewrite run_hook. destruct T as [cs o A L|N].
  - destruct (on_path u cs A) as [p ->]. now apply G with cs.
  - apply addr_none in N. now rewrite N.
Qed.
Lemma run_isdir u r : tests t is_dir_e u r -> u_isdir B u s = (r, s).
Proof. unfold u_isdir. apply run_tests. intros cs o A L. now apply exact_isdir with cs. Qed.
Lemma run_isfile u r : tests t is_file_e u r -> u_isfile B u s = (r, s).
Proof. unfold u_isfile. apply run_tests. intros cs o A L. now apply exact_isfile with cs. Qed.
Lemma run_exists u r : tests t any_entry u r -> u_exists B u s = (r, s).
Proof. unfold u_exists. apply run_tests. intros cs o A L. now apply exact_exists with cs. Qed.
Lemma run_islink u r : links t u r -> u_islink B u s = (r, s).
Proof.
  unfold u_islink. rewrite run_hook. destruct 1 as [cs sp A S|N].
  - destruct (on_path u cs A) as [p ->]. now apply exact_islink with cs.
  - apply addr_none in N. now rewrite N.
Qed.
Lemma tests_at f u b : tests t f u (Ok b) -> exists cs o, addr u cs /\ leads t cs o /\ test_rule t f o = Ok b.
Proof. inversion 1; subst; eauto 6. Qed.
Lemma tests_total f u : exists r, tests t f u r.
Proof. destruct (addr_cases u) as [N|[cs A]]; [eexists; now apply te_other|]. destruct (leads_total (m_heap s) cs) as [o L]. eexists. eapply te_path; eauto. Qed.
Lemma tests_det f u r r' : tests t f u r -> tests t f u r' -> r = r'.
Proof.
  destruct 1 as [cs o A L|N]; destruct 1 as [cs' o' A' L'|N']; auto; try (now destruct (N' _ A)); try (now destruct (N _ A')).
  pose proof (addr_inj _ _ _ A A') as <-. now rewrite (leads_det (m_heap s) (m_next s) W _ _ _ L L').
Qed.
Lemma links_total u : exists r, links t u r.
Proof. destruct (addr_cases u) as [N|[cs A]]; [eexists; now apply lk_other|]. destruct (spots_total s W cs) as [sp L]. eexists. eapply lk_path; eauto. Qed.
Lemma goes_total u f : exists r, goes t u f r.
Proof. destruct (addr_cases u) as [N|[cs A]]; [eexists; now apply go_other|]. destruct (reaches_total s W cs f) as [sp L]. eexists. eapply go_path; eauto. Qed.
Lemma unlinks_total u : exists r, unlinks t u r.
Proof. destruct (addr_cases u) as [N|[cs A]]; [eexists; now apply ul_other|]. destruct (spots_total s W (proper cs)) as [sp L]. eexists. eapply ul_path; eauto. Qed.
Lemma opening_total m u : exists r, opening t (m_now s) m u r.
Proof. destruct (addr_cases u) as [N|[cs A]]; [eexists; now apply op_other|]. destruct (open_total s W m cs) as [sp L]. eexists. eapply op_path; eauto. Qed.
Lemma run_opening m u r : opening t (m_now s) m u r -> open_fact s m (u_open u m s) r.
Proof.
  destruct 1 as [cs r A R|N].
  - rewrite (run_u_open s u cs) by auto. now apply exact_open with cs.
  - unfold u_open. cbn [open_fact]. apply bind_raise. now apply nowhere_hook.
Qed.
Lemma run_unlinks u f : unlinks t u f -> (exists cs, addr u cs) -> has_effect s (mem_removefile u s) f.
Proof. intros [cs sp A S|N] [cs' A']; [now apply exact_removefile with cs|now destruct (N cs')]. Qed.
End S.
