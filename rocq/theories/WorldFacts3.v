(** Memory trees as source and as destination of WorldFacts2.v. *)
From Coq Require Import Lia Sorted.
From Verif Require Import Str Exc Utf8 UriParse BaseUri StrFacts SpecUri Mem SpecMem MemOps Generic SpecGen World.
From Verif Require Import UriFacts2 UriFacts3 MemFacts MemFacts2 MemFacts3 MemFacts4 MemFacts5 MemFacts6 MemFacts7 MemFacts8 MemFacts9 MemUri MemFacts10 MemFacts11 GenFacts1 GenFacts2 GenFacts3 GenFacts8.
From Verif Require Import Misc Posix SpecLocal LocalFacts1 LocalFacts11 WorldFacts1 WorldFacts2.

Local Notation joined := (join_with [cSlash]).
Local Notation B := mem_backend.

Lemma view_up s p n : view s (p ++ [n]) <> None -> is_edir (view s p).
Proof. apply (tree_parent (m_heap s)). Qed.
Lemma real_leads s p : is_efile (view s p) \/ is_edir (view s p) -> leads (view s) p (Found p).
Proof.
  intros H. destruct (snoc_cases p) as [->|(i & n & ->)]; [constructor|].
  assert (D : is_edir (view s i)). { apply (view_up s i n). destruct H as [(? & ? & ? & ->)|(? & ? & ->)]; discriminate. }
  apply (leads_snoc_plain (m_heap s)); auto. now apply (resolves_dir (m_heap s)).
Qed.
Lemma seen_dir e : seen e = Some None <-> is_edir e.
Proof. split; [|intros (? & ? & ->); reflexivity]. destruct e as [[d mt mo|mt mo|t mt mo]|]; try discriminate. intros _. now exists mt, mo. Qed.
Lemma seen_file e d : seen e = Some (Some d) <-> exists mt mo, e = Some (EFile d mt mo).
Proof. split; [|intros (? & ? & ->); reflexivity]. destruct e as [[d' mt mo|mt mo|t mt mo]|]; try discriminate. intros H. injection H as <-. eauto. Qed.
Lemma seen_some e : ~ is_elink e -> (seen e <> None <-> e <> None).
Proof.
  intros H. destruct e as [[d mt mo|mt mo|t mt mo]|]; cbn; try easy. exfalso. apply H. now exists t, mt, mo.
Qed.
Lemma seen_real e : seen e <> None -> is_efile e \/ is_edir e.
Proof. destruct e as [[d mt mo|mt mo|t mt mo]|]; cbn; try easy; intros _; [left|right]; repeat eexists. Qed.

(** ** Source *)
Section Source.
Variables (s0 : mst) (cs : list str).
Hypothesis Ncs : cs <> [].
Record msrc (T : ftree) (s : mst) : Prop := {
  ms_wf : wf s;
  ms_silent : silent s;
  ms_rest : same_rest s0 s;
  ms_tree : forall r, T r = seen (view s (cs ++ r));
  ms_nolink : forall r, ~ is_elink (view s (cs ++ r));
  ms_good : forall r, T r <> None -> good_path (cs ++ r);
  ms_out : forall q, (forall r, q <> cs ++ r) -> view s q = view s0 q;
  ms_in : forall r, T r <> None -> view s (cs ++ r) = view s0 (cs ++ r) }.
Definition mus (r : list str) : uri := mem_uri (cs ++ r).

Section One.
Variables (T : ftree) (s : mst) (r : list str).
Hypothesis k : msrc T s.
Hypothesis H : T r <> None.
Lemma ms_real : is_efile (view s (cs ++ r)) \/ is_edir (view s (cs ++ r)).
Proof. apply seen_real. rewrite <- (ms_tree T s k). exact H. Qed.
Lemma ms_leads : leads (view s) (cs ++ r) (Found (cs ++ r)).
Proof. apply real_leads, ms_real. Qed.
Lemma ms_parent : exists i n, cs ++ r = i ++ [n] /\ is_edir (view s i) /\ leads (view s) i (Found i) /\ fresh_last (view s) i n.
Proof.
  destruct (snoc_cases (cs ++ r)) as [E|(i & n & E)]; [apply app_eq_nil in E; tauto|]. exists i, n. split; auto.
  assert (D : is_edir (view s i)). { apply (view_up s i n). rewrite <- E. destruct ms_real as [(? & ? & ? & ->)|(? & ? & ->)]; discriminate. }
  split; auto. split; [now apply (resolves_dir (m_heap s))|]. now apply (fresh_dir (m_heap s) (m_next s)), D; apply k.
Qed.
End One.
Lemma ms_names T s r : msrc T s -> T r <> None -> Forall name_ok r.
Proof. intros k H. pose proof (ms_good T s k r H) as G. apply gp_names in G. now apply Forall_app in G as [_ G]. Qed.

Lemma mem_source : source B mem_fetch mus msrc.
Proof.
  constructor.
  - intros T s r n k H. rewrite (ms_tree T s k) in *. apply seen_dir. apply (view_up s _ n). rewrite <- app_assoc.
    apply seen_some in H; [auto|apply k].
  - apply ms_names.
  - intros T s r n k H. unfold mus. rewrite app_assoc. apply mem_div. rewrite <- app_assoc. apply (ms_good T s k _ H).
  - intros T s r k H. unfold mus. rewrite app_nil_r. assert (G : good_path (cs ++ r)) by now apply (ms_good T s k).
    rewrite !good_path_path by (auto; now apply good_app in G). now apply skip_source.
  - intros T s r n k H. apply silent_mem; [apply k|now apply (ms_good T s k)].
  - intros T s r k H. unfold mus. pose proof (ms_good T s k r H) as G. pose proof (ms_leads T s r k H) as L.
    destruct (ms_parent T s r k H) as (i & n & E & _). rewrite E in *. now apply (exists_found s (ms_wf T s k) i n G (i ++ [n])).
  - intros T s r k H. unfold mus. pose proof (ms_good T s k r H) as G. pose proof (ms_leads T s r k H) as L.
    destruct (f_isdir (T r)) eqn:Ed.
    + apply (isdir_found s (ms_wf T s k) _ (cs ++ r)); auto. apply seen_dir. rewrite <- (ms_tree T s k). destruct (T r) as [[d|]|]; easy.
    + apply (isdir_file s (ms_wf T s k) _ (cs ++ r)); auto. intros X. apply seen_dir in X. rewrite <- (ms_tree T s k) in X. now rewrite X in Ed.
  - intros T s r d k H. unfold mus. assert (Hn : T r <> None) by congruence. pose proof (ms_good T s k r Hn) as G. pose proof (ms_leads T s r k Hn) as L.
    destruct (ms_parent T s r k Hn) as (i & n & E & _). rewrite (ms_tree T s k) in H. rewrite E in *.
    apply (isfile_found s (ms_wf T s k) i n G (i ++ [n])); auto. apply seen_file in H as (mt & mo & ->). repeat eexists.
  - intros T s r k H. unfold mus. pose proof (ms_good T s k r H) as G. destruct (ms_parent T s r k H) as (i & n & E & D & L & F).
    pose proof (ms_nolink T s k r) as N. rewrite E in *. cbn [mem_backend b_islink]. rewrite (run_islink s (ms_wf T s k) i n G F i L D).
    destruct (view s (i ++ [n])) as [[d mt mo|mt mo|t mt mo]|]; try reflexivity. exfalso. apply N. now exists t, mt, mo.
  - intros T s r k H. unfold mus. assert (Hn : T r <> None) by congruence.
    destruct (run_listing s (cs ++ r) (cs ++ r)) as (l & R & _ & Sl & I).
    + apply k.
    + now apply (ms_good T s k).
    + now apply (ms_leads T).
    + apply seen_dir. now rewrite <- (ms_tree T s k).
    + exists l. split; auto. split; auto. intros n. rewrite I, <- app_assoc, (ms_tree T s k), seen_some; [easy|apply k].
  - intros T s r d k H. assert (Hn : T r <> None) by congruence. pose proof (ms_good T s k r Hn) as G.
    pose proof H as H0. rewrite (ms_tree T s k) in H0. apply seen_file in H0 as (mt & mo & Ev).
    assert (Dn : denotes (view s) (mus r) (Found (cs ++ r))) by (exists (cs ++ r); split; [now apply mem_addr|now apply (ms_leads T)]).
    pose proof (ms_wf T s k) as W.
    destruct (open_read s W (mus r) true (cs ++ r) d mt mo Dn Ev) as (s1 & hd & f & E1 & Eh & Op & D1 & P1 & _ & _ & T1).
    destruct (run_read s1 (h_node hd) f (op_file _ _ _ _ _ _ Op) (-1)) as (s2 & E2 & U).
    assert (T2 : same_tree (view s) (view s2)).
    { eapply same_tree_trans; [exact T1|]. eapply file_upd_quiet; [exact U|reflexivity..]. }
    exists s2. split.
    + unfold mem_fetch, u_open. erewrite bind_ok.
      2:{ erewrite bind_ok by (apply silent_mem; [apply k|auto]). rewrite mem_open_read by reflexivity. exact E1. }
      erewrite bind_ok with (a := VBytes d).
      2:{ unfold h_read. rewrite Eh. cbn [h_readable negb h_node]. unfold bind. rewrite E2. unfold lift, bio_read.
          rewrite P1, D1. cbn [Z.ltb Z.compare skipn fst]. reflexivity. }
      reflexivity.
    + assert (R2 : same_rest s s2) by (eapply same_rest_trans; [apply Op|apply U]).
      constructor.
      * eapply file_upd_wf; [apply Op|exact U].
      * eapply silent_rest; [apply k|exact R2].
      * eapply same_rest_trans; [apply k|exact R2].
      * intros r'. rewrite T2. apply k.
      * intros r'. rewrite T2. apply k.
      * apply k.
      * intros q Hq. rewrite T2. now apply k.
      * intros r' Hr'. rewrite T2. now apply (ms_in T s k).
Qed.

Lemma ms_cut T s s' r : msrc T s -> wf s' -> same_rest s s' -> cut_at (view s) (view s') (cs ++ r) -> (forall z, z <> [] -> T (r ++ z) = None) ->
  msrc (cutT T r) s'.
Proof.
  intros k W R [C1 C2] N.
  assert (X : forall q, view s' q = if path_eqb q (cs ++ r) then None else view s q).
  { intros q. destruct (path_dec q (cs ++ r)) as [->|Nq]; [rewrite path_eqb_refl; rewrite <- (app_nil_r (cs ++ r)); apply C1|].
    rewrite path_eqb_neq by auto. destruct (below_dec (cs ++ r) q) as [[z ->]|Nb]; [|now apply C2].
    rewrite C1. destruct z as [|z0 z]; [rewrite app_nil_r in Nq; easy|]. symmetry. specialize (N (z0 :: z)). rewrite (ms_tree T s k) in N.
    rewrite app_assoc in N. destruct (view s ((cs ++ r) ++ z0 :: z)) eqn:Ev; auto. exfalso.
    pose proof (ms_nolink T s k (r ++ z0 :: z)) as Nl. rewrite app_assoc, Ev in Nl.
    assert (Y : seen (Some e) <> None) by now apply seen_some. apply Y, N. easy. }
  assert (Xc : forall z, view s' (cs ++ z) = if path_eqb z r then None else view s (cs ++ z)).
  { intros z. rewrite X. destruct (path_dec z r) as [->|Nz]; [now rewrite !path_eqb_refl|]. rewrite !path_eqb_neq; auto.
    intros Y. apply app_inv_head in Y. contradiction. }
  constructor; auto.
  - eapply silent_rest; [apply k|exact R].
  - eapply same_rest_trans; [apply k|exact R].
  - intros z. rewrite Xc. unfold cutT. destruct (path_eqb z r); [reflexivity|apply k].
  - intros z. rewrite Xc. destruct (path_eqb z r); [intros (? & ? & ? & Y); discriminate|apply k].
  - intros z. unfold cutT. destruct (path_eqb z r); [easy|]. apply k.
  - intros q Hq. rewrite X, path_eqb_neq by apply Hq. now apply k.
  - intros z. rewrite Xc. unfold cutT. destruct (path_eqb z r); [easy|]. apply (ms_in T s k).
Qed.
Lemma ms_below T s r z : msrc T s -> f_isdir (T r) = false \/ (forall n, T (r ++ [n]) = None) -> z <> [] -> T (r ++ z) = None.
Proof.
  intros k Hd Nz. destruct z as [|n z]; [easy|]. clear Nz.
  assert (X : T (r ++ [n]) = None).
  { destruct Hd as [Hd|Hd]; [|auto]. destruct (T (r ++ [n])) eqn:Et; auto. assert (Y : T (r ++ [n]) <> None) by congruence.
    apply (s_up _ _ _ _ mem_source T s r n k) in Y. now rewrite Y in Hd. }
  change (n :: z) with ([n] ++ z). rewrite app_assoc. induction z as [|m z IH] using rev_ind; [now rewrite app_nil_r|].
  rewrite app_assoc. destruct (T (((r ++ [n]) ++ z) ++ [m])) eqn:Et; auto. assert (Y : T (((r ++ [n]) ++ z) ++ [m]) <> None) by congruence.
  apply (s_up _ _ _ _ mem_source T s _ m k) in Y. congruence.
Qed.
Lemma mem_gone : gone B mus msrc.
Proof.
  constructor.
  - intros T s r k H. unfold mus. pose proof (ms_good T s k r H) as G. pose proof (ms_leads T s r k H) as L.
    cbn [mem_backend b_isfile]. rewrite (isfile_spec s (ms_wf T s k) _ _ _ (mem_addr _ G) L). unfold quiet.
    destruct (leads_phys (m_heap s) (m_next s) (ms_wf T s k) _ _ L) as (i & P & _). rewrite P.
    rewrite (ms_tree T s k). unfold view, tree_of. rewrite P. cbn [option_map]. destruct (m_heap s i); reflexivity.
  - intros T s r d k H. assert (Hn : T r <> None) by congruence. pose proof (ms_good T s k r Hn) as G. destruct (ms_parent T s r k Hn) as (i & n & E & D & L & F).
    unfold mus. pose proof H as H0. rewrite (ms_tree T s k) in H0. apply seen_file in H0 as (mt & mo & Ev).
    assert (Hv : view s (cs ++ r) <> None) by congruence. pose proof E as E0. rewrite E in G, Hv |- *.
    destruct (run_removefile s (ms_wf T s k) i n G F i L D Hv) as (s' & Rr & W' & C & R).
    exists s'. split; [exact Rr|]. apply (ms_cut T s); auto; [now rewrite E|].
    intros z. apply (ms_below T s); auto. left. now rewrite H.
  - intros T s r k H N. assert (Hn : T r <> None) by congruence. pose proof (ms_good T s k r Hn) as G. destruct (ms_parent T s r k Hn) as (i & n & E & D & L & F).
    unfold mus. pose proof H as H0. rewrite (ms_tree T s k) in H0. apply seen_dir in H0.
    assert (Ne : forall m, view s ((cs ++ r) ++ [m]) = None).
    { intros m. destruct (view s ((cs ++ r) ++ [m])) eqn:Ev; auto. exfalso. pose proof (ms_nolink T s k (r ++ [m])) as Nl.
      specialize (N m). rewrite (ms_tree T s k) in N. rewrite app_assoc in *. rewrite Ev in *. assert (Y : seen (Some e) <> None) by now apply seen_some. auto. }
    rewrite E in G, H0, Ne |- *.
    destruct (run_removedir_empty s (ms_wf T s k) i n G F i L D H0 Ne) as (s' & Rr & W' & C & R).
    exists s'. split; [exact Rr|]. apply (ms_cut T s); auto; [now rewrite E|]. intros z. apply (ms_below T s); auto.
Qed.
End Source.

(** ** Destination *)
Section Target.
Variable s0 : mst.
Record mdst (D : tree) (s : mst) : Prop := {
  md_wf : wf s;
  md_silent : silent s;
  md_rest : same_rest s0 s;
  md_tree : forall q, D q = view s q }.
Definition e_isdir (e : entry) : bool := match e with EDir _ _ => true | _ => false end.
Definition e_islink (e : entry) : bool := match e with ELink _ _ _ => true | _ => false end.
Lemma dirE_edir (D : tree) p : dirE e_isdir (D p) = true <-> is_edir (D p).
Proof. unfold dirE. split; [|intros (? & ? & ->); reflexivity]. destruct (D p) as [[]|]; try discriminate. intros _. repeat eexists. Qed.
Lemma md_ext D s s' : mdst D s -> wf s' -> same_rest s s' -> forall p e, put_at (view s) (view s') p e -> mdst (put D p e) s'.
Proof.
  intros k W R p e [P1 P2]. constructor; auto.
  - eapply silent_rest; [apply k|exact R].
  - eapply same_rest_trans; [apply k|exact R].
  - intros q. unfold put. destruct (path_dec q p) as [->|N]; [now rewrite path_eqb_refl|]. rewrite path_eqb_neq, P2 by auto. apply k.
Qed.
Lemma mem_target : target B mem_put mem_uri good_path e_isdir e_islink (EDir (m_now s0) 0) (fun _ d => EFile d (m_now s0) 0) mdst.
Proof.
  constructor.
  - now intros [].
  - reflexivity.
  - reflexivity.
  - intros D s p n k H. apply dirE_edir. rewrite (md_tree D s k) in *. now apply (view_up s p n).
  - intros a b. apply good_app.
  - intros p n G. apply good_name in G. now apply name_ne.
  - intros p r G N. apply mem_div_path; auto. apply G.
  - intros p n G. apply mem_split. apply G.
  - intros D s p n k G. apply silent_mem; auto. apply k.
  - intros D s p k G A. cbn [mem_backend b_isdir]. destruct A as [(e & E & L)|(d & n & b & -> & Dd & Dn)].
    + rewrite E. cbn [dirE]. rewrite (md_tree D s k) in E. destruct e as [dd mt mo|mt mo|t mt mo]; [| |discriminate].
      * apply (isdir_file s (md_wf D s k) _ p); auto; [apply real_leads; left; rewrite E; repeat eexists|]. rewrite E. intros (? & ? & X). discriminate.
      * apply (isdir_found s (md_wf D s k) _ p); auto; [apply real_leads; right|]; rewrite E; repeat eexists.
    + apply dirE_edir in Dd. rewrite (md_tree D s k) in *.
      assert (X : view s (d ++ n :: b) = None). { change (n :: b) with ([n] ++ b). rewrite app_assoc. now apply below_none. }
      rewrite X. apply (isdir_none s (md_wf D s k) _ Missing); auto. apply (leads_gap s (d ++ n :: b) d (n :: b)); [|easy].
      exists d. split; auto. split; [now apply (resolves_dir (m_heap s))|]. split; auto. intros n' b' Y. injection Y as <- _. exact Dn.
  - intros D s p n k G Dp N. apply dirE_edir in Dp. rewrite (md_tree D s k) in *.
    destruct (run_mkdir_free s (p ++ [n]) p n p (md_wf D s k) eq_refl G) as (s' & Rm & W & P & R); auto; [now apply (resolves_dir (m_heap s))|].
    exists s'. split; [exact Rm|]. assert (Em : m_now s = m_now s0) by apply k. rewrite Em in P. now apply (md_ext D s).
  - intros D s d p n k G Dp N Ln. apply dirE_edir in Dp. rewrite (md_tree D s k) in *.
    assert (Wr : writable (view s) (mem_uri (p ++ [n])) (p ++ [n])).
    { assert (Lp : leads (view s) p (Found p)) by now apply (resolves_dir (m_heap s)).
      destruct (view s (p ++ [n])) as [[dd mt mo|mt mo|t mt mo]|] eqn:Ev; try discriminate.
      - apply wr_file; [|rewrite Ev; repeat eexists]. exists (p ++ [n]). split; [now apply mem_addr|]. apply real_leads. left. rewrite Ev. repeat eexists.
      - apply wr_free. eapply pl_free; eauto. now apply mem_addr. }
    destruct (write_all_run s _ true _ (match d with [] => [] | _ => [d] end) (lit "wb") (md_wf D s k) Wr eq_refl eq_refl eq_refl)
      as (s' & hd & f & Rw & _ & Op & _ & _ & _ & _ & P).
    assert (Ec : concat (match d with [] => [] | _ => [d] end) = d) by (destruct d; [reflexivity|apply app_nil_r]). rewrite Ec in P.
    assert (Em : m_now s = m_now s0) by apply k. rewrite Em in P.
    exists s'. split; [|apply (md_ext D s); auto; apply Op].
    unfold mem_put, u_open. unfold write_all in Rw.
    unfold bind in Rw |- *. rewrite (silent_mem s (p ++ [n])) by (auto; apply k).
    destruct (mem_open (mem_uri (p ++ [n])) (Some (lit "wb")) s) as [[hd'|e] s1]; [|discriminate].
    destruct d as [|c d]; cbn [map mapM_] in Rw.
    + unfold ret in *. injection Rw as _ <-. reflexivity.
    + unfold bind in Rw. destruct (h_write hd' (VBytes (c :: d)) s1) as [[[]|e] s2]; [|discriminate]. unfold ret in *. injection Rw as _ <-. reflexivity.
Qed.
End Target.
