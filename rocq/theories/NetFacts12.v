(** A file copied from one memory connection to another *)
From Coq Require Import Lia.
From Verif Require Import Str Exc Utf8 UriParse BaseUri StrFacts SpecUri Mem SpecMem MemOps Generic SpecGen World.
From Verif Require Import MemFacts MemFacts2 MemFacts3 MemFacts4 MemFacts5 MemFacts6 MemFacts7 MemFacts8 MemFacts9 MemUri MemFacts10 MemFacts11 GenFacts1 GenFacts2 GenFacts3 GenFacts6 GenFacts8 WorldFacts2 WorldFacts3.

Lemma fetch_run s u q d mt mo : wf s -> silent s -> denotes (view s) u (Found q) -> view s q = Some (EFile d mt mo) ->
  exists s', mem_fetch u s = (Ok d, s') /\ wf s' /\ same_rest s s' /\ same_tree (view s) (view s').
Proof.
  intros W Q Dn Ev. pose proof Dn as (cs & A & _).
  destruct (open_read s W u true q d mt mo Dn Ev) as (s1 & hd & f & E1 & Eh & Op & D1 & P1 & _ & _ & T1).
  destruct (run_read s1 (h_node hd) f (op_file _ _ _ _ _ _ Op) (-1)) as (s2 & E2 & U).
  exists s2. split; [|split; [eapply file_upd_wf; [apply Op|exact U]|split; [eapply same_rest_trans; [apply Op|apply U]|]]].
  - unfold mem_fetch. erewrite bind_ok.
    2:{ rewrite (run_u_open s u cs) by auto. rewrite mem_open_read by reflexivity. exact E1. }
    erewrite bind_ok with (a := VBytes d).
    2:{ unfold h_read. rewrite Eh. cbn [h_readable negb h_node]. unfold bind. rewrite E2. unfold lift, bio_read.
        rewrite P1, D1. cbn [Z.ltb Z.compare skipn fst]. reflexivity. }
    reflexivity.
  - eapply same_tree_trans; [exact T1|]. eapply file_upd_quiet; [exact U|reflexivity..].
Qed.
Lemma put_run s u p d : wf s -> silent s -> writable (view s) u p ->
  exists s', mem_put u d s = (Ok tt, s') /\ wf s' /\ same_rest s s' /\ put_at (view s) (view s') p (EFile d (m_now s) 0).
Proof.
  intros W Q Wr. assert (exists cs, addr u cs) as [cs A].
  { destruct Wr as [x P|x (cs & A & _) _]; [inversion P; subst; eauto|eauto]. }
  destruct (write_all_run s _ true _ (match d with [] => [] | _ => [d] end) (lit "wb") W Wr eq_refl eq_refl eq_refl)
    as (s' & hd & f & Rw & _ & Op & _ & _ & _ & _ & P).
  assert (Ec : concat (match d with [] => [] | _ => [d] end) = d) by (destruct d; [reflexivity|apply app_nil_r]). rewrite Ec in P.
  exists s'. split; [|split; [apply Op|split; [apply Op|exact P]]].
  unfold mem_put. unfold write_all in Rw. unfold bind in Rw |- *. rewrite (run_u_open s u cs) by auto.
  destruct (mem_open u (Some (lit "wb")) s) as [[hd'|e] s1]; [|discriminate].
  destruct d as [|c d]; cbn [map mapM_] in Rw.
  - unfold ret in *. injection Rw as _ <-. reflexivity.
  - unfold bind in Rw. destruct (h_write hd' (VBytes (c :: d)) s1) as [[[]|e] s2]; [|discriminate]. unfold ret in *. injection Rw as _ <-. reflexivity.
Qed.
Lemma writable_no_dir s u p : wf s -> writable (view s) u p -> mem_isdir u s = (Ok false, s).
Proof.
  intros W [x P|x (cs & A & L) F].
  - inversion P as [|init n d A L D N E| | | |]; subst.
    assert (Lm : leads (view s) (init ++ [n]) Missing) by (eapply rs_app; eauto; now constructor).
    now rewrite (isdir_spec s W u _ _ A Lm).
  - rewrite (isdir_spec s W u _ _ A L). unfold quiet. destruct (leads_phys (m_heap s) (m_next s) W cs x L) as (i & Ph & _). rewrite Ph.
    destruct F as (dd & mt & mo & F). rewrite (view_node _ _ _ Ph) in F. unfold is_dir. now destruct (m_heap s i).
Qed.

Section File.
Variable side : uri -> bool.
Local Notation w := (world mem_backend mem_backend mem_fetch mem_put mem_fetch mem_put side).
Lemma file_two s t u v cu p data mt mo fuel ig fl : wf s -> wf t -> silent s -> silent t -> side u = true -> side v = false ->
  u_scheme u = u_scheme v -> addr u cu -> view s cu = Some (EFile data mt mo) -> writable (view t) v p ->
  exists s1 t1, wf s1 /\ same_tree (view s) (view s1) /\ put_at (view t) (view t1) p (EFile data (m_now t) 0) /\
    u_copy w fuel false ig fl u v (s, t) = (let (r, s2) := mem_copystat u v s1 in (r, (s2, t1))).
Proof.
  intros W Wt Q Qt Su Sv Sc A Ev Wr.
  assert (Real : is_efile (view s cu)) by (rewrite Ev; repeat eexists).
  assert (L : leads (view s) cu (Found cu)) by (apply real_leads; now left).
  assert (exists cv, addr v cv) as [cv Av].
  { destruct Wr as [x P|x (cs & Y & _) _]; [inversion P; subst; eauto|eauto]. }
  assert (Dn : denotes (view s) u (Found cu)) by (exists cu; auto).
  destruct (fetch_run s u cu data mt mo W Q Dn Ev) as (s1 & Rf & W1 & Sr & Tr).
  destruct (put_run t v p data Wt Qt Wr) as (t1 & Rp & Wt1 & Srt & Pt).
  exists s1, t1. split; [exact W1|]. split; [exact Tr|]. split; [exact Pt|].
  destruct (leads_phys (m_heap s) (m_next s) W cu cu L) as (i & Ph & _). pose proof Ev as Ev'. rewrite (view_node _ _ _ Ph) in Ev'.
  assert (Ex : mem_exists u s = (Ok true, s)) by (rewrite (exists_spec s W u _ _ A L); unfold quiet; now rewrite Ph).
  assert (Fi : mem_isfile u s = (Ok true, s)).
  { rewrite (isfile_spec s W u _ _ A L). unfold quiet. rewrite Ph. unfold is_file. now destruct (m_heap s i). }
  assert (Li : mem_islink u s = (Ok false, s)).
  { destruct (snoc_cases cu) as [->|(j & n & ->)]; [now apply islink_root|].
    assert (D : is_edir (view s j)) by (apply (view_up s j n); rewrite Ev; discriminate).
    rewrite (islink_found s W u j n j A); [now rewrite Ev| |now apply (resolves_dir (m_heap s))|exact D]. now apply (fresh_dir (m_heap s) (m_next s)), D. }
  assert (Hk : forall n, b_hook w u n (s, t) = (Ok tt, (s, t))).
  { intros n. cbn [b_hook world mem_backend]. unfold World.both. rewrite Su. apply on1_ok. now apply (silent_hook s u cu). }
  assert (Hv : forall n, b_hook w v n (s, t) = (Ok tt, (s, t))).
  { intros n. cbn [b_hook world mem_backend]. unfold World.both. rewrite Sv. apply on2_ok. now apply (silent_hook t v cv). }
  unfold u_copy, hooked. erewrite bind_ok by apply Hk. unfold fs_copy. assert (Oe : forall o, opt_eqb o o = true) by (intros [x|]; [apply str_eqb_refl|reflexivity]). rewrite Sc, Oe.
  unfold u_exists, u_isfile, u_isdir, copy_entry, u_islink, hooked.
  erewrite bind_ok; [|erewrite bind_ok by apply Hk; cbn [b_exists world mem_backend]; unfold World.both; rewrite Su; apply on1_ok, Ex]. cbn [negb].
  erewrite bind_ok; [|erewrite bind_ok by apply Hk; cbn [b_isfile world mem_backend]; unfold World.both; rewrite Su; apply on1_ok, Fi]. cbn [negb].
  erewrite bind_ok; [|erewrite bind_ok by apply Hv; cbn [b_isdir world mem_backend]; unfold World.both; rewrite Sv; apply on2_ok; now apply (writable_no_dir t v p)].
  cbn [negb]. erewrite bind_ok by reflexivity.
  erewrite bind_ok; [|erewrite bind_ok by apply Hk; cbn [b_islink world mem_backend]; unfold World.both; rewrite Su; apply on1_ok, Li]. cbn [andb].
  erewrite bind_ok with (a := tt) (s' := (s1, t1)).
  2:{ cbn [b_copy_content world]. unfold world_content. rewrite Su, Sv. erewrite bind_ok by (apply on1_ok, Rf). apply on2_ok, Rp. }
  cbn [b_copystat world mem_backend]. unfold World.both. rewrite Su. reflexivity.
Qed.
End File.
