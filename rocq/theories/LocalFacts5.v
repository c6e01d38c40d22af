(** Reading and writing whole files, side by side. *)
From Coq Require Import Lia.
From Verif Require Import Str Exc Utf8 UriParse BaseUri StrFacts UriFacts SpecUri UriFacts2 UriFacts3 UriFacts4 UriFacts5 UriFacts6.
From Verif Require Import Mem SpecMem MemFacts MemFacts2 MemFacts3 MemFacts4 MemFacts5 MemFacts6 MemFacts7 MemFacts8 MemFacts9 MemFacts10 MemFacts11 MemUri.
From Verif Require Import Generic SpecGen GenFacts1 GenFacts2 GenFacts3 GenFacts6.
From Verif Require Import Misc Posix Local SpecLocal LocalFacts1 LocalFacts2.

Section P.
Variables (s : mst) (x : pst).
Hypothesis T : twin s x.
Local Notation t := (view s).
Let W : wf s := tw_wf _ _ T.
Variable cs : list str.
Hypothesis G : plain_path cs.
Let A : addr (mem_uri cs) cs := mem_addr _ (plain_good _ G).

Ltac looking L := inversion L as [e e' A1 A2 A3 A4 E|init n A1 A2 A3 A4 A5 E|init n A1 A2 A3 E|init n A1 A2 A3 E]; cbn [app] in *; symmetry in E.

Lemma read_sim : sim (fun a b s' => a = VBytes b /\ same_tree t (view s'))
  (read_all (mem_uri cs) (Some (lit "rb")) s) (loc_read_all (file_uri cs) x).
Proof.
  unfold loc_read_all. rewrite file_path by now apply plain_good.
  pose proof (look s x T cs true G) as L. looking L.
  - destruct e as [data mt mo|mt mo|]; destruct e' as [d' mo' mt'|mo' mt'|]; try easy.
    + cbn in A3. subst d'.
      assert (X : exists s', read_all (mem_uri cs) (Some (lit "rb")) s = (Ok (VBytes data), s') /\ twin s' x /\ same_tree t (view s')).
      { destruct (open_read s W (mem_uri cs) true cs data mt mo) as (s1 & hd & f & E1 & Eh & Op & D1 & P1 & _ & _ & T1); [now exists cs|auto|].
        destruct (run_read s1 (h_node hd) f (op_file _ _ _ _ _ _ Op) (-1)) as (s2 & E2 & U).
        assert (Es : same_tree t (view s2)) by (eapply same_tree_trans; [exact T1|eapply file_upd_quiet; [exact U|reflexivity..]]).
        exists s2. split; [|split; auto].
        - unfold read_all. rewrite mem_open_read by reflexivity. change (has_char 98 (lit "rb")) with true. unfold bind at 1. rewrite E1.
          unfold h_read. rewrite Eh. cbn [h_readable negb h_node]. unfold bind. rewrite E2. unfold lift, bio_read.
          rewrite P1, D1. cbn [Z.ltb Z.compare skipn fst]. reflexivity.
        - eapply twin_same; [exact T| | |exact Es].
          + eapply file_upd_wf; [apply Op|exact U].
          + eapply same_rest_trans; [apply Op|apply U]. }
      destruct X as (s' & R & T' & Es). eapply sim_ok; [exact R| |exact T'|split; [reflexivity|exact Es]].
      unfold os_open_r, bind, fd_data. rewrite E, A2. reflexivity.
    + eapply sim_excused. unfold read_all. rewrite mem_open_read by reflexivity. apply bind_raise.
      apply (open_read_dir s W _ _ cs); [now exists cs|]. rewrite A1. now exists mt, mo.
  - eapply (sim_raise _ _ _ (OSError ENOENT) s x); [| |exact T].
    + unfold read_all. rewrite mem_open_read by reflexivity. apply bind_raise.
      apply (open_read_fail s W _ _ cs Missing); auto. discriminate.
    + apply bind_raise. unfold os_open_r. now rewrite E.
  - eapply (sim_raise _ _ _ (OSError ENOENT) s x); [| |exact T].
    + unfold read_all. rewrite mem_open_read by reflexivity. apply bind_raise.
      apply (open_read_fail s W _ _ cs Missing); auto. discriminate.
    + apply bind_raise. unfold os_open_r. now rewrite E.
  - eapply (sim_excused _ _ _ s). unfold read_all. rewrite mem_open_read by reflexivity. apply bind_raise.
    apply (open_read_fail s W _ _ cs NotDir); auto. discriminate.
Qed.

Lemma local_write_run q T1 mo1 mt1 b : T1 = pset q (PFile [] mo1 mt1) (p_tree x) -> NoDup (map fst (p_tree x)) ->
  exists T2 mo2 mt2, fd_append q b (set_tree x T1) = (Ok tt, set_tree x T2) /\
    (forall r, pget r T2 = if path_eqb r q then Some (PFile b mo2 mt2) else pget r (p_tree x)) /\ NoDup (map fst T2).
Proof.
  intros -> N. set (T1 := pset q (PFile [] mo1 mt1) (p_tree x)).
  assert (N1 : NoDup (map fst T1)) by now apply pset_nodup.
  assert (G1 : forall r, pget r T1 = if path_eqb r q then Some (PFile [] mo1 mt1) else pget r (p_tree x)) by (intros; apply pget_pset).
  unfold fd_append. cbn [p_tree set_tree]. rewrite G1, path_eqb_refl. destruct b as [|a d].
  - exists T1, mo1, mt1. auto.
  - exists (pset q (PFile (a :: d) mo1 (p_now x)) T1), mo1, (p_now x). split; [reflexivity|]. split.
    + intros r. rewrite pget_pset, G1. now destruct (path_eqb r q).
    + now apply pset_nodup.
Qed.

Lemma write_sim ds : cs <> [] ->
  sim (fun _ _ s' => exists mt mo, put_at t (view s') cs (EFile (concat ds) mt mo))
      (write_all (mem_uri cs) (lit "wb") (map VBytes ds) s) (loc_write_all (file_uri cs) ds x).
Proof.
  intros Nr. unfold loc_write_all. rewrite file_path by now apply plain_good.
  assert (Go : forall q mo1 mt1, writable t (mem_uri cs) cs -> os_open_w (abs_path cs) x = (Ok cs, set_tree x (pset q (PFile [] mo1 mt1) (p_tree x))) -> q = cs ->
    sim (fun _ _ s' => exists mt mo, put_at t (view s') cs (EFile (concat ds) mt mo))
      (write_all (mem_uri cs) (lit "wb") (map VBytes ds) s)
      ((let! q <- os_open_w (abs_path cs); fd_append q (concat ds)) x)).
  { intros q mo1 mt1 Wr Ow ->.
    destruct (write_all_run s (mem_uri cs) _ cs ds (lit "wb") W Wr eq_refl eq_refl eq_refl) as (s1 & hd & f & R & _ & Op & _ & _ & _ & _ & Pt).
    destruct (local_write_run cs _ mo1 mt1 (concat ds) eq_refl) as (T2 & mo2 & mt2 & R2 & G2 & N2); [apply T|].
    eapply sim_ok; [exact R| | |eauto].
    - rewrite (bind_ok _ _ x cs _ Ow). exact R2.
    - eapply twin_put_gen; [exact T|apply Op|apply Op|exact Pt|exact G| |exact G2|exact N2]. reflexivity. }
  pose proof (look s x T cs true G) as L. looking L.
  - destruct e as [data mt mo|mt mo|]; destruct e' as [d' mo' mt'|mo' mt'|]; try easy.
    + eapply Go; [|rewrite open_w_abs by (apply pp_names; assumption); unfold sys_open_w; rewrite E; reflexivity|reflexivity].
      apply wr_file; [now exists cs|]. rewrite A1. now exists data, mt, mo.
    + eapply (sim_raise _ _ _ (OSError EISDIR) s x); [| |exact T].
      * unfold write_all. rewrite mem_open_write by reflexivity. apply bind_raise.
        apply (open_write_dir s W (mem_uri cs) _ cs cs); auto. rewrite A1. now exists mt, mo.
      * apply bind_raise. rewrite open_w_abs by (apply pp_names; assumption). unfold sys_open_w. now rewrite E.
  - eapply Go; [|rewrite open_w_abs by (apply pp_names; assumption); unfold sys_open_w; rewrite E, <- A1; reflexivity|reflexivity].
    apply wr_free. rewrite A1 at 2. apply (pl_free t _ init n init); auto; rewrite <- A1; auto.
  - eapply (sim_raise _ _ _ (OSError ENOENT) s x); [| |exact T].
    + unfold write_all. rewrite mem_open_write by reflexivity. apply bind_raise.
      apply (open_write_noplace s W). eapply pl_missing; eauto.
    + apply bind_raise. rewrite open_w_abs by (apply pp_names; assumption). unfold sys_open_w. now rewrite E.
  - eapply (sim_excused _ _ _ s). unfold write_all. rewrite mem_open_write by reflexivity. apply bind_raise.
    apply (open_write_noplace s W). eapply pl_file; eauto.
Qed.

Lemma append_sim ds : (forall mt mo, t cs <> Some (EFile [] mt mo)) -> t cs <> None ->
  sim (fun _ _ _ => True) (write_all (mem_uri cs) (lit "ab") (map VBytes ds) s) (loc_append_all (file_uri cs) ds x).
Proof.
  intros Ne Np. unfold loc_append_all. rewrite file_path by now apply plain_good.
  pose proof (look s x T cs true G) as L. looking L; [|easy| |].
  2: { exfalso. apply Np. apply (not_found s x T cs Missing); auto. discriminate. }
  2: { exfalso. apply Np. apply (not_found s x T cs NotDir); auto. discriminate. }
  destruct e as [data mt mo|mt mo|]; destruct e' as [d' mo' mt'|mo' mt'|]; try easy.
  - cbn in A3. subst d'.
    assert (Dn : data <> []) by (intros ->; now apply (Ne mt mo)).
    destruct (open_append s W (mem_uri cs) true cs data mt mo) as (s1 & hd & f & E1 & Eh & Op & D1 & P1 & M1 & M2 & T1); [now exists cs|auto|].
    destruct (writes_end hd ds s1 f (op_file _ _ _ _ _ _ Op)) as (s2 & E2 & U).
    { rewrite P1, D1. now apply file_len_pos. }
    pose proof (file_upd_put _ _ _ _ _ cs (op_wf _ _ _ _ _ _ Op) U (op_phys _ _ _ _ _ _ Op)) as [Pa Pb].
    cbn [fset f_data f_mtime f_mode] in Pa. rewrite D1 in Pa.
    assert (Lr : exists T2 mo2 mt2, fd_append cs (concat ds) x = (Ok tt, set_tree x T2) /\
      (forall r, pget r T2 = if path_eqb r cs then Some (PFile (data ++ concat ds) mo2 mt2) else pget r (p_tree x)) /\ NoDup (map fst T2)).
    { unfold fd_append. rewrite A2. destruct (concat ds) as [|a d].
      - exists (p_tree x), mo', mt'. split; [now destruct x|]. split; [|apply T]. intros r. destruct (path_eqb r cs) eqn:Er; auto.
        apply path_eqb_spec in Er. subst r. now rewrite app_nil_r.
      - eexists _, mo', (p_now x). split; [reflexivity|]. split; [intros r; apply pget_pset|]. apply pset_nodup, T. }
    destruct Lr as (T2 & mo2 & mt2 & R2 & G2 & N2).
    eapply sim_ok; [| | |exact Logic.I].
    + unfold write_all. rewrite mem_open_append by reflexivity. change (has_char 98 (lit "ab")) with true. unfold bind at 1. rewrite E1.
      unfold bind. rewrite mapM_map, E2. reflexivity.
    + assert (Oa : os_open_a (abs_path cs) x = (Ok cs, x)) by (rewrite open_a_abs by (apply pp_names; assumption); unfold sys_open_a; now rewrite E).
      rewrite (bind_ok _ _ x cs x Oa). exact R2.
    + eapply twin_put_gen; [exact T| | | |exact G| |exact G2|exact N2].
      * eapply file_upd_wf; [apply Op|exact U].
      * eapply same_rest_trans; [apply Op|apply U].
      * split; [exact Pa|]. intros r Nr. rewrite Pb by auto. apply T1.
      * reflexivity.
  - eapply sim_excused. unfold write_all. rewrite mem_open_append by reflexivity. apply bind_raise.
    unfold open_for_append. destruct (run_lookup_found s W (mem_uri cs) cs cs A A4) as (i & P & R & B & _).
    destruct (tree_dir _ _ _ P (ex_intro _ mt (ex_intro _ mo A1))) as (es & mt2 & mo2 & En).
    unfold bind. rewrite R. unfold get_file, bind, get_node_obj. now rewrite En.
Qed.
End P.
