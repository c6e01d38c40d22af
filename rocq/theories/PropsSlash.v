(** Property C59 for URIs as callers write them: memory:///n1/n2 and memory:///n1/n2/. *)
From Verif Require Import Str Exc Utf8 UriParse BaseUri StrFacts Utf8Facts UriFacts SpecUri UriFacts2 UriFacts3 UriFacts4 UriFacts5 UriFacts6.
From Verif Require Import Mem SpecMem SpecFile MemOps MemFacts MemFacts2 MemFacts3 MemFacts4 MemFacts5 MemFacts6 MemFacts7 MemFacts8 MemFacts9
  MemUri MemFacts10 MemFacts11 Generic SpecGen GenFacts1 PropsMem PropsGeneric.

Definition slash_path (cs : list str) : str := abs_path cs ++ [cSlash].
Definition slash_uri (cs : list str) : uri :=
  mkUri UMemory (mem_text cs ++ [cSlash]) cSlash (parse_of (lit "memory") NoAuth (slash_path cs) [] None) [] (Some []) (Some []).
Lemma slash_snoc cs : cs <> [] -> abs_path (cs ++ [[]]) = slash_path cs.
Proof. intros H. rewrite abs_path_snoc. unfold slash_path. destruct cs; [easy|reflexivity]. Qed.
Lemma slash_loc cs : Forall name_ok cs -> loc_ok (lit "memory") NoAuth (slash_path cs).
Proof.
  intros H. destruct (good_loc cs H) as [S A [[r E] F G]|X]; [|discriminate]. apply loc_remote; auto. unfold slash_path. constructor.
  - exists (r ++ [cSlash]). now rewrite E.
  - intros c Hc I. apply in_app_iff in I as [I|[<-|[]]]; [now apply (F c)|]. cbn in Hc. intuition discriminate.
  - intros x y E2. destruct y as [|c y _] using rev_ind.
    + rewrite app_nil_r in E2. change (lit "((") with ([cLpar] ++ [cLpar]) in E2. rewrite app_assoc in E2.
      apply app_inj_tail in E2 as [_ E2]. discriminate.
    + rewrite !app_assoc in E2. apply app_inj_tail in E2 as [E2 _]. rewrite <- app_assoc in E2. now apply (G x y).
Qed.
Lemma slash_eq cs : Forall name_ok cs -> URI (mem_text cs ++ [cSlash]) cSlash [] = Ok (slash_uri cs).
Proof.
  intros H. assert (G : gtext (lit "memory") NoAuth (slash_path cs) None None = mem_text cs ++ [cSlash]).
  { unfold gtext, mem_text, slash_path. cbn [auth_text qtext ftext]. rewrite !app_nil_r. now rewrite <- app_assoc. }
  rewrite <- G. rewrite (URI_made _ _ _ [] None); auto using slash_loc, empty_query_ok, no_query_enc.
  now rewrite G.
Qed.
Lemma slash_addr cs : cs <> [] -> good_path cs -> addr (slash_uri cs) (cs ++ [[]]).
Proof.
  intros Ne [H1 H2]. split; [|split].
  - rewrite slash_snoc by auto. unfold u_path. cbn [slash_uri u_cls]. unfold base_path. cbn [slash_uri u_p parse_of p_path].
    destruct (prefixb (lit "/.") (slash_path cs)) eqn:E; auto.
    apply prefixb_spec in E as [x E]. exfalso. destruct cs as [|c cs]; [easy|]. inversion H1 as [|? ? Hn _]; subst.
    destruct c as [|a c]; [now destruct (name_ne _ Hn)|]. cbn in E. injection E as E _.
    now apply (H2 (a :: c) cs eq_refl c); subst.
  - apply Forall_app. split; [|constructor; auto]. eapply Forall_impl; [|exact H1]. intros c Hc. now apply name_no_slash.
  - destruct cs as [|c [|c' cs]]; [easy| |]; discriminate.
Qed.
Lemma slash_last cs n : name_ok n -> u_last (slash_uri (cs ++ [n])) = n.
Proof.
  intros H. unfold u_last. cbn [slash_uri u_uri u_sep]. unfold mem_text. rewrite abs_path_snoc.
  replace ((lit "memory://" ++ flat_map (fun c => cSlash :: c) cs ++ cSlash :: n) ++ [cSlash])
    with (((lit "memory://" ++ flat_map (fun c => cSlash :: c) cs) ++ cSlash :: n) ++ cSlash :: []) by (rewrite <- !app_assoc; reflexivity).
  rewrite split_on_gen, split_on_gen, (split_on_none cSlash n) by (now apply name_no_slash).
  rewrite !rev_app_distr. reflexivity.
Qed.

(** Listing, and the backend's removefile and removedir, for every path and state.  (remove() asks exists() first.) *)
Theorem C59_names_partial s cs u v : cs <> [] -> mem_at cs u -> URI (mem_text cs ++ lit "/") cSlash [] = Ok v ->
  mem_listdir v s = mem_listdir u s /\ mem_removefile v s = mem_removefile u s /\ mem_removedir v s = mem_removedir u s.
Proof.
  intros Ne A V. pose proof (mem_at_good _ _ A) as G. rewrite (mem_at_eq _ _ A). rewrite slash_eq in V by apply G. injection V as <-.
  pose proof (mem_addr _ G) as Au. pose proof (slash_addr _ Ne G) as Av. destruct (exists_last Ne) as (i & n & ->).
  assert (Hn : name_ok n) by (now apply (good_name i n [])).
  destruct (slash_remove _ _ _ s Au Av) as [H1 H2]; [now rewrite slash_last, mem_last|].
  repeat split; symmetry; auto. now apply (slash_listdir _ _ (i ++ [n])).
Qed.
Print Assumptions C59_names_partial.
Example C59_names_witness : mem_at (P ["d"; "e"]%string) (U ["d"; "e"]%string) /\
  exists v, URI (mem_text (P ["d"; "e"]%string) ++ lit "/") cSlash [] = Ok v /\
    fst (mem_listdir (U ["d"; "e"]%string) (snd (mem_removedir v demo))) = Raise (OSError ENOENT).
Proof. split; [apply mem_at_uri; good|]. eexists. split; [vm_compute; reflexivity|]. vm_compute. reflexivity. Qed.

(** For every directory d (reached through links or not) without an entry of empty name, d/ is taken for such an entry:
    it does not exist, cannot be removed, and mkdir and open('w') make one in the directory. *)
Theorem C59_directory_refuted s cs u v q : reachable s -> silent s -> cs <> [] -> mem_at cs u -> URI (mem_text cs ++ lit "/") cSlash [] = Ok v ->
  leads (view s) cs (Found q) -> is_edir (view s q) -> view s (q ++ [[]]) = None ->
  mem_exists u s = (Ok true, s) /\ mem_isdir u s = (Ok true, s) /\
  mem_exists v s = (Ok false, s) /\ mem_isdir v s = (Ok false, s) /\
  (forall fuel recursive, u_remove mem_backend fuel recursive v s = (Raise FileDoesNotExistError, s)) /\
  (exists s', mem_mkdir v s = (Ok tt, s') /\ put_at (view s) (view s') (q ++ [[]]) (EDir (m_now s) 0)) /\
  (forall m, has_char 114 m = false -> has_char 119 m = true ->
     exists hd s', mem_open v (Some m) s = (Ok hd, s') /\ put_at (view s) (view s') (q ++ [[]]) (EFile [] (m_now s) 0)).
Proof.
  intros R Si Ne A V L D N. pose proof (mem_at_good _ _ A) as G. rewrite (mem_at_eq _ _ A). rewrite slash_eq in V by apply G. injection V as <-.
  pose proof (mem_addr _ G) as Au. pose proof (slash_addr _ Ne G) as Av. pose proof (reachable_wf s R) as W.
  assert (Lv : leads (view s) (cs ++ [[]]) Missing) by (eapply leads_snoc; [exact L|now apply rs_missing]).
  assert (Pv : place (view s) (slash_uri cs) (Free (q ++ [[]]))) by (now apply (pl_free _ _ cs [] q)).
  destruct (C23_classify_partial s _ _ _ R Au L) as (e & f & d & E1 & _ & E3 & I1 & _ & I3 & _); [cbn; intuition discriminate|].
  destruct (C23_classify_partial s _ _ _ R Av Lv) as (e' & f' & d' & E1' & E2' & E3' & I1' & I2' & I3' & _); [cbn; intuition discriminate|].
  assert (e = true) as -> by (apply I1; eauto). assert (d = true) as -> by (apply I3; eauto).
  assert (e' = false) as -> by (destruct e'; auto; destruct (proj1 I1' eq_refl) as [x X]; discriminate).
  assert (d' = false) as -> by (destruct d'; auto; destruct (proj1 I3' eq_refl) as (x & X & _); discriminate).
  repeat (split; [assumption|]). split; [|split].
  - intros fuel rec. assert (F : fresh_last (view s) cs []).
    { intros pre post d -> _. destruct (name_ne _ (good_name _ _ _ G)). reflexivity. }
    destruct (C23_islink_partial s _ cs [] q R Av L D F) as (b & Eb & Ib).
    assert (b = false) as -> by (destruct b; auto; destruct (proj1 Ib eq_refl) as (x & y & z & X); pose proof (eq_trans (eq_sym X) N); discriminate).
    unfold u_remove, hooked. unfold bind at 1. cbn [b_hook mem_backend]. rewrite (silent_hook s _ _ _ Si Av).
    unfold bind. cbn [b_islink b_exists mem_backend]. rewrite Eb, E1'. reflexivity.
  - destruct (C32_mkdir_free s _ _ R Pv) as (s' & E & Pt & _). eauto.
  - intros m M1 M2. rewrite mem_open_write by auto. destruct (open_writable s (slash_uri cs) (has_char 98 m) _ W (wr_free _ _ _ Pv)) as (s' & hd & ff & E & _ & _ & _ & _ & _ & _ & Pt). eauto.
Qed.
Print Assumptions C59_directory_refuted.
Example C59_directory_witness : mem_at (P ["d"]%string) (U ["d"]%string) /\ silent demo /\
  leads (view demo) (P ["d"]%string) (Found (P ["d"]%string)) /\ is_edir (view demo (P ["d"]%string)) /\ view demo (P ["d"]%string ++ [[]]) = None.
Proof.
  split; [apply mem_at_uri; good|]. split; [exact demo_silent|].
  assert (D : is_edir (view demo (P ["d"]%string))) by (do 2 eexists; vm_compute; reflexivity).
  split; [apply demo_at; right; exact D|]. split; [exact D|]. vm_compute. reflexivity.
Qed.
(** A slash behind the name of a file: the tests raise AttributeError. *)
Theorem C59_file_refuted s cs u v q : reachable s -> cs <> [] -> mem_at cs u -> URI (mem_text cs ++ lit "/") cSlash [] = Ok v ->
  leads (view s) cs (Found q) -> is_efile (view s q) ->
  fst (mem_exists v s) = Raise AttributeError /\ fst (mem_isfile v s) = Raise AttributeError /\ fst (mem_isdir v s) = Raise AttributeError.
Proof.
  intros R Ne A V L D. pose proof (mem_at_good _ _ A) as G. rewrite slash_eq in V by apply G. injection V as <-.
  pose proof (slash_addr _ Ne G) as Av. pose proof (reachable_wf s R) as W.
  assert (Lv : leads (view s) (cs ++ [[]]) NotDir).
  { eapply leads_snoc; [exact L|]. apply rs_notdir. intros (a & b & X). destruct D as (x & y & z & Y). pose proof (eq_trans (eq_sym X) Y). discriminate. }
  rewrite (exists_spec s W _ _ _ Av Lv), (isfile_spec s W _ _ _ Av Lv), (isdir_spec s W _ _ _ Av Lv). repeat split.
Qed.
Print Assumptions C59_file_refuted.
Example C59_file_witness : mem_at (P ["d"; "f"]%string) (U ["d"; "f"]%string) /\
  leads (view demo) (P ["d"; "f"]%string) (Found (P ["d"; "f"]%string)) /\ is_efile (view demo (P ["d"; "f"]%string)).
Proof.
  split; [apply mem_at_uri; good|]. assert (D : is_efile (view demo (P ["d"; "f"]%string))) by (do 3 eexists; vm_compute; reflexivity).
  split; [apply demo_at; left; exact D|exact D].
Qed.
