(** The rule of SpecLocCopy.v. *)
From Verif Require Import Str Exc UriParse BaseUri StrFacts SpecUri SpecParse SpecNames NamesFacts Mem Misc Generic Posix Local SpecLocal.
From Coq Require Import Lia.
From Verif Require Import MemFacts7 LocalFacts1 LocalFacts6 LocalFacts12 LocalFacts14 LocalFacts15 SpecPosix PosixFacts PosixFacts2 PosixFacts3 MoveFacts SpecMove MoveFacts2 SpecLocCopy LocTwin.
Local Notation looked := SpecPosix.looked.

(** ** The source while the destination changes *)
Lemma walks_beside x x' n cur l o p d mo mt d1 mo1 mt1 q : walks x true n cur l o -> o = Is p (PFile d mo mt) -> p <> q ->
  (forall e, entry_at x q (Some e) -> exists d mo mt, e = PFile d mo mt) -> only x x' q (Some (PFile d1 mo1 mt1)) -> walks x' true n cur l o.
Proof.
  intros W Ho Ne Hq (O1 & O2 & _).
  assert (Dir : forall r, is_dir_at x r -> is_dir_at x' r).
  { intros r (a & b & D). exists a, b. destruct (list_eq_dec str_eq_dec r q) as [->|N]; [|now rewrite O2]. destruct (Hq _ D) as (? & ? & ? & Y). discriminate. }
  assert (Lnk : forall r t, entry_at x r (Some (PLink t)) -> entry_at x' r (Some (PLink t))).
  { intros r t E. unfold entry_at in *. destruct (list_eq_dec str_eq_dec r q) as [->|N]; [|now rewrite O2]. destruct (Hq _ E) as (? & ? & ? & Y). discriminate. }
  assert (Nol : forall r e, entry_at x r (Some e) -> (forall t, e <> PLink t) -> exists e', entry_at x' r (Some e') /\ forall t, e' <> PLink t).
  { intros r e E N. unfold entry_at in *. destruct (list_eq_dec str_eq_dec r q) as [->|Nq]; [exists (PFile d1 mo1 mt1); split; [exact O1|discriminate]|]. exists e. split; auto. now rewrite O2. }
  induction W as [cur e E|n cur c l o D C W IH|n cur l o D W IH|cur c D Sp E|cur c l D Sp E N|n cur c e l o D Sp E L W IH
    |cur c t D Sp E F|cur c l D Sp E F|n cur c t st ps l o D Sp E F T B P W IH|cur e l E D N|cur l E]; try discriminate.
  - injection Ho as -> ->. apply wk_end. unfold entry_at in *. now rewrite O2.
  - apply wk_same; auto.
  - apply wk_up; auto.
  - destruct (Nol _ _ E L) as (e' & E' & L'). apply wk_in with e'; auto.
  - apply wk_link with t st ps; auto.
Qed.
Lemma sees_beside x x' u p d mo mt q d1 mo1 mt1 : sees x true u (Is p (PFile d mo mt)) -> p <> q -> (forall e, entry_at x q (Some e) -> exists d mo mt, e = PFile d mo mt) ->
  only x x' q (Some (PFile d1 mo1 mt1)) -> sees x' true u (Is p (PFile d mo mt)).
Proof.
  intros (s & P & L) Ne Hq O. exists s. split; auto. inversion L as [| |n st ps o N1 N2 S B Ln W|]; subst. apply lo_found with n st ps; auto.
  - destruct O as (_ & _ & -> & _). exact S.
  - eapply walks_beside; eauto.
Qed.
Lemma sees_put x x' u p d mo mt d1 mo1 mt1 : sees x true u (Is p (PFile d mo mt)) -> only x x' p (Some (PFile d1 mo1 mt1)) -> sees x' true u (Is p (PFile d1 mo1 mt1)).
Proof.
  intros S O. pose proof (sees_spot _ _ _ _ S) as E. destruct S as (s & P & L). exists s. split; auto. inversion L as [| |n st ps o N1 N2 St B Ln W|]; subst. apply lo_found with n st ps; auto.
  - destruct O as (_ & _ & -> & _). exact St.
  - eapply walks_put; eauto; [reflexivity|]. intros e E'. unfold entry_at in *. rewrite E in E'. injection E' as <-. eauto.
Qed.
Lemma copystat_run x u w p e q f : sees x true u (Is p e) -> sees x true w (Is q f) ->
  loc_copystat u w x = (Ok tt, set_tree x (pset q (with_stat f (perm (st_mode e)) (st_mtime e)) (p_tree x))).
Proof. intros A B. apply sees_iff in A, B. unfold loc_copystat, sh_copystat. rewrite A, B. reflexivity. Qed.

(** ** Copying the content *)
Theorem copied_run x u w p d mo mt same : sound x -> sees x true u (Is p (PFile d mo mt)) ->
  copied x u w same (fst ((loc_copy_content u w ;; (if same then loc_copystat u w else ret tt)) x)) (snd ((loc_copy_content u w ;; (if same then loc_copystat u w else ret tt)) x)).
Proof.
  intros So Su. pose proof Su as Eu. apply sees_iff in Eu. cbn [answer] in Eu. pose proof (sees_spot _ _ _ _ Su) as Gp. unfold entry_at in Gp.
  assert (Q : forall K : M pst unit, (loc_copy_content u w ;; K) x =
    match (let! q <- os_open_w (u_path w); let! d <- fd_data p; fd_append q d) x with (Ok _, x1) => K x1 | (Raise e, x1) => (Raise e, x1) end).
  { intros K. unfold loc_copy_content, bind, os_open_r. rewrite Eu. reflexivity. }
  rewrite !Q. clear Q.
  assert (Main : forall q o mo0, opens x w q o -> (forall d' mo' mt', o = Some (PFile d' mo' mt') -> mo0 = mo') -> (o = None -> mo0 = new_mode x) ->
     os_open_w (u_path w) x = (Ok q, set_tree x (pset q (PFile [] mo0 (p_now x)) (p_tree x))) ->
     let m := (let! q <- os_open_w (u_path w); let! d <- fd_data p; fd_append q d) in
     let k := match m x with (Ok _, x1) => (if same then loc_copystat u w else ret tt) x1 | (Raise e, x1) => (Raise e, x1) end in copied x u w same (fst k) (snd k)).
  { intros q o mo0 Op Hm Hn W m k. pose proof (opens_spot _ _ _ _ Op) as Gq.
    assert (Hq : forall e, entry_at x q (Some e) -> exists d mo mt, e = PFile d mo mt).
    { intros e E. unfold entry_at in *. destruct Op as [q d' mo' mt' T S|i n T S]; [rewrite E in Gq; injection Gq as ->; eauto|congruence]. }
    destruct (list_eq_dec str_eq_dec p q) as [<-|Ne].
    - assert (o = Some (PFile d mo mt)) as -> by (unfold entry_at in Gq; congruence). assert (mo0 = mo) as -> by eauto.
      assert (O1 : only x (set_tree x (pset p (PFile [] mo (p_now x)) (p_tree x))) p (Some (PFile [] mo (p_now x)))) by apply only_set.
      assert (Q : m x = (Ok tt, set_tree x (pset p (PFile [] mo (p_now x)) (p_tree x)))).
      { unfold m, bind. rewrite W. unfold fd_data. destruct O1 as (O1 & _). rewrite O1. unfold fd_append. rewrite O1. reflexivity. }
      unfold k. rewrite Q. destruct same; [|eapply co_self; eauto].
      pose proof (sees_put _ _ _ _ _ _ _ _ _ _ Su O1) as Su1. assert (Sw : sees x true w (Is p (PFile d mo mt))) by (inversion Op; subst; auto).
      pose proof (sees_put _ _ _ _ _ _ _ _ _ _ Sw O1) as Sw1. rewrite (copystat_run _ _ _ _ _ _ _ Su1 Sw1). cbn [fst snd with_stat st_mode st_mtime].
      eapply co_self; [exact Su|exact Op|]. eapply only_trans; [exact O1|apply only_set].
    - assert (O1 : only x (set_tree x (pset q (PFile [] mo0 (p_now x)) (p_tree x))) q (Some (PFile [] mo0 (p_now x)))) by apply only_set.
      assert (Q : exists x1, m x = (Ok tt, x1) /\ only x x1 q (Some (PFile d mo0 (p_now x)))).
      { unfold m, bind. rewrite W. unfold fd_data. destruct O1 as (_ & O2 & _). rewrite O2, Gp by auto. eexists. split; [unfold fd_append; reflexivity|]. apply put_over. }
      destruct Q as (x1 & Q & O2). unfold k. rewrite Q.
      assert (Fin : exists x2, (if same then loc_copystat u w else ret tt) x1 = (Ok tt, x2) /\ only x x2 q (Some (if same then PFile d (stat_perms mo) mt else PFile d mo0 (p_now x)))).
      { destruct same; [|now exists x1]. pose proof (sees_beside _ _ _ _ _ _ _ _ _ _ _ Su Ne Hq O2) as Su1. pose proof (opens_after _ _ _ _ _ _ _ _ Op O2) as Ow. inversion Ow; subst.
        rewrite (copystat_run x1 u w p (PFile d mo mt) q (PFile d mo0 (p_now x))); auto. eexists. split; [reflexivity|]. eapply only_trans; [exact O2|apply only_set]. }
      destruct Fin as (x2 & -> & O3). cbn [fst snd]. destruct o as [e|].
      + destruct (Hq e Gq) as (d' & mo' & mt' & ->). assert (mo0 = mo') as -> by eauto. eapply co_over; eauto.
      + rewrite (Hn eq_refl) in O3. eapply co_new; eauto. }
  destruct (opening x w So) as [(q & d' & mo' & mt' & O & S & L & E)|[(i & n & O & S & L)|(e & R & W & _)]].
  - apply (Main q (Some (PFile d' mo' mt')) mo'); auto; [congruence|discriminate|]. unfold os_open_w, refuse_slashed, sys_open_w. now rewrite S, L.
  - apply (Main (i ++ [n]) None (new_mode x)); auto; [discriminate|]. unfold os_open_w, refuse_slashed, sys_open_w. now rewrite S, L.
  - unfold bind. rewrite W. now apply co_not.
Qed.

(** ** Links and the whole copy *)
Lemma bind_next {A B} (m : M pst A) (k : A -> M pst B) x a y : m x = (Ok a, y) -> bind m k x = k a y.
Proof. intros E. unfold bind. now rewrite E. Qed.
Lemma file_named x w p d mo mt : sound x -> sees x true w (Is p (PFile d mo mt)) -> exists q e, sees x false w (Is q e) /\ ~ trailing w /\ is_pdir e = false.
Proof.
  intros So S. assert (T : ~ trailing w).
  { intros T. destruct (sees_trailing x true w p _ So T S) as (mo1 & mt1 & D). apply sees_spot in S. unfold entry_at in S. congruence. }
  destruct (sees_ex x false w) as [o H]. assert (K : (exists q t, o = Is q (PLink t)) \/ sees x true w o).
  { destruct o as [q [| |t]| |]; [right|right|left|right|right]; eauto; now apply sees_follow. }
  destruct K as [(q & t & ->)|K]; [now exists q, (PLink t)|]. pose proof (sees_det _ _ _ _ _ S K) as <-. now exists p, (PFile d mo mt).
Qed.
Theorem relinks_run x u w q t : sound x -> sees x false u (Is q (PLink t)) -> relinks x u w (fst (copy_link loc_backend u w x)) (snd (copy_link loc_backend u w x)).
Proof.
  intros So Su. unfold copy_link. cbn [loc_backend b_islink b_removefile_by b_readlink b_symlink_by]. 
  assert (E1 : loc_islink u x = (Ok true, x)) by exact (test_run _ _ _ _ _ Su). rewrite !(bind_next _ _ _ _ _ E1). cbn [negb].
  assert (Rest : forall x1, cleared x w x1 -> let m := (let! t <- loc_readlink u; loc_symlink t w) in relinks x u w (fst (m x1)) (snd (m x1))).
  { intros x1 C m. destruct (leads_run x1 u) as (r & E & L). unfold m, bind. rewrite E. destruct r as [t'|e]; [|now apply rl_lost]. eapply rl_made; [exact C|exact L|]. apply links_run. }
  destruct (sees_ex x true w) as [o Sw].
  assert (E2 : u_isfile loc_backend w x = (Ok (match o with Is _ e => is_pfile e | _ => false end), x)) by exact (test_run _ _ _ _ _ Sw). rewrite !(bind_next _ _ _ _ _ E2).
  assert (K : (exists p d mo mt, o = Is p (PFile d mo mt)) \/ (match o with Is _ e => is_pfile e | _ => false end = false /\ forall p d mo mt, o <> Is p (PFile d mo mt))).
  { destruct o as [p []| |]; [left; eauto|right..]; split; auto; discriminate. }
  destruct K as [(p & d & mo & mt & ->)|[-> N]].
  - cbn [is_pfile]. destruct (file_named _ _ _ _ _ _ So Sw) as (q' & e & Sf & T & Nd). 
    assert (Rm : loc_removefile w x = (Ok tt, set_tree x (pdel q' (p_tree x)))).
    { unfold loc_removefile, os_unlink. rewrite (not_slashed w T). unfold sys_unlink. pose proof Sf as Ef. apply sees_iff in Ef. rewrite Ef. now destruct e. }
    assert (C : cleared x w (set_tree x (pdel q' (p_tree x)))) by (eapply cl_file; eauto; apply only_del). rewrite !(bind_next _ _ _ _ _ Rm). now apply Rest.
  - apply (Rest x). apply cl_none. intros p d mo mt S. apply (N p d mo mt). exact (sees_det _ _ _ _ _ Sw S).
Qed.
Lemma opt_eqb_iff a b : opt_eqb a b = true <-> a = b.
Proof. unfold opt_eqb. destruct a, b; split; try discriminate; auto; [intros E; apply str_eqb_eq in E; now subst|intros [= ->]; apply str_eqb_refl]. Qed.
Theorem copies_run x u v fuel ign follow : sound x -> u_cls u = ULocal ->
  copies x follow u v (fst (u_copy loc_backend fuel false ign follow u v x)) (snd (u_copy loc_backend fuel false ign follow u v x)).
Proof.
  intros So Cl. unfold u_copy, hooked. cbn [loc_backend b_hook]. change (b_hook loc_backend) with (fun (_ : uri) (_ : str) => ret (S := pst) tt).
  assert (H1 : forall (m : M pst unit), (ret tt ;; m) x = m x) by reflexivity. rewrite !H1. unfold fs_copy. set (same := opt_eqb (u_scheme u) (u_scheme v)).
  destruct (sees_ex x true u) as [o Su].
  assert (E1 : u_exists loc_backend u x = (Ok (match o with Is _ _ => true | _ => false end), x)) by exact (test_run _ _ _ _ _ Su). rewrite !(bind_next _ _ _ _ _ E1).
  destruct o as [p e|i n|e].
  2, 3: cbn [negb]; unfold bind, lift, u_str; rewrite Cl; cbn [fst snd raise]; eapply cp_none; [exact Su|]; econstructor; reflexivity.
  cbn [negb]. assert (E2 : u_isfile loc_backend u x = (Ok (is_pfile e), x)) by exact (test_run _ _ _ _ _ Su). rewrite !(bind_next _ _ _ _ _ E2).
  destruct e as [d mo mt|mo mt|t]; cbn [is_pfile negb]; [| |now destruct (sees_nolink x u p t So)].
  2: { cbn. apply cp_dir. now exists p, mo, mt. }
  destruct (isdir_run x v) as (b & Ri & Db). assert (E3 : u_isdir loc_backend v x = (Ok b, x)) by exact Ri. rewrite !(bind_next _ _ _ _ _ E3).
  assert (Fin : forall w, lands x u v (Ok w) -> copies x follow u v (fst (copy_entry loc_backend follow same u w x)) (snd (copy_entry loc_backend follow same u w x))).
  { intros w La. unfold copy_entry. destruct (sees_ex x false u) as [o Sf].
    assert (E4 : u_islink loc_backend u x = (Ok (match o with Is _ e => is_plink e | _ => false end), x)) by exact (test_run _ _ _ _ _ Sf). rewrite !(bind_next _ _ _ _ _ E4).
    assert (Eq : same = true <-> u_scheme u = u_scheme v) by apply opt_eqb_iff.
    assert (K : (exists q t, o = Is q (PLink t)) \/ (match o with Is _ e => is_plink e | _ => false end = false /\ forall q t, o <> Is q (PLink t))).
    { destruct o as [q [| |t]| |]; [right|right|left; eauto|right..]; split; auto; discriminate. }
    destruct K as [(q & t & ->)|[-> N]]; cbn [is_plink].
    - destruct follow; cbn [andb negb].
      + eapply cp_file; eauto. cbn [b_copy_content b_copystat loc_backend]. eapply copied_run; eauto.
      + eapply cp_link; eauto. eapply relinks_run; eauto.
    - cbn [andb]. eapply cp_file; eauto.
      + right. intros q t S. apply (N q t). exact (sees_det _ _ _ _ _ Sf S).
      + eapply copied_run; eauto. }
  destruct b.
  - unfold bind, lift. unfold u_div. destruct (u_join v [u_last u]) as [w|e] eqn:J.
    + apply Fin. eapply ld_in; [now apply Db|now apply last_iff|now apply joins_iff].
    + cbn [fst snd]. eapply cp_lost; [exact Su|]. eapply ld_in; [now apply Db|now apply last_iff|now apply joins_iff].
  - unfold bind, ret. apply Fin. apply ld_at. intros D. apply Db in D. discriminate.
Qed.

(** ** Nothing else is allowed *)
Lemma alike_sym x y : alike x y -> alike y x.
Proof. intros (A & B & C & D). repeat split; auto. Qed.
Lemma alike_trans x y z : alike x y -> alike y z -> alike x z.
Proof. intros (A & B & C & D) (A' & B' & C' & D'). repeat split; congruence. Qed.
Lemma alike_look x y f s : alike x y -> plook x f s = plook y f s.
Proof. intros (A & B & _). unfold plook. destruct (has_char 0 s); [reflexivity|]. destruct s; [reflexivity|]. rewrite B. apply walk_same. exact A. Qed.
Lemma alike_sees x y f u o : alike x y -> sees x f u o -> sees y f u o.
Proof. intros A. rewrite !sees_iff. now rewrite (alike_look _ _ _ _ A). Qed.
Lemma alike_aims x y u o : alike x y -> aims x u o -> aims y u o.
Proof. intros A. rewrite !aims_iff. now rewrite (alike_look _ _ _ _ A). Qed.
Lemma alike_only x y x' p e : alike x y -> only x x' p e -> only y x' p e.
Proof. intros (A & B & C & D) (O1 & O2 & O3 & O4 & O5). repeat split; try congruence. intros q N. rewrite O2; auto. Qed.
Lemma alike_leads x y u r : alike x y -> leads x u r -> leads y u r.
Proof.
  intros A [p t r' S M|p e S N|o e S Ab]; [eapply le_link|eapply le_other|eapply le_absent]; eauto using alike_sees.
Qed.
Lemma alike_links x y u v r x' : alike x y -> links x u v r x' -> exists y', links y u v r y' /\ alike x' y'.
Proof.
  intros A [N|B N|t d n x1 Pt Nt Nu Ai T O|d n B N Ai T|p e B N Ai|e B N Ai].
  - exists y. split; auto. now apply li_nul.
  - exists y. split; auto. now apply li_blank.
  - exists x1. split; [|apply alike_refl]. eapply li_new; eauto using alike_aims, alike_only.
  - exists y. split; auto. eapply li_slash; eauto using alike_aims.
  - exists y. split; auto. eapply li_taken; eauto using alike_aims.
  - exists y. split; auto. eapply li_wrong; eauto using alike_aims.
Qed.
Lemma cleared_det x w y z : cleared x w y -> cleared x w z -> alike y z.
Proof.
  intros [p d mo mt q e y' S1 S2 O|N] [p' d' mo' mt' q' e' z' S1' S2' O'|N']; [| | |apply alike_refl].
  - pose proof (sees_det _ _ _ _ _ S2 S2') as E. injection E as <- <-. eapply only_alike; eauto.
  - now apply N' in S1.
  - now apply N in S1'.
Qed.
Theorem relinks_det x u w r x1 r' x2 : relinks x u w r x1 -> relinks x u w r' x2 -> r = r' /\ alike x1 x2.
Proof.
  intros [y e C L|y t r0 x0 C L K] [y' e' C' L'|y' t' r0' x0' C' L' K']; pose proof (cleared_det _ _ _ _ C C') as A; pose proof (alike_leads _ _ _ _ A L) as L2; pose proof (leads_det _ _ _ _ L2 L') as E; try discriminate.
  - injection E as <-. auto.
  - injection E as <-. destruct (alike_links _ _ _ _ _ _ A K) as (z & K2 & Az). destruct (links_det _ _ _ _ _ _ _ K2 K') as [-> B]. split; auto. eapply alike_trans; eauto.
Qed.
Lemma lands_det x u v r r' : lands x u v r -> lands x u v r' -> r = r'.
Proof.
  intros [n r0 D L J|D] [n' r0' D' L' J'|D']; auto; try easy. apply last_iff in L, L'. apply joins_iff in J, J'. congruence.
Qed.
Theorem copied_det x u w s r x1 r' x2 : copied x u w s r x1 -> copied x u w s r' x2 -> r = r' /\ alike x1 x2.
Proof.
  intros [p d mo mt q d1 mo1 mt1 y S O N On|p d mo mt q y S O On|p d mo mt y S O On|e R] [p' d' mo' mt' q' d1' mo1' mt1' y' S' O' N' On'|p' d' mo' mt' q' y' S' O' On'|p' d' mo' mt' y' S' O' On'|e' R'];
    try (destruct (opens_det _ _ _ _ _ _ O O') as [E1 E2]); try (now destruct (opens_refused _ _ _ _ _ O R')); try (now destruct (opens_refused _ _ _ _ _ O' R));
    try (pose proof (sees_det _ _ _ _ _ S S') as E3; injection E3 as <- <- <- <-); try discriminate; try congruence.
  - subst q'. injection E2 as <- <- <-. split; auto. eapply only_alike; eauto.
  - subst q'. split; auto. eapply only_alike; eauto.
  - split; auto. eapply only_alike; eauto.
  - rewrite (refused_det _ _ _ _ R R'). split; auto. apply alike_refl.
Qed.
Theorem copies_det x f u v r x1 r' x2 : copies x f u v r x1 -> copies x f u v r' x2 -> r = r' /\ alike x1 x2.
Proof.
  intros H H'.
  assert (Fd : forall p d mo mt, sees x true u (Is p (PFile d mo mt)) -> dir_seen x u -> False).
  { intros p d mo mt S (q & mo' & mt' & D). pose proof (sees_det _ _ _ _ _ S D). discriminate. }
  assert (Fa : forall p e o e', sees x true u (Is p e) -> sees x true u o -> absent o e' -> False).
  { intros p e o e' S D A. pose proof (sees_det _ _ _ _ _ S D) as <-. inversion A; discriminate. }
  destruct H as [o e S A|D|p d mo mt e S L|p d mo mt q t w r x1 S F K L R|p d mo mt w s r x1 S F L E C];
  destruct H' as [o' e' S' A'|D'|p' d' mo' mt' e' S' L'|p' d' mo' mt' q' t' w' r' x2 S' F' K' L' R'|p' d' mo' mt' w' s' r' x2 S' F' L' E' C'];
    try (now (destruct (Fa _ _ _ _ S S' A'))); try (now (destruct (Fa _ _ _ _ S' S A))); try (now destruct (Fd _ _ _ _ S D')); try (now destruct (Fd _ _ _ _ S' D));
    try (split; [reflexivity|apply alike_refl]); try (pose proof (lands_det _ _ _ _ _ L L') as Q; try discriminate; injection Q as <-).
  - destruct D' as (q & mo & mt & D'). destruct (Fa _ _ _ _ D' S A).
  - destruct D as (q & mo & mt & D). destruct (Fa _ _ _ _ D S' A').
  - split; auto. apply alike_refl.
  - eapply relinks_det; eauto.
  - destruct F' as [F'|F']; [congruence|now apply F' in K].
  - destruct F as [F|F]; [congruence|now apply F in K'].
  - assert (s = s') as <- by (destruct s, s'; auto; [symmetry|]; tauto). eapply copied_det; eauto.
Qed.
