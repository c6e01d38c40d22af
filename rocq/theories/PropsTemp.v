(** C145: TempFileHandle on local trees. *)
From Coq Require Import Lia.
From Verif Require Import Str Exc UriParse BaseUri StrFacts SpecUri SpecParse SpecNames Mem Misc Generic Posix Local SpecLocal.
From Verif Require Import LocalFacts1 LocalFacts12 LocalFacts15 SpecPosix TempFile SpecTemp PosixFacts PosixFacts2 PosixFacts3.
Local Open Scope string_scope.
Local Open Scope list_scope.

Lemma chop_dec s : chopped s s /\ slashed s = false \/ exists t, chopped s t /\ s <> t /\ chop s = t /\ slashed s = true.
Proof.
  destruct (slashed s) eqn:E.
  - right. exists (chop s). apply slashed_ne in E. split; [now apply chopped_iff|]. auto.
  - left. split; auto. apply chopped_iff. destruct (list_eq_dec N.eq_dec (chop s) s) as [X|X]; auto. exfalso. assert (Y : s <> chop s) by congruence. apply slashed_ne in Y. congruence.
Qed.
Lemma looked_ex x f s : exists o, looked x f s o.
Proof. destruct (answer_onto (plook x f s)) as [o H]. exists o. now apply looked_iff. Qed.
Lemma unlinked_run x s : unlinked x s (fst (os_unlink s x)) (snd (os_unlink s x)).
Proof.
  unfold os_unlink. destruct (chop_dec s) as [[C ->]|(t & C & N & E & ->)].
  - destruct (looked_ex x false s) as [o L]. unfold sys_unlink. pose proof L as L'. apply looked_iff in L'. rewrite L'. destruct o as [p e|d n|e]; cbn [answer].
    + destruct e as [d mo mt|mo mt|t]; cbn [fst snd]; [|eapply ul_dir; eauto|]; (eapply ul_entry; eauto; [discriminate|apply only_del]).
    + eapply ul_absent; eauto. now eapply ab_free.
    + eapply ul_absent; eauto. now apply ab_wrong.
  - rewrite E. destruct (looked_ex x false t) as [o L]. pose proof L as L'. apply looked_iff in L'. rewrite L'. destruct o as [p e|d n|e]; cbn [answer].
    + destruct e as [d mo mt|mo mt|r]; cbn [fst snd]; [|eapply ul_slash_dir; eauto|]; (eapply ul_slash; eauto; discriminate).
    + eapply ul_slash_absent; eauto. now eapply ab_free.
    + eapply ul_slash_absent; eauto. now apply ab_wrong.
Qed.
Lemma unlinked_det x s r x1 : unlinked x s r x1 -> r = fst (os_unlink s x) /\ alike x1 (snd (os_unlink s x)).
Proof.
  assert (A : alike x x) by (repeat split).
  assert (P : chopped s s -> slashed s = false) by (intros C; destruct (slashed s) eqn:E; auto; apply slashed_ne in E; apply chopped_iff in C; congruence).
  assert (Q : forall t, chopped s t -> s <> t -> slashed s = true /\ chop s = t) by (intros t C N; apply chopped_iff in C; split; [apply slashed_ne; congruence|exact C]).
  intros [p e x' C L N O|p mo mt C L|o e C L B|t p mo mt C N L|t p e C N L D|t o e C N L B]; unfold os_unlink, sys_unlink; apply looked_iff in L;
    try (rewrite (P C), L); try (destruct (Q t C N) as [-> ->]; rewrite L).
  - cbn [answer]. destruct e as [d mo mt|mo mt|t]; [|now destruct (N mo mt)|]; cbn [fst snd]; (split; [reflexivity|]; eapply only_alike; [exact O|apply only_del]).
  - now split.
  - inversion B; subst; now split.
  - now split.
  - cbn [answer]. destruct e as [d mo mt|mo mt|t']; [now split|now destruct (D mo mt)|now split].
  - inversion B; subst; now split.
Qed.
(** Removing a name can go in one way only. *)
Theorem C145_one x s r x1 r' x2 : unlinked x s r x1 -> unlinked x s r' x2 -> r = r' /\ alike x1 x2.
Proof.
  intros H K. apply unlinked_det in H as (-> & A1 & A2 & A3 & A4), K as (-> & B1 & B2 & B3 & B4). split; [reflexivity|]. split; [|repeat split; congruence]. intros p. now rewrite A1.
Qed.
Print Assumptions C145_one.

Section Temp.
Variable text_of : list N -> res str.
Notation t_read := (t_read text_of). Notation t_run := (t_run text_of). Notation with_handle := (with_handle text_of).
Lemma new_run x s p d mo mt : looked x true s (Is p (PFile d mo mt)) -> entry_at x p (Some (PFile d mo mt)) -> t_new s x = (Ok (mkT s d 0 true), x).
Proof. intros L E. apply looked_iff in L. unfold t_new, bind, os_open_r, fd_data, ret. rewrite L. cbn [answer]. unfold entry_at in E. now rewrite E. Qed.
Lemma name_kept {A} (p : tprog A) : forall x h, t_name (snd (snd (t_run p (x, h)))) = t_name h.
Proof.
  induction p as [r|l k IH|k IH|m k IH]; intros x h; cbn [TempFile.t_run]; [reflexivity| | |].
  - cbn [TempFile.t_read]. destruct (t_open h); [destruct (text_of (t_data h))|]; rewrite IH; reflexivity.
  - cbn [t_close]. destruct (os_unlink (t_name h) x) as [r x']. now rewrite IH.
  - cbn [fst snd]. destruct (m x) as [r x']. apply IH.
Qed.
Lemma close_run x h : exists r x', unlinked x (t_name h) r x' /\ t_close (x, h) = (r, (x', mkT (t_name h) (t_data h) (t_pos h) false)).
Proof. cbn [t_close]. pose proof (unlinked_run x (t_name h)) as U. destruct (os_unlink (t_name h) x) as [r x']. eauto. Qed.

(** ** The end of the block *)
(** Whatever the body does and however it ends: in the end the entry of the name is removed, and the outcome is that of the body if
    that was possible, and the error of removing it if not. *)
Theorem C145_end {A} x s (b : tprog A) h x1 rb x2 h2 : t_new s x = (Ok h, x1) -> t_run b (x1, h) = (rb, (x2, h2)) ->
  exists r x', unlinked x2 s r x' /\ with_handle s b x = (match r with Ok _ => rb | Raise e => Raise e end, x').
Proof.
  intros N R. pose proof (name_kept b x1 h) as K. rewrite R in K. cbn [snd] in K.
  assert (Th : t_name h = s).
  { unfold t_new, bind, ret in N. destruct (os_open_r s x) as [[q|e] y]; [|discriminate]. destruct (fd_data q y) as [[d|e] y']; [|discriminate]. injection N as <- <-. reflexivity. }
  destruct (close_run x2 h2) as (r & x' & U & E). rewrite K, Th in U. exists r, x'. split; [exact U|]. unfold TempFile.with_handle. rewrite N, R, E. now destruct r.
Qed.
(** A body that only reads: the entry goes and nothing else changes. *)
Lemma reads_keep {A} (b : tprog A) : only_reads b -> forall x h, fst (snd (t_run b (x, h))) = x.
Proof.
  induction 1 as [r|n k _ IH]; intros x h; cbn [TempFile.t_run]; [reflexivity|]. cbn [TempFile.t_read].
  destruct (t_open h); [destruct (text_of (t_data h))|]; apply IH.
Qed.
Theorem C145_gone {A} x s (b : tprog A) p d mo mt q e : sound x -> looked x true s (Is p (PFile d mo mt)) -> looked x false s (Is q e) -> only_reads b ->
  exists x', with_handle s b x = (fst (t_run b (x, mkT s d 0 true)), x') /\ only x x' q None /\
    (q = p \/ (exists t, e = PLink t) /\ entry_at x' p (Some (PFile d mo mt))).
Proof.
  intros So L F B.
  assert (Ep : entry_at x p (Some (PFile d mo mt))) by (apply looked_iff in L; now apply look_spot in L).
  pose proof (new_run x s p d mo mt L Ep) as N. destruct (t_run b (x, mkT s d 0 true)) as [rb [x2 h2]] eqn:R. pose proof (reads_keep b B x (mkT s d 0 true)) as K. rewrite R in K. cbn [fst snd] in K. subst x2.
  assert (Sl : slashed s = false) by (destruct (slashed s) eqn:E; auto; destruct (looked_trailing _ _ _ _ _ So E L) as (m1 & t1 & X); unfold entry_at in Ep; congruence).
  assert (Cases : (exists t, e = PLink t) \/ q = p /\ e = PFile d mo mt).
  { destruct e as [d1 m1 t1|m1 t1|t]; [|exfalso|eauto].
    - right. assert (X := looked_follow _ _ _ F). pose proof (looked_det _ _ _ _ _ (X ltac:(discriminate)) L) as Y. now injection Y as -> -> -> ->.
    - assert (X := looked_follow _ _ _ F). pose proof (looked_det _ _ _ _ _ (X ltac:(discriminate)) L) as Y. discriminate Y. }
  assert (U : os_unlink s x = (Ok tt, set_tree x (pdel q (p_tree x)))).
  { unfold os_unlink, sys_unlink. apply looked_iff in F. rewrite Sl, F. destruct Cases as [[t ->]|[-> ->]]; reflexivity. }
  pose proof (name_kept b x (mkT s d 0 true)) as Kn. rewrite R in Kn. cbn [snd t_name] in Kn.
  exists (set_tree x (pdel q (p_tree x))). split; [|split; [apply only_del|]].
  - unfold TempFile.with_handle. rewrite N, R. cbn [t_close]. rewrite Kn, U. reflexivity.
  - destruct Cases as [[t ->]|[-> _]]; [|now left]. right. split; [eauto|]. unfold entry_at. cbn [p_tree set_tree]. rewrite pget_pdel.
    destruct (path_eqb p q) eqn:E; [|exact Ep]. apply path_eqb_spec in E. subst q. apply looked_iff in F. apply look_spot in F. unfold entry_at in Ep. cbn in F. congruence.
Qed.
(** What cannot be opened: the body does not run and nothing changes. *)
Theorem C145_not_opened {A} x s (b : tprog A) o : sound x -> looked x true s o -> (forall p d mo mt, o <> Is p (PFile d mo mt)) ->
  exists e, with_handle s b x = (Raise e, x) /\ (forall p f, o = Is p f -> e = OSError EISDIR) /\ (forall e', absent o e' -> e = e').
Proof.
  intros So L N. unfold TempFile.with_handle, t_new, bind, os_open_r. apply looked_iff in L. rewrite L. destruct o as [p f|d n|e]; cbn [answer].
  - exists (OSError EISDIR). destruct f as [d mo mt|mo mt|t]; [now destruct (N p d mo mt)| |]; (split; [reflexivity|]; split; [auto|]; intros e' X; inversion X; discriminate).
  - exists (OSError ENOENT). split; [reflexivity|]. split; [discriminate|]. intros e' X. inversion X; congruence.
  - exists e. split; [reflexivity|]. split; [discriminate|]. intros e' X. inversion X; congruence.
Qed.

(** ** Reading *)
Lemma skip_skip {A} a : forall b (l : list A), skipn a (skipn b l) = skipn (b + a) l.
Proof. induction b as [|b IH]; intros l; [reflexivity|]. destruct l; [now destruct a|]. apply IH. Qed.
Lemma served_read t l ls ps : served (if (l <? 0)%Z then [] else skipn (Z.to_nat l) t) ls ps ->
  served t (l :: ls) ((if (l <? 0)%Z then t else firstn (Z.to_nat l) t) :: ps).
Proof.
  destruct (Z.ltb_spec l 0) as [Hl|Hl]; intros H; [now apply sv_rest|].
  destruct (Z.ltb_spec (Z.of_nat (length t)) l) as [Ht|Ht].
  - rewrite firstn_all2 by lia. rewrite skipn_all2 in H by lia. now apply sv_short.
  - rewrite <- (firstn_skipn (Z.to_nat l) t) at 1. apply sv_part; [rewrite firstn_length; lia|exact H].
Qed.
Lemma reader_run t d l : text_of d = Ok t -> forall acc n x h, t_data h = d -> t_pos h = n -> t_open h = true ->
  exists ps, fst (t_run (reader acc l) (x, h)) = Ok (acc ++ ps) /\ served (skipn n t) (map snd l) ps.
Proof.
  intros Td. induction l as [|[m z] l IH]; intros acc n x h Hd Hn Ho; cbn [reader TempFile.t_run map snd fst].
  - exists []. rewrite app_nil_r. split; [reflexivity|constructor].
  - destruct (m x) as [rm x']. cbn [TempFile.t_read]. rewrite Ho, Hd, Td, Hn. set (rest := skipn n t). set (piece := if (z <? 0)%Z then rest else firstn (Z.to_nat z) rest).
    destruct (IH (acc ++ [piece]) (n + length piece) x' (mkT (t_name h) d (n + length piece) true) eq_refl eq_refl eq_refl) as (ps & E & Sv).
    exists (piece :: ps). split; [transitivity (Ok ((acc ++ [piece]) ++ ps)); [exact E|now rewrite <- app_assoc]|].
    assert (R : (if (z <? 0)%Z then [] else skipn (Z.to_nat z) rest) = skipn (n + length piece) t).
    { rewrite <- skip_skip. fold rest. unfold piece. destruct (z <? 0)%Z; [now rewrite skipn_all|]. rewrite firstn_length.
      destruct (Nat.le_ge_cases (Z.to_nat z) (length rest)) as [Q|Q]; [now rewrite Nat.min_l|]. rewrite Nat.min_r by exact Q. now rewrite skipn_all, skipn_all2. }
    apply (served_read rest z). exact (eq_ind_r (fun w => served w (map snd l) ps) Sv R).
Qed.
(** The pieces are those of the text the file had at the beginning, one after the other, whatever else is done meanwhile. *)
Theorem C145_pieces x s p d mo mt t l : looked x true s (Is p (PFile d mo mt)) -> text_of d = Ok t ->
  exists h x1 ps s2, t_new s x = (Ok h, x1) /\ t_run (reader [] l) (x1, h) = (Ok ps, s2) /\ served t (map snd l) ps.
Proof.
  intros L T. assert (Ep : entry_at x p (Some (PFile d mo mt))) by (apply looked_iff in L; now apply look_spot in L).
  exists (mkT s d 0 true), x. destruct (reader_run t d l T [] 0 x (mkT s d 0 true) eq_refl eq_refl eq_refl) as (ps & E & Sv).
  destruct (t_run (reader [] l) (x, mkT s d 0 true)) as [r s2]. cbn [fst] in E. subst r. exists ps, s2. split; [now apply new_run with p mo mt|]. now split.
Qed.
(** After closing, reading raises ValueError; and the block ends with FileNotFoundError. *)
Theorem C145_closed {A} x h n (k : res str -> tprog A) : exists x' h', t_run (TClose (fun _ => TRead n k)) (x, h) = t_run (k (Raise ValueError)) (x', h').
Proof. cbn [TempFile.t_run t_close]. destruct (os_unlink (t_name h) x) as [r x']. cbn [TempFile.t_read t_open]. eauto. Qed.
End Temp.
(** The text is given out once: the pieces put together are the beginning of the text, all of it if one reads to the end. *)
Theorem C145_once t ls ps : served t ls ps -> (exists r, t = concat ps ++ r) /\ ((exists l, In l ls /\ (l < 0)%Z) -> concat ps = t) /\ length ps = length ls.
Proof.
  induction 1 as [t|t l ls ps Hl _ ((r & E) & F & G)|a b l ls ps Hl _ ((r & E) & F & G)|t l ls ps Hl _ ((r & E) & F & G)]; cbn [concat length].
  - split; [now exists t|]. split; [intros (l & [] & _)|reflexivity].
  - symmetry in E. apply app_eq_nil in E as [-> _]. rewrite app_nil_r. split; [exists []; now rewrite app_nil_r|]. split; [auto|congruence].
  - split; [exists r; rewrite <- app_assoc; congruence|]. split; [|congruence]. intros (l' & [<-|I] & Hl'); [lia|]. f_equal. apply F. eauto.
  - symmetry in E. apply app_eq_nil in E as [-> _]. rewrite app_nil_r. split; [exists []; now rewrite app_nil_r|]. split; [auto|congruence].
Qed.
Lemma app_len_inj (a a' b b' : str) : a ++ b = a' ++ b' -> length a = length a' -> a = a' /\ b = b'.
Proof.
  revert a'. induction a as [|c a IH]; intros [|c' a'] E L; try discriminate; [now split|]. injection E as -> E. injection L as L. destruct (IH a' E L) as [-> ->]. now split.
Qed.
Theorem C145_same t ls ps ps' : served t ls ps -> served t ls ps' -> ps = ps'.
Proof.
  intros H. revert ps'. induction H as [t|t l ls ps Hl _ IH|a b l ls ps Hl _ IH|t l ls ps Hl _ IH]; intros ps' K; inversion K; subst; auto; try lia; try (f_equal; auto; fail).
  all: try (rewrite app_length in *; lia).
  match goal with E : _ ++ _ = _ ++ _ |- _ => apply app_len_inj in E as [-> ->]; [|lia] end. f_equal. auto.
Qed.
Print Assumptions C145_end. Print Assumptions C145_gone. Print Assumptions C145_not_opened. Print Assumptions C145_pieces.
Print Assumptions C145_closed. Print Assumptions C145_once. Print Assumptions C145_same.

(** *** Examples: a file with seven characters, a link to it, and a program that reads and raises *)
Definition plain : list N -> res str := fun d => Ok d.
Definition desk : pst := mkP [([], PDir 493 0); ([lit "tmp"], PDir 493 0); ([lit "tmp"; lit "t"], PFile (lit "one two") 420 5); ([lit "l"], PLink (lit "tmp/t"))] [] 9 18.
Lemma desk_sound : sound desk.
Proof.
  constructor.
  - now exists 493%Z, 0%Z.
  - intros p n H. cbn [desk p_tree pget] in H. repeat match type of H with context [path_eqb ?a ?b] => destruct (path_eqb a b) eqn:?; [match goal with E : path_eqb _ _ = true |- _ => apply path_eqb_spec in E end|] end; try congruence.
    + now destruct p.
    + apply (app_inj_tail p [] n) in Heqb0 as [-> _]. now exists 493%Z, 0%Z.
    + apply (app_inj_tail p [lit "tmp"] n) in Heqb1 as [-> _]. now exists 493%Z, 0%Z.
    + apply (app_inj_tail p [] n) in Heqb2 as [-> _]. now exists 493%Z, 0%Z.
  - repeat constructor; cbn; intuition discriminate.
Qed.
Definition peek : tprog str := TRead 3 (fun _ => TRead (-1) (fun r => match r with Ok t => TDone (Raise (UserError 7)) | Raise e => TDone (Raise e) end)).
Example C145_witness : sound desk /\ only_reads peek /\
  looked desk true (lit "/l") (Is [lit "tmp"; lit "t"] (PFile (lit "one two") 420 5)) /\ looked desk false (lit "/l") (Is [lit "l"] (PLink (lit "tmp/t"))) /\
  fst (with_handle plain (lit "/tmp/t") peek desk) = Raise (UserError 7) /\
  pget [lit "tmp"; lit "t"] (p_tree (snd (with_handle plain (lit "/tmp/t") peek desk))) = None /\
  pget [lit "l"] (p_tree (snd (with_handle plain (lit "/l") peek desk))) = None /\
  fst (with_handle plain (lit "/tmp/t") (TClose (fun _ => TDone (Ok tt))) desk) = Raise (OSError ENOENT) /\
  served (lit "one two") [3; 0; 100; -1]%Z [lit "one"; []; lit " two"; []] /\
  looked desk true (lit "/tmp") (Is [lit "tmp"] (PDir 493 0)) /\ looked desk true (lit "/no/t") (Wrong (OSError ENOENT)).
Proof.
  split; [apply desk_sound|]. split; [apply or_read; intros r; apply or_read; intros [|]; constructor|].
  split; [apply looked_iff; vm_compute; reflexivity|]. split; [apply looked_iff; vm_compute; reflexivity|].
  split; [vm_compute; reflexivity|]. split; [vm_compute; reflexivity|]. split; [vm_compute; reflexivity|]. split; [vm_compute; reflexivity|].
  split; [|split; apply looked_iff; vm_compute; reflexivity].
  apply (sv_part (lit "one") (lit " two")); [reflexivity|]. apply (sv_part [] (lit " two")); [reflexivity|]. apply sv_short; [reflexivity|]. apply sv_rest; [reflexivity|constructor].
Qed.
