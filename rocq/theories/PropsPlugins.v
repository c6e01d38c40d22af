(** C123, C124: loading the plugins. *)
From Verif Require Import Str StrFacts Exc UriParse BaseUri Registry Plugins SpecPlugins.
Require Import Lia Permutation.
Local Open Scope string_scope.
Local Open Scope list_scope.

Lemma opt_eqb_eq a b : opt_str_eqb a b = true <-> a = b.
Proof.
  destruct a as [x|], b as [y|]; cbn; try easy. split; [intros H; f_equal; now apply str_eqb_eq|intros [= ->]; now apply str_eqb_eq].
Qed.
Lemma opt_eqb_not a b : a <> b -> opt_str_eqb a b = false.
Proof. intros N. destruct (opt_str_eqb a b) eqn:E; [|reflexivity]. now apply opt_eqb_eq in E. Qed.
Lemma opt_eqb_refl a : opt_str_eqb a a = true.
Proof. now apply opt_eqb_eq. Qed.
Lemma cget_cset k c k' l : cget k' (cset k c l) = if opt_str_eqb k' k then Some c else cget k' l.
Proof.
  induction l as [|[k1 c1] l IH]; cbn.
  - destruct (opt_str_eqb k' k); reflexivity.
  - destruct (opt_str_eqb k k1) eqn:E; cbn.
    + apply opt_eqb_eq in E. subst. destruct (opt_str_eqb k' k1); reflexivity.
    + rewrite IH. destruct (opt_str_eqb k' k1) eqn:E2; [|reflexivity]. apply opt_eqb_eq in E2. subst.
      rewrite opt_eqb_not; [reflexivity|]. intros ->. now rewrite opt_eqb_refl in E.
Qed.
Lemma sget_sset k c k' l : sget k' (sset k c l) = if opt_str_eqb k' k then Some c else sget k' l.
Proof.
  induction l as [|[k1 c1] l IH]; cbn.
  - destruct (opt_str_eqb k' k); reflexivity.
  - destruct (opt_str_eqb k k1) eqn:E; cbn.
    + apply opt_eqb_eq in E. subst. destruct (opt_str_eqb k' k1); reflexivity.
    + rewrite IH. destruct (opt_str_eqb k' k1) eqn:E2; [|reflexivity]. apply opt_eqb_eq in E2. subst.
      rewrite opt_eqb_not; [reflexivity|]. intros ->. now rewrite opt_eqb_refl in E.
Qed.

Lemma load_loads p sc c s : says p sc c -> load_one (Loads p) s =
  (Ok tt, mkPst (snd (register sc (pl_make p) (ps_reg s))) (cset sc c (ps_classes s))).
Proof. intros [E1 E2]. unfold load_one, bind, of_res. rewrite E1. cbn. now rewrite E2. Qed.
Lemma load_app a b s : load_all (a ++ b) s = bind (load_all a) (fun _ => load_all b) s.
Proof.
  revert s. induction a as [|x a IH]; intros s; [reflexivity|]. unfold load_all in *. cbn [app mapM_]. unfold bind in *.
  destruct (load_one x s) as [[v|e] s1]; [|reflexivity]. now rewrite IH.
Qed.
Lemma load_orderly l s : orderly l -> fst (load_all l s) = Ok tt.
Proof.
  revert s. induction l as [|x l IH]; intros s O; [reflexivity|]. unfold load_all in *. cbn [mapM_]. unfold bind.
  pose proof (O x (or_introl eq_refl)) as Ox. destruct x as [p| |e]; [|cbn; apply IH; intros y I; apply O; now right|easy].
  destruct Ox as (sc & c & S). rewrite (load_loads _ _ _ _ S). apply IH. intros y I. apply O. now right.
Qed.
Definition answers (s : pst) (sc : option str) : option factory * option uclass := (sget sc (r_schemes (ps_reg s)), cget sc (ps_classes s)).
Lemma load_unserved l s sc : orderly l -> unserved l sc -> answers (snd (load_all l s)) sc = answers s sc.
Proof.
  revert s. induction l as [|x l IH]; intros s O U; [reflexivity|]. unfold load_all in *. cbn [mapM_]. unfold bind.
  assert (O' : orderly l) by (intros y I; apply O; now right). assert (U' : unserved l sc) by (intros y I; apply U; now right).
  pose proof (O x (or_introl eq_refl)) as Ox. destruct x as [p| |e]; [|cbn; now apply IH|easy].
  destruct Ox as (sc' & c & S). rewrite (load_loads _ _ _ _ S), IH by assumption. unfold answers. cbn [ps_reg ps_classes register snd r_schemes].
  rewrite cget_cset, sget_sset, opt_eqb_not; [reflexivity|]. intros ->. apply (U p (or_introl eq_refl)). apply S.
Qed.
Lemma orderly_app a b : orderly (a ++ b) -> orderly a /\ orderly b.
Proof. intros O. split; intros e I; apply O; apply in_or_app; [now left|now right]. Qed.
Lemma load_serves l s sc p c : orderly l -> serves l sc p -> pl_uri p = Ok c -> answers (snd (load_all l s)) sc = (Some (pl_make p), Some c).
Proof.
  intros O (a & b & -> & E & N) Ec. destruct (orderly_app _ _ O) as [Oa Ob]. rewrite load_app. unfold bind. destruct (load_all a s) as [r s1] eqn:Ea.
  pose proof (load_orderly a s Oa) as Ra. rewrite Ea in Ra. cbn in Ra. subst r. unfold load_all at 1. cbn [mapM_]. unfold bind.
  rewrite (load_loads p sc c s1 (conj E Ec)). change (mapM_ load_one b) with (load_all b). rewrite load_unserved; [|intros y I; apply Ob; now right|exact N].
  unfold answers. cbn [ps_reg ps_classes register snd r_schemes]. now rewrite cget_cset, sget_sset, opt_eqb_refl.
Qed.
Lemma serves_dec l sc : (exists p, serves l sc p) \/ unserved l sc.
Proof.
  induction l as [|x l IH]; [right; intros p []|]. destruct IH as [(p & a & b & -> & E & N)|U].
  - left. exists p, (x :: a), b. auto.
  - destruct x as [p| |e]; [|right; intros q [H|H]; [discriminate|now apply U]|right; intros q [H|H]; [discriminate|now apply U]].
    destruct (pl_scheme p) as [sc'|e] eqn:E.
    + destruct (opt_str_eqb sc' sc) eqn:Eq.
      * apply opt_eqb_eq in Eq. subst. left. exists p, [], l. repeat split; auto.
      * right. intros q [[= <-]|H]; [|now apply U]. rewrite E. intros [= ->]. now rewrite opt_eqb_refl in Eq.
    + right. intros q [[= <-]|H]; [|now apply U]. rewrite E. discriminate.
Qed.

(** ** C123 *)
(** The import succeeds, and both registries know exactly the schemes that are served, each with what the plugin that serves
    it says. *)
Theorem C123_import_partial l timeout now : orderly l -> exists s, imported l timeout now = (Ok tt, s) /\
  (forall sc p, serves l sc p -> sget sc (r_schemes (ps_reg s)) = Some (pl_make p) /\ exists c, pl_uri p = Ok c /\ cget sc (ps_classes s) = Some c) /\
  (forall sc, unserved l sc -> sget sc (r_schemes (ps_reg s)) = None /\ cget sc (ps_classes s) = None) /\
  r_conns (ps_reg s) = [] /\ r_next (ps_reg s) = 0.
Proof.
  intros O. unfold imported. set (s0 := mkPst (init_reg timeout now) []). destruct (load_all l s0) as [r s] eqn:E.
  pose proof (load_orderly l s0 O) as R. rewrite E in R. cbn in R. subst r. exists s. split; [reflexivity|].
  assert (Es : s = snd (load_all l s0)) by now rewrite E. split; [|split].
  - intros sc p S. pose proof S as (a & b & El & _). destruct (O (Loads p)) as (sc' & c & _ & Ec); [rewrite El; apply in_or_app; right; now left|].
    pose proof (load_serves l s0 sc p c O S Ec) as A. rewrite <- Es in A. unfold answers in A. injection A as A1 A2. eauto.
  - intros sc U. pose proof (load_unserved l s0 sc O U) as A. rewrite <- Es in A. unfold answers in A. cbn in A. injection A as A1 A2. auto.
  - rewrite Es. clear. assert (r_conns (ps_reg s0) = [] /\ r_next (ps_reg s0) = 0) as H by now split. revert H. generalize s0. clear s0. induction l as [|x l IH]; intros s H; [exact H|].
    unfold load_all in *. cbn [mapM_]. unfold bind. assert (G : r_conns (ps_reg (snd (load_one x s))) = [] /\ r_next (ps_reg (snd (load_one x s))) = 0).
    { destruct x as [p| |e]; try exact H. unfold load_one, bind, of_res, lift_reg, register. destruct (pl_scheme p); [|exact H].
      destruct (pl_uri p); exact H. }
    destruct (load_one x s) as [[v|e] s1]; [|exact G]. now apply IH.
Qed.
Print Assumptions C123_import_partial.
(** It succeeds for no others. *)
Theorem C123_succeeds l timeout now : fst (imported l timeout now) = Ok tt <-> orderly l.
Proof.
  split; [|apply load_orderly]. unfold imported. generalize (mkPst (init_reg timeout now) []). induction l as [|x l IH]; intros s H e []; unfold load_all in *; cbn [mapM_] in H; unfold bind in H.
  - subst x. destruct e as [p| |e]; cbn in H; [|easy|discriminate]. unfold bind, of_res in H. destruct (pl_scheme p) as [sc|] eqn:E1; [|discriminate]. cbn in H.
    destruct (pl_uri p) as [c|] eqn:E2; [|discriminate]. now exists sc, c.
  - destruct (load_one x s) as [[v|e'] s1]; [|discriminate]. now apply (IH s1).
Qed.
Print Assumptions C123_succeeds.
(** Entry points that cannot be loaded change nothing, orderly or not. *)
Definition loadable (e : entry_point) : bool := match e with Fails => false | _ => true end.
Theorem C123_skipped l timeout now : imported l timeout now = imported (filter loadable l) timeout now.
Proof.
  unfold imported. generalize (mkPst (init_reg timeout now) []). induction l as [|x l IH]; intros s; [reflexivity|]. unfold load_all in *. cbn [mapM_].
  destruct x as [p| |e]; cbn [filter loadable mapM_]; unfold bind; [|cbn; apply IH|reflexivity].
  destruct (load_one (Loads p) s) as [[v|e] s1]; [|reflexivity]. apply IH.
Qed.
Print Assumptions C123_skipped.
(** False of the code: a plugin without [uri] (which [FileSystem] does not have) makes the import fail, whatever comes after
    it is not registered, and of itself one half is. *)
Theorem C123_refuted a p sc b timeout now : orderly a -> pl_scheme p = Ok sc -> pl_uri p = Raise AttributeError ->
  exists s, imported (a ++ Loads p :: b) timeout now = (Raise AttributeError, s) /\ sget sc (r_schemes (ps_reg s)) = Some (pl_make p) /\
  ps_classes s = ps_classes (snd (imported a timeout now)) /\
  forall sc', sc' <> sc -> unserved a sc' -> sget sc' (r_schemes (ps_reg s)) = None.
Proof.
  intros O E1 E2. unfold imported. set (s0 := mkPst (init_reg timeout now) []). rewrite load_app. unfold bind. destruct (load_all a s0) as [r s] eqn:E.
  pose proof (load_orderly a s0 O) as R. rewrite E in R. cbn in R. subst r. unfold load_all. cbn [mapM_]. unfold bind, load_one, bind, of_res. rewrite E1. cbn. rewrite E2.
  eexists. split; [reflexivity|]. cbn [ps_reg ps_classes r_schemes snd]. split; [now rewrite sget_sset, opt_eqb_refl|]. split; [reflexivity|].
  intros sc' N U. rewrite sget_sset, opt_eqb_not by exact N. pose proof (load_unserved a s0 sc' O U) as A. rewrite E in A. cbn in A. now injection A.
Qed.
Print Assumptions C123_refuted.
Definition any : factory := fun _ => None.
Definition three (f : factory) := [Loads (the_local f); Loads (the_memory f); Loads (the_zip f)].
Definition half : plugin := mkPlugin (Ok (Some (lit "ssh"))) (Raise AttributeError) any.
Example C123_witness : orderly (Fails :: three any) /\ serves (Fails :: three any) (Some (lit "memory")) (the_memory any) /\
  unserved (Fails :: three any) (Some (lit "ssh")) /\ pl_uri half = Raise AttributeError /\
  fst (imported (Loads half :: three any) 1800 0) = Raise AttributeError.
Proof.
  split; [|split; [|split; [|split; reflexivity]]].
  - intros e [<-|[<-|[<-|[<-|[]]]]]; cbn; auto; do 2 eexists; split; reflexivity.
  - exists [Fails; Loads (the_local any)], [Loads (the_zip any)]. split; [reflexivity|]. split; [reflexivity|]. intros q [[= <-]|[]]. discriminate.
  - intros p [H|[H|[H|[H|[]]]]]; try discriminate; injection H as <-; discriminate.
Qed.

(** ** C124 *)
(** The URI made by [URI] is of the class of the plugin that serves the scheme, or of the basic one. *)
Theorem C124_class l timeout now text sep ex sc : orderly l -> sc = match scheme_re text with Some s => s | None => lit "file" end ->
  (forall p c, serves l (Some sc) p -> pl_uri p = Ok c -> URI_in (ps_classes (snd (imported l timeout now))) text sep ex = mk_uri c text sep ex) /\
  (unserved l (Some sc) -> URI_in (ps_classes (snd (imported l timeout now))) text sep ex = mk_uri UBase text sep ex).
Proof.
  intros O ->. destruct (C123_import_partial l timeout now O) as (s & -> & S & U & _). cbn [snd]. unfold URI_in, class_in. split.
  - intros p c Sp Ec. destruct (S _ _ Sp) as (_ & c' & Ec' & ->). congruence.
  - intros Un. now destruct (U _ Un) as [_ ->].
Qed.
Print Assumptions C124_class.
(** With the three plugins of the package it is the [URI] of BaseUri.v, in whatever order they come, and also if there are others
    for other schemes with the basic class. *)
Theorem C124_builtin l timeout now f1 f2 f3 : orderly l -> serves l (Some (lit "file")) (the_local f1) -> serves l (Some (lit "memory")) (the_memory f2) ->
  serves l (Some (lit "zip")) (the_zip f3) ->
  (forall sc p, serves l sc p -> In sc [Some (lit "file"); Some (lit "memory"); Some (lit "zip")] \/ pl_uri p = Ok UBase) ->
  forall text sep ex, URI_in (ps_classes (snd (imported l timeout now))) text sep ex = URI text sep ex.
Proof.
  intros O S1 S2 S3 Ot text sep ex. unfold URI. set (sc := match scheme_re text with Some s => s | None => lit "file" end).
  destruct (C124_class l timeout now text sep ex sc O eq_refl) as [P U]. unfold class_of_scheme.
  destruct (str_eqb sc (lit "file")) eqn:E1; [apply str_eqb_eq in E1; rewrite E1 in *; now apply (P (the_local f1))|].
  destruct (str_eqb sc (lit "memory")) eqn:E2; [apply str_eqb_eq in E2; rewrite E2 in *; now apply (P (the_memory f2))|].
  destruct (str_eqb sc (lit "zip")) eqn:E3; [apply str_eqb_eq in E3; rewrite E3 in *; now apply (P (the_zip f3))|].
  destruct (serves_dec l (Some sc)) as [[p Sp]|Un]; [|now apply U]. apply (P p); [exact Sp|]. destruct (Ot _ _ Sp) as [I|H]; [|exact H].
  exfalso. cbn [In] in I. destruct I as [I|[I|[I|[]]]]; injection I as I; rewrite <- I in *; discriminate.
Qed.
Print Assumptions C124_builtin.
(** The three entry points of the package, in any order *)
Theorem C124_package l f1 f2 f3 timeout now : Permutation [Loads (the_local f1); Loads (the_memory f2); Loads (the_zip f3)] l ->
  fst (imported l timeout now) = Ok tt /\
  forall text sep ex, URI_in (ps_classes (snd (imported l timeout now))) text sep ex = URI text sep ex.
Proof.
  intros P. assert (I : forall e, In e l -> e = Loads (the_local f1) \/ e = Loads (the_memory f2) \/ e = Loads (the_zip f3)).
  { intros e H. apply (Permutation_in e (Permutation_sym P)) in H as [H|[H|[H|[]]]]; auto. }
  assert (O : orderly l) by (intros e H; destruct (I e H) as [-> |[-> | ->]]; do 2 eexists; split; reflexivity).
  assert (Nd : NoDup l).
  { apply (Permutation_NoDup P). repeat constructor; cbn [In]; intros H; repeat (destruct H as [H|H]); try easy; apply (f_equal (fun e => match e with Loads p => pl_scheme p | _ => Raise AttributeError end)) in H; cbv in H; discriminate. }
  assert (S : forall p sc, In (Loads p) [Loads (the_local f1); Loads (the_memory f2); Loads (the_zip f3)] -> pl_scheme p = Ok sc -> serves l sc p).
  { intros p sc H E. apply (Permutation_in _ P) in H as H'. apply in_split in H' as (a & b & ->). exists a, b. split; [reflexivity|]. split; [exact E|].
    intros q Hq Eq. apply NoDup_remove_2 in Nd. apply Nd. apply in_or_app. right. replace p with q; [exact Hq|].
    destruct (I (Loads q)) as [X|[X|X]]; [apply in_or_app; right; now right| | |];
      (destruct H as [Y|[Y|[Y|[]]]]; injection X as ->; injection Y as <-; cbn [pl_scheme the_local the_memory the_zip] in E, Eq; reflexivity || (exfalso; rewrite <- E in Eq; discriminate)). }
  split; [now apply load_orderly|]. apply (C124_builtin l timeout now f1 f2 f3 O).
  - apply S; [now left|reflexivity].
  - apply S; [right; now left|reflexivity].
  - apply S; [right; right; now left|reflexivity].
  - intros sc p (a & b & E & Ep & _). left. destruct (I (Loads p)) as [X|[X|X]]; [rewrite E; apply in_or_app; right; now left| | |]; injection X as ->; cbn in Ep; injection Ep as <-; cbn; auto.
Qed.
Print Assumptions C124_package.
Example C124_package_witness : Permutation (three any) [Loads (the_zip any); Loads (the_local any); Loads (the_memory any)].
Proof. apply Permutation_sym. apply perm_trans with [Loads (the_local any); Loads (the_zip any); Loads (the_memory any)]; [apply perm_swap|]. apply perm_skip, perm_swap. Qed.
(** Using the connection: the plugin that serves the scheme of the key makes it; nobody serves it: NoSchemeError. *)
Theorem C124_connection l timeout now k : orderly l ->
  (forall p, serves l (k_scheme k) p -> fst (get_connection k (ps_reg (snd (imported l timeout now)))) = match pl_make p k with None => Ok 0 | Some e => Raise e end) /\
  (unserved l (k_scheme k) -> get_connection k (ps_reg (snd (imported l timeout now))) = (Raise NoSchemeError, ps_reg (snd (imported l timeout now)))).
Proof.
  intros O. destruct (C123_import_partial l timeout now O) as (s & E & S & U & Cs & Nx). rewrite E. cbn [snd]. unfold get_connection, bind, get. split.
  - intros p Sp. destruct (S _ _ Sp) as (-> & _). rewrite Cs. cbn [kget]. unfold create, new_conn, bind, get, put.
    destruct (pl_make p k) as [e|]; [reflexivity|]. cbn [set_conns r_conns r_next]. rewrite Cs. cbn [kset kget].
    assert (key_eqb k k = true) as ->.
    { unfold key_eqb, frozen_eqb. rewrite !opt_eqb_refl, Z.eqb_refl, (proj2 (str_eqb_eq _ _) eq_refl).
      assert (forallb (fun x => existsb (item_eqb x) (k_extras k)) (k_extras k) = true) as ->; [|reflexivity].
      apply forallb_forall. intros x I. apply existsb_exists. exists x. split; [exact I|]. unfold item_eqb. now rewrite !(proj2 (str_eqb_eq _ _) eq_refl). }
    cbn. now rewrite Nx.
  - intros Un. now destruct (U _ Un) as [-> _].
Qed.
Print Assumptions C124_connection.
Example C124_witness : exists l u, l = [Loads (the_zip any); Fails; Loads (the_local any); Loads (the_memory any)] /\ orderly l /\
  serves l (Some (lit "zip")) (the_zip any) /\ serves l (Some (lit "file")) (the_local any) /\ serves l (Some (lit "memory")) (the_memory any) /\
  (forall sc p, serves l sc p -> In sc [Some (lit "file"); Some (lit "memory"); Some (lit "zip")] \/ pl_uri p = Ok UBase) /\
  URI_in (ps_classes (snd (imported l 1800 0))) (lit "ssh://host/a") cSlash [] = Ok u /\ u_cls u = UBase /\ k_scheme (u_key u) = Some (lit "ssh") /\
  unserved l (k_scheme (u_key u)) /\ fst (use_connection (u_key u) (ps_reg (snd (imported l 1800 0)))) = Raise NoSchemeError.
Proof.
  eexists. eexists. split; [reflexivity|]. split; [|split; [|split; [|split; [|split]]]].
  - intros e [<-|[<-|[<-|[<-|[]]]]]; cbn; auto; do 2 eexists; split; reflexivity.
  - eexists [], _. split; [reflexivity|]. split; [reflexivity|]. intros q [H|[H|[H|[]]]]; try discriminate; injection H as <-; discriminate.
  - eexists [_; _], _. split; [reflexivity|]. split; [reflexivity|]. intros q [H|[]]. injection H as <-; discriminate.
  - eexists [_; _; _], _. split; [reflexivity|]. split; [reflexivity|]. intros q [].
  - intros sc p (a & b & E & Ep & _). left. assert (I : In (Loads p) (a ++ Loads p :: b)) by (apply in_or_app; right; now left). rewrite <- E in I.
    destruct I as [H|[H|[H|[H|[]]]]]; try discriminate; injection H as <-; cbn in Ep; injection Ep as <-; cbn [In]; auto.
  - split; [vm_compute; reflexivity|]. split; [reflexivity|]. split; [vm_compute; reflexivity|]. split; [|vm_compute; reflexivity].
    intros p [H|[H|[H|[H|[]]]]]; try discriminate; injection H as <-; discriminate.
Qed.
