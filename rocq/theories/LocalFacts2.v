(** The primitive operations of the memory backend and of the local one, side by side. *)
From Coq Require Import Lia Permutation Sorted.
From Verif Require Import Str Exc Utf8 UriParse BaseUri StrFacts UriFacts SpecUri UriFacts2 UriFacts3 UriFacts4 UriFacts5 UriFacts6.
From Verif Require Import Mem SpecMem MemFacts MemFacts2 MemFacts3 MemFacts4 MemFacts5 MemFacts6 MemFacts7 MemFacts8 MemFacts9 MemFacts10 MemFacts11 MemUri.
From Verif Require Import Generic SpecGen GenFacts1 GenFacts2 GenFacts3 GenFacts6.
From Verif Require Import Misc Posix Local SpecLocal LocalFacts1.

Lemma os_test_state f g p x r x' : os_test f g p x = (r, x') -> x' = x.
Proof.
  unfold os_test, os_stat. destruct (plook x f p) as [[]|[]]; intros E; injection E; congruence.
Qed.

Definition sim {A B} (R : A -> B -> mst -> Prop) (m : res A * mst) (l : res B * pst) : Prop :=
  match m with
  | (Ok a, s') => exists b x', l = (Ok b, x') /\ twin s' x' /\ R a b s'
  | (Raise AttributeError, _) => True
  | (Raise e, s') => exists x', l = (Raise e, x') /\ twin s' x'
  end.
Lemma sim_ok {A B} (R : A -> B -> mst -> Prop) m l a b s' x' : m = (Ok a, s') -> l = (Ok b, x') -> twin s' x' -> R a b s' -> sim R m l.
Proof. intros -> ->. cbn. eauto. Qed.
Lemma sim_raise {A B} (R : A -> B -> mst -> Prop) m l e s' x' : m = (Raise e, s') -> l = (Raise e, x') -> twin s' x' -> sim R m l.
Proof. intros -> ->. cbn. destruct e; eauto. Qed.
Lemma sim_excused {A B} (R : A -> B -> mst -> Prop) m l s' : m = (Raise AttributeError, s') -> sim R m l.
Proof. now intros ->. Qed.
Lemma sim_weaken {A B} (R R' : A -> B -> mst -> Prop) m l : sim R m l -> (forall a b s', R a b s' -> R' a b s') -> sim R' m l.
Proof.
  intros H K. destruct m as [[a|e] s']; cbn in *; auto.
  destruct H as (b & x' & E & T & X). exists b, x'. auto.
Qed.
Lemma sim_bind {A B C D} (R : A -> B -> mst -> Prop) (R' : C -> D -> mst -> Prop)
      (m : M mst A) (l : M pst B) (k : A -> M mst C) (k' : B -> M pst D) s x :
  sim R (m s) (l x) ->
  (forall a b s' x', twin s' x' -> R a b s' -> sim R' (k a s') (k' b x')) ->
  sim R' (bind m k s) (bind l k' x).
Proof.
  intros H K. unfold bind. destruct (m s) as [[a|e] s']; cbn in H.
  - destruct H as (b & x' & -> & T & X). now apply K.
  - destruct e; try (destruct H as (x' & -> & T); cbn; eauto); exact H.
Qed.
Lemma sim_ret {A B} (R : A -> B -> mst -> Prop) a b s x : twin s x -> R a b s -> sim R (ret a s) (ret b x).
Proof. intros T X. exists b, x. auto. Qed.

(** Nothing is new except what [C] allows. *)
Definition adds (C : list str -> Prop) (t t' : tree) : Prop := forall q, t' q <> None -> t q <> None \/ C q.
Lemma put_adds t t' p e : put_at t t' p e -> adds (fun q => q = p) t t'.
Proof. intros [P1 P2] q H. destruct (path_dec q p) as [->|N]; auto. left. now rewrite <- (P2 q N). Qed.

(** *** Updating both sides *)
Lemma twin_same s x s' : twin s x -> wf s' -> same_rest s s' -> same_tree (view s) (view s') -> twin s' x.
Proof.
  intros [W Q [M1 M2 M3]] W' S P. split; auto; [eapply silent_rest; eauto|]. split; auto.
  - intros p. now rewrite P.
  - intros p H. apply M2. now rewrite <- P.
Qed.
Lemma twin_put s x s' p e e' : twin s x -> wf s' -> same_rest s s' -> put_at (view s) (view s') p e -> plain_path p ->
  same_entry (Some e) (Some e') -> twin s' (set_tree x (pset p e' (p_tree x))).
Proof.
  intros [W Q [M1 M2 M3]] W' S [P1 P2] G E. split; auto; [eapply silent_rest; eauto|]. split; cbn [p_tree set_tree].
  - intros q. rewrite pget_pset. destruct (path_eqb q p) eqn:F.
    + apply path_eqb_spec in F. subst q. now rewrite P1.
    + rewrite P2; auto. intros ->. now rewrite path_eqb_refl in F.
  - intros q H. destruct (path_dec q p) as [->|N]; auto. apply M2. now rewrite <- P2.
  - now apply pset_nodup.
Qed.
Lemma twin_put_gen s x s' p e e' T' : twin s x -> wf s' -> same_rest s s' -> put_at (view s) (view s') p e -> plain_path p ->
  same_entry (Some e) (Some e') -> (forall q, pget q T' = if path_eqb q p then Some e' else pget q (p_tree x)) -> NoDup (map fst T') ->
  twin s' (set_tree x T').
Proof.
  intros [W Q [M1 M2 M3]] W' S [P1 P2] G E H N. split; auto; [eapply silent_rest; eauto|]. split; cbn [p_tree set_tree]; auto.
  - intros q. rewrite H. destruct (path_eqb q p) eqn:F.
    + apply path_eqb_spec in F. subst q. now rewrite P1.
    + rewrite P2; auto. intros ->. now rewrite path_eqb_refl in F.
  - intros q K. destruct (path_dec q p) as [->|D]; auto. apply M2. now rewrite <- P2.
Qed.
Lemma twin_cut s x s' p : twin s x -> wf s' -> same_rest s s' -> cut_at (view s) (view s') p ->
  (forall r, r <> [] -> view s (p ++ r) = None) -> twin s' (set_tree x (pdel p (p_tree x))).
Proof.
  intros [W Q [M1 M2 M3]] W' S [P1 P2] N. split; auto; [eapply silent_rest; eauto|]. 
  assert (V : forall q, view s' q = if path_eqb q p then None else view s q).
  { intros q. destruct (path_eqb q p) eqn:F.
    - apply path_eqb_spec in F. subst q. rewrite <- (app_nil_r p). apply P1.
    - destruct (below_dec p q) as [[r ->]|H]; [|now apply P2].
      rewrite P1. symmetry. apply N. intros ->. rewrite app_nil_r, path_eqb_refl in F. discriminate. }
  split; cbn [p_tree set_tree].
  - intros q. rewrite pget_pdel, V. destruct (path_eqb q p); [exact Logic.I|apply M1].
  - intros q. rewrite V. destruct (path_eqb q p); [easy|auto].
  - now apply pdel_nodup.
Qed.

Section P.
Variables (s : mst) (x : pst).
Hypothesis T : twin s x.
Local Notation t := (view s).
Let W : wf s := tw_wf _ _ T.
Let Q : silent s := tw_silent _ _ T.

Lemma parent_dir i n : t (i ++ [n]) <> None -> is_edir (t i).
Proof. apply tree_parent. Qed.
Lemma file_below p r : is_efile (t p) -> r <> [] -> t (p ++ r) = None.
Proof.
  intros (d & mt & mo & E) N. destruct r as [|n r]; [easy|].
  change (n :: r) with ([n] ++ r). rewrite app_assoc. apply below_none; auto.
  destruct (t (p ++ [n])) eqn:F; auto. exfalso.
  assert (D : is_edir (t p)) by (apply (parent_dir p n); rewrite F; discriminate).
  destruct D as (? & ? & D). rewrite D in E. discriminate.
Qed.
Lemma empty_below p r : (forall n, t (p ++ [n]) = None) -> r <> [] -> t (p ++ r) = None.
Proof.
  intros H N. destruct r as [|n r]; [easy|]. change (n :: r) with ([n] ++ r). rewrite app_assoc. now apply below_none.
Qed.

(** *** Tests *)
Lemma nolink p : ~ is_elink (t p).
Proof.
  intros (tg & mt & mo & E). pose proof (mi_same _ _ (tw_mirror _ _ T) p) as H. rewrite E in H. cbn in H.
  now destruct (pget p (p_tree x)) as [[]|].
Qed.
Lemma fresh init n : fresh_last t init n.
Proof. intros pre post d _ _. apply nolink. Qed.

Lemma leads_present cs : t cs <> None -> leads t cs (Found cs).
Proof.
  intros H. destruct (mi_kind s x T cs H) as [D|F].
  - now apply (resolves_dir (m_heap s)).
  - destruct (snoc_cases cs) as [->|(i & n & ->)]; [constructor|].
    assert (D : is_edir (t i)) by now apply (parent_dir i n).
    apply (leads_snoc_plain (m_heap s)); auto. now apply (resolves_dir (m_heap s)).
Qed.
Lemma not_found cs o : leads t cs o -> (forall q, o <> Found q) -> t cs = None.
Proof.
  intros L N. destruct (t cs) eqn:E; auto. exfalso.
  apply (N cs). eapply leads_det; [exact W|exact L|]. apply leads_present. rewrite E. discriminate.
Qed.

Section C.
Variable cs : list str.
Hypothesis G : plain_path cs.
Let Gg : good_path cs := plain_good _ G.

Definition tested (fe : entry -> bool) (a b : bool) (s' : mst) : Prop :=
  a = b /\ s' = s /\ a = match t cs with Some e => fe e | None => false end.

Lemma test_sim (f : node -> bool) (fe : entry -> bool) (g : pent -> bool) (mt : M mst bool) :
  (forall o, leads t cs o -> mt s = (quiet s f o, s)) ->
  (forall n, f n = fe (entry_of n)) -> (forall e e', same_entry (Some e) (Some e') -> fe e = g e') ->
  sim (tested fe) (mt s) (os_test true g (u_path (file_uri cs)) x).
Proof.
  intros H K K'. rewrite file_path by auto. unfold os_test, os_stat.
  pose proof (look s x T cs true G) as L. inversion L as [e e' A1 A2 A3 A4 E|init n A1 A2 A3 A4 A5 E|init n A1 A2 A3 E|init n A1 A2 A3 E]; cbn [app] in *.
  - destruct (leads_phys (m_heap s) (m_next s) W cs cs A4) as (i & P & _).
    assert (Ev : t cs = Some (entry_of (m_heap s i))) by now apply view_node.
    rewrite Ev in A1. injection A1 as <-.
    eapply sim_ok; [rewrite (H _ A4); unfold quiet; rewrite P; reflexivity|reflexivity|exact T|].
    rewrite K. repeat split; auto. now rewrite Ev.
  - eapply sim_ok; [rewrite (H _ A5); reflexivity|reflexivity|exact T|]. repeat split; auto. now rewrite A3.
  - eapply sim_ok; [rewrite (H _ A3); reflexivity|reflexivity|exact T|]. repeat split; auto.
    now rewrite (not_found _ _ A3).
  - eapply sim_excused. now rewrite (H _ A2).
Qed.
Definition fdir (e : entry) : bool := match e with EDir _ _ => true | _ => false end.
Definition ffile (e : entry) : bool := match e with EFile _ _ _ => true | _ => false end.
Lemma isdir_sim : sim (tested fdir) (mem_isdir (mem_uri cs) s) (loc_isdir (file_uri cs) x).
Proof.
  apply (test_sim is_dir); [intros o; now apply (isdir_spec s W), mem_addr|now intros []|now intros [] []].
Qed.
Lemma isfile_sim : sim (tested ffile) (mem_isfile (mem_uri cs) s) (loc_isfile (file_uri cs) x).
Proof.
  apply (test_sim is_file); [intros o; now apply (isfile_spec s W), mem_addr|now intros []|now intros [] []].
Qed.
Lemma exists_sim : sim (tested (fun _ => true)) (mem_exists (mem_uri cs) s) (loc_exists (file_uri cs) x).
Proof.
  apply (test_sim (fun _ => true)); [intros o; now apply (exists_spec s W), mem_addr|now intros []|now intros [] []].
Qed.
Lemma islink_sim : sim (fun a b s' => a = false /\ b = false /\ s' = s) (mem_islink (mem_uri cs) s) (loc_islink (file_uri cs) x).
Proof.
  unfold loc_islink, path_islink. rewrite file_path by auto. unfold os_test, os_stat.
  pose proof (look s x T cs false G) as L. inversion L as [e e' A1 A2 A3 A4 E|init n A1 A2 A3 A4 A5 E|init n A1 A2 A3 E|init n A1 A2 A3 E]; cbn [app] in *.
  - assert (P : is_plink e' = false) by (destruct e, e'; easy).
    eapply sim_ok; [|reflexivity|exact T|rewrite P; repeat split; reflexivity].
    destruct (snoc_cases cs) as [Ec|(i & n & Ec)].
    + apply islink_root. rewrite Ec. apply mem_addr, good_nil.
    + assert (D : is_edir (t i)) by (apply (parent_dir i n); rewrite <- Ec, A1; discriminate).
      rewrite Ec in Gg |- *. rewrite (islink_found s W (mem_uri (i ++ [n])) i n i); auto using mem_addr, fresh;
        [|now apply (resolves_dir (m_heap s))].
      rewrite <- Ec, A1. destruct e; auto. now destruct e'.
  - eapply sim_ok; [|reflexivity|exact T|repeat split; reflexivity].
    subst cs. rewrite (islink_found s W (mem_uri (init ++ [n])) init n init); auto using mem_addr, fresh. now rewrite A3.
  - eapply sim_ok; [|reflexivity|exact T|repeat split; reflexivity].
    subst cs. rewrite (islink_fail s W (mem_uri (init ++ [n])) init n Missing Missing); auto using mem_addr, fresh. discriminate.
  - eapply sim_excused. subst cs. destruct A3 as [A3|[A3 F]].
    + rewrite (islink_fail s W (mem_uri (init ++ [n])) init n NotDir NotDir); auto using mem_addr, fresh. discriminate.
    + apply (islink_notdir s W (mem_uri (init ++ [n])) init n init); auto using mem_addr, fresh.
      destruct F as (? & ? & ? & F). intros (? & ? & D). congruence.
Qed.

(** *** Listing *)
Lemma listdir_sim : sim (fun a b s' => a = b /\ s' = s /\ sort_strs a = a /\ StronglySorted slt a /\
    is_edir (t cs) /\ forall n, In n a <-> t (cs ++ [n]) <> None) (mem_listdir (mem_uri cs) s) (loc_listdir (file_uri cs) x).
Proof.
  unfold loc_listdir. rewrite file_path by auto.
  assert (Fi : filter nonempty cs = cs) by (apply proper_filter, names_ne, Gg).
  pose proof (look s x T cs true G) as L. unfold bind, os_listdir.
  inversion L as [e e' A1 A2 A3 A4 E|init n A1 A2 A3 A4 A5 E|init n A1 A2 A3 E|init n A1 A2 A3 E]; cbn [app] in *.
  - destruct e as [d mt mo|mt mo|]; destruct e' as [d' mo' mt'|mo' mt'|]; try easy.
    + eapply sim_excused. apply (listdir_file s W (mem_uri cs) cs cs); auto using mem_addr; [now rewrite Fi|].
      intros (? & ? & D). congruence.
    + destruct (run_listing s cs cs W Gg A4) as (l & R & S1 & S2 & I); [rewrite A1; now exists mt, mo|].
      eapply sim_ok; [exact R|reflexivity|exact T|]. repeat split; auto; [|rewrite A1; now exists mt, mo|apply I|apply I].
      apply sorted_ext; auto.
      * apply sort_strict, children_nodup, T.
      * intros n. rewrite I, sort_In, children_get by apply T.
        pose proof (mi_same _ _ (tw_mirror _ _ T) (cs ++ [n])) as Sm.
        destruct (t (cs ++ [n])) as [[]|], (pget (cs ++ [n]) (p_tree x)) as [[]|]; cbn in Sm; split; easy.
  - eapply sim_raise; [apply (listdir_fail s W (mem_uri cs) cs Missing); auto using mem_addr; [now rewrite Fi|discriminate]|reflexivity|exact T].
  - eapply sim_raise; [apply (listdir_fail s W (mem_uri cs) cs Missing); auto using mem_addr; [now rewrite Fi|discriminate]|reflexivity|exact T].
  - eapply sim_excused. apply (listdir_fail s W (mem_uri cs) cs NotDir); auto using mem_addr; [now rewrite Fi|discriminate].
Qed.

(** *** Removing *)
Lemma reg : regular t (mem_uri cs) cs.
Proof. apply mem_regular; auto. intros. apply fresh. Qed.
Lemma pl_missing init n : cs = init ++ [n] -> leads t init Missing -> place t (mem_uri cs) (NoPlace (OSError ENOENT)).
Proof.
  intros -> L. change (OSError ENOENT) with (err_of Missing). apply (pl_fail t _ init n); auto using mem_addr. discriminate.
Qed.
Lemma pl_file init n : cs = init ++ [n] -> leads t init NotDir \/ (leads t init (Found init) /\ is_efile (t init)) ->
  place t (mem_uri cs) (NoPlace AttributeError).
Proof.
  intros -> [L|[L F]].
  - change AttributeError with (err_of NotDir). apply (pl_fail t _ init n); auto using mem_addr. discriminate.
  - apply (pl_notdir t _ init n init); auto using mem_addr. destruct F as (? & ? & ? & F). intros (? & ? & D). congruence.
Qed.
Lemma pl_present : t cs <> None -> cs <> [] -> place t (mem_uri cs) (Taken cs).
Proof.
  intros H N. destruct (snoc_cases cs) as [|(i & n & E)]; [easy|].
  assert (D : is_edir (t i)) by (apply (parent_dir i n); now rewrite <- E).
  rewrite E. apply (pl_taken t _ i n i); [rewrite <- E; now apply mem_addr|now apply (resolves_dir (m_heap s))|auto|now rewrite <- E].
Qed.

Lemma removefile_sim : ~ is_edir (t cs) ->
  sim (fun _ _ s' => shrinks t (view s')) (mem_removefile (mem_uri cs) s) (loc_removefile (file_uri cs) x).
Proof.
  intros ND. unfold loc_removefile. rewrite file_path by auto. rewrite unlink_abs by (apply pp_names; assumption). unfold sys_unlink.
  assert (Nr : cs <> []) by (intros E; apply ND; rewrite E; now apply root_dir).
  pose proof (look s x T cs false G) as L. inversion L as [e e' A1 A2 A3 A4 E|init n A1 A2 A3 A4 A5 E|init n A1 A2 A3 E|init n A1 A2 A3 E]; cbn [app] in *.
  - destruct e as [d mt mo|mt mo|]; destruct e' as [d' mo' mt'|mo' mt'|]; try easy; [|destruct ND; rewrite A1; now exists mt, mo].
    destruct (removefile_taken s W (mem_uri cs) cs cs) as (s' & R & W' & C & Re & _); [apply reg|apply pl_present; auto; congruence|].
    eapply sim_ok; [exact R|reflexivity| |].
    + eapply twin_cut; eauto. intros r Hr. apply file_below; auto. rewrite A1. now exists d, mt, mo.
    + eapply cut_shrinks; eauto using below_dec.
  - eapply sim_raise; [apply (removefile_free s W (mem_uri cs) cs cs); [apply reg|]|reflexivity|exact T].
    subst cs. apply (pl_free t _ init n init); auto using mem_addr.
  - eapply sim_raise; [apply (removefile_noplace s W (mem_uri cs) cs); [apply reg|eapply pl_missing; eauto]|reflexivity|exact T].
  - eapply sim_excused. apply (removefile_noplace s W (mem_uri cs) cs); [apply reg|eapply pl_file; eauto].
Qed.

Ltac inv_place H := inversion H as [A|init n d A R Hd Hn|init n d A R Hd Hn|init n d A R Hd|init n o A R N|B]; subst.
Lemma removedir_free p : regular t (mem_uri cs) cs -> place t (mem_uri cs) (Free p) -> mem_removedir (mem_uri cs) s = (Raise (OSError ENOENT), s).
Proof.
  intros Rg Pl. inv_place Pl. destruct (same_snoc s (mem_uri cs) _ _ _ Rg A) as (Ec & Hn1 & Hl).
  destruct (regular_path _ _ _ Rg) as (p & P & E).
  destruct (place_dir s W init n d R Hd) as (i & es & mt & mo & Pi & F & B & T1 & T2).
  unfold mem_removedir, bind, lift. rewrite P, E, Ec. rewrite (prev_entry _ _ W true true init n d i es mt mo); auto.
  rewrite T2 in Hn. destruct (dget n es) as [j|] eqn:Gj; [easy|]. reflexivity.
Qed.
Lemma removedir_noplace e : regular t (mem_uri cs) cs -> place t (mem_uri cs) (NoPlace e) -> mem_removedir (mem_uri cs) s = (Raise e, s).
Proof.
  intros Rg Pl. inv_place Pl.
  - destruct (same_snoc s (mem_uri cs) _ _ _ Rg A) as (Ec & Hn1 & Hl). destruct (regular_path _ _ _ Rg) as (p & P & E).
    unfold mem_removedir, bind, lift. rewrite P, E, Ec. rewrite (prev_noplace s W true true init n AttributeError); eauto 8.
  - destruct (same_snoc s (mem_uri cs) _ _ _ Rg A) as (Ec & Hn1 & Hl). destruct (regular_path _ _ _ Rg) as (p & P & E).
    unfold mem_removedir, bind, lift. rewrite P, E, Ec. rewrite (prev_noplace s W true true init n (err_of o)); eauto 8.
  - exfalso. eapply B. apply Rg.
Qed.
Lemma removedir_file : is_efile (t cs) -> mem_removedir (mem_uri cs) s = (Raise AttributeError, s).
Proof.
  intros (d1 & mt & mo & E). assert (Np : t cs <> None) by congruence.
  assert (Nr : cs <> []) by (intros Ec; destruct (root_dir s W) as (? & ? & R); rewrite Ec in E; congruence).
  pose proof (pl_present Np Nr) as Pl. pose proof reg as Rg. inversion Pl as [| |init n d A R Hd Hn Ed| | |]. rewrite Ed in A |- *.
  destruct (same_snoc s (mem_uri cs) _ _ _ Rg A) as (Ec & Hn1 & Hl).
  destruct (place_dir s W init n d R Hd) as (i & es & mt1 & mo1 & Pi & F & B & T1 & T2).
  assert (Hn' := Hn). rewrite T2 in Hn'. destruct (dget n es) as [j|] eqn:Gj; [|easy].
  rewrite (run_removedir s W (mem_uri cs) cs init n d i es mt1 mo1 j (Found cs)); auto; [|rewrite <- Ec; now apply leads_present].
  destruct (efile_node s cs d1 mt mo E) as (k & f & P & Ef & _). cbn [res_of]. rewrite P. now rewrite Ef.
Qed.

Lemma removedir_sim : cs <> [] ->
  sim (fun _ _ s' => shrinks t (view s')) (mem_removedir (mem_uri cs) s) (loc_removedir (file_uri cs) x).
Proof.
  intros Nr. unfold loc_removedir.
  destruct (mem_islink (mem_uri cs) s) as [[l|e] s1] eqn:El.
  2: { assert (Hm : exists init n, cs = init ++ [n]) by (destruct (snoc_cases cs) as [|]; easy).
       destruct Hm as (i & n & Ec).
       pose proof (look s x T cs false G) as L. inversion L as [e0 e' A1 A2 A3 A4 E|init0 n0 A1 A2 A3 A4 A5 E|init0 n0 A1 A2 A3 E|init0 n0 A1 A2 A3 E]; cbn [app] in *.
       4: { eapply sim_excused. eapply removedir_noplace; [apply reg|eapply pl_file; eauto]. }
       all: exfalso; pose proof islink_sim as I; rewrite El in I; cbn in I.
       all: assert (X : exists b, mem_islink (mem_uri cs) s = (Ok b, s)).
       - destruct (snoc_cases cs) as [|(i' & n' & E')]; [easy|].
         assert (D : is_edir (t i')) by (apply (parent_dir i' n'); rewrite <- E', A1; discriminate).
         eexists. rewrite E'. apply (islink_found s W (mem_uri (i' ++ [n'])) i' n' i'); auto using fresh;
           [rewrite <- E'; now apply mem_addr|now apply (resolves_dir (m_heap s))].
       - destruct X as [b X]. congruence.
       - eexists. rewrite A1. apply (islink_found s W (mem_uri (init0 ++ [n0])) init0 n0 init0); auto using fresh. rewrite <- A1. now apply mem_addr.
       - destruct X as [b X]. congruence.
       - eexists. rewrite A1. apply (islink_fail s W (mem_uri (init0 ++ [n0])) init0 n0 Missing Missing); auto using fresh; [|discriminate|now rewrite <- A1].
         rewrite <- A1. now apply mem_addr.
       - destruct X as [b X]. congruence. }
  pose proof islink_sim as I. rewrite El in I. unfold sim in I. destruct I as (b & x' & Eb & T' & -> & -> & ->).
  assert (x' = x).
  { eapply os_test_state, Eb. }
  subst x'. rewrite (bind_ok _ _ x false x Eb). cbv iota. rewrite file_path by auto. rewrite rmdir_abs by (apply pp_names; assumption). unfold sys_rmdir.
  pose proof (look s x T cs false G) as L. inversion L as [e e' A1 A2 A3 A4 E|init n A1 A2 A3 A4 A5 E|init n A1 A2 A3 E|init n A1 A2 A3 E]; cbn [app] in *.
  - destruct e as [d mt mo|mt mo|]; destruct e' as [d' mo' mt'|mo' mt'|]; try easy.
    + eapply sim_excused. apply removedir_file. rewrite A1. now exists d, mt, mo.
    + assert (D : is_edir (t cs)) by (rewrite A1; now exists mt, mo).
      assert (Ch : forall n, In n (pchildren cs (p_tree x)) <-> t (cs ++ [n]) <> None).
      { intros n. rewrite children_get by apply T. pose proof (mi_same _ _ (tw_mirror _ _ T) (cs ++ [n])) as Sm.
        destruct (t (cs ++ [n])) as [[]|], (pget (cs ++ [n]) (p_tree x)) as [[]|]; cbn in Sm; split; easy. }
      destruct (pchildren cs (p_tree x)) as [|c l] eqn:Ec.
      * assert (Em : forall n, t (cs ++ [n]) = None).
        { intros n. destruct (t (cs ++ [n])) eqn:En; auto. exfalso. apply (proj2 (Ch n)). rewrite En. discriminate. }
        destruct (removedir_empty s W (mem_uri cs) cs cs cs) as (s' & R & W' & C & Re & _); auto using reg.
        { apply pl_present; auto. congruence. }
        eapply sim_ok; [exact R| | |].
        -- destruct cs; [easy|]. reflexivity.
        -- eapply twin_cut; eauto. intros r Hr. now apply empty_below.
        -- eapply cut_shrinks; eauto using below_dec.
      * eapply sim_raise; [apply (removedir_full s W (mem_uri cs) cs cs cs c); auto using reg| |exact T].
        -- apply pl_present; auto. congruence.
        -- apply Ch. now left.
        -- destruct cs; [easy|]. reflexivity.
  - eapply sim_raise; [apply (removedir_free cs); [apply reg|]|reflexivity|exact T].
    rewrite A1 at 2. apply (pl_free t _ init n init); auto; rewrite <- A1; auto using mem_addr.
  - eapply sim_raise; [apply removedir_noplace; [apply reg|eapply pl_missing; eauto]|reflexivity|exact T].
  - eapply sim_excused. apply removedir_noplace; [apply reg|eapply pl_file; eauto].
Qed.

(** *** Creating *)
Lemma mkdir_sim : cs <> [] -> sim (fun _ _ s' => adds (fun q => q = cs) t (view s')) (mem_mkdir (mem_uri cs) s) (loc_mkdir (file_uri cs) x).
Proof.
  intros Nr. unfold loc_mkdir. rewrite file_path by auto.
  assert (E0 : (match abs_path cs with [] => ret tt | p => os_mkdir p end) x = os_mkdir (abs_path cs) x).
  { destruct (abs_path cs) eqn:E; auto. now destruct cs. }
  change (sim (fun _ _ s' => adds (fun q => q = cs) t (view s')) (mem_mkdir (mem_uri cs) s) ((match abs_path cs with [] => ret tt | p => os_mkdir p end) x)).
  rewrite E0. rewrite mkdir_abs by (apply pp_names; assumption). unfold sys_mkdir. rewrite mkdir_make.
  pose proof (look s x T cs false G) as L. inversion L as [e e' A1 A2 A3 A4 E|init n A1 A2 A3 A4 A5 E|init n A1 A2 A3 E|init n A1 A2 A3 E]; cbn [app] in *.
  - eapply sim_raise; [apply (make_taken s W) with (p := cs), pl_present; auto; congruence|reflexivity|exact T].
  - destruct (make_free s W (mem_uri cs) (fun s => NDir [] (m_now s) 0) cs) as (s' & R & W' & P & Re & _).
    + rewrite A1 at 2. apply (pl_free t _ init n init); auto; rewrite <- A1; auto using mem_addr.
    + intros es Ee. now injection Ee as <-.
    + eapply sim_ok; [exact R|reflexivity| |eapply put_adds; exact P]. rewrite <- A1.
      eapply twin_put; [exact T|exact W'|exact Re|exact P|exact G|]. exact Logic.I.
  - eapply sim_raise; [apply (make_noplace s W); eapply pl_missing; eauto|reflexivity|exact T].
  - eapply sim_excused. apply (make_noplace s W). eapply pl_file; eauto.
Qed.
End C.

(** *** Copying *)
Lemma copy_content_self u v cu cv q data mt mo : addr u cu -> addr v cv ->
  denotes t u (Found q) -> denotes t v (Found q) -> t q = Some (EFile data mt mo) ->
  exists s', mem_copy_content u v s = (Ok tt, s') /\ wf s' /\ same_rest s s' /\ put_at t (view s') q (EFile [] (m_now s) 0).
Proof.
  intros Au Av D Dv Eq. unfold mem_copy_content.
  destruct (open_read s W u true q data mt mo D Eq) as (s1 & h1 & f1 & R1 & H1 & O1 & D1 & P1 & T1 & M1 & S1).
  assert (E1 : u_open u (Some (lit "rb")) s = (Ok h1, s1)) by (rewrite (run_u_open s u cu); auto).
  assert (Q1 : silent s1) by (eapply silent_rest; eauto; apply O1).
  assert (W1 : wf s1) by apply O1.
  assert (Wr1 : writable (view s1) v q).
  { eapply writable_same; eauto. apply wr_file; auto. rewrite Eq. now repeat eexists. }
  destruct (open_writable s1 v true q W1 Wr1) as (s2 & h2 & f2 & R2 & H2 & O2 & D2 & P2 & T2 & M2 & Pt2).
  assert (E2 : u_open v (Some (lit "wb")) s1 = (Ok h2, s2)) by (rewrite (run_u_open s1 v cv); auto).
  assert (W2 : wf s2) by apply O2.
  destruct (open_write_files v true s1 h2 s2 W1 R2) as [_ K2].
  assert (Eh : h_node h1 = h_node h2).
  { pose proof (K2 _ _ (op_phys _ _ _ _ _ _ O1)) as A1. rewrite (op_phys _ _ _ _ _ _ O2) in A1. now injection A1. }
  assert (F2 : m_heap s2 (h_node h1) = NFile f2) by (rewrite Eh; apply O2).
  destruct (run_read s2 (h_node h1) f2 F2 8192) as (s3 & R3 & U3). unfold bio_read in R3, U3. rewrite D2, P2 in R3, U3. cbn in R3, U3.
  assert (E3 : copyfileobj (S (length (f_data f2))) h1 h2 8192 s2 = (Ok tt, s3)).
  { cbn [copyfileobj]. unfold h_read. rewrite H1. cbn [h_readable negb h_node]. erewrite bind_ok; [|erewrite bind_ok by exact R3; reflexivity]. reflexivity. }
  assert (Sm : same_tree (view s2) (view s3)) by (eapply file_upd_quiet; eauto).
  assert (W3 : wf s3) by (eapply file_upd_wf; eauto).
  assert (Nw1 : m_now s1 = m_now s) by apply (op_rest _ _ _ _ _ _ O1).
  exists s3. split; [|split; [auto|split]].
  - erewrite bind_ok by exact E1. erewrite bind_ok by exact E2. erewrite bind_ok by (apply run_get; exact F2). exact E3.
  - eapply same_rest_trans; [apply O1|]. eapply same_rest_trans; [apply O2|]. apply U3.
  - eapply put_same_l; [exact S1|]. rewrite <- Nw1. destruct Pt2 as [X Y]. split; [now rewrite Sm|]. intros r Hr. rewrite Sm. auto.
Qed.

Lemma open_r_state p r x' : os_open_r p x = (r, x') -> x' = x.
Proof. unfold os_open_r. intros E. now injection E. Qed.

Section Two.
Variables ca cb : list str.
Hypothesis Ga : plain_path ca.
Hypothesis Gb : plain_path cb.
Let Aa : addr (mem_uri ca) ca := mem_addr _ (plain_good _ Ga).
Let Ab : addr (mem_uri cb) cb := mem_addr _ (plain_good _ Gb).

Lemma local_copy_run data mo mt T1 q e1 : plook x true (abs_path ca) = Ok (At ca (PFile data mo mt)) -> pget ca (p_tree x) = Some (PFile data mo mt) ->
  os_open_w (abs_path cb) x = (Ok q, set_tree x T1) -> T1 = pset q e1 (p_tree x) -> (exists mo1 mt1, e1 = PFile [] mo1 mt1) ->
  NoDup (map fst (p_tree x)) ->
  exists T2 d2 mo2 mt2, loc_copy_content (file_uri ca) (file_uri cb) x = (Ok tt, set_tree x T2) /\
    (forall r, pget r T2 = if path_eqb r q then Some (PFile d2 mo2 mt2) else pget r (p_tree x)) /\
    d2 = (if path_eqb ca q then [] else data) /\ NoDup (map fst T2).
Proof.
  intros L P E1 -> (mo1 & mt1 & ->) N. unfold loc_copy_content. rewrite !file_path by now apply plain_good.
  assert (Er : os_open_r (abs_path ca) x = (Ok ca, x)) by (unfold os_open_r; now rewrite L).
  rewrite (bind_ok _ _ x ca x Er), (bind_ok _ _ x q _ E1). unfold fd_data. unfold bind at 1. cbn [p_tree set_tree]. rewrite pget_pset.
  set (T1 := pset q (PFile [] mo1 mt1) (p_tree x)).
  assert (N1 : NoDup (map fst T1)) by now apply pset_nodup.
  assert (G1 : forall r, pget r T1 = if path_eqb r q then Some (PFile [] mo1 mt1) else pget r (p_tree x)) by (intros; apply pget_pset).
  assert (App : forall d, exists T2 mo2 mt2, fd_append q d (set_tree x T1) = (Ok tt, set_tree x T2) /\
      (forall r, pget r T2 = if path_eqb r q then Some (PFile d mo2 mt2) else pget r (p_tree x)) /\ NoDup (map fst T2)).
  { intros d. unfold fd_append. cbn [p_tree set_tree]. rewrite G1, path_eqb_refl. destruct d as [|a d].
    - exists T1, mo1, mt1. auto.
    - exists (pset q (PFile (a :: d) mo1 (p_now x)) T1), mo1, (p_now x). split; [reflexivity|]. split.
      + intros r. rewrite pget_pset, G1. now destruct (path_eqb r q).
      + now apply pset_nodup. }
  destruct (path_eqb ca q) eqn:Eq.
  - destruct (App []) as (T2 & mo2 & mt2 & R & H & N2). exists T2, [], mo2, mt2. auto.
  - rewrite P. destruct (App data) as (T2 & mo2 & mt2 & R & H & N2). exists T2, data, mo2, mt2. auto.
Qed.

Lemma copy_content_sim : cb <> [] ->
  sim (fun _ _ s' => (t ca <> None -> view s' ca <> None) /\ adds (fun q => q = cb) t (view s')) (mem_copy_content (mem_uri ca) (mem_uri cb) s)
      (loc_copy_content (file_uri ca) (file_uri cb) x).
Proof.
  intros Nb.
  pose proof (look s x T ca true Ga) as L. inversion L as [e e' A1 A2 A3 A4 E|init n A1 A2 A3 A4 A5 E|init n A1 A2 A3 E|init n A1 A2 A3 E]; cbn [app] in *.
  - destruct e as [data mt mo|mt mo|]; destruct e' as [d' mo' mt'|mo' mt'|]; try easy.
    2: { eapply sim_excused. unfold mem_copy_content. apply bind_raise. rewrite (run_u_open s (mem_uri ca) ca) by auto.
         apply (open_read_dir s W (mem_uri ca) true ca); [now exists ca|]. rewrite A1. now exists mt, mo. }
    cbn in A3. subst d'. symmetry in E.
    assert (Da : denotes t (mem_uri ca) (Found ca)) by now exists ca.
    pose proof (look s x T cb true Gb) as Lb. inversion Lb as [e e' B1 B2 B3 B4 Eb|init n B1 B2 B3 B4 B5 Eb|init n B1 B2 B3 Eb|init n B1 B2 B3 Eb]; cbn [app] in *.
    + destruct e as [db mtb mob|mtb mob|]; destruct e' as [db' mob' mtb'|mob' mtb'|]; try easy.
      * cbn in B3. subst db'. symmetry in Eb.
        assert (Ow : os_open_w (abs_path cb) x = (Ok cb, set_tree x (pset cb (PFile [] mob' (p_now x)) (p_tree x)))) by (rewrite open_w_abs by (apply pp_names; assumption); unfold sys_open_w; now rewrite Eb).
        destruct (local_copy_run data mo' mt' _ cb _ E A2 Ow eq_refl) as (T2 & d2 & mo2 & mt2 & R2 & G2 & D2 & N2); [eauto|apply T|].
        destruct (path_dec ca cb) as [<-|Nab].
        -- destruct (copy_content_self (mem_uri ca) (mem_uri ca) ca ca ca data mt mo) as (s' & R & W' & Re & P); auto.
           eapply sim_ok; [exact R|exact R2| |].
           ++ rewrite path_eqb_refl in D2. subst d2. eapply twin_put_gen; eauto. reflexivity.
           ++ split; [|eapply put_adds; exact P]. intros _. destruct P as [-> _]. discriminate.
        -- destruct (copy_content s (mem_uri ca) (mem_uri cb) ca cb data mt mo) as (s' & R & W' & Re & P & _ & _); auto.
           { apply wr_file; [now exists cb|]. rewrite B1. now exists db, mtb, mob. }
           eapply sim_ok; [exact R|exact R2| |].
           ++ rewrite (path_eqb_neq _ _ Nab) in D2. subst d2. eapply twin_put_gen; eauto. reflexivity.
           ++ split; [|eapply put_adds; exact P]. intros _. destruct P as [_ P]. rewrite P by auto. congruence.
      * symmetry in Eb.
        destruct (open_read s W (mem_uri ca) true ca data mt mo Da A1) as (s1 & h1 & f1 & R1 & H1 & O1 & D1 & P1 & T1 & M1 & S1).
        assert (W1 : wf s1) by apply O1. assert (Q1 : silent s1) by (eapply silent_rest; eauto; apply O1).
        eapply (sim_raise _ _ _ (OSError EISDIR) s1 x).
        -- unfold mem_copy_content. erewrite bind_ok by (rewrite (run_u_open s (mem_uri ca) ca) by auto; exact R1).
           apply bind_raise. rewrite (run_u_open s1 (mem_uri cb) cb) by auto.
           apply (open_write_dir s1 W1 (mem_uri cb) true cb cb); auto; [|rewrite S1, B1; now exists mtb, mob].
           eapply leads_shape; [apply same_shape_same, S1|exact B4].
        -- unfold loc_copy_content. rewrite !file_path by now apply plain_good.
           assert (Er : os_open_r (abs_path ca) x = (Ok ca, x)) by (unfold os_open_r; now rewrite E).
           rewrite (bind_ok _ _ x ca x Er). apply bind_raise. rewrite open_w_abs by (apply pp_names; assumption). unfold sys_open_w. now rewrite Eb.
        -- eapply twin_same; eauto. apply O1.
    + symmetry in Eb.
      assert (Ow : os_open_w (abs_path cb) x = (Ok cb, set_tree x (pset cb (new_pfile x) (p_tree x)))) by (rewrite open_w_abs by (apply pp_names; assumption); unfold sys_open_w; now rewrite Eb, <- B1).
      destruct (local_copy_run data mo' mt' _ cb _ E A2 Ow eq_refl) as (T2 & d2 & mo2 & mt2 & R2 & G2 & D2 & N2); [unfold new_pfile; eauto|apply T|].
      assert (Nab : ca <> cb) by (intros ->; congruence).
      destruct (copy_content s (mem_uri ca) (mem_uri cb) ca cb data mt mo) as (s' & R & W' & Re & P & _ & _); auto.
      { apply wr_free. rewrite B1 at 2. apply (pl_free t _ init n init); auto; rewrite <- B1; auto. }
      eapply sim_ok; [exact R|exact R2| |].
      * rewrite (path_eqb_neq _ _ Nab) in D2. subst d2. eapply twin_put_gen; eauto. reflexivity.
      * split; [|eapply put_adds; exact P]. intros _. destruct P as [_ P]. rewrite P by auto. congruence.
    + symmetry in Eb.
      destruct (open_read s W (mem_uri ca) true ca data mt mo Da A1) as (s1 & h1 & f1 & R1 & H1 & O1 & D1 & P1 & T1 & M1 & S1).
      assert (W1 : wf s1) by apply O1. assert (Q1 : silent s1) by (eapply silent_rest; eauto; apply O1).
      eapply (sim_raise _ _ _ (OSError ENOENT) s1 x).
      -- unfold mem_copy_content. erewrite bind_ok by (rewrite (run_u_open s (mem_uri ca) ca) by auto; exact R1).
         apply bind_raise. rewrite (run_u_open s1 (mem_uri cb) cb) by auto.
         apply (open_write_noplace s1 W1). eapply place_shape; [apply same_shape_same, S1|]. eapply pl_missing; eauto.
      -- unfold loc_copy_content. rewrite !file_path by now apply plain_good.
         assert (Er : os_open_r (abs_path ca) x = (Ok ca, x)) by (unfold os_open_r; now rewrite E).
         rewrite (bind_ok _ _ x ca x Er). apply bind_raise. rewrite open_w_abs by (apply pp_names; assumption). unfold sys_open_w. now rewrite Eb.
      -- eapply twin_same; eauto. apply O1.
    + destruct (open_read s W (mem_uri ca) true ca data mt mo Da A1) as (s1 & h1 & f1 & R1 & H1 & O1 & D1 & P1 & T1 & M1 & S1).
      assert (W1 : wf s1) by apply O1. assert (Q1 : silent s1) by (eapply silent_rest; eauto; apply O1).
      eapply (sim_excused _ _ _ s1).
      unfold mem_copy_content. erewrite bind_ok by (rewrite (run_u_open s (mem_uri ca) ca) by auto; exact R1).
      apply bind_raise. rewrite (run_u_open s1 (mem_uri cb) cb) by auto.
      apply (open_write_noplace s1 W1). eapply place_shape; [apply same_shape_same, S1|]. eapply pl_file; eauto.
  - symmetry in E. eapply (sim_raise _ _ _ (OSError ENOENT) s x); [| |exact T].
    + unfold mem_copy_content. apply bind_raise. rewrite (run_u_open s (mem_uri ca) ca) by auto.
      apply (open_read_fail s W (mem_uri ca) true ca Missing); auto. discriminate.
    + unfold loc_copy_content. rewrite !file_path by now apply plain_good. apply bind_raise. unfold os_open_r. now rewrite E.
  - symmetry in E. eapply (sim_raise _ _ _ (OSError ENOENT) s x); [| |exact T].
    + unfold mem_copy_content. apply bind_raise. rewrite (run_u_open s (mem_uri ca) ca) by auto.
      apply (open_read_fail s W (mem_uri ca) true ca Missing); auto. discriminate.
    + unfold loc_copy_content. rewrite !file_path by now apply plain_good. apply bind_raise. unfold os_open_r. now rewrite E.
  - eapply (sim_excused _ _ _ s).
    unfold mem_copy_content. apply bind_raise. rewrite (run_u_open s (mem_uri ca) ca) by auto.
    apply (open_read_fail s W (mem_uri ca) true ca NotDir); auto. discriminate.
Qed.

Lemma copystat_run_fail1 o : leads t ca o -> (forall q, o <> Found q) -> mem_copystat (mem_uri ca) (mem_uri cb) s = (Raise (err_of o), s).
Proof.
  intros L N. unfold mem_copystat. apply bind_raise. now apply (run_lookup_fail s W (mem_uri ca) ca o).
Qed.
Lemma copystat_run_fail2 o : leads t ca (Found ca) -> leads t cb o -> (forall q, o <> Found q) ->
  mem_copystat (mem_uri ca) (mem_uri cb) s = (Raise (err_of o), s).
Proof.
  intros La L N. unfold mem_copystat.
  destruct (run_lookup_found s W (mem_uri ca) ca ca Aa La) as (i & P & R & _).
  rewrite (bind_ok _ _ s i s R). apply bind_raise. now apply (run_lookup_fail s W (mem_uri cb) cb o).
Qed.
Lemma copystat_sim : sim (fun _ _ s' => adds (fun _ => False) t (view s')) (mem_copystat (mem_uri ca) (mem_uri cb) s) (loc_copystat (file_uri ca) (file_uri cb) x).
Proof.
  unfold loc_copystat, sh_copystat. rewrite !file_path by now apply plain_good.
  pose proof (look s x T ca true Ga) as L. inversion L as [e e' A1 A2 A3 A4 E|init n A1 A2 A3 A4 A5 E|init n A1 A2 A3 E|init n A1 A2 A3 E]; cbn [app] in *.
  - pose proof (look s x T cb true Gb) as Lb. inversion Lb as [f f' B1 B2 B3 B4 Eb|init n B1 B2 B3 B4 B5 Eb|init n B1 B2 B3 Eb|init n B1 B2 B3 Eb]; cbn [app] in *.
    + destruct (copystat_spec s W (mem_uri ca) (mem_uri cb) ca cb e f) as (s' & R & W' & Re & P); auto; [now exists ca|now exists cb|].
      eapply sim_ok; [exact R|reflexivity| |].
      2: { intros q Hq. left. destruct (put_adds _ _ _ _ P q Hq) as [Hn|Hn]; [exact Hn|]. subst q. congruence. }
      eapply twin_put; eauto. destruct f, f'; cbn in B3 |- *; auto.
    + eapply sim_raise; [apply (copystat_run_fail2 Missing); auto; discriminate|reflexivity|exact T].
    + eapply sim_raise; [apply (copystat_run_fail2 Missing); auto; discriminate|reflexivity|exact T].
    + eapply sim_excused. apply (copystat_run_fail2 NotDir); auto. discriminate.
  - eapply sim_raise; [apply (copystat_run_fail1 Missing); auto; discriminate|reflexivity|exact T].
  - eapply sim_raise; [apply (copystat_run_fail1 Missing); auto; discriminate|reflexivity|exact T].
  - eapply sim_excused. apply (copystat_run_fail1 NotDir); auto. discriminate.
Qed.
End Two.
End P.
