(** A part of a memory file system, and the file system without the rest: the operations *)
From Coq Require Import Lia.
From Verif Require Import Str Exc StrFacts UriParse BaseUri Mem SpecUri SpecMem MemFacts MemFacts2 MemFacts5 Generic UriOps Prog MemTwin SpecApart ApartFacts ApartFacts2 ApartFacts3 Pair.
Open Scope nat_scope.

Section Part.
Variable K : str -> bool.
Hypothesis tops : top_names K.
Variable s0 : mst.
Local Notation pruned := (pruned K s0).
Local Notation mine := (mine K).
Local Notation inner s := (inside K (m_heap s)).
Local Notation first s := (start K (m_heap s)).

Lemma mine_path u : mine u -> exists q n rest, mem_path u = Ok q /\ q <> [] /\ steps_of q = n :: rest /\ K n = true.
Proof. intros M. apply (mine_muri K) in M as (p & H & P & ->). destruct (heads_steps K tops p H) as (q & n & rest & A & B & _ & C & D). now exists q, n, rest. Qed.
Lemma mine_pieces u q : mine u -> mem_path u = Ok q -> simple_name (last (steps_of q) []).
Proof.
  intros M E. apply (mine_muri K) in M as (p & H & P & ->). destruct (heads_steps K tops p H) as (q' & n & rest & A & B & Ep & C & D). rewrite A in E. injection E as ->.
  apply (simple_path p _ P). assert (I : In (last (steps_of q) []) (steps_of q)). { rewrite C. clear. revert n. induction rest as [|m rest IH]; intros n; [now left|]. right. apply IH. }
  destruct (proj2 (piece_sub cSlash q) _ I) as (a & b & E). exists (cSlash :: a), b. rewrite Ep. cbn [app]. now rewrite <- E.
Qed.
Lemma blank_false : K [] = false.
Proof. destruct (K []) eqn:E; [|reflexivity]. destruct (tops [] E) as (N & _). easy. Qed.

Section States.
Variables (I : list nat) (s x : mst).
Hypothesis P : pruned I s x.
Lemma look throw u f : mine u -> get_node_for_path (m_heap x) throw u f = get_node_for_path (m_heap s) throw u f /\
  forall o, get_node_for_path (m_heap s) throw u f = Ok o -> sinside K (m_heap s) o.
Proof.
  intros M. destruct (mine_path u M) as (q & n & rest & E & N & St & Kn). unfold get_node_for_path. rewrite E. cbn [rbind]. destruct q as [|c q]; [easy|]. rewrite St.
  apply (get_on K (m_heap s) (m_next s) (pr_wf _ _ _ _ _ P) (m_heap x) (pr_node _ _ _ _ _ P) (roots1 K s0 I s x P) (links1 K s0 I s x P) throw f n rest Kn).
Qed.
Lemma prevs throw f n steps : K n = true -> get_node_prev (m_heap x) throw (n :: steps) f = get_node_prev (m_heap s) throw (n :: steps) f /\
  forall p c, get_node_prev (m_heap s) throw (n :: steps) f = Ok (p, c) -> sinside K (m_heap s) c /\ pinside K (m_heap s) p (n :: steps).
Proof. apply (prev_on K (m_heap s) (m_next s) (pr_wf _ _ _ _ _ P) (m_heap x) (pr_node _ _ _ _ _ P) (roots1 K s0 I s x P) (links1 K s0 I s x P) throw f n steps). Qed.
Lemma gets throw f n steps : K n = true -> get_node (m_heap x) throw (n :: steps) f = get_node (m_heap s) throw (n :: steps) f /\
  forall c, get_node (m_heap s) throw (n :: steps) f = Ok c -> sinside K (m_heap s) c.
Proof. apply (get_on K (m_heap s) (m_next s) (pr_wf _ _ _ _ _ P) (m_heap x) (pr_node _ _ _ _ _ P) (roots1 K s0 I s x P) (links1 K s0 I s x P) throw f n steps). Qed.
Lemma childs throw k i n b : first s i n -> child (m_heap x) throw k i n b = child (m_heap s) throw k i n b /\ forall o, child (m_heap s) throw k i n b = Ok o -> sinside K (m_heap s) o.
Proof. apply (child_on K (m_heap s) (m_next s) (pr_wf _ _ _ _ _ P) (m_heap x) (pr_node _ _ _ _ _ P) (roots1 K s0 I s x P) (links1 K s0 I s x P) throw k i n b). Qed.
Lemma node_at i : inner s i -> m_heap x i = m_heap s i. Proof. apply (node1 K s0 I s x i P). Qed.
Lemma parents u q : mine u -> mem_path u = Ok q ->
  get_node (m_heap x) true (removelast (steps_of q)) true = get_node (m_heap s) true (removelast (steps_of q)) true /\
  forall i, get_node (m_heap s) true (removelast (steps_of q)) true = Ok (Some i) -> first s i (last (steps_of q) []).
Proof.
  intros M E. destruct (mine_path u M) as (q' & n & rest & E' & N & St & Kn). rewrite E' in E. injection E as ->. rewrite St. destruct rest as [|m rest].
  - cbn [removelast last]. split; [reflexivity|]. intros i Ei. injection Ei as <-. right. now split.
  - change (removelast (n :: m :: rest)) with (n :: removelast (m :: rest)). destruct (gets true true n (removelast (m :: rest)) Kn) as [G1 G2]. split; [exact G1|].
    intros i Ei. left. exact (G2 _ Ei i eq_refl).
Qed.
End States.

Definition same2 {A} (I : list nat) (Q : A -> Prop) (r1 r2 : res A * mst) : Prop := fst r1 = fst r2 /\ pruned I (snd r1) (snd r2) /\ forall a, fst r1 = Ok a -> Q a.
Lemma s2_same {A} I (Q : A -> Prop) (r : res A) s x : pruned I s x -> (forall a, r = Ok a -> Q a) -> same2 I Q (r, s) (r, x).
Proof. intros P H. split; [reflexivity|]. split; [exact P|exact H]. Qed.
Lemma look_bind {A} I (Q : A -> Prop) s x u f k : pruned I s x -> mine u -> (forall i, inner s i -> same2 I Q (k i s) (k i x)) ->
  same2 I Q (bind (lookup_node u f) k s) (bind (lookup_node u f) k x).
Proof.
  intros P M H. unfold lookup_node, lookup, bind, lift. destruct (look I s x P true u f M) as [E L]. rewrite E.
  destruct (get_node_for_path (m_heap s) true u f) as [[i|]|e]; cbn [need]; [|now apply s2_same|now apply s2_same]. apply H. exact (L _ eq_refl i eq_refl).
Qed.
Lemma parent_bind {A} I (Q : A -> Prop) s x u q k : pruned I s x -> mine u -> mem_path u = Ok q -> (forall i, first s i (last (steps_of q) []) -> same2 I Q (k i s) (k i x)) ->
  same2 I Q (bind (parent_node q) k s) (bind (parent_node q) k x).
Proof.
  intros P M Eq H. unfold parent_node, bind, lift. destruct (parents I s x P u q M Eq) as [E L]. rewrite E.
  destruct (get_node (m_heap s) true (removelast (steps_of q)) true) as [[i|]|e]; cbn [need]; [|now apply s2_same|now apply s2_same]. apply H. exact (L i eq_refl).
Qed.
Local Notation on I := (both (pruned I)).
Lemma on_read {A} I (Q : A -> Prop) u f (g : node -> res A) : mine u -> (forall s x i a, pruned I s x -> inner s i -> g (m_heap s i) = Ok a -> Q a) ->
  on I Q (let! i <- lookup_node u f; let! n <- get_node_obj i; lift (g n)) (let! i <- lookup_node u f; let! n <- get_node_obj i; lift (g n)).
Proof.
  intros M G s x P. apply (look_bind I Q s x u f _ P M). intros i Hi. unfold bind, get_node_obj, lift. cbn [fst snd]. rewrite (node_at I s x P i Hi). apply s2_same; [exact P|]. intros a. now apply (G s x).
Qed.
(** *** Tests *)
Lemma tests {A} I u (g : option node -> A) (k : exc -> res A) : mine u ->
  on I any (fun s => match get_node_for_path (m_heap s) false u true with Ok o => (Ok (g (option_map (m_heap s) o)), s) | Raise e => (k e, s) end)
           (fun s => match get_node_for_path (m_heap s) false u true with Ok o => (Ok (g (option_map (m_heap s) o)), s) | Raise e => (k e, s) end).
Proof.
  intros M s x P. destruct (look I s x P false u true M) as [E L]. rewrite E. destruct (get_node_for_path (m_heap s) false u true) as [[i|]|e]; try (now apply s2_same).
  cbn [option_map]. rewrite (node_at I s x P i (L _ eq_refl i eq_refl)). now apply s2_same.
Qed.
Lemma both_ext {S1 S2 A} (R : S1 -> S2 -> Prop) (Q : A -> Prop) m1 m2 m1' m2' : (forall s, m1 s = m1' s) -> (forall s, m2 s = m2' s) -> both R Q m1' m2' -> both R Q m1 m2.
Proof. intros E1 E2 H s1 s2 HR. rewrite E1, E2. now apply H. Qed.
Lemma on_isdir I u : mine u -> on I any (mem_isdir u) (mem_isdir u).
Proof.
  intros M. apply (both_ext (pruned I) any _ _ _ _) with (3 := tests I u (fun o => match o with Some n => is_dir n | None => false end) (fun e => match e with OSError ELOOP => Ok false | OSError _ => Ok true | _ => Raise e end) M);
    intros s; destruct (mine_path _ M) as (q & n & rest & E & N & _); unfold mem_isdir, bind, lift; rewrite E; (destruct q as [|c q]; [easy|]);
    (destruct (get_node_for_path (m_heap s) false u true) as [[i|]|e]; [reflexivity|reflexivity|]); destruct e; try reflexivity; match goal with c : errno |- _ => destruct c end; reflexivity.
Qed.
Lemma on_isfile I u : mine u -> on I any (mem_isfile u) (mem_isfile u).
Proof.
  intros M. apply (both_ext (pruned I) any _ _ _ _) with (3 := tests I u (fun o => match o with Some n => is_file n | None => false end) (fun e => match e with OSError _ => Ok false | _ => Raise e end) M);
    intros s; destruct (mine_path _ M) as (q & n & rest & E & N & _); unfold mem_isfile, bind, lift; rewrite E; (destruct q as [|c q]; [easy|]);
    (destruct (get_node_for_path (m_heap s) false u true) as [[i|]|e]; [reflexivity|reflexivity|]); destruct e; try reflexivity; match goal with c : errno |- _ => destruct c end; reflexivity.
Qed.
Lemma on_exists I u : mine u -> on I any (mem_exists u) (mem_exists u).
Proof.
  intros M. apply (both_ext (pruned I) any _ _ _ _) with (3 := tests I u (fun o => match o with Some n => true | None => false end) (fun e => match e with OSError ELOOP => Ok false | OSError _ => Ok true | _ => Raise e end) M);
    intros s; destruct (mine_path _ M) as (q & n & rest & E & N & _); unfold mem_exists, bind, lift; rewrite E; (destruct q as [|c q]; [easy|]);
    (destruct (get_node_for_path (m_heap s) false u true) as [[i|]|e]; [reflexivity|reflexivity|]); destruct e; try reflexivity; match goal with c : errno |- _ => destruct c end; reflexivity.
Qed.
Lemma on_islink I u : mine u -> on I any (mem_islink u) (mem_islink u).
Proof.
  intros M s x P. destruct (mine_path u M) as (q & n & rest & E & N & _). unfold mem_islink, lookup, bind, lift. rewrite E. destruct q as [|c q]; [easy|].
  destruct (look I s x P false u false M) as [E' L]. rewrite E'. destruct (get_node_for_path (m_heap s) false u false) as [[i|]|e]; try (now apply s2_same).
  unfold get_node_obj, ret. rewrite (node_at I s x P i (L _ eq_refl i eq_refl)). now apply s2_same.
Qed.
Lemma on_hook I u f : mine u -> on I any (mem_hook u f) (mem_hook u f).
Proof.
  intros M s x P. destruct (mine_path u M) as (q & n & rest & E & N & St & Kn). unfold mem_hook, bind, lift. rewrite E.
  rewrite (pr_cbs _ _ _ _ _ P q) by (right; unfold steps_of in St; now rewrite St). destruct (dget q (m_cbs s)) as [[cb|]|]; [destruct (cb u f)| |]; now apply s2_same.
Qed.
Lemma on_readlink I u : mine u -> on I (leads_in K) (mem_readlink u) (mem_readlink u).
Proof.
  intros M. destruct (mine_path u M) as (q & n & rest & E & N & _).
  eapply both_ext with (m1' := let! i <- lookup_node u false; let! n <- get_node_obj i; lift (match n with NLink t _ _ => Ok t | _ => Raise (OSError EINVAL) end)); [| |apply on_read; [exact M|]].
  - intros s. unfold mem_readlink. unfold bind at 1, lift at 1. rewrite E. destruct q; [easy|]. unfold bind. destruct (lookup_node u false s) as [[i|e] s']; [|reflexivity]. unfold get_node_obj. now destruct (m_heap s' i).
  - intros s. unfold mem_readlink. unfold bind at 1, lift at 1. rewrite E. destruct q; [easy|]. unfold bind. destruct (lookup_node u false s) as [[i|e] s']; [|reflexivity]. unfold get_node_obj. now destruct (m_heap s' i).
  - intros s x i a P Hi G. destruct (m_heap s i) as [|? ? ?|tg mt mo] eqn:H; try discriminate G. injection G as <-. exact (links1 K s0 I s x P i tg mt mo Hi H).
Qed.
Lemma on_info I u f : mine u -> on I any (mem_info u f) (mem_info u f).
Proof. intros M. apply (on_read I any u f (fun n => Ok (mkBunch (node_mtime n) (node_mode n) (node_size n)))); [exact M|]. now intros. Qed.
Lemma on_mtime I u : mine u -> on I any (mem_mtime u) (mem_mtime u).
Proof. intros M. apply (on_read I any u true (fun n => Ok (node_mtime n))); [exact M|]. now intros. Qed.
Lemma on_isexec I u m : mine u -> on I any (mem_isexec u m) (mem_isexec u m).
Proof. intros M. apply (both_bind (pruned I) any); [now apply on_info|]. intros b _. now apply both_ret. Qed.
Lemma nonempty_mine u q : mine u -> mem_path u = Ok q -> exists n steps, nonempty_steps q = n :: steps /\ K n = true.
Proof.
  intros M E. destruct (mine_path u M) as (q' & n & rest & E' & N & St & Kn). rewrite E' in E. injection E as ->. unfold nonempty_steps. rewrite St. cbn [filter].
  destruct (tops n Kn) as (Nn & _). destruct n as [|c n]; [easy|]. eexists _, _. split; [reflexivity|exact Kn].
Qed.
Lemma on_listdir I u : mine u -> on I (Forall simple_name) (mem_listdir u) (mem_listdir u).
Proof.
  intros M s x P. destruct (mine_path u M) as (q & n0 & rest0 & E & N & _). destruct (nonempty_mine u q M E) as (n & steps & Es & Kn). unfold mem_listdir, bind, lift. rewrite E, Es.
  destruct (gets I s x P true true n steps Kn) as [G L]. rewrite G. destruct (get_node (m_heap s) true (n :: steps) true) as [[i|]|e]; cbn [need]; try (now apply s2_same).
  pose proof (L _ eq_refl i eq_refl) as Hi. unfold get_node_obj, ret. rewrite (node_at I s x P i Hi). destruct (m_heap s i) as [f|es mt mo|tg mt mo] eqn:H; try (now apply s2_same). apply s2_same; [exact P|].
  intros l El. injection El as <-. apply Forall_forall. intros m Im. destruct (inside_view K s i Hi) as (c & p & Kc & Ph & V). apply (en_names _ _ (pr_enc _ _ _ _ _ P) c p m Kc).
  assert (Im' : In m (map fst es)).
  { pose proof (sorted_in (fun y => In y (map fst es)) (map fst es) (proj2 (Forall_forall _ _) (fun y H => H))) as X. rewrite Forall_forall in X. now apply X. }
  change (c :: p ++ [m]) with ((c :: p) ++ [m]). unfold view, tree_of. rewrite phys_snoc, Ph, H. apply dhas_In in Im'. unfold dhas in Im'. destruct (dget m es); [discriminate|discriminate Im'].
Qed.
(** *** Changes *)
Lemma upd_on I s x i n : pruned I s x -> inner s i -> dir_entries n = dir_entries (m_heap s i) -> (forall tg mt mo, n = NLink tg mt mo -> exists mt' mo', m_heap s i = NLink tg mt' mo') ->
  same2 I any (upd i n s) (upd i n x).
Proof. intros P Hi D L. split; [reflexivity|]. split; [|now intros]. cbn [snd upd]. now apply change_set. Qed.
Lemma attrs_on I s x i n mt mo : pruned I s x -> inner s i -> n = m_heap s i -> same2 I any (upd i (set_attrs n mt mo) s) (upd i (set_attrs n mt mo) x).
Proof. intros P Hi ->. apply upd_on; auto; destruct (m_heap s i); try reflexivity; try discriminate. intros tg a b E. injection E as -> _ _. eauto. Qed.
Lemma on_attrs I u f (g : node -> Z) (k : node -> Z) : mine u ->
  on I any (let! i <- lookup_node u f; let! n <- get_node_obj i; upd i (set_attrs n (g n) (k n))) (let! i <- lookup_node u f; let! n <- get_node_obj i; upd i (set_attrs n (g n) (k n))).
Proof.
  intros M s x P. apply (look_bind I any s x u f _ P M). intros i Hi. unfold bind, get_node_obj. rewrite (node_at I s x P i Hi). now apply attrs_on.
Qed.
Lemma on_set_info I u mo mt f : mine u -> on I any (mem_set_info u mo mt f) (mem_set_info u mo mt f).
Proof. apply (on_attrs I u f (fun n => match mt with Some t => t | None => node_mtime n end) (fun n => match mo with Some m => m | None => node_mode n end)). Qed.
Lemma on_manip_mtime I u t : mine u -> on I any (mem_manip_mtime u t) (mem_manip_mtime u t).
Proof. apply (on_attrs I u true (fun _ => t) node_mode). Qed.
Lemma on_set_exec I u m : mine u -> on I any (mem_set_exec u m) (mem_set_exec u m).
Proof. intros M. apply (both_bind (pruned I) any); [now apply on_info|]. intros b _. now apply on_set_info. Qed.
Lemma on_copystat I u v : mine u -> mine v -> on I any (mem_copystat u v) (mem_copystat u v).
Proof.
  intros M M' s x P. apply (look_bind I any s x u true _ P M). intros i Hi. apply (look_bind I any s x v true _ P M'). intros j Hj.
  unfold bind, get_node_obj. rewrite (node_at I s x P i Hi), (node_at I s x P j Hj). now apply attrs_on.
Qed.
Lemma on_manip_callback I u cb : mine u -> on I any (mem_manip_callback u cb) (mem_manip_callback u cb).
Proof.
  intros M s x P. destruct (mine_path u M) as (q & n & rest & E & N & St & Kn). unfold mem_manip_callback, bind, lift. rewrite E. split; [reflexivity|]. split; [|now intros]. cbn [snd].
  assert (Kq : K (hd [] (split_on cSlash q)) = true) by (unfold steps_of in St; now rewrite St). destruct P. constructor; auto; cbn [m_cbs].
  - intros p Hp. rewrite !dget_dset. destruct (str_eqb p q); auto.
  - intros p Hp. rewrite dget_dset. destruct (str_eqb p q) eqn:Eq; [|auto]. apply str_eqb_eq in Eq as ->. exfalso. apply Hp. now right.
  - intros p Hp. rewrite dget_dset. destruct (str_eqb p q) eqn:Eq; [|auto]. apply str_eqb_eq in Eq as ->. congruence.
Qed.
Lemma on_make u leaf : mine u -> (forall s x, pruned [] s x -> leaf x = leaf s) -> (forall s, no_entries (leaf s)) -> (forall s tg mt mo, leaf s = NLink tg mt mo -> leads_in K tg) ->
  on [] any (make u leaf) (make u leaf).
Proof.
  intros M L1 L2 L3 s x P. destruct (mine_path u M) as (q & n & rest & E & N & St & Kn). unfold make. unfold bind at 1, lift at 1. unfold bind at 6, lift at 1. rewrite E. destruct q as [|c q]; [easy|].
  apply (parent_bind [] any s x u _ _ P M E). intros i Hi. pose proof (mine_pieces u _ M E) as Sn. remember (last (steps_of (c :: q)) []) as m eqn:Em. clear Em.
  unfold node_has, bind, get_node_obj. destruct (start_dirs K s0 [] s x i m P Hi) as [(es & mt & mo & es' & mt' & mo' & H & Hx & D & _)|[H Hx]].
  - rewrite H, Hx. unfold ret. assert (Dh : dhas m es' = dhas m es) by (unfold dhas; now rewrite D). rewrite Dh. destruct (dhas m es) eqn:Dm; [now apply s2_same|].
    unfold get, alloc, create_child, get_node_obj, bind, upd. cbn [m_heap m_next m_now m_epoch m_held m_cbs set_heap].
    assert (Hl : i < m_next s). { destruct (start_place K s0 [] s x i m P Hi) as (_ & _ & _ & _ & _ & _ & _ & X). exact X. }
    pose proof (pr_next _ _ _ _ _ P) as Nx. rewrite !heap_set_other by lia. rewrite H, Hx.
    pose proof (change_add K tops s0 [] s x i m (leaf s) es mt mo P Hi H Dm (L2 s) Sn (L3 s)) as C. split; [reflexivity|]. split; [|now intros].
    apply (pruned_incl K s0 [m_next s] []); [|intros ? []]. unfold added in C. cbn [snd]. rewrite (heap_add_eq _ _ _ _ _ es mt mo Hl H), (heap_add_eq _ _ _ _ _ es' mt' mo') in C; [|lia|exact Hx].
    rewrite (L1 s x P). exact C.
  - rewrite Hx. destruct (m_heap s i); try discriminate H; now apply s2_same.
Qed.
Lemma on_mkdir u : mine u -> on [] any (mem_mkdir u) (mem_mkdir u).
Proof.
  intros M. rewrite mkdir_make. apply on_make; [exact M| | |].
  - intros s x P. now rewrite (pr_now _ _ _ _ _ P).
  - intros s es E. now injection E as <-.
  - discriminate.
Qed.
Lemma on_symlink t u : leads_in K t -> mine u -> on [] any (mem_symlink t u) (mem_symlink t u).
Proof.
  intros T M. rewrite symlink_make. apply on_make; [exact M| | |].
  - intros s x P. now rewrite (pr_now _ _ _ _ _ P).
  - intros s es. discriminate.
  - intros s tg mt mo E. injection E as <- _ _. exact T.
Qed.
Lemma del_on s x i n : pruned [] s x -> first s i n \/ i = root_id /\ n = [] -> same2 [] any (del_child i n s) (del_child i n x).
Proof.
  intros P [Hi|[ -> ->]]; unfold del_child, bind, get_node_obj.
  - destruct (start_dirs K s0 [] s x i n P Hi) as [(es & mt & mo & es' & mt' & mo' & H & Hx & D & _)|[H Hx]].
    + rewrite H, Hx. assert (Dh : dhas n es' = dhas n es) by (unfold dhas; now rewrite D). rewrite Dh. destruct (dhas n es); [|now apply s2_same].
      split; [reflexivity|]. split; [|now intros]. exact (change_del K tops s0 s x i n es mt mo es' mt' mo' P Hi H Hx).
    + rewrite Hx. destruct (m_heap s i); try discriminate H; now apply s2_same.
  - destruct (wf_root _ _ (pr_wf _ _ _ _ _ P)) as (es & mt & mo & H). destruct (pr_root _ _ _ _ _ P es mt mo H) as (es' & mt' & mo' & Hx & _ & D). rewrite H, Hx. unfold dhas. rewrite (D [] blank_false).
    replace (dget [] es) with (@None nat); [now apply s2_same|]. pose proof (pr_blank _ _ _ _ _ P) as B. unfold view, tree_of in B. cbn [phys] in B. rewrite H in B. destruct (dget [] es); [discriminate B|reflexivity].
Qed.
(** The entry taken out of the directory found *)
Lemma last_start s x u q p n steps : pruned [] s x -> mine u -> mem_path u = Ok q -> nonempty_steps q = n :: steps -> pinside K (m_heap s) (Some p) (n :: steps) ->
  first s p (u_last u) \/ p = root_id /\ u_last u = [].
Proof.
  intros P M E Es Hp. destruct (Hp p eq_refl) as [Hi|[ -> (m & Em & Km)]]; [left; now left|]. rewrite Em in Es. destruct (last_top K tops u q m M E Es) as [-> | ->]; [left; right; now split|right; now split].
Qed.
Lemma on_removefile u : mine u -> on [] any (mem_removefile u) (mem_removefile u).
Proof.
  intros M s x P. destruct (mine_path u M) as (q & n0 & rest0 & E & N & _). destruct (nonempty_mine u q M E) as (n & steps & Es & Kn). unfold mem_removefile, bind, lift. rewrite E, Es.
  destruct (prevs [] s x P true false n steps Kn) as [G L]. rewrite G. destruct (get_node_prev (m_heap s) true (n :: steps) false) as [[p c]|e]; cbn [fst]; [|now apply s2_same].
  destruct p as [p|]; [|now apply s2_same]. apply (del_on s x p (u_last u) P). apply (last_start s x u q p n steps P M E Es). exact (proj2 (L _ _ eq_refl)).
Qed.
Lemma on_removedir u : mine u -> on [] any (mem_removedir u) (mem_removedir u).
Proof.
  intros M s x P. destruct (mine_path u M) as (q & n0 & rest0 & E & N & _). destruct (nonempty_mine u q M E) as (n & steps & Es & Kn). unfold mem_removedir, bind, lift. rewrite E, Es.
  destruct (prevs [] s x P true true n steps Kn) as [G L]. rewrite G. destruct (get_node_prev (m_heap s) true (n :: steps) true) as [[p c]|e]; cbn [fst]; [|now apply s2_same].
  destruct p as [p|]; [|now apply s2_same]. destruct (last_start s x u q p n steps P M E Es (proj2 (L _ _ eq_refl))) as [Hp|[ -> Hl]].
  - destruct (childs [] s x P true max_links p (u_last u) true Hp) as [C Q]. rewrite C. destruct (child (m_heap s) true max_links p (u_last u) true) as [[i|]|e]; cbn [need]; try (now apply s2_same).
    unfold get_node_obj. rewrite (node_at [] s x P i (Q _ eq_refl i eq_refl)). destruct (m_heap s i) as [f|[|y es] mt mo|tg mt mo]; try (now apply s2_same). apply (del_on s x p (u_last u) P). now left.
  - rewrite Hl. destruct (wf_root _ _ (pr_wf _ _ _ _ _ P)) as (es & mt & mo & H). destruct (pr_root _ _ _ _ _ P es mt mo H) as (es' & mt' & mo' & Hx & _ & D).
    assert (B : dget [] es = None). { pose proof (pr_blank _ _ _ _ _ P) as B. unfold view, tree_of in B. cbn [phys] in B. rewrite H in B. destruct (dget [] es); [discriminate B|reflexivity]. }
    unfold max_links. cbn [child]. rewrite H, Hx, B, (D [] blank_false). cbn [need]. now apply s2_same.
Qed.
End Part.
