(** Copying a directory to a place below itself never ends. *)
From Verif Require Import Str Exc Utf8 UriParse BaseUri StrFacts Utf8Facts SpecUri Mem SpecMem MemOps Generic SpecGen.
From Verif Require Import UriFacts2 UriFacts3 UriFacts4 MemFacts MemFacts2 MemFacts3 MemFacts4 MemFacts5 MemFacts6 MemFacts7 MemFacts8 MemFacts9 MemUri MemFacts10 MemFacts11 GenFacts1 GenFacts2 GenFacts3 GenFacts4 GenFacts5 GenFacts6 GenFacts7 GenFacts8 GenFacts9.
From Coq Require Import Sorted.

Local Notation B := mem_backend.
Local Notation joined := (join_with [cSlash]).

Lemma repeat_snoc {A} (x : A) j : repeat x (S j) = repeat x j ++ [x].
Proof. induction j; [reflexivity|]. cbn [repeat app] in *. now rewrite <- IHj. Qed.

Section Deep.
Variables (q : list str) (m : str).
Hypothesis Nq : q <> [].
Hypothesis Gq : good_path (q ++ [m]).
Hypothesis Um : unpadded m.
Local Notation rep := (repeat m).

Record nest (K : nat) (s : mst) : Prop := {
  ne_wf : wf s;
  ne_silent : silent s;
  ne_dir : forall j, (j <= K)%nat -> is_edir (view s (q ++ rep j));
  ne_only : forall j n, (j <= K)%nat -> view s ((q ++ rep j) ++ [n]) <> None -> n = m /\ (j < K)%nat }.

Lemma rep_ok j : Forall name_ok (rep j).
Proof. apply Forall_forall. intros x Hx. apply repeat_spec in Hx. subst. destruct Gq as [g _]. apply Forall_app in g as [_ g]. now inversion g. Qed.
Lemma rep_good j : good_path (q ++ rep j).
Proof.
  destruct Gq as [g1 g2]. apply Forall_app in g1 as [g1 g3]. split; [apply Forall_app; auto using rep_ok|].
  destruct q as [|a q']; [easy|]. intros n r E. cbn in E. injection E as E1 E2. subst n. apply (g2 a (q' ++ [m])). reflexivity.
Qed.
Lemma rep_next j : (q ++ rep j) ++ [m] = q ++ rep (S j).
Proof. now rewrite repeat_snoc, app_assoc. Qed.
Section At.
Variables (K : nat) (s : mst).
Hypothesis N : nest K s.
Let W := ne_wf K s N.
Let Q := ne_silent K s N.
Lemma n_leads j : (j <= K)%nat -> leads (view s) (q ++ rep j) (Found (q ++ rep j)).
Proof. intros L. apply (resolves_dir (m_heap s)). now apply (ne_dir K s N). Qed.
Lemma n_isdir j : (j <= K)%nat -> mem_isdir (mem_uri (q ++ rep j)) s = (Ok true, s).
Proof.
  intros L. apply isdir_found with (q := q ++ rep j); auto using W, rep_good, n_leads. now apply (ne_dir K s N).
Qed.
Lemma n_islink j : (S j <= K)%nat -> mem_islink (mem_uri (q ++ rep (S j))) s = (Ok false, s).
Proof.
  intros L. rewrite <- rep_next. rewrite (islink_found s W _ (q ++ rep j) m (q ++ rep j)).
  - rewrite rep_next. destruct (ne_dir K s N (S j) L) as (a & b & E). now rewrite E.
  - apply mem_addr. rewrite rep_next. apply rep_good.
  - apply (fresh_dir (m_heap s) (m_next s)); [apply W|]. apply (ne_dir K s N). lia.
  - apply n_leads. lia.
  - apply (ne_dir K s N). lia.
Qed.
Lemma n_list j : (j < K)%nat -> mem_listdir (mem_uri (q ++ rep j)) s = (Ok [m], s).
Proof.
  intros L. assert (Fc : filter nonempty (q ++ rep j) = q ++ rep j).
  { apply proper_filter. destruct (rep_good j) as [g _]. eapply Forall_impl; [|exact g]. intros x; apply name_ne. }
  destruct (listdir_spec s W (mem_uri (q ++ rep j)) (q ++ rep j) (q ++ rep j)) as (l & E & S & I);
    auto using mem_addr, rep_good; [rewrite Fc; apply n_leads; lia|apply (ne_dir K s N); lia|].
  rewrite E. f_equal. f_equal.
  assert (Hm : In m l).
  { apply I. rewrite rep_next. destruct (ne_dir K s N (Datatypes.S j)) as (a & b & X); [lia|]. rewrite X. discriminate. }
  assert (Ho : forall x, In x l -> x = m).
  { intros x Hx. apply I in Hx. apply (ne_only K s N j x) in Hx; [tauto|lia]. }
  apply slt_NoDup in S. destruct l as [|a [|b l]]; [easy| |].
  - f_equal. apply Ho. now left.
  - exfalso. rewrite (Ho a), (Ho b) in S by (cbn; tauto). inversion S; subst. cbn in *. tauto.
Qed.
(** One more level *)
Lemma n_makedirs F : (2 <= F)%nat ->
  exists s', u_makedirs B F (mem_uri (q ++ rep (S K))) s = (Ok tt, s') /\ nest (S K) s'.
Proof.
  intros HF.
  assert (Gp : gap (view s) (q ++ rep (S K)) (q ++ rep K) [m]).
  { exists (q ++ rep K). rewrite <- rep_next. split; [reflexivity|]. split; [apply n_leads; lia|]. split; [apply (ne_dir K s N); lia|].
    intros n b' E. injection E as <- _. destruct (view s ((q ++ rep K) ++ [m])) eqn:X; auto. exfalso.
    destruct (ne_only K s N K m); [lia|congruence|lia]. }
  destruct (makedirs_gap [m] s (q ++ rep (S K)) (q ++ rep K) F) as (s' & R & W' & SR & A); auto using W, Q, rep_good.
  exists s'. split; [unfold u_makedirs; rewrite run_hooked; auto using Q, rep_good|].
  destruct A as [A1 A2].
  assert (At : view s' ((q ++ rep K) ++ [m]) = Some (EDir (m_now s) 0)) by (apply (A1 [m] []); [reflexivity|discriminate]).
  assert (Else : forall x, x <> (q ++ rep K) ++ [m] -> view s' x = view s x).
  { intros x Hx. apply A2. intros b1 b2 E Nb. destruct b1 as [|c b1]; [easy|]. injection E as <- E. apply eq_sym, app_eq_nil in E as [-> ->]. auto. }
  split; auto.
  - eapply silent_rest; eauto.
  - intros j L. destruct (Nat.eq_dec j (S K)) as [->|Nj].
    + rewrite <- rep_next, At. now repeat eexists.
    + rewrite Else; [apply (ne_dir K s N); lia|]. rewrite rep_next. intros E. apply app_inv_head in E.
      apply (f_equal (@length _)) in E. rewrite !repeat_length in E. lia.
  - intros j n L E. destruct (list_eq_dec (list_eq_dec N.eq_dec) ((q ++ rep j) ++ [n]) ((q ++ rep K) ++ [m])) as [X|X].
    + apply app_inj_tail in X as [X ->]. split; auto. apply app_inv_head in X. apply (f_equal (@length _)) in X. rewrite !repeat_length in X. lia.
    + rewrite Else in E by auto. destruct (Nat.eq_dec j (S K)) as [->|Nj].
      * exfalso. assert (D : is_edir (view s (q ++ rep (S K)))) by (apply (tree_parent (m_heap s) _ n); auto; apply W).
        rewrite <- rep_next in D. destruct D as (a & b & D). destruct (ne_only K s N K m); [lia|congruence|lia].
      * destruct (ne_only K s N j n); auto; lia.
Qed.
End At.

Variable F : nat.
Hypothesis HF : (2 <= F)%nat.
Variables (follow same : bool).
Local Notation body := (fun (_ : unit) root dirs files =>
  let! ds <- copy_step B F [] follow same (length (abs_path q) + 1) (mem_uri (q ++ [m])) root dirs files; ret (tt, ds)).
Lemma n_step j s : nest (S j) s ->
  exists s', copy_step B F [] follow same (length (abs_path q) + 1) (mem_uri (q ++ [m])) (mem_uri (q ++ rep j)) [m] [] s = (Ok [m], s') /\ nest (S (S j)) s'.
Proof.
  intros N. unfold copy_step. rewrite (good_path_path (q ++ rep j)) by apply rep_good.
  rewrite skip_source by auto. assert (Ur : Forall unpadded (rep j)) by (apply Forall_forall; intros x Hx; apply repeat_spec in Hx; now subst).
  pose proof (joined_strip (rep j) (rep_ok j) Ur) as Es.
  assert (Ed : (q ++ [m]) ++ rep j = q ++ rep (S j)) by (rewrite <- app_assoc; reflexivity).
  assert (X : rep j <> [] -> u_div (mem_uri (q ++ [m])) (joined (rep j)) = Ok (mem_uri (q ++ rep (S j)))).
  { intros Nr. rewrite <- Ed. apply mem_div_path; auto. rewrite Ed. apply (rep_good (S j)). }
  assert (Eb : (match strip_p is_space (joined (rep j)) with [] => ret (mem_uri (q ++ [m])) | _ :: _ => lift (u_div (mem_uri (q ++ [m])) (strip_p is_space (joined (rep j)))) end) s
               = (Ok (mem_uri (q ++ rep (S j))), s)).
  { etransitivity; [exact (f_equal (fun z => (match z with [] => ret (mem_uri (q ++ [m])) | _ :: _ => lift (u_div (mem_uri (q ++ [m])) z) end) s) Es)|].
    cbv beta. pose proof (joined_ne (rep j) (rep_ok j)) as Nj. destruct (joined (rep j)) as [|c z] eqn:Ej.
    - destruct j as [|j]; [reflexivity|]. exfalso. apply Nj; [discriminate|reflexivity].
    - apply lift_ok, X. intros E0. rewrite E0 in Ej. discriminate. }
  erewrite bind_ok by exact Eb. cbn [foldM str_in existsb].
  destruct (n_makedirs (S j) s N F HF) as (s' & R & N'). exists s'. split; auto.
  assert (E1 : u_div (mem_uri (q ++ rep (S j))) m = Ok (mem_uri (q ++ rep (S (S j))))) by (rewrite <- (rep_next (S j)); apply mem_div; rewrite rep_next; apply rep_good).
  assert (E2 : u_div (mem_uri (q ++ rep j)) m = Ok (mem_uri (q ++ rep (S j)))) by (rewrite <- (rep_next j); apply mem_div; rewrite rep_next; apply rep_good).
  erewrite bind_ok.
  2:{ erewrite bind_ok. 2:{ erewrite bind_ok by (apply lift_ok, E1). erewrite bind_ok by (apply lift_ok, E2).
      erewrite bind_ok by (unfold u_islink; rewrite run_hooked by (try apply N; apply rep_good); apply (n_islink (S j) s N); lia).
      cbn [andb]. erewrite bind_ok by exact R. reflexivity. }
      reflexivity. }
  reflexivity.
Qed.
Lemma n_walk f : forall j s, nest (S j) s -> fst (walk_gen B f true follow body tt (mem_uri (q ++ rep j)) s) = Raise OutOfFuel.
Proof.
  induction f as [|f IH]; intros j s N; [reflexivity|]. cbn [walk_gen].
  erewrite bind_ok by (apply (n_list (S j) s N); lia). change (sort_strs [m]) with [m].
  assert (E2 : u_div (mem_uri (q ++ rep j)) m = Ok (mem_uri (q ++ rep (S j)))) by (rewrite <- (rep_next j); apply mem_div; rewrite rep_next; apply rep_good).
  erewrite bind_ok.
  2:{ cbn [kinds]. erewrite bind_ok by (apply lift_ok, E2). erewrite bind_ok by (apply (n_isdir (S j) s N); lia). reflexivity. }
  cbn [fst snd]. destruct (n_step j s N) as (s' & R & N').
  erewrite bind_ok by (erewrite bind_ok by exact R; reflexivity). cbn [fst snd foldM].
  specialize (IH (S j) s' N'). destruct (walk_gen B f true follow body tt (mem_uri (q ++ rep (S j))) s') as [r s''] eqn:E. cbn [fst] in IH. subst r.
  erewrite bind_raise; [reflexivity|]. erewrite bind_raise; [reflexivity|].
  erewrite bind_ok by (apply lift_ok, E2).
  erewrite bind_ok by (unfold u_islink; rewrite run_hooked by (try apply N'; apply rep_good); apply (n_islink (S (S j)) s' N'); lia).
  exact E.
Qed.
End Deep.

Theorem copy_below s q m follow fuel : wf s -> silent s -> q <> [] -> good_path (q ++ [m]) -> unpadded m ->
  is_edir (view s q) -> (forall n, view s (q ++ [n]) = None) ->
  fst (u_copy B (S (S fuel)) true [] follow (mem_uri q) (mem_uri (q ++ [m])) s) = Raise OutOfFuel.
Proof.
  intros W Q Nq G U D O. assert (Gq : good_path q) by (eapply good_app; eauto).
  assert (N0 : nest q m 0 s).
  { split; auto.
    - intros j L. assert (j = 0)%nat by lia. subst. cbn. now rewrite app_nil_r.
    - intros j n L X. assert (j = 0)%nat by lia. subst. cbn in X. rewrite app_nil_r in X. now rewrite O in X. }
  assert (Lq : leads (view s) q (Found q)) by now apply (resolves_dir (m_heap s)).
  unfold u_copy. rewrite run_hooked by auto. unfold fs_copy, u_exists, u_isdir, u_islink.
  erewrite bind_ok by (rewrite run_hooked by auto; now apply exists_at with (q := q)). cbn [negb].
  erewrite bind_ok by (rewrite run_hooked by auto; now apply isdir_found with (q := q)). cbn [negb].
  assert (Lm : leads (view s) (q ++ [m]) Missing) by (eapply rs_app; eauto; constructor; auto).
  erewrite bind_ok by (rewrite run_hooked by auto; apply (isdir_none s W _ Missing); auto).
  erewrite bind_ok by reflexivity.
  assert (Il : mem_islink (mem_uri q) s = (Ok false, s)).
  { destruct (snoc_cases q) as [->|(d & n & ->)]; [easy|].
    assert (Nn : view s (d ++ [n]) <> None) by (destruct D as (? & ? & ->); discriminate).
    assert (Dd : is_edir (view s d)) by now apply (tree_parent (m_heap s) d n).
    rewrite (islink_found s W _ d n d); auto using mem_addr.
    - destruct D as (a & b & E). now rewrite E.
    - now apply (fresh_dir (m_heap s) (m_next s)).
    - now apply (resolves_dir (m_heap s)). }
  erewrite bind_ok by (rewrite run_hooked by auto; exact Il). cbn [andb].
  destruct (n_makedirs q m Nq G 0 s N0 (S (S fuel))) as (s1 & R1 & N1); [lia|].
  erewrite bind_ok by exact R1. cbv zeta.
  erewrite bind_ok by (apply (silent_hook s1 (mem_uri q) q); [apply N1|auto using mem_addr]).
  assert (E : mem_uri q = mem_uri (q ++ repeat m 0)) by (cbn; now rewrite app_nil_r).
  rewrite (good_path_path q) by auto. rewrite E. apply n_walk; auto; lia.
Qed.

(** ** remove(recursive=True) of the root empties it *)
Lemma remove_recursive_root s fuel : wf s -> silent s ->
  (forall r, view s r <> None -> good_path r) ->
  (forall x, link_reach (view s) [] x -> is_elink (view s x) -> exists x', arrow (view s) x x' /\ direct (view s) x') ->
  (m_next s <= fuel)%nat ->
  exists s', u_remove B fuel true (mem_uri []) s = (Ok tt, s') /\ wf s' /\ emptied (view s) (view s') [] /\ same_rest s s'.
Proof.
  intros W Q G H Hf. assert (D : is_edir (view s [])) by apply (root_dir s W).
  assert (G0 : good_path []) by (apply G; destruct D as (? & ? & ->); discriminate).
  assert (Hn : (0 < m_next s)%nat) by (apply (depth_bound s [] W); destruct D as (? & ? & ->); discriminate).
  destruct (rm_walk (m_next s - 1) fuel s [] (link_reach (view s) [])) as (s1 & E1 & W1 & M1 & R1); auto.
  - now apply link_reach_ok.
  - intros r Hr. now apply (lr_below (view s) []).
  - intros r Hr. apply (depth_bound s r W) in Hr. lia.
  - lia.
  - exists s1. split; auto. unfold u_remove. rewrite run_hooked by auto.
    assert (Ep : mem_path (mem_uri []) = Ok []) by reflexivity.
    assert (Il : forall s', mem_islink (mem_uri []) s' = (Ok false, s')) by reflexivity.
    erewrite bind_ok by apply Il. cbn match.
    erewrite bind_ok by reflexivity. cbn [negb]. cbn match. erewrite bind_ok by reflexivity. cbn match.
    unfold remove_dir_recursively. erewrite bind_ok by exact E1. erewrite bind_ok by apply Il. reflexivity.
Qed.

(** ** Copying a file leaves it alone unless the destination leads back to it *)
Lemma to_dir_dec s cs : wf s -> to_dir (view s) cs \/ ~ to_dir (view s) cs.
Proof.
  intros W. destruct (leads_total (m_heap s) cs) as [o L].
  assert (X : forall q, leads (view s) cs (Found q) -> o = Found q) by (intros q Lq; apply (leads_det (m_heap s) (m_next s) W _ _ _ L Lq)).
  destruct (outcome_cases o) as [[d ->]|Nf].
  - destruct (edir_dec (view s d)) as [D|D]; [left; exists d; auto|]. right. intros (q & Lq & Dq). apply X in Lq. injection Lq as <-. contradiction.
  - right. intros (q & Lq & _). now apply (Nf q), X.
Qed.
Lemma writable_dec s cs : wf s -> good_path cs ->
  (exists p, writable (view s) (mem_uri cs) p) \/ forall p, ~ writable (view s) (mem_uri cs) p.
Proof.
  intros W G. assert (A := mem_addr _ G).
  assert (Fr : (exists p, place (view s) (mem_uri cs) (Free p)) \/ forall p, ~ place (view s) (mem_uri cs) (Free p)).
  { destruct (snoc_cases cs) as [E0|(init & n & E0)].
    - right. intros p Hp. inversion Hp as [|i m d A' L D N E| | | |]; subst. pose proof (addr_inj _ _ _ A A') as E1. now destruct i.
    - destruct (leads_total (m_heap s) init) as [o L].
      assert (X : forall q, leads (view s) init (Found q) -> o = Found q) by (intros q Lq; apply (leads_det (m_heap s) (m_next s) W _ _ _ L Lq)).
      assert (Y : forall p, place (view s) (mem_uri cs) (Free p) -> exists d, o = Found d /\ is_edir (view s d) /\ view s (d ++ [n]) = None).
      { intros p Hp. inversion Hp as [|i m d A' L' D N E| | | |]; subst. pose proof (addr_inj _ _ _ A A') as E1. apply snoc_inj in E1 as [<- <-]. exists d. auto. }
      destruct (outcome_cases o) as [[d ->]|Nf].
      + destruct (edir_dec (view s d)) as [D|D].
        * destruct (view s (d ++ [n])) as [en|] eqn:E.
          -- right. intros p Hp. destruct (Y p Hp) as (d' & E1 & _ & E2). injection E1 as <-. congruence.
          -- left. exists (d ++ [n]). eapply pl_free; eauto. now rewrite <- E0.
        * right. intros p Hp. destruct (Y p Hp) as (d' & E1 & D' & _). injection E1 as <-. contradiction.
      + right. intros p Hp. destruct (Y p Hp) as (d' & E1 & _). now apply (Nf d'). }
  destruct Fr as [[p Hp]|Nf]; [left; exists p; now apply wr_free|].
  destruct (leads_total (m_heap s) cs) as [o L].
  assert (X : forall q, denotes (view s) (mem_uri cs) (Found q) -> o = Found q).
  { intros q (c' & A' & Lq). rewrite (addr_inj _ _ _ A' A) in Lq. apply (leads_det (m_heap s) (m_next s) W _ _ _ L Lq). }
  destruct (outcome_cases o) as [[q ->]|No].
  - destruct (found_real s cs q W L) as [Fq|Dq].
    + left. exists q. apply wr_file; auto. exists cs. auto.
    + right. intros p [p' Hp|q' Dn Fq]; [now apply (Nf p')|]. apply X in Dn. injection Dn as <-.
      destruct Fq as (? & ? & ? & Fq), Dq as (? & ? & Dq). congruence.
  - right. intros p [p' Hp|q' Dn Fq]; [now apply (Nf p')|]. apply X in Dn. now apply (No q').
Qed.
Lemma copy_dest_fun t n ct cd cd' : copy_dest t n ct cd -> copy_dest t n ct cd' -> cd = cd'.
Proof. intros [[A ->]|[A ->]] [[A' ->]|[A' ->]]; auto; contradiction. Qed.
Theorem copy_keeps s init n di q data mt mo fuel ig ct r s' : let cs := init ++ [n] in
  wf s -> silent s -> good_path cs -> fresh_last (view s) init n -> leads (view s) init (Found di) -> is_edir (view s di) ->
  leads (view s) cs (Found q) -> view s q = Some (EFile data mt mo) ->
  good_path ct -> (forall cd, copy_dest (view s) n ct cd -> good_path cd /\ ~ leads (view s) cd (Found q)) ->
  u_copy B fuel false ig true (mem_uri cs) (mem_uri ct) s = (r, s') ->
  (same_tree (view s) (view s') /\ exists e, r = Raise e) \/
  (exists p, p <> q /\ put_at (view s) (view s') p (EFile data mt mo) /\ r = Ok tt).
Proof.
  intros cs W Q G F Li Di L E Gt H R.
  assert (Cd : exists cd, copy_dest (view s) n ct cd).
  { destruct (to_dir_dec s ct W) as [T|T]; [exists (ct ++ [n])|exists ct]; [left|right]; auto. }
  destruct Cd as [cd Cd]. destruct (H cd Cd) as [Gd Nl].
  destruct (writable_dec s cd W Gd) as [[p Hp]|Nw].
  - right. exists p. assert (Np : p <> q).
    { intros ->. destruct Hp as [p' Pf|q' (c' & A' & Lq) Fq].
      - inversion Pf; subst. congruence.
      - apply Nl. now rewrite <- (addr_inj _ _ _ A' (mem_addr _ Gd)). }
    destruct (copy_file s W Q init n G q data mt mo L E fuel ig true (entry_is_link (view s (di ++ [n]))) ct cd p) as (s2 & R2 & _ & _ & P2);
      auto using andb_false_r.
    + apply (islink_found s W _ init n di); auto using mem_addr.
    + fold cs in R2. rewrite R in R2. injection R2 as -> ->. auto.
  - left. destruct (copy_file_fails s W Q init n G q data mt mo L E fuel ig ct Gt) as (e & s2 & R2 & _ & _ & P2).
    + intros cd' Cd'. now apply H.
    + intros cd' p Cd'. rewrite (copy_dest_fun _ _ _ _ _ Cd' Cd). apply Nw.
    + fold cs in R2. rewrite R in R2. injection R2 as -> ->. eauto.
Qed.

(** ** Outcomes by computation, for concrete states *)
Lemma leads_by s cs o : wf s -> (forall q, o = Found q -> phys (m_heap s) root_id q <> None) ->
  get_node (m_heap s) true cs true = res_of (m_heap s) true o ->
  get_node (m_heap s) false cs true = res_of (m_heap s) false o -> leads (view s) cs o.
Proof.
  intros W P T Fa. destruct (leads_total (m_heap s) cs) as [o' L].
  rewrite (get_node_spec (m_heap s) (m_next s) W true cs o' L) in T. rewrite (get_node_spec (m_heap s) (m_next s) W false cs o' L) in Fa.
  enough (E : o = o') by now subst. destruct o as [q| | | | |].
  - specialize (P q eq_refl). cbn in T. destruct (phys (m_heap s) root_id q) as [i|] eqn:Ep; [|easy].
    apply res_found in T as (q' & -> & Eq'). f_equal. eapply phys_inj; eauto.
  - destruct o'; cbn in *; try discriminate; auto.
  - destruct o'; cbn in *; try discriminate; auto.
  - destruct o'; cbn in *; try discriminate; auto.
  - destruct o'; cbn in *; try discriminate; auto.
  - destruct o'; cbn in *; try discriminate; auto.
Qed.
