(** remove(recursive=True) of a local directory, with links in it. *)
From Coq Require Import Lia Permutation Sorted.
From Verif Require Import Str Exc Utf8 UriParse BaseUri StrFacts UriFacts SpecUri UriFacts2 UriFacts3 UriFacts4 UriFacts5 UriFacts6.
From Verif Require Import Mem SpecMem MemFacts MemUri GenFacts1.
From Verif Require Import Generic SpecGen.
From Verif Require Import Misc Posix Local SpecLocal LocalFacts1 LocalFacts3 LocalFacts6 LocalFacts7 LocalFacts18.

Local Notation LB := loc_backend.

(** The entries [D] are gone, nothing else has changed. *)
Record cleared (x y : pst) (D : list str -> Prop) : Prop := {
  cl_sound : sound y;
  cl_gone : forall q, D q -> pget q (p_tree y) = None;
  cl_kept : forall q, ~ D q -> pget q (p_tree y) = pget q (p_tree x);
  cl_less : forall q, pget q (p_tree y) = None \/ pget q (p_tree y) = pget q (p_tree x);
  cl_rest : p_cwd y = p_cwd x /\ p_now y = p_now x /\ p_umask y = p_umask x }.
Lemma cl_refl x (D : list str -> Prop) : sound x -> (forall q, ~ D q) -> cleared x x D.
Proof. intros S N. split; auto. intros q H. now apply N in H. Qed.
Lemma cl_trans x y z D E F : cleared x y D -> cleared y z E -> (forall q, F q <-> D q \/ E q) -> cleared x z F.
Proof.
  intros [S1 G1 K1 L1 (R1 & R2 & R3)] [S2 G2 K2 L2 (Q1 & Q2 & Q3)] H. split; auto.
  - intros q Hq. apply H in Hq as [Hq|Hq]; auto. destruct (L2 q) as [->| ->]; auto.
  - intros q Hq. assert (~ D q /\ ~ E q) as [Nd Ne] by (rewrite H in Hq; tauto). now rewrite K2, K1.
  - intros q. destruct (L2 q) as [->| ->]; auto.
  - split; [congruence|]. split; congruence.
Qed.
Lemma cl_iff x y D E : cleared x y D -> (forall q, D q <-> E q) -> cleared x y E.
Proof.
  intros [S1 G1 K1 L1 R1] H. split; auto; intros q Hq; [apply G1; now apply H|apply K1; now rewrite H].
Qed.
Lemma cl_names x y D q : cleared x y D -> pget q (p_tree y) <> None -> pget q (p_tree x) <> None.
Proof. intros H. destruct (cl_less _ _ _ H q) as [->| ->]; easy. Qed.

Lemma cl_del x p : sound x -> p <> [] -> (forall n, pget (p ++ [n]) (p_tree x) = None) -> cleared x (set_tree x (pdel p (p_tree x))) (eq p).
Proof.
  intros S Np Hn. assert (G : forall q, pget q (pdel p (p_tree x)) = if path_eqb q p then None else pget q (p_tree x)) by (intros; apply pget_pdel).
  split; cbn [p_tree set_tree p_cwd p_now p_umask]; auto.
  - destruct S as [(mo & mt & R) U N]. split; cbn [p_tree set_tree].
    + exists mo, mt. rewrite G, path_eqb_neq by auto. exact R.
    + intros q n. rewrite !G. destruct (path_eqb (q ++ [n]) p); [easy|]. intros H. destruct (path_eqb q p) eqn:E.
      * apply path_eqb_spec in E as ->. now rewrite Hn in H.
      * now apply (U q n).
    + now apply pdel_nodup.
  - intros q <-. now rewrite G, path_eqb_refl.
  - intros q Hq. rewrite G, path_eqb_neq; auto.
  - intros q. rewrite G. destruct (path_eqb q p); auto.
Qed.

Lemma local_path p : plain_path p -> u_path (file_uri p) = abs_path p.
Proof. intros. now apply file_path, plain_good. Qed.
Lemma unlink_run x p e : sound x -> plain_path p -> pget p (p_tree x) = Some e -> is_pdir e = false ->
  exists y, loc_removefile (file_uri p) x = (Ok tt, y) /\ cleared x y (eq p).
Proof.
  intros S P E Ne. unfold loc_removefile. rewrite local_path by auto. rewrite unlink_abs by apply P. unfold sys_unlink.
  rewrite (look_at x S false p e) by (auto; apply P). eexists. split; [destruct e; try discriminate; reflexivity|].
  apply cl_del; auto.
  - intros ->. destruct (so_root x S) as (? & ? & R). rewrite R in E. injection E as <-. discriminate.
  - intros n. destruct (pget (p ++ [n]) (p_tree x)) eqn:En; auto. destruct (so_up x S p n) as (? & ? & Ep); [congruence|].
    rewrite Ep in E. injection E as <-. discriminate.
Qed.
Lemma islink_run x p e : sound x -> plain_path p -> pget p (p_tree x) = Some e -> loc_islink (file_uri p) x = (Ok (is_plink e), x).
Proof.
  intros S P E. unfold loc_islink, path_islink. rewrite local_path by auto. rewrite test_run. unfold tests.
  rewrite (look_at x S false p e) by (auto; apply P). reflexivity.
Qed.
Lemma rmdir_run x p : sound x -> plain_path p -> p <> [] -> is_dir_at x p -> (forall n, pget (p ++ [n]) (p_tree x) = None) ->
  exists y, loc_removedir (file_uri p) x = (Ok tt, y) /\ cleared x y (eq p).
Proof.
  intros S P Np (mo & mt & E) Hn. unfold loc_removedir. erewrite bind_ok by (eapply islink_run; eauto). cbn [is_plink].
  rewrite local_path by auto. rewrite rmdir_abs by apply P. unfold sys_rmdir. rewrite (look_at x S false p (PDir mo mt)) by (auto; apply P).
  assert (C : pchildren p (p_tree x) = []).
  { destruct (pchildren p (p_tree x)) as [|n l] eqn:C; auto. exfalso.
    assert (I : In n (pchildren p (p_tree x))) by (rewrite C; now left). apply children_get in I; [|apply (so_nodup x S)]. now rewrite Hn in I. }
  destruct p as [|c p]; [easy|]. rewrite C. eexists. split; [reflexivity|]. now apply cl_del.
Qed.

(** A loop that clears [E n] for each [n] *)
Lemma each_clears {A} (f : A -> str -> M pst A) (a0 : A) (E : str -> list str -> Prop) x l : forall dn y, NoDup (dn ++ l) ->
  cleared x y (fun q => exists n, In n dn /\ E n q) ->
  (forall dn' n y', In n l -> ~ In n dn' -> cleared x y' (fun q => exists n, In n dn' /\ E n q) -> exists z, f a0 n y' = (Ok a0, z) /\ cleared y' z (E n)) ->
  exists z, foldM f a0 l y = (Ok a0, z) /\ cleared x z (fun q => exists n, In n (dn ++ l) /\ E n q).
Proof.
  induction l as [|n l IH]; intros dn y N C H.
  - exists y. split; [reflexivity|]. now rewrite app_nil_r.
  - destruct (H dn n y) as (z & Ez & Cz); [now left| |exact C|].
    { intros I. apply NoDup_remove_2 in N. apply N. apply in_or_app. now left. }
    destruct (IH (dn ++ [n]) z) as (w & Ew & Cw).
    + now rewrite <- app_assoc.
    + eapply cl_trans; [exact C|exact Cz|]. intros q. split.
      * intros (m & I & Em). apply in_app_or in I as [I|[<-|[]]]; [left; eauto|auto].
      * intros [(m & I & Em)|Em]; [exists m|exists n]; (split; [apply in_or_app; cbn; auto|exact Em]).
    + intros dn' m y' Hm. apply H. now right.
    + exists w. split.
      * change (foldM f a0 (n :: l) y) with (bind (f a0 n) (fun a' => foldM f a' l) y). now erewrite bind_ok by exact Ez.
      * now rewrite <- app_assoc in Cw.
Qed.
Lemma map_fold {X} (f : X -> M pst unit) l : forall y, mapM_ f l y = foldM (fun _ n => f n) tt l y.
Proof.
  induction l as [|n l IH]; intros y; [reflexivity|]. cbn [mapM_].
  change (foldM (fun _ n => f n) tt (n :: l) y) with (bind (f n) (fun a' => foldM (fun _ n => f n) a' l) y). unfold bind.
  destruct (f n y) as [[[]|e] z]; auto.
Qed.

Definition is_dir_b (x : pst) (p : list str) : bool := tests x true is_pdir (abs_path p).
Lemma kinds_run x p names : sound x -> plain_path p -> (forall n, In n names -> plain_path (p ++ [n])) ->
  kinds LB (file_uri p) names x = (Ok (filter (fun n => is_dir_b x (p ++ [n])) names, filter (fun n => negb (is_dir_b x (p ++ [n]))) names), x).
Proof.
  intros S P. induction names as [|n names IH]; intros H; [reflexivity|]. cbn [kinds].
  assert (Pn : plain_path (p ++ [n])) by (apply H; now left).
  erewrite bind_ok by (apply lift_ok; now apply file_div').
  erewrite bind_ok. 2:{ cbn [b_isdir LB]. unfold loc_isdir, path_isdir. rewrite local_path by auto. apply test_run. }
  erewrite bind_ok by (apply IH; intros; apply H; now right). unfold ret. fold (is_dir_b x (p ++ [n])). cbn [filter fst snd].
  destruct (is_dir_b x (p ++ [n])); reflexivity.
Qed.
Lemma dir_dir_b x p : sound x -> plain_path p -> is_dir_at x p -> is_dir_b x p = true.
Proof. intros S P (mo & mt & E). unfold is_dir_b, tests. now rewrite (look_at x S true p (PDir mo mt)) by (auto; apply P). Qed.

Definition rm_body : unit -> uri -> list str -> list str -> M pst (unit * list str) :=
  fun _ root dirs files =>
       mapM_ (fun n => let! p <- lift (u_div root n); b_removefile LB p) files ;;
       mapM_ (fun n => let! d <- lift (u_div root n);
                       let! l <- b_islink LB d;
                       if l then b_removefile LB d else b_removedir LB d) dirs ;;
       ret (tt, dirs).

Lemma listdir_run x p : sound x -> plain_path p -> is_dir_at x p ->
  loc_listdir (file_uri p) x = (Ok (sort_strs (pchildren p (p_tree x))), x).
Proof.
  intros S P (mo & mt & E). unfold loc_listdir, os_listdir. rewrite local_path by auto.
  unfold bind. rewrite (look_at x S true p (PDir mo mt)) by (auto; apply P). reflexivity.
Qed.
Lemma sort_twice l : NoDup l -> sort_strs (sort_strs l) = sort_strs l.
Proof. intros N. apply sort_id. now apply sort_strict. Qed.

Lemma clear_below fuel : forall x p, sound x -> plain_path p -> is_dir_at x p ->
  (forall r, pget (p ++ r) (p_tree x) <> None -> plain_path (p ++ r) /\ (length r < fuel)%nat) ->
  exists y, walk_gen LB fuel false false rm_body tt (file_uri p) x = (Ok tt, y) /\ cleared x y (fun q => exists n r, q = p ++ n :: r).
Proof.
  induction fuel as [|fuel IH]; intros x p S P D H.
  { destruct (H []) as [_ L]; [rewrite app_nil_r; destruct D as (? & ? & ->); discriminate|lia]. }
  pose (names := sort_strs (pchildren p (p_tree x))).
  assert (Nn : NoDup names) by (apply sort_NoDup, children_nodup, (so_nodup x S)).
  assert (In_n : forall n, In n names <-> pget (p ++ [n]) (p_tree x) <> None).
  { intros n. unfold names. rewrite sort_In. apply children_get, (so_nodup x S). }
  assert (Pn : forall n, In n names -> plain_path (p ++ [n])) by (intros n Hn; apply H; now apply In_n).
  pose (isd := fun n => is_dir_b x (p ++ [n])).
  cbn [walk_gen b_listdir LB]. erewrite bind_ok by (now apply listdir_run). rewrite sort_twice by (apply children_nodup, (so_nodup x S)).
  fold names. erewrite bind_ok by (now apply kinds_run). fold isd. cbn [fst snd]. erewrite bind_ok by reflexivity. cbn [fst snd].
  (* the directories *)
  assert (Nd : forall g, NoDup (filter g names)) by (intros; now apply NoDup_filter).
  pose (E1 := fun (n : str) (q : list str) => is_dir_at x (p ++ [n]) /\ exists m r, q = (p ++ [n]) ++ m :: r).
  assert (C0 : cleared x x (fun q => exists n, In n [] /\ E1 n q)) by (apply cl_refl; auto; intros q (n & [] & _)).
  destruct (each_clears (fun a name => let! path <- lift (u_div (file_uri p) name); let! l <- u_islink LB path;
                            if negb l || false then walk_gen LB fuel false false rm_body a path else ret a) tt E1 x (filter isd names) [] x (Nd isd) C0) as (x1 & Ex1 & C1).
  { intros dn n y Hn Ndn C. apply filter_In in Hn as [Hn Hd].
    assert (Py : pget (p ++ [n]) (p_tree y) = pget (p ++ [n]) (p_tree x)).
    { apply (cl_kept _ _ _ C). intros (m & _ & _ & k & r & Eq). apply (f_equal (@length _)) in Eq. rewrite !app_length in Eq. cbn in Eq. lia. }
    pose proof (cl_sound _ _ _ C) as Sy.
    erewrite bind_ok by (apply lift_ok; apply file_div'; auto).
    destruct (pget (p ++ [n]) (p_tree x)) as [e|] eqn:Ee; [|now apply In_n in Hn].
    erewrite bind_ok. 2:{ unfold u_islink, hooked. erewrite bind_ok by reflexivity. cbn [b_islink LB]. apply islink_run; auto. exact Py. }
    rewrite orb_false_r. destruct (is_plink e) eqn:El; cbn [negb].
    - exists y. split; [reflexivity|]. apply cl_refl; auto. intros q [(mo & mt & Dn) _]. rewrite Ee in Dn. injection Dn as ->. discriminate.
    - destruct (is_pdir e) eqn:Ed.
      + destruct (IH y (p ++ [n])) as (z & Ez & Cz); auto.
        * destruct e as [| mo mt |]; try discriminate. exists mo, mt. exact Py.
        * intros r Hr. apply (cl_names _ _ _ _ C) in Hr. rewrite <- app_assoc in Hr. apply H in Hr as [Pr Lr].
          rewrite <- app_assoc. split; [exact Pr|]. cbn in Lr. lia.
        * exists z. split; [exact Ez|]. eapply cl_iff; [exact Cz|]. intros q. split.
          -- intros Hq. split; auto. destruct e as [| mo mt |]; try discriminate. exists mo, mt. exact Ee.
          -- intros [_ Hq]. exact Hq.
      + exfalso. unfold isd, is_dir_b, tests in Hd. rewrite (look_at x S true (p ++ [n]) e) in Hd; auto; [congruence|apply Pn; auto|congruence]. }
  cbn [app] in C1. erewrite bind_ok by exact Ex1.
  (* the files *)
  assert (K1 : forall n, pget (p ++ [n]) (p_tree x1) = pget (p ++ [n]) (p_tree x)).
  { intros n. apply (cl_kept _ _ _ C1). intros (m & _ & _ & k & r & Eq). apply (f_equal (@length _)) in Eq. rewrite !app_length in Eq. cbn in Eq. lia. }
  pose (E2 := fun (n : str) (q : list str) => p ++ [n] = q).
  assert (C02 : cleared x1 x1 (fun q => exists n, In n [] /\ E2 n q)) by (apply cl_refl; [apply (cl_sound _ _ _ C1)|]; intros q (n & [] & _)).
  destruct (each_clears (fun _ n => let! p <- lift (u_div (file_uri p) n); b_removefile LB p) tt E2 x1 (filter (fun n => negb (isd n)) names) [] x1 (Nd _) C02) as (x2 & Ex2 & C2).
  { intros dn n y Hn Ndn C. apply filter_In in Hn as [Hn Hd].
    assert (Py : pget (p ++ [n]) (p_tree y) = pget (p ++ [n]) (p_tree x)).
    { rewrite <- K1. apply (cl_kept _ _ _ C). intros (m & I & Eq). apply app_inv_head in Eq. injection Eq as ->. auto. }
    destruct (pget (p ++ [n]) (p_tree x)) as [e|] eqn:Ee; [|now apply In_n in Hn].
    erewrite bind_ok by (apply lift_ok; apply file_div'; auto).
    destruct (unlink_run y (p ++ [n]) e (cl_sound _ _ _ C) (Pn n Hn) Py) as (z & Ez & Cz).
    - destruct (is_pdir e) eqn:Ed; auto. exfalso. unfold isd in Hd. rewrite dir_dir_b in Hd; auto; [discriminate|].
      destruct e as [| mo mt |]; try discriminate. exists mo, mt. exact Ee.
    - exists z. split; [exact Ez|exact Cz]. }
  cbn [app] in C2.
  (* the directories again *)
  assert (K2 : forall n, In n (filter isd names) -> pget (p ++ [n]) (p_tree x2) = pget (p ++ [n]) (p_tree x)).
  { intros n Hn. rewrite <- K1. apply (cl_kept _ _ _ C2). intros (m & I & Eq). apply app_inv_head in Eq. injection Eq as ->.
    apply filter_In in I as [_ I], Hn as [_ Hn]. now rewrite Hn in I. }
  assert (C03 : cleared x2 x2 (fun q => exists n, In n [] /\ E2 n q)) by (apply cl_refl; [apply (cl_sound _ _ _ C2)|]; intros q (n & [] & _)).
  destruct (each_clears (fun _ n => let! d <- lift (u_div (file_uri p) n); let! l <- b_islink LB d; if l then b_removefile LB d else b_removedir LB d)
              tt E2 x2 (filter isd names) [] x2 (Nd _) C03) as (x3 & Ex3 & C3).
  { intros dn n y Hn Ndn C.
    assert (Py : pget (p ++ [n]) (p_tree y) = pget (p ++ [n]) (p_tree x)).
    { rewrite <- K2 by auto. apply (cl_kept _ _ _ C). intros (m & I & Eq). apply app_inv_head in Eq. injection Eq as ->. auto. }
    pose proof Hn as Hn'. apply filter_In in Hn as [Hn Hd]. pose proof (cl_sound _ _ _ C) as Sy.
    destruct (pget (p ++ [n]) (p_tree x)) as [e|] eqn:Ee; [|now apply In_n in Hn].
    erewrite bind_ok by (apply lift_ok; apply file_div'; auto). cbn [b_islink b_removefile b_removedir LB].
    erewrite bind_ok by (apply (islink_run y (p ++ [n]) e); auto). destruct (is_plink e) eqn:El.
    - destruct (unlink_run y (p ++ [n]) e Sy (Pn n Hn) Py) as (z & Ez & Cz); [now destruct e|]. exists z. split; [exact Ez|exact Cz].
    - assert (Ed : is_pdir e = true).
      { unfold isd, is_dir_b, tests in Hd. rewrite (look_at x S true (p ++ [n]) e) in Hd; auto; [apply Pn; auto|congruence]. }
      destruct e as [| mo mt |]; try discriminate.
      destruct (rmdir_run y (p ++ [n]) Sy (Pn n Hn)) as (z & Ez & Cz).
      + now destruct p.
      + exists mo, mt. exact Py.
      + intros m. assert (Z : pget ((p ++ [n]) ++ [m]) (p_tree x1) = None).
        { apply (cl_gone _ _ _ C1). exists n. split; auto. split; [exists mo, mt; exact Ee|]. now exists m, []. }
        destruct (cl_less _ _ _ C ((p ++ [n]) ++ [m])) as [->| ->]; auto.
        destruct (cl_less _ _ _ C2 ((p ++ [n]) ++ [m])) as [->| ->]; auto.
      + exists z. split; [exact Ez|exact Cz]. }
  cbn [app] in C3.
  exists x3. split.
  - unfold rm_body. rewrite <- !map_fold in Ex2, Ex3. erewrite bind_ok. 2:{ erewrite bind_ok by exact Ex2. erewrite bind_ok by exact Ex3. reflexivity. } reflexivity.
  - assert (C13 := cl_trans _ _ _ _ _ _ C1 (cl_trans _ _ _ _ _ (fun q => exists n, In n names /\ q = p ++ [n]) C2 C3
       ltac:(intros q; split;
         [intros (n & I & ->); destruct (isd n) eqn:Ei; [right|left]; exists n; (split; [apply filter_In; rewrite Ei; auto|reflexivity])
         |intros [(n & I & <-)|(n & I & <-)]; apply filter_In in I as [I _]; now exists n])) (fun q => iff_refl _)).
    split.
    + apply (cl_sound _ _ _ C3).
    + intros q (n & r & ->). destruct (pget (p ++ n :: r) (p_tree x)) as [e|] eqn:Ee.
      2:{ destruct (cl_less _ _ _ C13 (p ++ n :: r)) as [->| ->]; auto. }
      apply (cl_gone _ _ _ C13). assert (Hn : In n names).
      { apply In_n. destruct r as [|m r]; [congruence|]. destruct (so_dir x S (p ++ [n]) (m :: r)) as (? & ? & Z); [easy|rewrite <- app_assoc; cbn; congruence|congruence]. }
      destruct r as [|m r]; [right; exists n; auto|]. left. exists n.
      assert (Dn : is_dir_at x (p ++ [n])) by (apply (so_dir x S (p ++ [n]) (m :: r)); [easy|rewrite <- app_assoc; cbn; congruence]).
      split; [apply filter_In; split; auto; apply dir_dir_b; auto|]. split; auto. exists m, r. now rewrite <- app_assoc.
    + intros q Hq. apply (cl_kept _ _ _ C13). intros [(n & _ & _ & m & r & ->)|(n & _ & ->)]; apply Hq.
      * exists n, (m :: r). now rewrite <- app_assoc.
      * now exists n, [].
    + apply (cl_less _ _ _ C13).
    + apply (cl_rest _ _ _ C13).
Qed.

Lemma remove_tree_run x p fuel : sound x -> plain_path p -> p <> [] -> is_dir_at x p ->
  (forall r, pget (p ++ r) (p_tree x) <> None -> plain_path (p ++ r)) -> (length (p_tree x) <= fuel)%nat ->
  exists y, u_remove LB fuel true (file_uri p) x = (Ok tt, y) /\ cleared x y (below p).
Proof.
  intros S P Np D H Hf. destruct D as (mo & mt & E). assert (D : is_dir_at x p) by (exists mo, mt; exact E).
  destruct (clear_below fuel x p S P D) as (y & Ey & Cy).
  { intros r Hr. split; auto. pose proof (deep x S r p Hr). lia. }
  assert (Py : pget p (p_tree y) = Some (PDir mo mt)).
  { rewrite (cl_kept _ _ _ Cy); auto. intros (n & r & Z). apply (f_equal (@length _)) in Z. rewrite app_length in Z. cbn in Z. lia. }
  destruct (rmdir_run y p (cl_sound _ _ _ Cy) P Np) as (z & Ez & Cz).
  { exists mo, mt. exact Py. }
  { intros n. apply (cl_gone _ _ _ Cy). now exists n, []. }
  exists z. split.
  - unfold u_remove, hooked. erewrite bind_ok by reflexivity. cbn [b_islink b_exists b_isdir b_removefile b_removedir LB].
    erewrite bind_ok by (eapply islink_run; eauto). cbn [is_plink].
    erewrite bind_ok. 2:{ unfold loc_exists, path_exists. rewrite local_path by auto. apply (tested_at x S (fun _ => true) p (PDir mo mt)); auto; apply P. }
    cbn [negb]. erewrite bind_ok. 2:{ unfold loc_isdir, path_isdir. rewrite local_path by auto. apply (tested_at x S is_pdir p (PDir mo mt)); auto; apply P. }
    cbn [is_pdir]. unfold remove_dir_recursively. fold rm_body. erewrite bind_ok by exact Ey. cbn [b_islink b_removefile b_removedir LB].
    erewrite bind_ok by (apply (islink_run y p (PDir mo mt)); auto; apply (cl_sound _ _ _ Cy)). cbn [is_plink]. exact Ez.
  - eapply cl_trans; [exact Cy|exact Cz|]. intros q. split.
    + intros [[|n r] ->]; [right; now rewrite app_nil_r|left; eauto].
    + intros [(n & r & ->)|<-]; [now exists (n :: r)|exists []; now rewrite app_nil_r].
Qed.
