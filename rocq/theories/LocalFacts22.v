(** copy(recursive=True) of a local directory with links in it, without following them. *)
From Coq Require Import Lia Permutation Sorted.
From Verif Require Import Str Exc Utf8 UriParse BaseUri StrFacts UriFacts SpecUri UriFacts2 UriFacts3 UriFacts4 UriFacts5 UriFacts6.
From Verif Require Import Mem SpecMem MemFacts MemUri GenFacts1 GenFacts4 GenFacts8.
From Verif Require Import Generic SpecGen.
From Verif Require Import Misc Posix Local SpecLocal SpecLinks LocalFacts1 LocalFacts3 LocalFacts4 LocalFacts6 LocalFacts7 LocalFacts12 LocalFacts15 LocalFacts18 LocalFacts19 LocalFacts20 LocalFacts21.

Local Notation LB := loc_backend.
Local Notation joined := (join_with [cSlash]).

(** A loop that writes [E n] for each [n] *)
Lemma each_writes {A} (f : A -> str -> M pst A) (a0 : A) (E : str -> list str -> Prop) F x l : forall dn y, NoDup (dn ++ l) ->
  (forall n m q, E n q -> E m q -> n = m) ->
  wrote x y (fun q => exists n, In n dn /\ E n q) F ->
  (forall dn' n y', In n l -> ~ In n dn' -> wrote x y' (fun q => exists n, In n dn' /\ E n q) F -> exists z, f a0 n y' = (Ok a0, z) /\ wrote y' z (E n) F) ->
  exists z, foldM f a0 l y = (Ok a0, z) /\ wrote x z (fun q => exists n, In n (dn ++ l) /\ E n q) F.
Proof.
  induction l as [|n l IH]; intros dn y N I C H.
  - exists y. split; [reflexivity|]. now rewrite app_nil_r.
  - assert (Nd : ~ In n dn) by (intros Z; apply NoDup_remove_2 in N; apply N; apply in_or_app; now left).
    destruct (H dn n y) as (z & Ez & Cz); [now left|exact Nd|exact C|].
    destruct (IH (dn ++ [n]) z) as (w & Ew & Cw); auto.
    + now rewrite <- app_assoc.
    + eapply wr_trans; [exact C|exact Cz| |].
      * intros q (m & Im & Em) En. assert (m = n) by eauto. now subst.
      * intros q. split.
        -- intros (m & Im & Em). apply in_app_or in Im as [Im|[<-|[]]]; [left; eauto|auto].
        -- intros [(m & Im & Em)|Em]; [exists m|exists n]; (split; [apply in_or_app; cbn; auto|exact Em]).
    + intros dn' m y' Hm. apply H. now right.
    + exists w. split.
      * change (foldM f a0 (n :: l) y) with (bind (f a0 n) (fun a' => foldM f a' l) y). now erewrite bind_ok by exact Ez.
      * now rewrite <- app_assoc in Cw.
Qed.

Section Copy.
Variable x0 : pst.
Hypothesis So : sound x0.
Local Notation T0 := (p_tree x0).
Variables (p P : list str).
Variable fuel0 : nat.
Hypothesis Np : p <> [].
Hypothesis NP : P <> [].
Hypothesis Gp : plain_path p.
Hypothesis GP : plain_path P.
Hypothesis Hsrc : forall r, pget (p ++ r) T0 <> None -> plain_path (p ++ r) /\ Forall unpadded r.
Hypothesis Hlink : forall r tg, pget (p ++ r) T0 = Some (PLink tg) -> exists tq, tg = abs_path tq /\ plain_path tq.
Hypothesis Napart : ~ below p P /\ ~ below P p.
Hypothesis Hfuel : (1 < fuel0)%nat.

(** What a copy of an entry looks like *)
Definition dup (e : pent) : pent :=
  match e with PFile d mo mt => PFile d (perm mo) mt | PDir _ _ => new_dir x0 | PLink tg => PLink tg end.
Definition F (q : list str) : option pent :=
  match strip_path P q with Some z => option_map dup (pget (p ++ z) T0) | None => None end.
Lemma F_at z : F (P ++ z) = option_map dup (pget (p ++ z) T0).
Proof. unfold F. destruct (strip_path P (P ++ z)) as [w|] eqn:E; [apply strip_path_spec in E; apply app_inv_head in E; now subst|]. now apply (proj1 (strip_path_none _ _) E z) in E || (exfalso; now apply (proj1 (strip_path_none _ _) E z)). Qed.

(** The source is as it was. *)
Record intact (x : pst) : Prop := {
  in_sound : sound x;
  in_same : forall q, ~ below P q -> pget q (p_tree x) = pget q T0;
  in_rest : p_cwd x = p_cwd x0 /\ p_now x = p_now x0 /\ p_umask x = p_umask x0 }.
Lemma source_apart r : ~ below P (p ++ r).
Proof.
  intros [w E]. destruct Napart as [N1 N2]. 
  assert (X : forall a b c d : list str, a ++ b = c ++ d -> below a c \/ below c a).
  { clear. induction a as [|y a IH]; intros b c d E; [left; now exists c|]. destruct c as [|z c]; [right; now exists (y :: a)|].
    cbn in E. injection E as -> E. destruct (IH _ _ _ E) as [[r ->]|[r ->]]; [left|right]; now exists r. }
  destruct (X _ _ _ _ E); auto.
Qed.
Lemma in_source x r : intact x -> pget (p ++ r) (p_tree x) = pget (p ++ r) T0.
Proof. intros I. apply (in_same x I), source_apart. Qed.
Lemma intact_wrote x y D : intact x -> wrote x y D F -> (forall q, D q -> below P q) -> intact y.
Proof.
  intros [S I (R1 & R2 & R3)] W H. destruct (wr_rest _ _ _ _ W) as (Q1 & Q2 & Q3). split.
  - apply (wr_sound _ _ _ _ W).
  - intros q Hq. rewrite (wr_old _ _ _ _ W); auto.
  - split; [congruence|]. split; congruence.
Qed.
Lemma plain_dest r : pget (p ++ r) T0 <> None -> plain_path (P ++ r).
Proof. intros H. apply Hsrc in H as [H _]. apply (plain_put P p r); auto. Qed.

(** One item of the directory [r], not there yet *)
Section Item.
Variables (x : pst) (r : list str) (n : str) (e : pent).
Hypothesis I : intact x.
Hypothesis D : is_dir_at x (P ++ r).
Hypothesis E : pget ((p ++ r) ++ [n]) T0 = Some e.
Hypothesis Nq : pget ((P ++ r) ++ [n]) (p_tree x) = None.
Local Notation src := ((p ++ r) ++ [n]).
Local Notation dst := ((P ++ r) ++ [n]).
Lemma it_src : pget src (p_tree x) = Some e.
Proof. rewrite <- app_assoc, (in_source x _ I), app_assoc. exact E. Qed.
Lemma it_plain : plain_path src /\ plain_path dst.
Proof.
  rewrite <- !app_assoc in *. assert (pget (p ++ r ++ [n]) T0 <> None) by congruence. split; [now apply Hsrc|now apply plain_dest].
Qed.
Lemma it_F : F dst = Some (dup e).
Proof. rewrite <- app_assoc, F_at, app_assoc, E. reflexivity. Qed.
Lemma it_wrote y e' : wrote x y (eq dst) (fun _ => Some e') -> e' = dup e -> wrote x y (eq dst) F.
Proof. intros W ->. eapply wr_ext; [exact W|]. intros q <-. symmetry. apply it_F. Qed.
Lemma it_link tg : e = PLink tg -> exists y, copy_link LB (file_uri src) (file_uri dst) x = (Ok tt, y) /\ wrote x y (eq dst) F.
Proof.
  intros He. destruct it_plain as [P1 P2]. pose proof E as E0. rewrite <- app_assoc, He in E0. destruct (Hlink (r ++ [n]) tg E0) as (tq & Et & Pt).
  pose proof it_src as Es. rewrite He, Et in Es.
  destruct (copy_link_run x src (P ++ r) n tq (in_sound x I) P1 P2 Es Pt D Nq) as (y & Ey & Wy).
  exists y. split; auto. eapply it_wrote; [exact Wy|]. now rewrite He, Et.
Qed.
Lemma it_dir mo mt : e = PDir mo mt -> exists y, u_makedirs LB fuel0 (file_uri dst) x = (Ok tt, y) /\ wrote x y (eq dst) F.
Proof.
  intros He. destruct it_plain as [P1 P2].
  destruct (makedirs_run x (P ++ r) [n] (in_sound x I) P2 D) with (fuel := fuel0) as (y & Ey & Wy); auto.
  { intros m b' Em. injection Em as <- _. exact Nq. }
  exists y. split; [unfold u_makedirs, hooked; erewrite bind_ok by reflexivity; exact Ey|].
  apply (it_wrote y (dup (PDir mo mt))); [|now rewrite He]. cbn [dup]. unfold new_dir in *. destruct (in_rest x I) as (_ & <- & <-).
  eapply wr_iff; [exact Wy|]. intros q. split.
  - intros (b1 & b2 & Eb & Nb & ->). destruct b1 as [|m b1]; [easy|]. cbn in Eb. injection Eb as <- Eb. symmetry in Eb. apply app_eq_nil in Eb as [-> _]. reflexivity.
  - intros <-. exists [n], []. repeat split; easy.
Qed.
Lemma it_entry : is_pdir e = false -> exists y, copy_entry LB false true (file_uri src) (file_uri dst) x = (Ok tt, y) /\ wrote x y (eq dst) F.
Proof.
  intros Ne. destruct it_plain as [P1 P2]. pose proof it_src as Es. assert (K : exists e', e = e') by eauto. destruct K as [[d mo mt|mo mt|tg] Ee]; rewrite Ee in Ne, Es; [| discriminate |].
  - destruct (copy_file_run x src (P ++ r) n d mo mt true (in_sound x I) P1 P2 Es D Nq eq_refl) as (y & Ey & Wy).
    exists y. split; auto. eapply it_wrote; [exact Wy|now rewrite Ee].
  - destruct (it_link tg) as (y & Ey & Wy); [exact Ee|]. exists y. split; auto. unfold copy_entry.
    erewrite bind_ok. 2:{ unfold u_islink, hooked. erewrite bind_ok by reflexivity. eapply islink_run; eauto. apply (in_sound x I). } exact Ey.
Qed.
End Item.

Definition body : unit -> uri -> list str -> list str -> M pst (unit * list str) :=
  fun _ root dirs files => let! ds <- copy_step LB fuel0 [] false true (length (u_path (file_uri p)) + 1) (file_uri P) root dirs files; ret (tt, ds).

Lemma dest_base r : pget (p ++ r) T0 <> None ->
  let tojoin := strip_p is_space (skipn (length (u_path (file_uri p)) + 1) (u_path (file_uri (p ++ r)))) in
  match tojoin with [] => ret (file_uri P) | _ => lift (u_div (file_uri P) tojoin) end = (ret (file_uri (P ++ r)) : M pst uri).
Proof.
  intros H. cbv zeta. destruct (Hsrc r H) as [Pr Ur]. rewrite !local_path by auto. rewrite skip_source by exact Np.
  assert (Nr : Forall name_ok r) by (destruct Pr as [Pr _]; apply Forall_app in Pr as [_ Pr]; now apply plain_names).
  rewrite joined_strip by auto. destruct (list_eq_dec (list_eq_dec N.eq_dec) r []) as [->|Ne].
  - cbn. now rewrite app_nil_r.
  - destruct (joined r) as [|c l] eqn:Ej; [now apply joined_ne in Ej|]. rewrite <- Ej. rewrite file_div_path; auto. now apply plain_dest.
Qed.

Lemma copy_below fuel : forall x r, intact x -> is_dir_at x0 (p ++ r) -> is_dir_at x (P ++ r) ->
  (forall z, z <> [] -> pget ((P ++ r) ++ z) (p_tree x) = None) ->
  (forall z, pget ((p ++ r) ++ z) T0 <> None -> (length z < fuel)%nat) ->
  exists y, walk_gen LB fuel true false body tt (file_uri (p ++ r)) x = (Ok tt, y) /\ wrote x y (fun q => exists z, z <> [] /\ q = (P ++ r) ++ z) F.
Proof.
  induction fuel as [|fuel IH]; intros x r I Ds Dd Nd Hf.
  { specialize (Hf []). rewrite app_nil_r in Hf. destruct Ds as (? & ? & Ds). assert (0 < 0)%nat by (apply Hf; congruence). lia. }
  pose proof (in_sound x I) as S.
  assert (Ps : plain_path (p ++ r)) by (apply Hsrc; destruct Ds as (? & ? & ->); discriminate).
  assert (Pd : plain_path (P ++ r)) by (apply plain_dest; destruct Ds as (? & ? & ->); discriminate).
  assert (Dsx : is_dir_at x (p ++ r)) by (destruct Ds as (mo & mt & Ds); exists mo, mt; now rewrite (in_source x r I)).
  pose (names := sort_strs (pchildren (p ++ r) (p_tree x))).
  assert (Nn : NoDup names) by (apply sort_NoDup, children_nodup, (so_nodup x S)).
  assert (In_n : forall n, In n names <-> pget ((p ++ r) ++ [n]) T0 <> None).
  { intros n. unfold names. rewrite sort_In. rewrite children_get by apply (so_nodup x S). rewrite <- app_assoc, (in_source x _ I). reflexivity. }
  assert (Pn : forall n, In n names -> plain_path ((p ++ r) ++ [n])).
  { intros n Hn. apply In_n in Hn. rewrite <- app_assoc in *. now apply Hsrc. }
  assert (PPn : forall n, In n names -> plain_path ((P ++ r) ++ [n])).
  { intros n Hn. apply In_n in Hn. rewrite <- app_assoc in *. now apply plain_dest. }
  pose (isd := fun n => is_dir_b x ((p ++ r) ++ [n])).
  assert (Kind : forall n e, In n names -> pget ((p ++ r) ++ [n]) T0 = Some e -> is_plink e = false -> isd n = is_pdir e).
  { intros n e Hn He Hl. unfold isd, is_dir_b, tests. rewrite (look_at x S true _ e); auto; [apply Pn; auto| |congruence].
    rewrite <- app_assoc in *. now rewrite (in_source x _ I). }
  cbn [walk_gen b_listdir LB]. erewrite bind_ok by (now apply listdir_run). rewrite sort_twice by (apply children_nodup, (so_nodup x S)).
  fold names. erewrite bind_ok by (now apply kinds_run). fold isd. cbn [fst snd].
  assert (Ndp : forall g, NoDup (filter g names)) by (intros; now apply NoDup_filter).
  pose (E1 := fun (n : str) (q : list str) => (P ++ r) ++ [n] = q).
  assert (Inj1 : forall n m q, E1 n q -> E1 m q -> n = m) by (unfold E1; intros n m q <- Z; apply app_inv_head in Z; congruence).
  assert (W0 : wrote x x (fun q => exists n, In n [] /\ E1 n q) F) by (apply wr_refl; auto; intros q (n & [] & _)).
  assert (St : forall dn n y, In n names -> ~ In n dn -> wrote x y (fun q => exists n, In n dn /\ E1 n q) F ->
      intact y /\ is_dir_at y (P ++ r) /\ pget ((P ++ r) ++ [n]) (p_tree y) = None /\ exists e, pget ((p ++ r) ++ [n]) T0 = Some e).
  { intros dn n y Hn Ndn W. split; [|split; [|split]].
    - eapply intact_wrote; [exact I|exact W|]. intros q (m & _ & <-). exists (r ++ [m]). now rewrite app_assoc.
    - destruct Dd as (mo & mt & Dd). exists mo, mt. rewrite (wr_old _ _ _ _ W); auto. intros (m & _ & Z). apply (f_equal (@length _)) in Z.
      rewrite app_length in Z. cbn in Z. lia.
    - rewrite (wr_old _ _ _ _ W); [now apply Nd|]. intros (m & Im & Z). apply app_inv_head in Z. injection Z as ->. auto.
    - apply In_n in Hn. destruct (pget ((p ++ r) ++ [n]) T0) as [e|]; [eauto|easy]. }
  (* the directories of this one *)
  destruct (each_writes (fun ds folder =>
                         if str_in folder [] then ret (remove_first folder ds)
                         else
                           let! ddir <- lift (u_div (file_uri (P ++ r)) folder);
                           let! srcp <- lift (u_div (file_uri (p ++ r)) folder);
                           let! l <- u_islink LB srcp;
                           (if l && negb false then copy_link LB srcp ddir else u_makedirs LB fuel0 ddir) ;;
                           ret ds) (filter isd names) E1 F x (filter isd names) [] x (Ndp isd) Inj1 W0) as (x1 & Ex1 & W1).
  { intros dn n y Hn Ndn W. apply filter_In in Hn as [Hn Hd]. destruct (St dn n y Hn Ndn W) as (Iy & Dy & Ny & e & Ee).
    cbn [str_in existsb]. erewrite bind_ok by (apply lift_ok, file_div'; auto). erewrite bind_ok by (apply lift_ok, file_div'; auto).
    erewrite bind_ok. 2:{ unfold u_islink, hooked. erewrite bind_ok by reflexivity. cbn [b_islink LB]. eapply islink_run; [apply (in_sound y Iy)|auto|].
      apply (it_src y r n e Iy Ee). }
    cbn [negb]. rewrite andb_true_r. destruct (is_plink e) eqn:El.
    - destruct e as [| |tg]; try discriminate. destruct (it_link y r n _ Iy Dy Ee Ny tg eq_refl) as (z & Ez & Wz).
      exists z. split; [now erewrite bind_ok by exact Ez|exact Wz].
    - rewrite (Kind n e Hn Ee El) in Hd. destruct e as [|mo mt|]; try discriminate.
      destruct (it_dir y r n _ Iy Dy Ee Ny mo mt eq_refl) as (z & Ez & Wz).
      exists z. split; [now erewrite bind_ok by exact Ez|exact Wz]. }
  cbn [app] in W1.
  (* the files *)
  destruct (each_writes (fun (_ : unit) fname => let! srcf <- lift (u_div (file_uri (p ++ r)) fname);
           let! destf <- lift (u_div (file_uri (P ++ r)) fname); copy_entry LB false true srcf destf) tt E1 F x (filter (fun n => negb (isd n)) names) (filter isd names) x1) as (x2 & Ex2 & W2); auto.
  { eapply Permutation_NoDup; [|exact Nn]. clear. induction names as [|n l IHl]; [constructor|]. cbn. destruct (isd n); cbn.
    - now constructor.
    - now apply Permutation_cons_app. }
  { intros dn n y Hn Ndn W. apply filter_In in Hn as [Hn Hd]. destruct (St dn n y Hn Ndn W) as (Iy & Dy & Ny & e & Ee).
    erewrite bind_ok by (apply lift_ok, file_div'; auto). erewrite bind_ok by (apply lift_ok, file_div'; auto).
    apply (it_entry y r n e Iy Dy Ee Ny). destruct (is_pdir e) eqn:Ed; auto. rewrite (Kind n e Hn Ee) in Hd by (now destruct e). now rewrite Ed in Hd. }
  assert (W2' : wrote x x2 (fun q => exists n, In n names /\ E1 n q) F).
  { eapply wr_iff; [exact W2|]. intros q. split; intros (n & In' & En); exists n; (split; [|exact En]).
    - apply in_app_or in In' as [Z|Z]; now apply filter_In in Z.
    - apply in_or_app. rewrite !filter_In. destruct (isd n); auto. }
  clear W2. assert (I2 : intact x2).
  { eapply intact_wrote; [exact I|exact W2'|]. intros q (m & _ & <-). exists (r ++ [m]). now rewrite app_assoc. }
  assert (Eb : body tt (file_uri (p ++ r)) (filter isd names) (filter (fun n => negb (isd n)) names) x = (Ok (tt, filter isd names), x2)).
  { assert (Hb : pget (p ++ r) T0 <> None) by (destruct Ds as (? & ? & ->); discriminate).
    pose proof (dest_base r Hb) as Db. cbv zeta in Db. unfold body, copy_step. cbv zeta. rewrite Db.
    erewrite bind_ok; [reflexivity|]. erewrite bind_ok by reflexivity. erewrite bind_ok by exact Ex1.
    erewrite bind_ok by (rewrite map_fold; exact Ex2). reflexivity. }
  erewrite bind_ok by exact Eb. cbn [fst snd].
  (* what is below *)
  pose (E3 := fun (n : str) (q : list str) => is_dir_at x0 ((p ++ r) ++ [n]) /\ exists z, z <> [] /\ q = (P ++ r ++ [n]) ++ z).
  assert (Inj3 : forall n m q, E3 n q -> E3 m q -> n = m).
  { intros n m q (_ & z & _ & ->) (_ & w & _ & Z). rewrite <- !app_assoc in Z. do 2 apply app_inv_head in Z. cbn in Z. congruence. }
  assert (W03 : wrote x2 x2 (fun q => exists n, In n [] /\ E3 n q) F) by (apply wr_refl; [apply (in_sound x2 I2)|intros q (n & [] & _)]).
  destruct (each_writes (fun a name => let! path <- lift (u_div (file_uri (p ++ r)) name); let! l <- u_islink LB path;
                            if negb l || false then walk_gen LB fuel true false body a path else ret a) tt E3 F x2 (filter isd names) [] x2 (Ndp isd) Inj3 W03) as (x3 & Ex3 & W3).
  { intros dn n y Hn Ndn W. apply filter_In in Hn as [Hn Hd].
    assert (Iy : intact y).
    { eapply intact_wrote; [exact I2|exact W|]. intros q (m & _ & _ & z & _ & ->). exists ((r ++ [m]) ++ z). now rewrite <- (app_assoc P). }
    pose proof (proj1 (In_n n) Hn) as Hn'. destruct (pget ((p ++ r) ++ [n]) T0) as [e|] eqn:Ee; [|easy].
    erewrite bind_ok by (apply lift_ok, file_div'; auto).
    erewrite bind_ok. 2:{ unfold u_islink, hooked. erewrite bind_ok by reflexivity. cbn [b_islink LB]. eapply islink_run; [apply (in_sound y Iy)|auto|].
      apply (it_src y r n e Iy Ee). }
    rewrite orb_false_r. destruct (is_plink e) eqn:El; cbn [negb].
    - exists y. split; [reflexivity|]. apply wr_refl; [apply (in_sound y Iy)|]. intros q [(mo & mt & Z) _]. rewrite Ee in Z. injection Z as ->. discriminate.
    - rewrite (Kind n e Hn Ee El) in Hd. destruct e as [|mo mt|]; try discriminate.
      assert (E2n : forall z, pget ((P ++ r ++ [n]) ++ z) (p_tree y) = pget ((P ++ r ++ [n]) ++ z) (p_tree x2)).
      { intros z. apply (wr_old _ _ _ _ W). intros (m & Im & _ & w & _ & Z). rewrite <- !app_assoc in Z. do 2 apply app_inv_head in Z. cbn in Z. congruence. }
      destruct (IH y (r ++ [n])) as (z & Ez & Wz); auto.
      + rewrite app_assoc. exists mo, mt. exact Ee.
      + specialize (E2n []). rewrite !app_nil_r in E2n. eexists _, _. rewrite E2n, app_assoc.
        rewrite (wr_new _ _ _ _ W2') by (exists n; split; [exact Hn|reflexivity]). now rewrite (it_F r n _ Ee).
      + intros z Nz. rewrite E2n. rewrite (wr_old _ _ _ _ W2').
        * rewrite <- !app_assoc. rewrite app_assoc. apply Nd. now destruct z.
        * intros (m & _ & Z). unfold E1 in Z. rewrite <- !app_assoc in Z. do 2 apply app_inv_head in Z. cbn in Z. destruct z; [easy|discriminate].
      + intros z Hz. rewrite app_assoc, <- app_assoc in Hz. apply Hf in Hz. cbn in Hz. lia.
      + exists z. rewrite app_assoc in Ez. split; [exact Ez|]. eapply wr_iff; [exact Wz|]. intros q. unfold E3. split; [|tauto].
        intros Hq. split; auto. exists mo, mt. exact Ee. }
  cbn [app] in W3. exists x3. split; [now erewrite bind_ok by exact Ex3|].
  assert (Wt : wrote x x3 (fun q => (exists n, In n names /\ E1 n q) \/ exists n, In n (filter isd names) /\ E3 n q) F).
  { eapply wr_trans; [exact W2'|exact W3| |tauto]. intros q (n & _ & <-) (m & _ & _ & z & Nz & Z). rewrite <- !app_assoc in Z. do 2 apply app_inv_head in Z. cbn in Z.
    destruct z; [easy|discriminate]. }
  split; [apply (wr_sound _ _ _ _ Wt)| |  |apply (wr_rest _ _ _ _ Wt)].
  - intros q (z & Nz & ->). destruct z as [|n z]; [easy|]. 
    assert (Old : pget ((p ++ r) ++ n :: z) T0 = None -> (z <> [] -> ~ is_dir_at x0 ((p ++ r) ++ [n])) -> pget ((P ++ r) ++ n :: z) (p_tree x3) = F ((P ++ r) ++ n :: z)).
    { intros Dn Hz. rewrite (wr_old _ _ _ _ Wt); [|intros [(n' & In' & Z)|(n' & In' & Dn' & w & Nw & Z)]].
      - rewrite Nd by easy. rewrite <- app_assoc in *. now rewrite F_at, Dn.
      - apply app_inv_head in Z. injection Z as -> <-. now apply In_n in In'.
      - rewrite <- !app_assoc in Z. do 2 apply app_inv_head in Z. cbn in Z. injection Z as -> ->. now apply Hz. }
    destruct z as [|m z].
    + destruct (pget ((p ++ r) ++ [n]) T0) as [e|] eqn:Ee; [|now apply Old].
      apply (wr_new _ _ _ _ Wt). left. exists n. split; [apply In_n; congruence|reflexivity].
    + destruct (pget ((p ++ r) ++ [n]) T0) as [e|] eqn:Ee; [destruct (is_pdir e) eqn:Ed|].
      * destruct e as [|mo mt|]; try discriminate. assert (Hn : In n names) by (apply In_n; congruence).
        apply (wr_new _ _ _ _ Wt). right. exists n. split; [apply filter_In; split; auto; now rewrite (Kind n _ Hn Ee)|].
        split; [exists mo, mt; exact Ee|]. exists (m :: z). split; [easy|]. now rewrite <- !app_assoc.
      * assert (Nn' : ~ is_dir_at x0 ((p ++ r) ++ [n])) by (intros (? & ? & Z); rewrite Ee in Z; injection Z as ->; discriminate).
        apply Old; auto. destruct (pget ((p ++ r) ++ n :: m :: z) T0) eqn:Ez; auto. exfalso. apply Nn'.
        apply (so_dir x0 So _ (m :: z)); [easy|rewrite <- app_assoc; cbn; congruence].
      * assert (Nn' : ~ is_dir_at x0 ((p ++ r) ++ [n])) by (intros (? & ? & Z); congruence).
        apply Old; auto. destruct (pget ((p ++ r) ++ n :: m :: z) T0) eqn:Ez; auto. exfalso. apply Nn'.
        apply (so_dir x0 So _ (m :: z)); [easy|rewrite <- app_assoc; cbn; congruence].
  - intros q Hq. apply (wr_old _ _ _ _ Wt). intros [(n & _ & <-)|(n & _ & _ & z & Nz & ->)]; apply Hq.
    + exists [n]. split; easy.
    + exists ([n] ++ z). split; [easy|]. now rewrite <- !app_assoc.
Qed.
End Copy.
