(** copy(recursive=True) of a local directory with links in it, following them. *)
From Coq Require Import Lia Permutation Sorted.
From Verif Require Import Str Exc Utf8 UriParse BaseUri StrFacts UriFacts SpecUri UriFacts2 UriFacts3 UriFacts4 UriFacts5 UriFacts6.
From Verif Require Import Mem SpecMem MemFacts MemFacts7 MemUri GenFacts1 GenFacts4 GenFacts8.
From Verif Require Import Generic SpecGen.
From Verif Require Import Misc Posix Local SpecLocal SpecLinks LocalFacts1 LocalFacts3 LocalFacts4 LocalFacts6 LocalFacts7 LocalFacts12 LocalFacts15 LocalFacts18 LocalFacts19 LocalFacts20 LocalFacts21 LocalFacts22 LocalFacts23 LocalFacts24.

Local Notation LB := loc_backend.
Local Notation joined := (join_with [cSlash]).

(** Following links to the end never ends at a link. *)
Lemma walk_no_link x : sound x -> forall b cs cur q e, (forall tg, pget cur (p_tree x) <> Some (PLink tg)) -> pwalk (p_tree x) true b cur cs = Ok (At q e) -> is_plink e = false.
Proof.
  intros So. assert (Root : forall tg, pget [] (p_tree x) <> Some (PLink tg)) by (destruct (so_root x So) as (? & ? & R); congruence).
  assert (Up : forall cur mo mt, pget cur (p_tree x) = Some (PDir mo mt) -> forall tg, pget (removelast cur) (p_tree x) <> Some (PLink tg)).
  { intros cur mo mt E tg. destruct (snoc_cases cur) as [->|(i & n & ->)]; [apply Root|]. rewrite removelast_last.
    destruct (so_up x So i n) as (? & ? & Z); congruence. }
  induction b as [|b IHb]; induction cs as [|c cs IHc]; intros cur q e Nl; cbn [pwalk];
    (destruct (pget cur (p_tree x)) as [[d mo mt|mo mt|tg]|] eqn:Ec; try discriminate; [intros [= <- <-]; reflexivity| ]) ||
    (destruct (pget cur (p_tree x)) as [[d mo mt|mo mt|tg]|] eqn:Ec; try discriminate).
  all: try (intros [= <- <-]; reflexivity). all: try (exfalso; now apply (Nl tg)).
  all: destruct (str_eqb c [] || str_eqb c dot); [apply IHc; congruence|]; destruct (str_eqb c dotdot); [apply IHc; eapply Up; eauto|];
    destruct (pget (cur ++ [c]) (p_tree x)) as [[d2 mo2 mt2|mo2 mt2|tg2]|] eqn:En; try (apply IHc; congruence); try (destruct cs; discriminate).
  intros E. assert (E' : pwalk (p_tree x) true b (if prefixb [cSlash] tg2 then [] else cur) (split_on cSlash tg2 ++ cs) = Ok (At q e))
    by (destruct cs, tg2; cbn [negb] in E; try discriminate; exact E).
  apply IHb in E'; auto. destruct (prefixb [cSlash] tg2); [exact Root|congruence].
Qed.
Lemma look_no_link x cs q e : sound x -> plain_path cs -> plook x true (abs_path cs) = Ok (At q e) -> is_plink e = false.
Proof.
  intros So Pl. rewrite plook_abs by (auto; apply Pl). apply (walk_no_link x So). destruct (so_root x So) as (? & ? & R). congruence.
Qed.

Section Copy.
Variable x0 : pst.
Hypothesis So : sound x0.
Local Notation T0 := (p_tree x0).
Variables (p P : list str).
Variable fuel0 : nat.
Local Notation ent := (enters x0 true [] p).
Hypothesis Np : p <> [].
Hypothesis NP : P <> [].
Hypothesis Gp : plain_path p.
Hypothesis GP : plain_path P.
Hypothesis DP : is_dir_at x0 P.
Hypothesis EP : forall z, z <> [] -> pget (P ++ z) T0 = None.
(** Every entry met is a file or a directory in the end, and has an ordinary name. *)
Hypothesis Hmet : forall r q n, ent r q -> pget (q ++ [n]) T0 <> None ->
  plain_path ((p ++ r) ++ [n]) /\ unpadded n /\ exists t e, plook x0 true (abs_path ((p ++ r) ++ [n])) = Ok (At t e).
(** The destination is not met. *)
Hypothesis Napart : forall r q, ent r q -> ~ below P q.
Hypothesis Hfuel : (1 < fuel0)%nat.

Let Hpl : forall r q n, ent r q -> pget (q ++ [n]) T0 <> None -> plain_path ((p ++ r) ++ [n]).
Proof. intros r q n V H. now apply (Hmet r q n V H). Qed.

Definition F2 (q : list str) : option pent :=
  match strip_path P q with Some z => option_map (dup x0) (seen x0 p z) | None => None end.
Lemma F2_at z : F2 (P ++ z) = option_map (dup x0) (seen x0 p z).
Proof. unfold F2. destruct (strip_path P (P ++ z)) as [w|] eqn:E; [apply strip_path_spec in E; apply app_inv_head in E; now subst|]. exfalso; now apply (proj1 (strip_path_none _ _) E z). Qed.

Local Notation intact := (intact x0 P).
Lemma intact_wrote2 x y D : intact x -> wrote x y D F2 -> (forall q, D q -> below P q) -> intact y.
Proof.
  intros [S I (R1 & R2 & R3)] W H. destruct (wr_rest _ _ _ _ W) as (Q1 & Q2 & Q3). split.
  - apply (wr_sound _ _ _ _ W).
  - intros q Hq. rewrite (wr_old _ _ _ _ W); auto.
  - split; [congruence|]. split; congruence.
Qed.
(** What is found stays found, [P] being a directory throughout. *)
Definition kept (x : pst) : Prop := intact x /\ pget P (p_tree x) = pget P T0.
Lemma grows x q e : kept x -> pget q T0 = Some e -> pget q (p_tree x) = Some e.
Proof.
  intros [I Q] E. destruct (is_below P q) eqn:B.
  - apply is_below_true in B as [z ->]. destruct z as [|c z]; [rewrite app_nil_r in *; congruence|]. rewrite EP in E; easy.
  - apply is_below_false in B. now rewrite (in_same _ _ x I).
Qed.
Lemma looks x f s q e : kept x -> plook x0 f s = Ok (At q e) -> plook x f s = Ok (At q e).
Proof. intros K. apply look_grows; [intros; now apply grows|]. apply (in_rest _ _ x (proj1 K)). Qed.
Lemma kept_wrote x y D : kept x -> wrote x y D F2 -> (forall q, D q -> exists z, z <> [] /\ q = P ++ z) -> kept y.
Proof.
  intros [I Q] W H. split.
  - eapply intact_wrote2; eauto. intros q Hq. destruct (H q Hq) as (z & _ & ->). now exists z.
  - rewrite (wr_old _ _ _ _ W); auto. intros Hd. destruct (H _ Hd) as (z & Nz & E). apply (f_equal (@length _)) in E. rewrite app_length in E. destruct z; [easy|]. cbn in E. lia.
Qed.

Lemma ent_through r q : ent r q -> plain_path (p ++ r) /\ dir_through x0 (p ++ r) q.
Proof. apply (enters_through x0 p true [] Gp Hpl). Qed.
Lemma ent_dir r q : ent r q -> is_dir_at x0 q.
Proof. intros V. destruct (ent_through r q V) as [Pr Dr]. now apply (through_dir x0 So (p ++ r)). Qed.
Lemma ent_unpadded r q : ent r q -> Forall unpadded r.
Proof.
  induction 1 as [|r q n q' V IH N _ _ _]; [constructor|]. apply Forall_app. split; auto. constructor; [|constructor]. now apply (Hmet r q n V N).
Qed.
Lemma child_apart r q n : ent r q -> pget (q ++ [n]) T0 <> None -> ~ below P (q ++ [n]).
Proof.
  intros V N [z E]. destruct (snoc_cases z) as [->|(z' & c & ->)].
  - rewrite app_nil_r in E. destruct DP as (mo & mt & D). destruct (Hmet r q n V N) as (Pn & _ & _).
    assert (V2 : ent (r ++ [n]) P).
    { apply (en_down x0 true [] p r q n P); auto. destruct (ent_through r q V) as [_ (mo1 & mt1 & Lr)]. exists mo, mt. rewrite <- E.
      apply (look_in x0 So (p ++ r) q mo1 mt1 n (pp_names _ Pn) Lr); [now rewrite E|discriminate]. }
    apply (Napart _ _ V2). exists []. now rewrite app_nil_r.
  - rewrite app_assoc in E. apply app_inj_tail in E as [-> _]. apply (Napart _ _ V). now exists z'.
Qed.
Lemma seen_on r q z : ent r q -> seen x0 p (r ++ z) = seen x0 (p ++ r) z.
Proof.
  intros V. revert z. induction V as [q D|r q n q' V IH N Ni D F]; intros z; [now rewrite app_nil_r|].
  rewrite <- app_assoc. rewrite IH. destruct (ent_through r q V) as [_ (mo & mt & Lr)]. cbn [app seen]. rewrite Lr.
  destruct (pget (q ++ [n]) T0); [|easy]. now rewrite app_assoc.
Qed.

(** One item of the directory [r], not there yet *)
Section Item.
Variables (x : pst) (r q : list str) (n : str) (t : list str) (e : pent).
Hypothesis K : kept x.
Hypothesis V : ent r q.
Hypothesis N : pget (q ++ [n]) T0 <> None.
Hypothesis D : is_dir_at x (P ++ r).
Hypothesis E : plook x0 true (abs_path ((p ++ r) ++ [n])) = Ok (At t e).
Hypothesis Nq : pget ((P ++ r) ++ [n]) (p_tree x) = None.
Local Notation src := ((p ++ r) ++ [n]).
Local Notation dst := ((P ++ r) ++ [n]).
Lemma jt_plain : plain_path src /\ plain_path dst.
Proof.
  destruct (Hmet r q n V N) as (Ps & _ & _). split; auto. rewrite <- app_assoc in *. apply (plain_put P p); auto.
Qed.
Lemma jt_F : F2 dst = Some (dup x0 e).
Proof.
  rewrite <- app_assoc, F2_at, (seen_on r q [n] V). destruct (ent_through r q V) as [_ (mo & mt & Lr)]. cbn [seen]. rewrite Lr.
  destruct (pget (q ++ [n]) T0); [|easy]. rewrite E. reflexivity.
Qed.
Lemma jt_wrote y e' : wrote x y (eq dst) (fun _ => Some e') -> e' = dup x0 e -> wrote x y (eq dst) F2.
Proof. intros W ->. eapply wr_ext; [exact W|]. intros w <-. symmetry. apply jt_F. Qed.
Lemma jt_dir mo mt : e = PDir mo mt -> exists y, u_makedirs LB fuel0 (file_uri dst) x = (Ok tt, y) /\ wrote x y (eq dst) F2.
Proof.
  intros He. destruct jt_plain as [P1 P2]. destruct K as [I _].
  destruct (makedirs_run x (P ++ r) [n] (in_sound _ _ x I) P2 D) with (fuel := fuel0) as (y & Ey & Wy); auto.
  { intros m b' Em. injection Em as <- _. exact Nq. }
  exists y. split; [unfold u_makedirs, hooked; erewrite bind_ok by reflexivity; exact Ey|].
  apply (jt_wrote y (dup x0 (PDir mo mt))); [|now rewrite He]. cbn [dup]. unfold new_dir in *. destruct (in_rest _ _ x I) as (_ & <- & <-).
  eapply wr_iff; [exact Wy|]. intros w. split.
  - intros (b1 & b2 & Eb & Nb & ->). destruct b1 as [|m b1]; [easy|]. cbn in Eb. injection Eb as <- Eb. symmetry in Eb. apply app_eq_nil in Eb as [-> _]. reflexivity.
  - intros <-. exists [n], []. repeat split; easy.
Qed.
Lemma jt_entry d mo mt : e = PFile d mo mt -> exists y, copy_entry LB true true (file_uri src) (file_uri dst) x = (Ok tt, y) /\ wrote x y (eq dst) F2.
Proof.
  intros He. destruct jt_plain as [P1 P2]. pose proof (looks x true _ _ _ K E) as Es. rewrite He in Es.
  destruct (copy_follow_run x src t (P ++ r) n d mo mt (in_sound _ _ x (proj1 K)) P1 P2 Es D Nq) as (y & Ey & Wy).
  exists y. split; auto. eapply jt_wrote; [exact Wy|now rewrite He].
Qed.
End Item.

Definition body2 : unit -> uri -> list str -> list str -> M pst (unit * list str) :=
  fun _ root dirs files => let! ds <- copy_step LB fuel0 [] true true (length (u_path (file_uri p)) + 1) (file_uri P) root dirs files; ret (tt, ds).

Lemma dest_base2 r : plain_path (p ++ r) -> Forall unpadded r ->
  let tojoin := strip_p is_space (skipn (length (u_path (file_uri p)) + 1) (u_path (file_uri (p ++ r)))) in
  match tojoin with [] => ret (file_uri P) | _ => lift (u_div (file_uri P) tojoin) end = (ret (file_uri (P ++ r)) : M pst uri).
Proof.
  intros Pr Ur. cbv zeta. rewrite !local_path by auto. rewrite skip_source by exact Np.
  assert (Nr : Forall name_ok r) by (destruct Pr as [Pr _]; apply Forall_app in Pr as [_ Pr]; now apply plain_names).
  rewrite joined_strip by auto. destruct (list_eq_dec (list_eq_dec N.eq_dec) r []) as [->|Ne].
  - cbn. now rewrite app_nil_r.
  - destruct (joined r) as [|c l] eqn:Ej; [now apply joined_ne in Ej|]. rewrite <- Ej. rewrite file_div_path; auto. now apply (plain_put P p).
Qed.

Lemma copy_below2 fuel : forall x r q, kept x -> ent r q -> is_dir_at x (P ++ r) ->
  (forall z, z <> [] -> pget ((P ++ r) ++ z) (p_tree x) = None) ->
  (forall z q', ent (r ++ z) q' -> (length z < fuel)%nat) ->
  exists y, walk_gen LB fuel true true body2 tt (file_uri (p ++ r)) x = (Ok tt, y) /\ wrote x y (fun w => exists z, z <> [] /\ w = (P ++ r) ++ z) F2.
Proof.
  induction fuel as [|fuel IH]; intros x r q K V Dd Nd Hf.
  { specialize (Hf [] q). rewrite app_nil_r in Hf. specialize (Hf V). lia. }
  pose proof K as [I _]. pose proof (in_sound _ _ x I) as S.
  destruct (ent_through r q V) as [Ps Dr].
  assert (Pd : plain_path (P ++ r)) by now apply (plain_put P p).
  assert (Lr : dir_through x (p ++ r) q) by (destruct Dr as (mo & mt & Dr); exists mo, mt; now apply (looks x)).
  pose (names := kids_at x q).
  assert (Nn : NoDup names) by (apply sort_NoDup, children_nodup, (so_nodup x S)).
  assert (In_n : forall n, In n names <-> pget (q ++ [n]) T0 <> None).
  { intros n. unfold names. rewrite (kids_in x S). destruct (pget (q ++ [n]) T0) as [e|] eqn:E.
    - rewrite (grows x _ e K E). split; congruence.
    - rewrite (in_same _ _ x I); [rewrite E; reflexivity|]. intros [z Z]. destruct (snoc_cases z) as [->|(z' & c & ->)].
      + rewrite app_nil_r in Z. rewrite Z in E. destruct DP as (? & ? & D). congruence.
      + rewrite app_assoc in Z. apply app_inj_tail in Z as [-> _]. apply (Napart _ _ V). now exists z'. }
  assert (Met : forall n, In n names -> plain_path ((p ++ r) ++ [n]) /\ exists t e, plook x0 true (abs_path ((p ++ r) ++ [n])) = Ok (At t e) /\ is_plink e = false).
  { intros n Hn. apply In_n in Hn. destruct (Hmet r q n V Hn) as (P1 & _ & t & e & L). split; auto. exists t, e. split; auto.
    now apply (look_no_link x0 _ t e So P1). }
  assert (PPn : forall n, In n names -> plain_path ((P ++ r) ++ [n])).
  { intros n Hn. destruct (Met n Hn) as [P1 _]. rewrite <- app_assoc in *. now apply (plain_put P p). }
  pose (isd := fun n => is_dir_b x ((p ++ r) ++ [n])).
  assert (Kind : forall n t e, In n names -> plook x0 true (abs_path ((p ++ r) ++ [n])) = Ok (At t e) -> isd n = is_pdir e).
  { intros n t e Hn L. unfold isd, is_dir_b, tests. now rewrite (looks x true _ t e K L). }
  cbn [walk_gen b_listdir LB]. erewrite bind_ok by (now apply (listdir_through x (p ++ r) q)). fold names.
  replace (sort_strs names) with names by (unfold names, kids_at; symmetry; apply sort_twice, children_nodup, (so_nodup x S)).
  erewrite bind_ok by (apply kinds_run; auto; intros n Hn; now apply Met). fold isd. cbn [fst snd].
  assert (Ndp : forall g, NoDup (filter g names)) by (intros; now apply NoDup_filter).
  pose (E1 := fun (n : str) (w : list str) => (P ++ r) ++ [n] = w).
  assert (Inj1 : forall n m w, E1 n w -> E1 m w -> n = m) by (unfold E1; intros n m w <- Z; apply app_inv_head in Z; congruence).
  assert (W0 : wrote x x (fun w => exists n, In n [] /\ E1 n w) F2) by (apply wr_refl; auto; intros w (n & [] & _)).
  assert (Sub1 : forall dn w, (exists n, In n dn /\ E1 n w) -> exists z, z <> [] /\ w = P ++ z).
  { intros dn w (m & _ & <-). exists (r ++ [m]). split; [now destruct r|now rewrite app_assoc]. }
  assert (St : forall dn n y, In n names -> ~ In n dn -> wrote x y (fun w => exists n, In n dn /\ E1 n w) F2 ->
      kept y /\ is_dir_at y (P ++ r) /\ pget ((P ++ r) ++ [n]) (p_tree y) = None).
  { intros dn n y Hn Ndn W. split; [|split].
    - eapply kept_wrote; [exact K|exact W|apply Sub1].
    - destruct Dd as (mo & mt & Dd). exists mo, mt. rewrite (wr_old _ _ _ _ W); auto. intros (m & _ & Z). apply (f_equal (@length _)) in Z.
      rewrite app_length in Z. cbn in Z. lia.
    - rewrite (wr_old _ _ _ _ W); [now apply Nd|]. intros (m & Im & Z). apply app_inv_head in Z. injection Z as ->. auto. }
  assert (Isl : forall y n, In n names -> exists b, u_islink LB (file_uri ((p ++ r) ++ [n])) y = (Ok b, y)).
  { intros y n _. eexists. unfold u_islink, hooked. erewrite bind_ok by reflexivity. cbn [b_islink LB]. unfold loc_islink, path_islink. apply test_run. }
  (* the directories of this one *)
  destruct (each_writes (fun ds folder =>
                         if str_in folder [] then ret (remove_first folder ds)
                         else
                           let! ddir <- lift (u_div (file_uri (P ++ r)) folder);
                           let! srcp <- lift (u_div (file_uri (p ++ r)) folder);
                           let! l <- u_islink LB srcp;
                           (if l && negb true then copy_link LB srcp ddir else u_makedirs LB fuel0 ddir) ;;
                           ret ds) (filter isd names) E1 F2 x (filter isd names) [] x (Ndp isd) Inj1 W0) as (x1 & Ex1 & W1).
  { intros dn n y Hn Ndn W. apply filter_In in Hn as [Hn Hd]. destruct (St dn n y Hn Ndn W) as (Ky & Dy & Ny). destruct (Met n Hn) as (P1 & t & e & L & Le).
    cbn [str_in existsb]. erewrite bind_ok by (apply lift_ok, file_div'; auto). erewrite bind_ok by (apply lift_ok, file_div'; auto).
    destruct (Isl y n Hn) as [l El]. erewrite bind_ok by exact El. cbn [negb]. rewrite andb_false_r.
    rewrite (Kind n t e Hn L) in Hd. destruct e as [|mo mt|]; try discriminate.
    destruct (jt_dir y r q n t _ Ky V (proj1 (In_n n) Hn) Dy L Ny mo mt eq_refl) as (z & Ez & Wz).
    exists z. split; [now erewrite bind_ok by exact Ez|exact Wz]. }
  cbn [app] in W1.
  (* the files *)
  destruct (each_writes (fun (_ : unit) fname => let! srcf <- lift (u_div (file_uri (p ++ r)) fname);
           let! destf <- lift (u_div (file_uri (P ++ r)) fname); copy_entry LB true true srcf destf) tt E1 F2 x (filter (fun n => negb (isd n)) names) (filter isd names) x1) as (x2 & Ex2 & W2); auto.
  { eapply Permutation_NoDup; [|exact Nn]. clear. induction names as [|n l IHl]; [constructor|]. cbn. destruct (isd n); cbn.
    - now constructor.
    - now apply Permutation_cons_app. }
  { intros dn n y Hn Ndn W. apply filter_In in Hn as [Hn Hd]. destruct (St dn n y Hn Ndn W) as (Ky & Dy & Ny). destruct (Met n Hn) as (P1 & t & e & L & Le).
    erewrite bind_ok by (apply lift_ok, file_div'; auto). erewrite bind_ok by (apply lift_ok, file_div'; auto).
    rewrite (Kind n t e Hn L) in Hd. destruct e as [d mo mt|mo mt|]; try discriminate.
    now apply (jt_entry y r q n t _ Ky V (proj1 (In_n n) Hn) Dy L Ny d mo mt). }
  assert (W2' : wrote x x2 (fun w => exists n, In n names /\ E1 n w) F2).
  { eapply wr_iff; [exact W2|]. intros w. split; intros (n & In' & En); exists n; (split; [|exact En]).
    - apply in_app_or in In' as [Z|Z]; now apply filter_In in Z.
    - apply in_or_app. rewrite !filter_In. destruct (isd n); auto. }
  clear W2. assert (K2 : kept x2) by (eapply kept_wrote; [exact K|exact W2'|apply Sub1]).
  assert (Eb : body2 tt (file_uri (p ++ r)) (filter isd names) (filter (fun n => negb (isd n)) names) x = (Ok (tt, filter isd names), x2)).
  { pose proof (dest_base2 r Ps (ent_unpadded r q V)) as Db. cbv zeta in Db. unfold body2, copy_step. cbv zeta. rewrite Db.
    erewrite bind_ok; [reflexivity|]. erewrite bind_ok by reflexivity. erewrite bind_ok by exact Ex1.
    erewrite bind_ok by (rewrite map_fold; exact Ex2). reflexivity. }
  erewrite bind_ok by exact Eb. cbn [fst snd].
  (* what is below *)
  pose (E3 := fun (n : str) (w : list str) => exists z, z <> [] /\ w = (P ++ r ++ [n]) ++ z).
  assert (Inj3 : forall n m w, E3 n w -> E3 m w -> n = m).
  { intros n m w (z & _ & ->) (w' & _ & Z). rewrite <- !app_assoc in Z. do 2 apply app_inv_head in Z. cbn in Z. congruence. }
  assert (W03 : wrote x2 x2 (fun w => exists n, In n [] /\ E3 n w) F2) by (apply wr_refl; [apply (in_sound _ _ x2 (proj1 K2))|intros w (n & [] & _)]).
  destruct (each_writes (fun a name => let! path <- lift (u_div (file_uri (p ++ r)) name); let! l <- u_islink LB path;
                            if negb l || true then walk_gen LB fuel true true body2 a path else ret a) tt E3 F2 x2 (filter isd names) [] x2 (Ndp isd) Inj3 W03) as (x3 & Ex3 & W3).
  { intros dn n y Hn Ndn W. apply filter_In in Hn as [Hn Hd]. destruct (Met n Hn) as (P1 & t & e & L & Le).
    assert (Ky : kept y).
    { eapply kept_wrote; [exact K2|exact W|]. intros w (m & _ & z & _ & ->). exists ((r ++ [m]) ++ z). split; [now destruct r|now rewrite <- (app_assoc P)]. }
    erewrite bind_ok by (apply lift_ok, file_div'; auto).
    destruct (Isl y n Hn) as [l El]. erewrite bind_ok by exact El. rewrite orb_true_r.
    rewrite (Kind n t e Hn L) in Hd. destruct e as [|mo mt|]; try discriminate.
    assert (E2n : forall z, pget ((P ++ r ++ [n]) ++ z) (p_tree y) = pget ((P ++ r ++ [n]) ++ z) (p_tree x2)).
    { intros z. apply (wr_old _ _ _ _ W). intros (m & Im & w & _ & Z). rewrite <- !app_assoc in Z. do 2 apply app_inv_head in Z. cbn in Z. congruence. }
    destruct (IH y (r ++ [n]) t) as (z & Ez & Wz); auto.
    + apply (en_down x0 true [] p r q n t); auto; [now apply In_n|]. now exists mo, mt.
    + specialize (E2n []). rewrite !app_nil_r in E2n. eexists _, _. rewrite E2n, app_assoc.
      rewrite (wr_new _ _ _ _ W2') by (exists n; split; [exact Hn|reflexivity]). now rewrite (jt_F r q n t _ V (proj1 (In_n n) Hn) L).
    + intros z Nz. rewrite E2n. rewrite (wr_old _ _ _ _ W2').
      * rewrite <- !app_assoc. rewrite app_assoc. apply Nd. now destruct z.
      * intros (m & _ & Z). unfold E1 in Z. rewrite <- !app_assoc in Z. do 2 apply app_inv_head in Z. cbn in Z. destruct z; [easy|discriminate].
    + intros z q' Hz. rewrite <- app_assoc in Hz. apply Hf in Hz. cbn in Hz. lia.
    + exists z. rewrite app_assoc in Ez. split; [exact Ez|exact Wz]. }
  cbn [app] in W3. exists x3. split; [now erewrite bind_ok by exact Ex3|].
  assert (Wt : wrote x x3 (fun w => (exists n, In n names /\ E1 n w) \/ exists n, In n (filter isd names) /\ E3 n w) F2).
  { eapply wr_trans; [exact W2'|exact W3| |tauto]. intros w (n & _ & <-) (m & _ & z & Nz & Z). rewrite <- !app_assoc in Z. do 2 apply app_inv_head in Z. cbn in Z.
    destruct z; [easy|discriminate]. }
  split; [apply (wr_sound _ _ _ _ Wt)| |  |apply (wr_rest _ _ _ _ Wt)].
  - intros w (z & Nz & ->). destruct z as [|n z]; [easy|].
    assert (Sn : F2 ((P ++ r) ++ n :: z) = option_map (dup x0) (match pget (q ++ [n]) T0 with Some _ => seen x0 ((p ++ r) ++ [n]) z | None => None end)).
    { rewrite <- app_assoc, F2_at, (seen_on r q _ V). cbn [seen]. destruct Dr as (mo & mt & ->). reflexivity. }
    assert (Old : ~ In n names \/ (isd n = false /\ z <> []) -> seen x0 ((p ++ r) ++ [n]) z = None \/ ~ In n names -> pget ((P ++ r) ++ n :: z) (p_tree x3) = F2 ((P ++ r) ++ n :: z)).
    { intros Ha Hb. rewrite (wr_old _ _ _ _ Wt); [|intros [(n' & In' & Z)|(n' & In' & w & Nw & Z)]].
      - rewrite Nd by easy. rewrite Sn. destruct (pget (q ++ [n]) T0) eqn:En; [|reflexivity]. destruct Hb as [->|Hb]; [reflexivity|]. exfalso. apply Hb, In_n. congruence.
      - apply app_inv_head in Z. injection Z as -> <-. destruct Ha as [Ha|[_ Ha]]; [now apply Ha|easy].
      - rewrite <- !app_assoc in Z. do 2 apply app_inv_head in Z. cbn in Z. injection Z as -> ->. apply filter_In in In' as [In' Id]. destruct Ha as [Ha|[Ha _]]; [now apply Ha|congruence]. }
    destruct (in_dec (list_eq_dec N.eq_dec) n names) as [Hn|Hn]; [|apply Old; auto].
    destruct z as [|m z].
    + apply (wr_new _ _ _ _ Wt). left. exists n. split; [exact Hn|reflexivity].
    + destruct (isd n) eqn:Ed.
      * apply (wr_new _ _ _ _ Wt). right. exists n. split; [apply filter_In; now split|].
        exists (m :: z). split; [easy|]. now rewrite <- !app_assoc.
      * apply Old; [right; now split|left]. destruct (Met n Hn) as (P1 & t & e & L & Le). cbn [seen]. rewrite L.
        rewrite (Kind n t e Hn L) in Ed. apply look_there in L. destruct (pget (t ++ [m]) T0) eqn:Em; [|reflexivity]. exfalso.
        destruct (so_dir x0 So t [m]) as (? & ? & Z); [easy|congruence|]. rewrite L in Z. injection Z as ->. discriminate.
  - intros w Hq. apply (wr_old _ _ _ _ Wt). intros [(n & _ & <-)|(n & _ & z & Nz & ->)]; apply Hq.
    + exists [n]. split; easy.
    + exists ([n] ++ z). split; [easy|]. now rewrite <- !app_assoc.
Qed.
End Copy.

Lemma copy_follow_tree x i n q j b fuel : sound x -> plain_path (i ++ [n]) -> plain_path q -> plain_path (j ++ b) ->
  leads_to_dir x (i ++ [n]) -> goes_to x n q (j ++ b) -> b <> [] -> is_dir_at x j -> (forall m b', b = m :: b' -> pget (j ++ [m]) (p_tree x) = None) ->
  (forall r s m, enters x true [] (i ++ [n]) r s -> pget (s ++ [m]) (p_tree x) <> None ->
     plain_path (((i ++ [n]) ++ r) ++ [m]) /\ unpadded m /\ exists t e, plook x true (abs_path (((i ++ [n]) ++ r) ++ [m])) = Ok (At t e)) ->
  (forall r, ~ enters x true [] (i ++ [n]) r j) ->
  (41 * length (p_tree x) <= fuel)%nat -> (length b < fuel)%nat ->
  exists y, u_copy LB fuel true [] true (file_uri (i ++ [n])) (file_uri q) x = (Ok tt, y) /\ sound y /\
    (forall b1 b2, b = b1 ++ b2 -> b1 <> [] -> pget (j ++ b1) (p_tree y) = Some (new_dir x)) /\
    (forall z, z <> [] -> pget ((j ++ b) ++ z) (p_tree y) = option_map (dup x) (seen x (i ++ [n]) z)) /\
    (forall z, (forall b1 b2, b = b1 ++ b2 -> b1 <> [] -> z <> j ++ b1) -> ~ below (j ++ b) z -> pget z (p_tree y) = pget z (p_tree x)) /\
    p_cwd y = p_cwd x /\ p_now y = p_now x /\ p_umask y = p_umask x.
Proof.
  intros S Pp Pq Pd (s0 & D) G Nb Dj Hn Hm Nj Hf Hb.
  set (p := i ++ [n]) in *.
  assert (Gone : forall r, (exists m b', b = m :: b' /\ exists w, r = m :: w) -> pget (j ++ r) (p_tree x) = None).
  { intros r (m & b' & -> & w & ->). destruct (pget (j ++ m :: w) (p_tree x)) eqn:E; auto. exfalso.
    specialize (Hn m b' eq_refl). destruct w as [|c w]; [congruence|].
    destruct (so_dir x S (j ++ [m]) (c :: w)) as (? & ? & Z); [easy|rewrite <- app_assoc; cbn; congruence|congruence]. }
  assert (Pre : forall b1 b2 z, b = b1 ++ b2 -> b1 <> [] -> pget (j ++ b1 ++ z) (p_tree x) = None).
  { intros [|m b1] b2 z Eb Nb1; [easy|]. apply Gone. exists m, (b1 ++ b2). split; auto. now exists (b1 ++ z). }
  assert (Np : p <> []) by (unfold p; now destruct i).
  assert (Ndst : j ++ b <> []) by (intros Z; apply app_eq_nil in Z; tauto).
  assert (Hpl : forall r s m, enters x true [] p r s -> pget (s ++ [m]) (p_tree x) <> None -> plain_path ((p ++ r) ++ [m])) by (intros; now apply (Hm r s m)).
  pose proof D as (dmo & dmt & Lp).
  destruct (dest_run x i n q j b) as (dd & E1 & E2); auto. fold p in E2.
  destruct (makedirs_run x j b S Pd Dj Hn fuel Hb) as (x1 & Em & W1).
  assert (Un : u_copy LB fuel true [] true (file_uri p) (file_uri q) x =
    walk_gen LB fuel true true (body2 p (j ++ b) fuel) tt (file_uri p) x1).
  { unfold u_copy, hooked. erewrite bind_ok by reflexivity. unfold fs_copy. rewrite same_scheme.
    erewrite bind_ok by (now eapply exists_run; eauto). cbn [negb].
    erewrite bind_ok by (now eapply isdir_at_run; eauto). cbn [is_pdir negb].
    erewrite bind_ok by exact E1. erewrite bind_ok by exact E2.
    erewrite bind_ok by (unfold u_islink, hooked; erewrite bind_ok by reflexivity; cbn [b_islink LB]; unfold loc_islink, path_islink; apply test_run).
    rewrite andb_false_r.
    erewrite bind_ok by (unfold u_makedirs, hooked; erewrite bind_ok by reflexivity; exact Em).
    erewrite bind_ok by reflexivity. reflexivity. }
  pose proof (wr_sound _ _ _ _ W1) as S1. pose proof (wr_rest _ _ _ _ W1) as (C1 & C2 & C3).
  assert (Gr : forall w e, pget w (p_tree x) = Some e -> pget w (p_tree x1) = Some e).
  { intros w e E. rewrite (wr_old _ _ _ _ W1); auto. intros (b1 & b2 & Eb & Nb1 & ->). rewrite <- (app_nil_r b1) in E. rewrite (Pre b1 b2) in E; easy. }
  assert (Lk : forall f t w e, plook x f t = Ok (At w e) -> plook x1 f t = Ok (At w e)) by (intros; now apply (look_grows x x1)).
  assert (Thr : forall r s, enters x true [] p r s -> plain_path (p ++ r) /\ dir_through x (p ++ r) s) by apply (enters_through x p true [] Pp Hpl).
  assert (Dir : forall r s, enters x true [] p r s -> is_dir_at x s) by (intros r s V; destruct (Thr r s V); now apply (through_dir x S (p ++ r))).
  assert (Kid : forall r s m, enters x true [] p r s -> pget (s ++ [m]) (p_tree x1) = pget (s ++ [m]) (p_tree x)).
  { intros r s m V. apply (wr_old _ _ _ _ W1). intros (b1 & b2 & Eb & Nb1 & Z). destruct (snoc_cases b1) as [->|(b' & c & ->)]; [easy|].
    rewrite app_assoc in Z. apply app_inj_tail in Z as [-> _]. destruct b' as [|m' b']; [rewrite app_nil_r in V; now apply (Nj r)|].
    destruct (Dir _ _ V) as (? & ? & E). rewrite <- app_assoc in Eb. rewrite <- (app_nil_r (m' :: b')), (Pre (m' :: b') ([c] ++ b2)) in E; easy. }
  assert (Back : forall r s, enters x1 true [] p r s -> enters x true [] p r s).
  { intros r s V. induction V as [s (mo & mt & L)|r s m s' V IH N Ni (mo & mt & L) F].
    - rewrite (Lk _ _ _ _ Lp) in L. injection L as <- <- <-. now apply en_top.
    - rewrite (Kid r s m IH) in N. destruct (Hm r s m IH N) as (_ & _ & t & e & L'). rewrite (Lk _ _ _ _ L') in L. injection L as <- ->.
      apply (en_down x true [] p r s m t); auto. now exists mo, mt. }
  assert (Seen : forall z r s, enters x true [] p r s -> seen x1 (p ++ r) z = seen x (p ++ r) z).
  { induction z as [|m z IH]; intros r s V; destruct (Thr r s V) as [_ (mo & mt & L)]; cbn [seen]; rewrite L, (Lk _ _ _ _ L); auto.
    rewrite (Kid r s m V). destruct (pget (s ++ [m]) (p_tree x)) eqn:En; auto. destruct (Hm r s m V) as (Pm & _ & t & e & L'); [congruence|].
    destruct (is_pdir e) eqn:Ed.
    - destruct e as [|mo' mt'|]; try discriminate. rewrite <- app_assoc. apply (IH (r ++ [m]) t). apply (en_down x true [] p r s m t); auto; [congruence|]. now exists mo', mt'.
    - destruct z as [|c z]; cbn [seen]; rewrite L', (Lk _ _ _ _ L'); auto. apply look_there in L'.
      assert (Leaf : forall y, sound y -> pget t (p_tree y) = Some e -> pget (t ++ [c]) (p_tree y) = None).
      { intros y Sy Ey. destruct (pget (t ++ [c]) (p_tree y)) eqn:Et; auto. destruct (so_up y Sy t c) as (? & ? & Z); [congruence|]. rewrite Ey in Z. injection Z as ->. discriminate. }
      now rewrite (Leaf x S L'), (Leaf x1 S1 (Gr _ _ L')). }
  assert (Nd : new_dir x1 = new_dir x) by (unfold new_dir; now rewrite C2, C3).
  assert (Du : forall e, dup x1 e = dup x e) by (intros []; cbn; auto).
  destruct (copy_below2 x1 S1 p (j ++ b) fuel Np Ndst Pp Pd) with (fuel := fuel) (x := x1) (r := @nil str) (q := s0) as (y & Ey & W2); rewrite ?app_nil_r; auto.
  { eexists _, _. rewrite (wr_new _ _ _ _ W1); [reflexivity|]. exists b, []. now rewrite app_nil_r. }
  { intros z Nz. rewrite (wr_old _ _ _ _ W1); [rewrite <- app_assoc; apply (Pre b []); auto; now rewrite app_nil_r|].
    intros (b1 & b2 & Eb & _ & Z). rewrite <- app_assoc in Z. apply app_inv_head in Z. apply (f_equal (@length _)) in Z, Eb. rewrite !app_length in *.
    destruct z; [easy|]. cbn in Z. lia. }
  { intros r s m V N. apply Back in V. rewrite (Kid r s m V) in N. destruct (Hm r s m V N) as (P1 & U1 & t & e & L). split; [exact P1|]. split; [exact U1|]. exists t, e. exact (Lk _ _ _ _ L). }
  { intros r s V [z ->]. apply Back, Dir in V as (? & ? & Z). rewrite <- app_assoc, (Pre b []) in Z; auto; [discriminate|now rewrite app_nil_r]. }
  { destruct b; [easy|]. cbn in Hb. lia. }
  { split; [constructor; auto|reflexivity]. }
  { apply en_top. exists dmo, dmt. exact (Lk _ _ _ _ Lp). }
  { eexists _, _. rewrite (wr_new _ _ _ _ W1); [reflexivity|]. exists b, []. now rewrite app_nil_r. }
  { intros z Nz. rewrite (wr_old _ _ _ _ W1); [rewrite <- app_assoc; apply (Pre b []); auto; now rewrite app_nil_r|].
    intros (b1 & b2 & Eb & _ & Z). rewrite <- app_assoc in Z. apply app_inv_head in Z. apply (f_equal (@length _)) in Z, Eb. rewrite !app_length in *.
    destruct z; [easy|]. cbn in Z. lia. }
  { intros z q' Hz. apply Back in Hz. pose proof (enters_bound x S p true [] Pp Hpl _ _ Hz) as Bd. cbn [app] in Bd. lia. }
  exists y. rewrite app_nil_r in Ey. split; [now rewrite Un|]. pose proof (wr_rest _ _ _ _ W2) as (C4 & C5 & C6).
  split; [apply (wr_sound _ _ _ _ W2)|]. split; [|split; [|split; [|split; [|split]]]]; try congruence.
  - intros b1 b2 Eb Nb1. rewrite (wr_old _ _ _ _ W2).
    + apply (wr_new _ _ _ _ W1). now exists b1, b2.
    + intros (z & Nz & Z). rewrite app_nil_r, <- app_assoc in Z. apply app_inv_head in Z. apply (f_equal (@length _)) in Z, Eb. rewrite !app_length in *.
      destruct z; [easy|]. cbn in Z. lia.
  - intros z Nz. rewrite (wr_new _ _ _ _ W2) by (exists z; now rewrite app_nil_r). rewrite F2_at.
    pose proof (Seen z [] s0 (en_top x true [] p s0 D)) as Ez. rewrite app_nil_r in Ez. rewrite Ez. destruct (seen x p z) as [e|]; cbn; [now rewrite Du|auto].
  - intros z Z1 Z2. rewrite (wr_old _ _ _ _ W2).
    + apply (wr_old _ _ _ _ W1). intros (b1 & b2 & Eb & Nb1 & Z). now apply (Z1 b1 b2).
    + intros (w & _ & Z). apply Z2. exists w. now rewrite app_nil_r in Z.
Qed.
