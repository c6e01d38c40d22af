(** The functions of os and shutil on paths at and below a directory. *)
From Coq Require Import Lia.
From Verif Require Import Str Exc UriParse BaseUri StrFacts SpecUri Mem SpecMem Misc Posix Local SpecLocal Generic LocProg SpecHome UriFacts4 LocalFacts1 LocalFacts6 LocalFacts15 ApartFacts2 HomeFacts1 Pair.

Section Home.
Variable D : list str.
Variables x0 y0 : pst.
Hypothesis HD : home_dir D.
Hypothesis roof1 : forall A n B, D = A ++ n :: B -> is_dir_at x0 A.
Hypothesis roof2 : forall A n B, D = A ++ n :: B -> is_dir_at y0 A.
Notation twins := (twins D x0 y0).
Notation home_text := (home_text D).
Notation on Q m := (both twins Q m m).
Definition pairq {A} (Q : A -> Prop) (a b : res A * pst) : Prop := fst a = fst b /\ twins (snd a) (snd b) /\ forall v, fst a = Ok v -> Q v.
Lemma pq {A} (Q : A -> Prop) r x y : twins x y -> (forall v, r = Ok v -> Q v) -> pairq Q (r, x) (r, y).
Proof. intros T H. split; [reflexivity|]. now split. Qed.
Definition seen (x : pst) (s : spot) : Prop := spot_in D s /\ spot_ok x s.
Lemma at_look f p x y : home_text p -> twins x y -> plook y f p = plook x f p /\ forall s, plook x f p = Ok s -> seen x s.
Proof.
  intros H T. destruct (look D x0 y0 HD roof1 roof2 x y T f p H) as [E I]. split; [now symmetry|]. intros s Es. split; [now apply I|]. exact (look_spot x f p s Es).
Qed.
(** Changes *)
Lemma tw_set x y t t' : twins x y -> innards D t = innards D t' -> outer D t = outer D (p_tree x) -> outer D t' = outer D (p_tree y) ->
  (forall p e, pget (D ++ p) t = Some e -> Forall mild p /\ forall tg, e = PLink tg -> home_text tg) -> twins (set_tree x t) (set_tree y t').
Proof.
  intros T E O1 O2 N. destruct T. constructor; cbn [set_tree p_tree p_now p_umask]; try assumption; try congruence.
  - intros p H. destruct (pget (D ++ p) t) as [e|] eqn:Eg; [|easy]. apply (N p e Eg).
  - intros p tg H. now apply (proj2 (N p _ H)).
Qed.
Lemma tw_entry x y p e : twins x y -> pget (D ++ p) (p_tree x) = Some e -> Forall mild p /\ forall tg, e = PLink tg -> home_text tg.
Proof. intros T E. split; [apply (tw_names _ _ _ _ _ T); congruence|]. intros tg ->. exact (tw_links _ _ _ _ _ T p tg E). Qed.
Lemma tw_put x y q e : twins x y -> is_below D q = true -> (forall p, q = D ++ p -> Forall mild p) -> (forall tg, e = PLink tg -> home_text tg) ->
  twins (set_tree x (pset q e (p_tree x))) (set_tree y (pset q e (p_tree y))).
Proof.
  intros T B N L. apply tw_set; auto.
  - now rewrite !pset_in, (tw_in _ _ _ _ _ T).
  - now apply pset_out.
  - now apply pset_out.
  - intros p g. rewrite pget_pset. destruct (path_eqb (D ++ p) q) eqn:E; [|now apply (tw_entry x y)]. apply path_eqb_spec in E. intros H. injection H as <-. now split; [apply N|].
Qed.
Lemma tw_del x y q : twins x y -> is_below D q = true -> twins (set_tree x (pdel q (p_tree x))) (set_tree y (pdel q (p_tree y))).
Proof.
  intros T B. apply tw_set; auto.
  - now rewrite !pdel_in, (tw_in _ _ _ _ _ T).
  - now apply pdel_out.
  - now apply pdel_out.
  - intros p g. rewrite pget_pdel. destruct (path_eqb (D ++ p) q) eqn:E; [discriminate|now apply (tw_entry x y)].
Qed.
Lemma at_names x y q e : twins x y -> seen x (At q e) -> forall p, q = D ++ p -> Forall mild p.
Proof. intros T [_ H] p ->. cbn in H. apply (tw_names _ _ _ _ _ T). congruence. Qed.
Lemma gap_names x y d n : twins x y -> seen x (Gap d n) -> forall p, d ++ [n] = D ++ p -> Forall mild p.
Proof.
  intros T [[_ Mn] [(mo & mt & H) _]] p E. destruct p as [|m p _] using rev_ind; [constructor|]. rewrite app_assoc in E. apply app_inj_tail in E as [-> ->].
  apply Forall_app. split; [|now constructor]. apply (tw_names _ _ _ _ _ T). congruence.
Qed.
Ltac looks H T f p := let E := fresh "E" in let S := fresh "S" in destruct (at_look f p _ _ H T) as [E S]; rewrite E; clear E.

Lemma on_stat f p : home_text p -> on any (os_stat f p).
Proof. intros H x y T. unfold os_stat. looks H T f p. apply pq; [exact T|now intros]. Qed.
Lemma on_test f g p : home_text p -> on any (os_test f g p).
Proof.
  intros H x y T. unfold os_test, os_stat. looks H T f p. destruct (plook x f p) as [[q e|d n]|e].
  - now apply pq.
  - now apply pq.
  - destruct e; now apply pq.
Qed.
Lemma mild_kid x y d n : twins x y -> is_below D d = true -> In n (pchildren d (p_tree x)) -> mild n.
Proof.
  intros T B I. apply is_below_true in B as [p ->]. assert (G : pget ((D ++ p) ++ [n]) (p_tree x) <> None).
  { unfold pchildren in I. apply in_flat_map in I as ([q e] & Iq & I). cbn [fst] in I. destruct (child_name (D ++ p) q) as [m|] eqn:C; [|easy]. destruct I as [->|[]]. apply child_name_spec in C. subst q.
    clear - Iq. induction (p_tree x) as [|[r g] t IH]; [easy|]. cbn [pget]. destruct (path_eqb ((D ++ p) ++ [n]) r) eqn:E; [discriminate|]. apply IH. destruct Iq as [Q|Q]; [|exact Q]. injection Q as -> _. now rewrite path_eqb_refl in E. }
  rewrite <- app_assoc in G. pose proof (tw_names _ _ _ _ _ T (p ++ [n]) G) as F. apply Forall_app in F as [_ F]. now inversion F.
Qed.
Lemma on_oslist p : home_text p -> on (Forall mild) (os_listdir p).
Proof.
  intros H x y T. unfold os_listdir. looks H T true p. destruct (plook x true p) as [[q e|d n]|e]; [|now apply pq|now apply pq].
  destruct (S _ eq_refl) as [B _]. cbn in B. rewrite <- (tw_kids _ _ _ _ _ q T B). apply pq; [exact T|]. intros l E. apply Forall_forall. intros n I. destruct e; try discriminate E. injection E as <-. exact (mild_kid x y q n T B I).
Qed.
(** Without the slashes at the end *)
Lemma drop_app c r k : c <> cSlash -> drop_slashes (r ++ c :: k) = drop_slashes r ++ c :: k.
Proof.
  intros N. induction r as [|a r IH]; cbn [app drop_slashes].
  - destruct (N.eqb c cSlash) eqn:E; [now apply N.eqb_eq in E|reflexivity].
  - destruct (N.eqb a cSlash); [exact IH|reflexivity].
Qed.
Lemma drop_sub r : exists a, r = a ++ drop_slashes r.
Proof. induction r as [|c r [a IH]]; cbn [drop_slashes]; [now exists []|]. destruct (N.eqb c cSlash); [exists (c :: a); cbn [app]; now rewrite <- IH|now exists []]. Qed.
Lemma home_end : exists k c, c <> cSlash /\ abs_path D = k ++ [c].
Proof using HD.
  clear roof1 roof2.
  pose proof (hd_some D HD) as N. pose proof (hd_names D HD) as Nm. destruct D as [|n d _] using rev_ind; [easy|]. apply Forall_app in Nm as [_ Nm]. inversion Nm as [|? ? (H1 & H2 & _) _]; subst.
  rewrite abs_path_snoc. destruct n as [|c n _] using rev_ind; [easy|]. exists (flat_map (fun c => cSlash :: c) d ++ cSlash :: n), c. split; [intros ->; apply H2, in_app_iff; right; now left|].
  rewrite <- app_assoc. reflexivity.
Qed.
Lemma chop_home p : home_text p -> home_text (chop p).
Proof.
  intros [M (t & Ht & ->)]. destruct home_end as (k & c & Nc & Ek).
  assert (C : chop (abs_path D ++ t) = abs_path D ++ rev (drop_slashes (rev t))).
  { unfold chop. rewrite Ek, !rev_app_distr. cbn [rev app]. rewrite (drop_app c (rev t) (rev k) Nc). rewrite rev_app_distr. cbn [rev]. rewrite rev_involutive. rewrite <- app_assoc. cbn [app]. destruct k; reflexivity. }
  rewrite C. destruct (drop_sub (rev t)) as [a Ea]. apply (f_equal (@rev N)) in Ea. rewrite rev_involutive, rev_app_distr in Ea. split.
  - apply (mild_sub _ _ M). exists [], (rev a). cbn [app]. now rewrite <- app_assoc, <- Ea.
  - eexists. split; [|reflexivity]. destruct (rev (drop_slashes (rev t))) as [|d r]; [now left|right]. destruct Ht as [->|[q ->]]; [discriminate Ea|]. injection Ea as <- _. now exists r.
Qed.
Lemma on_sys_unlink p : home_text p -> on any (sys_unlink p).
Proof.
  intros H x y T. unfold sys_unlink. looks H T false p. destruct (plook x false p) as [[q e|d n]|e]; try (now apply pq).
  destruct (S _ eq_refl) as [B _]. cbn in B. destruct e; try (now apply pq); (split; [reflexivity|]; split; [now apply tw_del|now intros]).
Qed.
Lemma on_unlink p : home_text p -> on any (os_unlink p).
Proof.
  intros H x y T. unfold os_unlink. destruct (slashed p); [|now apply on_sys_unlink]. looks (chop_home p H) T false (chop p). now apply pq.
Qed.
Lemma on_sys_rmdir p : home_text p -> on any (sys_rmdir p).
Proof.
  intros H x y T. unfold sys_rmdir. looks H T false p. destruct (plook x false p) as [[q e|d n]|e]; try (now apply pq).
  destruct (S _ eq_refl) as [B _]. cbn in B. destruct q as [|a q]; [now apply pq|]. destruct e; try (now apply pq). rewrite <- (tw_kids _ _ _ _ _ (a :: q) T B).
  destruct (pchildren (a :: q) (p_tree x)); [|now apply pq]. split; [reflexivity|]. split; [now apply tw_del|now intros].
Qed.
Lemma on_rmdir p : home_text p -> on any (os_rmdir p).
Proof.
  intros H x y T. pose proof (chop_home p H) as Hc. unfold os_rmdir. looks Hc T false (chop p). destruct (plook x false (chop p)) as [[q e|d n]|e]; try (now apply on_sys_rmdir).
  destruct (str_eqb (last_piece p) dot); [now apply pq|]. destruct (str_eqb (last_piece p) dotdot); [now apply pq|now apply on_sys_rmdir].
Qed.
Lemma on_osmkdir p : home_text p -> on any (os_mkdir p).
Proof.
  intros H x y T. unfold os_mkdir, sys_mkdir. apply chop_home in H. looks H T false (chop p). destruct (plook x false (chop p)) as [[q e|d n]|e]; try (now apply pq).
  destruct (S _ eq_refl) as [[B Mn] O]. rewrite <- (tw_now _ _ _ _ _ T), <- (tw_umask _ _ _ _ _ T). split; [reflexivity|]. split; [|now intros]. apply tw_put; auto; [|discriminate].
  apply (gap_names x y d n T). now split.
Qed.
Lemma on_ossymlink tg p : home_text tg -> home_text p -> on any (os_symlink tg p).
Proof.
  intros Ht H x y T. unfold os_symlink. destruct (slashed p).
  - looks (chop_home p H) T false (chop p). now apply pq.
  - unfold sys_symlink. destruct (has_char 0 tg); [now apply pq|]. looks H T false p. destruct (plook x false p) as [[q e|d n]|e].
    + destruct tg; now apply pq.
    + destruct tg as [|a tg]; [now apply pq|]. destruct (S _ eq_refl) as [[B Mn] O]. split; [reflexivity|]. split; [|now intros]. apply tw_put; auto.
      * apply (gap_names x y d n T). now split.
      * intros t E. now injection E as <-.
    + destruct e, tg; now apply pq.
Qed.
Lemma on_osreadlink p : home_text p -> on home_text (os_readlink p).
Proof.
  intros H x y T. unfold os_readlink. looks H T false p. apply pq; [exact T|]. intros tg E. destruct (plook x false p) as [[q [| |t]|d n]|e] eqn:L; try discriminate E. injection E as <-.
  destruct (S _ eq_refl) as [B O]. cbn in B, O. apply is_below_true in B as [r ->]. exact (tw_links _ _ _ _ _ T r t O).
Qed.
Lemma stat_link e mo mt tg : with_stat e mo mt = PLink tg -> e = PLink tg. Proof. destruct e; cbn; congruence. Qed.
Lemma put_stat x y q e mo mt : twins x y -> seen x (At q e) -> twins (set_tree x (pset q (with_stat e mo mt) (p_tree x))) (set_tree y (pset q (with_stat e mo mt) (p_tree y))).
Proof.
  intros T S. pose proof S as [B O]. cbn in B, O. apply tw_put; auto; [exact (at_names x y q e T S)|]. intros tg E. apply stat_link in E. subst e. apply is_below_true in B as [r ->]. exact (tw_links _ _ _ _ _ T r tg O).
Qed.
Lemma on_chmod p m : home_text p -> on any (os_chmod p m).
Proof.
  intros H x y T. unfold os_chmod. looks H T true p. destruct (plook x true p) as [[q e|d n]|e]; try (now apply pq). split; [reflexivity|]. split; [|now intros]. apply put_stat; auto.
Qed.
Lemma on_oscopystat p q : home_text p -> home_text q -> on any (sh_copystat p q).
Proof.
  intros H1 H2 x y T. unfold sh_copystat. looks H1 T true p. clear S. looks H2 T true q. destruct (plook x true p) as [[a e|d n]|e]; try (now apply pq). destruct (plook x true q) as [[b g|d n]|g]; try (now apply pq).
  split; [reflexivity|]. split; [|now intros]. apply put_stat; auto.
Qed.
Definition below_D (q : list str) : Prop := is_below D q = true /\ forall p, q = D ++ p -> Forall mild p.
Lemma on_open_r p : home_text p -> on below_D (os_open_r p).
Proof.
  intros H x y T. unfold os_open_r. looks H T true p. apply pq; [exact T|]. intros q E. destruct (plook x true p) as [[a [d mo mt|mo mt|t]|d n]|e] eqn:L; try discriminate E. injection E as <-.
  split; [apply (S _ eq_refl)|]. exact (at_names x y a _ T (S _ eq_refl)).
Qed.
Lemma new_same x y : twins x y -> new_pfile y = new_pfile x. Proof. intros T. unfold new_pfile. now rewrite (tw_now _ _ _ _ _ T), (tw_umask _ _ _ _ _ T). Qed.
Lemma on_open_w p : home_text p -> on below_D (os_open_w p).
Proof.
  intros H x y T. unfold os_open_w, refuse_slashed. destruct (slashed p).
  - looks (chop_home p H) T false (chop p). apply pq; [exact T|]. destruct (plook x false (chop p)); discriminate.
  - unfold sys_open_w. looks H T true p. rewrite (new_same x y T). destruct (plook x true p) as [[q [d mo mt|mo mt|t]|d n]|e]; try (now apply pq).
    + pose proof (S _ eq_refl) as Sq. pose proof Sq as [B _]. pose proof (at_names x y q _ T Sq) as N. rewrite <- (tw_now _ _ _ _ _ T). split; [reflexivity|]. split; [now apply tw_put|]. cbn. intros v E. injection E as <-. now split.
    + pose proof (S _ eq_refl) as Sq. pose proof Sq as [[B _] _]. pose proof (gap_names x y d n T Sq) as N. split; [reflexivity|]. split; [now apply tw_put|]. cbn. intros v E. injection E as <-. now split.
Qed.
Lemma on_open_a p : home_text p -> on below_D (os_open_a p).
Proof.
  intros H x y T. unfold os_open_a, refuse_slashed. destruct (slashed p).
  - looks (chop_home p H) T false (chop p). apply pq; [exact T|]. destruct (plook x false (chop p)); discriminate.
  - unfold sys_open_a. looks H T true p. rewrite (new_same x y T). destruct (plook x true p) as [[q [d mo mt|mo mt|t]|d n]|e]; try (now apply pq).
    + pose proof (S _ eq_refl) as Sq. pose proof Sq as [B _]. pose proof (at_names x y q _ T Sq) as N. apply pq; [exact T|]. intros v E. injection E as <-. now split.
    + pose proof (S _ eq_refl) as Sq. pose proof Sq as [[B _] _]. pose proof (gap_names x y d n T Sq) as N. split; [reflexivity|]. split; [now apply tw_put|]. cbn. intros v E. injection E as <-. now split.
Qed.
Lemma on_data q : below_D q -> on any (fd_data q).
Proof. intros [B N] x y T. unfold fd_data. rewrite <- (tw_get _ _ _ x y q T B). now apply pq. Qed.
Lemma on_append q b : below_D q -> on any (fd_append q b).
Proof.
  intros [B N] x y T. unfold fd_append. rewrite <- (tw_get _ _ _ x y q T B), <- (tw_now _ _ _ _ _ T). destruct (pget q (p_tree x)) as [[d mo mt|mo mt|t]|]; try (now apply pq). destruct b; [now apply pq|].
  split; [reflexivity|]. split; [now apply tw_put|now intros].
Qed.
(** rename(2) *)
Lemma tw_rename x y p q : twins x y -> below_D p -> below_D q -> twins (set_tree x (prename p q (p_tree x))) (set_tree y (prename p q (p_tree y))).
Proof.
  intros T [Bp Np] [Bq Nq]. apply tw_set; auto.
  - now rewrite !prename_in, (tw_in _ _ _ _ _ T).
  - now apply prename_out.
  - now apply prename_out.
  - intros r e G. unfold prename in G.
    assert (X : forall l, pget (D ++ r) (map (fun re => match strip_path p (fst re) with Some k => (q ++ k, snd re) | None => re end) l) = Some e ->
      exists s, pget s l = Some e /\ match strip_path p s with Some k => q ++ k | None => s end = D ++ r).
    { clear G. induction l as [|[s g] l IH]; cbn [map pget fst snd]; [discriminate|]. intros G.
      assert (Z : exists s', (match strip_path p s with Some k => (q ++ k, g) | None => (s, g) end) = (s', g) /\ s' = match strip_path p s with Some k => q ++ k | None => s end) by (destruct (strip_path p s); eauto).
      destruct Z as (s' & Z1 & Z2). rewrite Z1 in G. cbn [pget] in G. destruct (path_eqb (D ++ r) s') eqn:E.
      - apply path_eqb_spec in E. exists s. rewrite path_eqb_refl. split; [exact G|]. now rewrite <- Z2.
      - destruct (IH G) as (s2 & G2 & E2). exists s2. destruct (path_eqb s2 s) eqn:E3; [|now split]. apply path_eqb_spec in E3. subst s2. rewrite <- Z2 in E2. rewrite E2, path_eqb_refl in E. discriminate E. }
    destruct (X _ G) as (s & Gs & Es). rewrite pget_pdel in Gs. destruct (path_eqb s q); [discriminate Gs|].
    destruct (strip_path p s) as [k|] eqn:Ek.
    + apply strip_path_spec in Ek. subst s. apply is_below_true in Bp as [p' ->]. apply is_below_true in Bq as [q' ->]. rewrite <- app_assoc in Gs, Es. apply app_inv_head in Es. subst r.
      destruct (tw_entry x y _ e T Gs) as [F L]. split; [|exact L]. apply Forall_app in F as [_ F]. apply Forall_app. split; [now apply Nq|exact F].
    + subst s. exact (tw_entry x y r e T Gs).
Qed.
Lemma seen_at x y q e : twins x y -> seen x (At q e) -> below_D q. Proof. intros T S. split; [apply S|exact (at_names x y q e T S)]. Qed.
Lemma seen_gap x y d n : twins x y -> seen x (Gap d n) -> below_D (d ++ [n]). Proof. intros T S. split; [apply S|exact (gap_names x y d n T S)]. Qed.
Lemma on_sysrename x y p e b : twins x y -> seen x (At p e) -> seen x b -> pairq any (sys_rename p e b x) (sys_rename p e b y).
Proof.
  intros T Sp Sb. pose proof (seen_at x y p e T Sp) as Bp. assert (Go : forall q, below_D q -> pairq any (Ok tt, set_tree x (prename p q (p_tree x))) (Ok tt, set_tree y (prename p q (p_tree y)))).
  { intros q Bq. split; [reflexivity|]. split; [now apply tw_rename|now intros]. }
  unfold sys_rename. destruct p as [|a p]; [now apply pq|]. destruct b as [q f|d n].
  - pose proof (seen_at x y q f T Sb) as Bq. destruct q as [|b q]; [now apply pq|].
    destruct (path_eqb (a :: p) (b :: q)); [now apply pq|]. destruct (is_pdir e && is_below (a :: p) (b :: q)); [now apply pq|]. destruct (is_below (b :: q) (a :: p)); [now apply pq|].
    rewrite <- (tw_kids _ _ _ _ _ (b :: q) T (proj1 Bq)). destruct (is_pdir e), (is_pdir f); try (now apply pq); [|now apply Go]. destruct (pchildren (b :: q) (p_tree x)); [now apply Go|now apply pq].
  - pose proof (seen_gap x y d n T Sb) as Bq. destruct (is_pdir e && is_below (a :: p) (d ++ [n])); [now apply pq|]. now apply Go.
Qed.
Lemma on_osrename p q : home_text p -> home_text q -> on any (os_rename p q).
Proof.
  intros Hp Hq x y T. unfold os_rename. destruct (has_char 0 p || has_char 0 q); [now apply pq|].
  destruct (at_look false _ _ _ (chop_home p Hp) T) as [E1 S1]. destruct (at_look false _ _ _ (chop_home q Hq) T) as [E2 S2]. rewrite E1, E2.
  destruct (plook x false (chop p)) as [a|e]; [|now apply pq]. destruct (plook x false (chop q)) as [b|e]; [|now apply pq]. destruct (unnamed p || unnamed q); [now apply pq|].
  destruct a as [r e|d n]; [|now apply pq]. destruct (negb (is_pdir e) && (slashed p || slashed q)); [now apply pq|]. now apply on_sysrename; auto.
Qed.
Lemma on_samefile p q : home_text p -> home_text q -> on any (samefile p q).
Proof.
  intros Hp Hq x y T. unfold samefile. destruct (at_look true _ _ _ Hp T) as [E1 S1]. destruct (at_look true _ _ _ Hq T) as [E2 S2]. rewrite E1, E2. now apply pq.
Qed.
(** Directories on the way *)
Lemma parents_in comps : Forall mild comps -> comps <> [] -> forall p x y, twins x y -> Forall mild p ->
  pairq below_D (make_parents (D ++ p) comps x) (make_parents (D ++ p) comps y).
Proof.
  induction 1 as [|c comps Mc Mr IH]; intros N p x y T Mp; [easy|]. cbn [make_parents].
  assert (Mpc : Forall mild (p ++ [c])) by (apply Forall_app; split; [exact Mp|now constructor]).
  assert (B : below_D ((D ++ p) ++ [c])).
  { rewrite <- app_assoc. split; [apply below_self|]. intros k E. apply app_inv_head in E. now subst k. }
  pose proof (tw_get _ _ _ x y _ T (proj1 B)) as G. rewrite <- G. destruct comps as [|c' comps].
  - destruct (pget ((D ++ p) ++ [c]) (p_tree x)); apply pq; auto; [discriminate|]. intros v E. now injection E as <-.
  - assert (IH' : forall x y, twins x y -> pairq below_D (make_parents ((D ++ p) ++ [c]) (c' :: comps) x) (make_parents ((D ++ p) ++ [c]) (c' :: comps) y)).
    { intros x' y' T'. rewrite <- app_assoc. now apply IH. }
    destruct (pget ((D ++ p) ++ [c]) (p_tree x)) as [[d mo mt|mo mt|tg]|]; try (now apply pq); [now apply IH'|].
    rewrite <- (tw_now _ _ _ _ _ T), <- (tw_umask _ _ _ _ _ T). apply IH'. apply tw_put; [exact T|apply B|apply B|discriminate].
Qed.
Lemma parents_down rest : Forall mild rest -> forall B A x y, twins x y -> D = A ++ B -> (B <> [] \/ rest <> []) ->
  pairq below_D (make_parents A (B ++ rest) x) (make_parents A (B ++ rest) y).
Proof.
  intros Mr. induction B as [|n B IH]; intros A x y T E N.
  - rewrite app_nil_r in E. subst A. cbn [app]. pose proof (parents_in rest Mr) as P. destruct N as [N|N]; [easy|]. pose proof (P N [] x y T (Forall_nil _)) as Q. now rewrite app_nil_r in Q.
  - assert (E' : D = (A ++ [n]) ++ B) by (now rewrite <- app_assoc). destruct B as [|m B].
    + rewrite app_nil_r in E'. cbn [app make_parents].
      assert (B : below_D (A ++ [n])). { rewrite <- E'. split; [rewrite <- (app_nil_r D) at 2; apply below_self|]. intros k Ek. rewrite <- (app_nil_r D) in Ek at 1. apply app_inv_head in Ek. now subst k. }
      rewrite <- (tw_get _ _ _ x y _ T (proj1 B)). destruct rest as [|c rest].
      * destruct (pget (A ++ [n]) (p_tree x)); apply pq; auto; [discriminate|]. intros v Ev. now injection Ev as <-.
      * assert (IH' : forall x y, twins x y -> pairq below_D (make_parents (A ++ [n]) (c :: rest) x) (make_parents (A ++ [n]) (c :: rest) y)).
        { intros x' y' T'. apply (IH (A ++ [n]) x' y' T'); [now rewrite app_nil_r|right; discriminate]. }
        destruct (pget (A ++ [n]) (p_tree x)) as [[d mo mt|mo mt|tg]|]; try (now apply pq); [now apply IH'|].
        rewrite <- (tw_now _ _ _ _ _ T), <- (tw_umask _ _ _ _ _ T). apply IH'. apply tw_put; [exact T|apply B|apply B|discriminate].
    + destruct (tw_roof1 D x0 y0 roof1 roof2 x y (A ++ [n]) m B T E') as (mo & mt & G1). destruct (tw_roof2 D x0 y0 roof1 roof2 x y (A ++ [n]) m B T E') as (mo' & mt' & G2).
      cbn [app make_parents]. rewrite G1, G2. apply (IH (A ++ [n]) x y T E'). left; discriminate.
Qed.
Lemma parts_home p : home_text p -> exists rest, filter (fun c => negb (str_eqb c [])) (split_on cSlash p) = D ++ rest /\ Forall mild rest.
Proof.
  intros H. destruct (split_home D HD p H) as (rest & E & M). rewrite E. exists (filter (fun c => negb (str_eqb c [])) rest). split.
  - cbn [filter]. rewrite str_eqb_refl. cbn [negb]. rewrite filter_app. f_equal. pose proof (hd_names D HD) as Nm. clear - Nm. induction Nm as [|c l (N & _) _ IH]; [reflexivity|]. cbn [filter]. destruct (str_eqb c []) eqn:E; [now apply str_eqb_eq in E|]. cbn [negb]. now rewrite IH.
  - apply Forall_forall. intros c I. apply filter_In in I as [I _]. rewrite Forall_forall in M. now apply M.
Qed.
Lemma on_tree p q : below_D p -> home_text q -> on any (copy_and_remove_tree p q).
Proof.
  intros Bp Hq x y T. unfold copy_and_remove_tree. destruct (parts_home q Hq) as (rest & E & Mr). rewrite E.
  pose proof (parents_down rest Mr D [] x y T eq_refl (or_introl (hd_some D HD))) as P. destruct (make_parents [] (D ++ rest) x) as [r1 x1], (make_parents [] (D ++ rest) y) as [r2 y1]. destruct P as (P1 & P2 & P3). cbn [fst snd] in *. subst r2.
  destruct r1 as [r|e]; [|now apply pq]. destruct (is_below p r); [now apply pq|]. split; [reflexivity|]. split; [|now intros]. apply tw_rename; auto.
Qed.
Lemma on_file p q : home_text p -> home_text q -> on any (copy_and_remove_file p q).
Proof.
  intros Hp Hq. unfold copy_and_remove_file. eapply both_bind; [now apply on_samefile|]. intros same _. destruct same; [apply both_raise|].
  eapply both_bind; [now apply on_open_r|]. intros a Ba. eapply both_bind; [now apply on_open_w|]. intros b Bb. eapply both_bind; [now apply on_data|]. intros d _.
  eapply both_bind; [now apply on_append|]. intros [] _. eapply both_bind; [now apply on_oscopystat|]. intros [] _. now apply on_unlink.
Qed.
Lemma on_fallback p d q : home_text p -> home_text q -> on any (sh_move_fallback p d q).
Proof.
  intros Hp Hq. unfold sh_move_fallback. eapply both_bind; [now apply on_test|]. intros l _. destruct l.
  - eapply both_bind; [now apply on_osreadlink|]. intros tg Ht. eapply both_bind; [now apply on_ossymlink|]. intros [] _. now apply on_unlink.
  - eapply both_bind; [now apply on_test|]. intros dd _. destruct dd; [|now apply on_file].
    destruct (negb (clean_path p && clean_path q) || unnamed p); [apply both_raise|]. destruct (destinsrc p d); [apply both_raise|].
    intros x y T. looks Hp T true p. destruct (plook x true p) as [[r e|k n]|e]; try (now apply pq). apply on_tree; [|exact Hq|exact T]. exact (seen_at x y r e T (S _ eq_refl)).
Qed.
Lemma mild_slash a b : mild a -> mild b -> mild (a ++ cSlash :: b).
Proof.
  intros [F1 P1 Q1] [F2 P2 Q2]. constructor.
  - intros c Hc I. apply in_app_iff in I as [I|[<-|I]]; [now apply (F1 c)|cbn in Hc; intuition discriminate|now apply (F2 c)].
  - now apply pars_apart.
  - clear F1 F2 P1 P2. induction a as [|c a IH]; intros u v E; cbn [app] in E.
    + destruct u as [|d u]; [discriminate E|]. injection E as _ E. now apply (Q2 u v).
    + destruct u as [|d u].
      * injection E as -> E. destruct a as [|c' a]; [discriminate E|]. injection E as -> _. now apply (Q1 [] a).
      * injection E as -> E. apply IH with u v; auto. intros a' b' Ex. apply (Q1 (d :: a') b'). cbn [app]. now rewrite Ex.
Qed.
Lemma mild_nil : mild []. Proof. constructor; [intros c _ []|intros [] ? E; discriminate E|intros [] ? E; discriminate E]. Qed.
Lemma join_home p n : home_text p -> mild n -> home_text (path_join p n).
Proof.
  intros [M (t & Ht & E)] Mn. destruct home_end as (k & c & Nc & Ek). 
  assert (J : path_join p n = if N.eqb (last p 0%N) cSlash then p ++ n else p ++ cSlash :: n) by (destruct p; [rewrite Ek in E; destruct k; discriminate E|reflexivity]). rewrite J. clear J.
  rename p into p0. destruct (N.eqb (last p0 0%N) cSlash) eqn:L.
  - destruct p0 as [|b p0 _] using rev_ind; [discriminate L|]. rewrite last_last in L. apply N.eqb_eq in L. subst b. split.
    + rewrite <- app_assoc. apply mild_slash; [|exact Mn]. apply (mild_sub _ p0 M). now exists [], [cSlash].
    + exists (t ++ n). rewrite app_assoc, <- E. split; [|reflexivity]. destruct Ht as [->|[r ->]].
      * rewrite app_nil_r, Ek in E. apply app_inj_tail in E as [_ E]. now symmetry in E.
      * right. now exists (r ++ n).
  - split; [now apply mild_slash|]. exists (t ++ cSlash :: n). rewrite app_assoc, <- E. split; [|reflexivity]. right. destruct Ht as [->|[r ->]]; [now exists n|now exists (r ++ cSlash :: n)].
Qed.
Lemma mild_basename p : mild p -> mild (sh_basename p).
Proof.
  intros M. unfold sh_basename. destruct (drop_sub (rev p)) as [a Ea]. apply (f_equal (@rev N)) in Ea. rewrite rev_involutive, rev_app_distr in Ea.
  assert (M' : mild (rev (drop_slashes (rev p)))) by (apply (mild_sub _ _ M); now exists [], (rev a)).
  set (l := split_on cSlash (rev (drop_slashes (rev p)))) in *. assert (X : last l [] = [] \/ In (last l []) l).
  { clear. induction l as [|b l IH]; [now left|]. right. destruct l as [|d l]; [now left|]. right. cbn [last] in *. destruct IH as [E|I]; [|exact I]. revert E. clear. revert d. induction l as [|e l IH]; intros d E; [now left|]. right. now apply IH. }
  destruct X as [->|I]; [apply mild_nil|]. now apply (mild_piece _ _ M').
Qed.
Lemma on_shmove p q : home_text p -> home_text q -> on any (sh_move p q).
Proof.
  intros Hp Hq. unfold sh_move. eapply both_bind; [now apply on_test|]. intros dd _. eapply both_bind with (Q := any); [destruct dd; [now apply on_samefile|now apply both_ret]|]. intros same _.
  eapply both_bind with (Q := any); [destruct same; [now apply on_test|now apply both_ret]|]. intros sl _. destruct (same && negb sl); [now apply on_osrename|].
  set (r := if dd then path_join q (sh_basename p) else q). assert (Hr : home_text r) by (unfold r; destruct dd; [|exact Hq]; apply join_home; [exact Hq|apply mild_basename, Hp]).
  eapply both_bind with (Q := any); [destruct dd; [now apply on_test|now apply both_ret]|]. intros th _. destruct th; [apply both_raise|].
  intros x y T. pose proof (on_osrename p r Hp Hr x y T) as P. destruct (os_rename p r x) as [r1 x1], (os_rename p r y) as [r2 y1]. destruct P as (P1 & P2 & P3). cbn [fst snd] in *. subst r2.
  destruct r1 as [v|e]; [now apply pq|]. destruct e; try (now apply pq). now apply on_fallback.
Qed.
End Home.
