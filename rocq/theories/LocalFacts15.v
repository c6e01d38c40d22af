(** The operations on local files keep the tree sound, for all paths. *)
From Coq Require Import Lia.
From Verif Require Import Str Exc Utf8 UriParse BaseUri StrFacts UriFacts SpecUri UriFacts2 UriFacts3 UriFacts4 UriFacts5 UriFacts6.
From Verif Require Import Mem SpecMem MemFacts MemFacts2 MemFacts3 MemFacts4 MemFacts5 MemFacts7 MemFacts9 MemUri.
From Verif Require Import Generic SpecGen GenFacts1 GenFacts2 GenFacts3.
From Verif Require Import Misc Posix Local SpecLocal LocalFacts1 LocalFacts2 LocalFacts3 LocalFacts6 LocalFacts7 LocalFacts12 LocalFacts14.

Definition spot_ok (x : pst) (o : spot) : Prop :=
  match o with
  | At p e => pget p (p_tree x) = Some e
  | Gap d n => is_dir_at x d /\ pget (d ++ [n]) (p_tree x) = None
  end.
Lemma walk_spot x f b : forall cur comps o, pwalk (p_tree x) f b cur comps = Ok o -> spot_ok x o.
Proof.
  induction b as [b IH] using lt_wf_ind. intros cur comps. revert cur.
  induction comps as [|c comps IHc]; intros cur o H; unfold pwalk in H; fold pwalk in H; destruct b.
  all: cbn in H.
  all: destruct (pget cur (p_tree x)) as [[]|] eqn:Ec; try discriminate.
  all: try (injection H as <-; exact Ec).
  all: destruct (str_eqb c [] || str_eqb c dot); [now apply IHc in H|].
  all: destruct (str_eqb c dotdot); [now apply IHc in H|].
  all: destruct (pget (cur ++ [c]) (p_tree x)) as [[]|] eqn:En; try (now apply IHc in H).
  all: try (destruct comps; [|discriminate]; injection H as <-; split; [eexists; eauto|exact En]).
  all: match type of H with (if ?y then _ else _) = _ => destruct y end; try (injection H as <-; exact En); try discriminate.
  destruct target; [discriminate|]. eapply IH; [|exact H]. lia.
Qed.
Lemma look_spot x f p o : plook x f p = Ok o -> spot_ok x o.
Proof.
  unfold plook. intros H. destruct (has_char 0 p); [discriminate|]. destruct p; [discriminate|]. now apply walk_spot in H.
Qed.
Lemma gap_free x d n : spot_ok x (Gap d n) -> free_at x (d ++ [n]).
Proof. intros [D E]. split; auto. exists d, n. auto. Qed.
Lemma sound_del x p : sound x -> p <> [] -> (forall r, r <> [] -> pget (p ++ r) (p_tree x) = None) -> sound (set_tree x (pdel p (p_tree x))).
Proof.
  intros So Np H. split; cbn [p_tree set_tree].
  - rewrite pget_pdel, path_eqb_neq by auto. apply So.
  - intros q n Hq. rewrite pget_pdel in *. destruct (path_eqb (q ++ [n]) p) eqn:E; [easy|].
    destruct (so_up x So q n Hq) as (mo & mt & D). exists mo, mt. rewrite path_eqb_neq; auto.
    intros ->. now rewrite H in Hq.
  - apply pdel_nodup, So.
Qed.
Lemma nothing_below x p e : sound x -> pget p (p_tree x) = Some e -> is_pdir e = false -> forall r, r <> [] -> pget (p ++ r) (p_tree x) = None.
Proof.
  intros So E D r N. destruct (pget (p ++ r) (p_tree x)) eqn:F; auto. exfalso.
  destruct (so_dir x So p r N) as (mo & mt & G); [congruence|]. rewrite E in G. injection G as ->. discriminate.
Qed.
Lemma child_name_none p q : child_name p q = None <-> forall n, q <> p ++ [n].
Proof.
  revert q. induction p as [|a p IH]; intros q.
  - destruct q as [|b [|c q]]; cbn.
    + split; [intros _ n; discriminate|auto].
    + split; [discriminate|]. intros H. now destruct (H b).
    + split; [intros _ n; discriminate|auto].
  - destruct q as [|b q]; cbn [child_name app]; [split; [intros _ n; discriminate|auto]|].
    destruct (str_eqb a b) eqn:E.
    + apply str_eqb_eq in E. subst b. rewrite IH. split; intros H n E'; apply (H n); congruence.
    + split; auto. intros _ n [= -> _]. now rewrite str_eqb_refl in E.
Qed.
Lemma no_children x p : sound x -> pchildren p (p_tree x) = [] -> forall r, r <> [] -> pget (p ++ r) (p_tree x) = None.
Proof.
  intros So H. assert (C : forall n, pget (p ++ [n]) (p_tree x) = None).
  { intros n. destruct (pget (p ++ [n]) (p_tree x)) as [e|] eqn:E; auto. exfalso. destruct (pget_in' (p ++ [n]) (p_tree x)) as [f I]; [congruence|].
    unfold pchildren in H. assert (X : flat_map (fun qe : list str * pent => match child_name p (fst qe) with Some n => [n] | None => [] end) (p_tree x) <> []).
    { intros Y. destruct (child_name p (p ++ [n])) as [m|] eqn:Ec.
      - assert (Z : In m (flat_map (fun qe : list str * pent => match child_name p (fst qe) with Some n => [n] | None => [] end) (p_tree x))).
        { apply in_flat_map. exists (p ++ [n], f). split; auto. cbn [fst]. rewrite Ec. now left. }
        now rewrite Y in Z.
      - now apply (proj1 (child_name_none p (p ++ [n])) Ec n). }
    easy. }
  intros r N. destruct r as [|n r]; [easy|]. destruct (pget (p ++ n :: r) (p_tree x)) eqn:E; auto. exfalso.
  change (n :: r) with ([n] ++ r) in E. rewrite app_assoc in E. destruct r as [|m r]; [rewrite app_nil_r in E; now rewrite C in E|].
  destruct (so_dir x So (p ++ [n]) (m :: r)) as (mo & mt & D); [easy|congruence|]. now rewrite C in D.
Qed.

(** *** Operations *)
Definition steady {A} (m : M pst A) : Prop := forall x, sound x -> sound (snd (m x)).
Lemma steady_bind {A B} (m : M pst A) (k : A -> M pst B) : steady m -> (forall a, steady (k a)) -> steady (bind m k).
Proof.
  intros H K x So. unfold bind. pose proof (H x So) as S1. destruct (m x) as [[a|e] y]; cbn [snd] in *; auto. now apply K.
Qed.
Lemma steady_ret {A} (a : A) : steady (ret a). Proof. intros x So. exact So. Qed.
Lemma steady_raise {A} e : steady (raise e : M pst A). Proof. intros x So. exact So. Qed.
Lemma steady_lift {A} (r : res A) : steady (lift r). Proof. intros x So. destruct r; exact So. Qed.
Lemma steady_test f g p : steady (os_test f g p). Proof. intros x So. destruct (test_keeps f g p x) as [b ->]. exact So. Qed.
Lemma steady_if {A} (b : bool) (m k : M pst A) : steady m -> steady k -> steady (if b then m else k). Proof. now destruct b. Qed.
Lemma steady_open_w p : steady (os_open_w p).
Proof.
  intros x So. unfold os_open_w, refuse_slashed. destruct (slashed p); [exact So|]. unfold sys_open_w. destruct (plook x true p) as [[q e|d n]|] eqn:L; auto; apply look_spot in L.
  - destruct e; auto. cbn [snd]. cbn in L. apply sound_put; auto; [left|left; congruence]. intros (mo & mt & D). congruence.
  - cbn [snd]. apply sound_put; auto; [left|right; now apply gap_free]. intros (mo & mt & D). destruct L as [_ L]. congruence.
Qed.
Lemma steady_open_a p : steady (os_open_a p).
Proof.
  intros x So. unfold os_open_a, refuse_slashed. destruct (slashed p); [exact So|]. unfold sys_open_a. destruct (plook x true p) as [[q e|d n]|] eqn:L; auto; apply look_spot in L; [now destruct e|].
  cbn [snd]. apply sound_put; auto; [left|right; now apply gap_free]. intros (mo & mt & D). destruct L as [_ L]. congruence.
Qed.
Lemma steady_open_r p : steady (os_open_r p). Proof. intros x So. exact So. Qed.
Lemma steady_data p : steady (fd_data p). Proof. intros x So. exact So. Qed.
Lemma steady_append q b : steady (fd_append q b).
Proof.
  intros x So. unfold fd_append. cbn [snd]. destruct (pget q (p_tree x)) as [[]|] eqn:E; auto. destruct b; auto.
  apply sound_put; auto; [left|left; congruence]. intros (mo & mt & D). congruence.
Qed.
Lemma steady_mkdir p : steady (os_mkdir p).
Proof.
  intros x So. unfold os_mkdir, sys_mkdir. destruct (plook x false (chop p)) as [[q e|d n]|] eqn:L; auto; apply look_spot in L.
  cbn [snd]. apply sound_put; auto. right. now apply gap_free.
Qed.
Lemma steady_symlink t p : steady (os_symlink t p).
Proof.
  intros x So. unfold os_symlink. destruct (slashed p); [exact So|]. unfold sys_symlink. destruct (has_char 0 t); auto. destruct t; [destruct (plook x false p) as [|e0]; [auto|destruct e0; auto]|].
  destruct (plook x false p) as [[q e|d m]|e0] eqn:L; [auto| |destruct e0; auto]. apply look_spot in L.
  cbn [snd]. apply sound_put; auto; [left|right; now apply gap_free]. intros (mo & mt & D). destruct L as [_ L]. congruence.
Qed.
Lemma steady_unlink p : steady (os_unlink p).
Proof.
  intros x So. unfold os_unlink. destruct (slashed p); [exact So|]. unfold sys_unlink. destruct (plook x false p) as [[q e|d n]|] eqn:L; auto; apply look_spot in L. cbn in L.
  assert (Nq : is_pdir e = false -> q <> []) by (intros De ->; destruct (so_root x So) as (? & ? & R); rewrite L in R; injection R as ->; discriminate).
  destruct e; auto; cbn [snd]; apply sound_del; auto; now apply (nothing_below x q _ So L).
Qed.
Lemma steady_sys_rmdir p : steady (sys_rmdir p).
Proof.
  intros x So. unfold sys_rmdir. destruct (plook x false p) as [[q e|d n]|] eqn:L; auto; apply look_spot in L. cbn in L.
  destruct q as [|a q]; auto. destruct e; auto. destruct (pchildren (a :: q) (p_tree x)) eqn:C; auto. cbn [snd]. apply sound_del; auto; [easy|].
  now apply no_children.
Qed.
Lemma steady_rmdir p : steady (os_rmdir p).
Proof.
  intros x So. unfold os_rmdir. pose proof (steady_sys_rmdir (chop p) x So) as H. destruct (plook x false (chop p)) as [[|]|]; auto.
  destruct (str_eqb (last_piece p) dot); auto. destruct (str_eqb (last_piece p) dotdot); auto.
Qed.
Lemma sound_stat x q e f : sound x -> pget q (p_tree x) = Some f -> is_pdir e = is_pdir f -> sound (set_tree x (pset q e (p_tree x))).
Proof.
  intros So E D. apply sound_put; auto; [|left; congruence]. destruct f; cbn in D; [left|right|left]; auto; intros (mo' & mt' & X); congruence.
Qed.
Lemma steady_chmod p mode : steady (os_chmod p mode).
Proof.
  intros x So. unfold os_chmod. destruct (plook x true p) as [[q e|d n]|] eqn:L; auto; apply look_spot in L. cbn [snd].
  apply (sound_stat x q _ e); auto. now destruct e.
Qed.
Lemma steady_copystat p q : steady (sh_copystat p q).
Proof.
  intros x So. unfold sh_copystat. destruct (plook x true p) as [[a e|a n]|]; auto; destruct (plook x true q) as [[b f|b m]|] eqn:L; auto; apply look_spot in L.
  cbn [snd]. apply (sound_stat x b _ f); auto. now destruct f.
Qed.
Lemma steady_loc_write u ds : steady (loc_write_all u ds).
Proof. apply steady_bind; [apply steady_open_w|intros q; apply steady_append]. Qed.
Lemma steady_loc_append u ds : steady (loc_append_all u ds).
Proof. apply steady_bind; [apply steady_open_a|intros q; apply steady_append]. Qed.
Lemma steady_loc_symlink t u : steady (loc_symlink t u). Proof. apply steady_symlink. Qed.
Lemma steady_loc_set_exec u m : steady (loc_set_exec u m).
Proof.
  apply steady_bind; [|intros i; apply steady_bind; [apply steady_test|intros; apply steady_chmod]].
  apply steady_bind; [apply steady_test|intros]. apply steady_bind; [|intros; apply steady_ret]. intros x So. exact So.
Qed.

(** A path by itself is the same URI as with file:// in front. *)
Lemma path_uri cs : Forall plain_name cs -> URI (abs_path cs) cSlash [] = Ok (file_uri cs).
Proof.
  intros H. rewrite <- (file_uri_eq cs H). unfold file_text. assert (Sl : exists r, abs_path cs = cSlash :: r) by (destruct cs; cbn; eauto).
  destruct (file_loc cs H) as [S|_ _ [_ Fr Par] Ur Dr]; [now destruct (sch_file _ S)|]. generalize dependent (abs_path cs). intros p Sl Fr Par Ur Dr.
  assert (Px : posix_ok p).
  { split; auto.
    - apply pt_plain. intros c [<-|[<-|[]]]; apply Fr; cbn; auto.
    - intros c [<-|[]]. apply Fr. cbn; auto.
    - intros c r E. destruct Sl as [r' Sl]. rewrite Sl in E. injection E as <- E. apply (Dr r). now rewrite Sl, E. }
  assert (C : clean_uri p = lit "file://" ++ p).
  { rewrite clean_posix by auto. destruct Sl as [r' ->]. reflexivity. }
  assert (C2 : clean_uri (lit "file://" ++ p) = lit "file://" ++ p).
  { apply clean_file; auto; [apply Fr; cbn; auto|now apply contains_no]. }
  unfold URI. rewrite (no_scheme_re _ (px_uri _ Px)).
  change (scheme_re (lit "file://" ++ p)) with (Some (lit "file")). unfold mk_uri. now rewrite C, C2.
Qed.
