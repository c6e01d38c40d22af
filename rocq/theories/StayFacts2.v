(** Removing local trees: only entries go, and which. *)
From Verif Require Import Str Exc UriParse BaseUri StrFacts SpecUri UriFacts Mem Misc Generic Posix SpecLocal Local LocalFacts1 LocalFacts12 LocalFacts15 LocalFacts17 LocalFacts18 MoveFacts.
From Verif Require Import SpecPosix SpecStay PosixFacts PosixFacts2 StayFacts.
Open Scope string_scope.
Open Scope list_scope.
Local Notation LB := loc_backend.

(** ** Single removals *)
Lemma unlink_del s x : (exists e, os_unlink s x = (Raise e, x)) \/
  exists q e, os_unlink s x = (Ok tt, set_tree x (pdel q (p_tree x))) /\ slashed s = false /\ plook x false s = Ok (At q e) /\ is_pdir e = false.
Proof.
  unfold os_unlink. destruct (slashed s) eqn:S; [left; destruct (plook x false (chop s)) as [[q []|]|]; eauto|].
  unfold sys_unlink. destruct (plook x false s) as [[q [d mo mt|mo mt|t]|d n]|e] eqn:E; [right|left; eauto|right|left; eauto|left; eauto]; eauto 10.
Qed.
Lemma rmdir_del s x : (exists e, os_rmdir s x = (Raise e, x)) \/
  exists q mo mt, os_rmdir s x = (Ok tt, set_tree x (pdel q (p_tree x))) /\ plook x false (chop s) = Ok (At q (PDir mo mt)) /\ pchildren q (p_tree x) = [] /\ q <> [].
Proof.
  unfold os_rmdir. assert (K : (exists e, sys_rmdir (chop s) x = (Raise e, x)) \/ exists q mo mt, sys_rmdir (chop s) x = (Ok tt, set_tree x (pdel q (p_tree x))) /\
      plook x false (chop s) = Ok (At q (PDir mo mt)) /\ pchildren q (p_tree x) = [] /\ q <> []).
  { unfold sys_rmdir. destruct (plook x false (chop s)) as [[[|a q] [d mo mt|mo mt|t]|d n]|e] eqn:E; try (left; eauto; fail).
    destruct (pchildren (a :: q) (p_tree x)) eqn:C; [|left; eauto]. right. exists (a :: q), mo, mt. repeat split; auto. discriminate. }
  destruct (plook x false (chop s)) as [[q e|d n]|e] eqn:E; try exact K.
  destruct (str_eqb (last_piece s) dot); [left; eauto|]. destruct (str_eqb (last_piece s) dotdot); [left; eauto|exact K].
Qed.

(** ** Invariants *)
Section Keeps.
Variable P : pst -> Prop.
Definition holds {A} (m : M pst A) : Prop := forall x, P x -> P (snd (m x)).
Definition quiet_op {A} (m : M pst A) : Prop := forall x, snd (m x) = x.
Lemma holds_quiet {A} (m : M pst A) : quiet_op m -> holds m. Proof. intros Q x H. now rewrite Q. Qed.
Lemma holds_bind {A B} (m : M pst A) (k : A -> M pst B) : holds m -> (forall a, holds (k a)) -> holds (bind m k).
Proof. intros H K x X. unfold bind. pose proof (H x X) as Y. destruct (m x) as [[a|e] y]; cbn [snd] in *; auto. now apply K. Qed.
Lemma holds_mapM {A} (f : A -> M pst unit) l : (forall a, In a l -> holds (f a)) -> holds (mapM_ f l).
Proof. induction l as [|a l IH]; intros H; cbn [mapM_]; [now apply holds_quiet|]. apply holds_bind; [apply H; now left|]. intros _. apply IH. intros b I. apply H. now right. Qed.
Lemma holds_foldM {A B} (f : B -> A -> M pst B) l : (forall a b, In a l -> holds (f b a)) -> forall b, holds (foldM f b l).
Proof. induction l as [|a l IH]; intros H b; cbn [foldM]; [now apply holds_quiet|]. apply holds_bind; [apply H; now left|]. intros c. apply IH. intros d e I. apply H. now right. Qed.
End Keeps.
Lemma quiet_bind {A B} (m : M pst A) (k : A -> M pst B) : quiet_op m -> (forall a, quiet_op (k a)) -> quiet_op (bind m k).
Proof. intros H K x. unfold bind. pose proof (H x) as Y. destruct (m x) as [[a|e] y]; cbn [snd] in *; subst; auto. now rewrite K. Qed.
Lemma quiet_test f g p : quiet_op (os_test f g p). Proof. intros x. now rewrite LocalFacts18.test_run. Qed.
Lemma quiet_kinds top l : quiet_op (kinds LB top l).
Proof.
  induction l as [|n l IH]; cbn [kinds]; [easy|]. apply quiet_bind; [easy|]. intros u. apply quiet_bind; [apply quiet_test|]. intros d. apply quiet_bind; [exact IH|easy].
Qed.
Lemma quiet_list u : quiet_op (loc_listdir u). Proof. unfold loc_listdir. apply quiet_bind; [intros x; reflexivity|easy]. Qed.

(** ** Everything is as before or gone *)
Lemma thinned_refl x : thinned x x. Proof. repeat split. intros p. now left. Qed.
Lemma thinned_thin x y : thinned x y -> thin (p_tree y) (p_tree x). Proof. intros (_ & _ & _ & H). exact H. Qed.
Lemma thinned_del x y q : thinned x y -> thinned x (set_tree y (pdel q (p_tree y))).
Proof.
  intros (A & B & C & D). repeat split; auto. apply (thin_trans _ (p_tree y)); [apply thin_del|exact D].
Qed.
Section Thin.
Variable x0 : pst.
Local Notation keep := (holds (thinned x0)).
Lemma thin_unlink s : keep (os_unlink s).
Proof. intros x T. destruct (unlink_del s x) as [(e & ->)|(q & e & -> & _)]; [exact T|now apply thinned_del]. Qed.
Lemma thin_rmdir s : keep (os_rmdir s).
Proof. intros x T. destruct (rmdir_del s x) as [(e & ->)|(q & mo & mt & -> & _)]; [exact T|now apply thinned_del]. Qed.
Lemma thin_removedir u : keep (loc_removedir u).
Proof. unfold loc_removedir. apply holds_bind; [apply holds_quiet, quiet_test|]. intros [|]; [now apply holds_quiet|apply thin_rmdir]. Qed.
Lemma thin_away u : keep (let! l <- loc_islink u; if l then loc_removefile u else loc_removedir u).
Proof. apply holds_bind; [apply holds_quiet, quiet_test|]. intros [|]; [apply thin_unlink|apply thin_removedir]. Qed.
Definition body : unit -> uri -> list str -> list str -> M pst (unit * list str) :=
  fun _ root dirs files =>
       mapM_ (fun n => let! p <- lift (u_div root n); b_removefile LB p) files ;;
       mapM_ (fun n => let! d <- lift (u_div root n);
                       let! l <- b_islink LB d;
                       if l then b_removefile LB d else b_removedir LB d) dirs ;;
       ret (tt, dirs).
Lemma thin_body root dirs files : keep (body tt root dirs files).
Proof.
  unfold body. apply holds_bind.
  - apply holds_mapM. intros n _. apply holds_bind; [now apply holds_quiet|]. intros u. apply thin_unlink.
  - intros _. apply holds_bind; [|intros _; now apply holds_quiet]. apply holds_mapM. intros n _. apply holds_bind; [now apply holds_quiet|]. intros u. apply thin_away.
Qed.
Lemma thin_walk fuel : forall top, keep (walk_gen LB fuel false false body tt top).
Proof.
  induction fuel as [|f IH]; intros top; cbn [walk_gen]; [now apply holds_quiet|].
  apply holds_bind; [apply holds_quiet, quiet_list|]. intros names. apply holds_bind; [apply holds_quiet, quiet_kinds|]. intros [ds fs]. cbn [fst snd].
  apply holds_bind; [now apply holds_quiet|]. intros [[] ds']. cbn [fst snd]. apply holds_bind.
  - apply holds_foldM. intros n [] _. apply holds_bind; [now apply holds_quiet|]. intros u. apply holds_bind; [apply holds_quiet; intros x; apply quiet_test|].
    intros l. destruct (negb l || false); [apply IH|now apply holds_quiet].
  - intros []. apply holds_bind; [apply thin_body|]. intros a. now apply holds_quiet.
Qed.
End Thin.

(** ** What is gone when remove returns *)
Lemma below_refl (p : list str) : below p p. Proof. exists []. now rewrite app_nil_r. Qed.
Definition gone (x0 x' : pst) (u : uri) : Prop := exists p e, aims x0 u (Is p e) /\ forall q, below p q -> entry_at x' q None.
Lemma chop_plain s : slashed s = false -> chop s = s. Proof. apply chop_same. Qed.
Lemma unlink_gone x0 x u x' : thinned x0 x -> sound x -> loc_removefile u x = (Ok tt, x') -> gone x0 x' u.
Proof.
  intros T So E. unfold loc_removefile in E. destruct (unlink_del (u_path u) x) as [(e & X)|(q & e & X & S & L & D)]; rewrite X in E; [discriminate|]. injection E as <-.
  exists q, e. pose proof (look_thin x x0 false _ q e (proj1 T) (thinned_thin _ _ T) L) as L0. split.
  - apply aims_iff. rewrite chop_plain by exact S. exact L0.
  - intros r [k ->]. unfold entry_at. cbn [p_tree set_tree]. rewrite pget_pdel. destruct (path_eqb (q ++ k) q) eqn:Q; [reflexivity|].
    apply (nothing_below x q e So); auto; [exact (look_spot x false _ _ L)|]. intros ->. rewrite app_nil_r, path_eqb_refl in Q. discriminate.
Qed.
Lemma rmdir_gone x0 x u x' : thinned x0 x -> sound x -> loc_removedir u x = (Ok tt, x') -> gone x0 x' u.
Proof.
  intros T So E. unfold loc_removedir, loc_islink, path_islink, bind in E. rewrite LocalFacts18.test_run in E. destruct (tests x false is_plink (u_path u)); [discriminate|].
  destruct (rmdir_del (u_path u) x) as [(e & X)|(q & mo & mt & X & L & C & N)]; rewrite X in E; [discriminate|]. injection E as <-.
  exists q, (PDir mo mt). pose proof (look_thin x x0 false _ q _ (proj1 T) (thinned_thin _ _ T) L) as L0. split; [now apply aims_iff|].
  intros r [k ->]. unfold entry_at. cbn [p_tree set_tree]. rewrite pget_pdel. destruct (path_eqb (q ++ k) q) eqn:Q; [reflexivity|].
  apply (no_children x q So C). intros ->. rewrite app_nil_r, path_eqb_refl in Q. discriminate.
Qed.
Theorem remove_gone x fuel rc u r x' : sound x -> u_remove LB fuel rc u x = (r, x') -> thinned x x' /\ (r = Ok tt -> gone x x' u).
Proof.
  intros So. unfold u_remove, hooked, bind. cbn [b_hook loc_backend ret b_islink b_removefile b_exists b_isdir b_isfile b_removedir].
  unfold loc_islink, loc_exists, loc_isdir, loc_isfile, path_islink, path_exists, path_isdir, path_isfile. rewrite !LocalFacts18.test_run.
  destruct (tests x false is_plink (u_path u)) eqn:T1.
  { intros E. split; [|intros ->; exact (unlink_gone x x u x' (thinned_refl x) So E)]. pose proof (thin_unlink x (u_path u) x (thinned_refl x)) as K. unfold loc_removefile in E. now rewrite E in K. }
  rewrite LocalFacts18.test_run. destruct (tests x true (fun _ => true) (u_path u)) eqn:T2; cbn [negb].
  2:{ unfold lift, raise. destruct (u_str u); intros E; injection E as <- <-; (split; [apply thinned_refl|discriminate]). }
  rewrite LocalFacts18.test_run. destruct (tests x true is_pdir (u_path u)) eqn:T3.
  - destruct rc.
    + unfold remove_dir_recursively. fold body. unfold bind. pose proof (thin_walk x fuel u x (thinned_refl x)) as K.
      assert (So1 : sound (snd (walk_gen LB fuel false false body tt u x))).
      { apply steady_walk; [|exact So]. intros a v ds fs. unfold body. repeat steady_step. }
      destruct (walk_gen LB fuel false false body tt u x) as [[a|e] y]; cbn [snd] in *; [|intros E; injection E as <- <-; split; [exact K|discriminate]].
      cbn [b_islink loc_backend]. unfold loc_islink, path_islink. rewrite LocalFacts18.test_run. destruct (tests y false is_plink (u_path u)); intros E.
      * split; [|intros ->; exact (unlink_gone x y u x' K So1 E)]. pose proof (thin_unlink x (u_path u) y K) as K'. cbn in E. unfold loc_removefile in E. now rewrite E in K'.
      * split; [|intros ->; exact (rmdir_gone x y u x' K So1 E)]. pose proof (thin_removedir x u y K) as K'. cbn in E. now rewrite E in K'.
    + intros E. split; [|intros ->; exact (rmdir_gone x x u x' (thinned_refl x) So E)]. pose proof (thin_removedir x u x (thinned_refl x)) as K. now rewrite E in K.
  - rewrite LocalFacts18.test_run. destruct (tests x true is_pfile (u_path u)) eqn:T4.
    + intros E. split; [|intros ->; exact (unlink_gone x x u x' (thinned_refl x) So E)]. pose proof (thin_unlink x (u_path u) x (thinned_refl x)) as K. unfold loc_removefile in E. now rewrite E in K.
    + exfalso. unfold tests in *. destruct (plook x true (u_path u)) as [[q [| |t]|d n]|e] eqn:L; try discriminate.
      apply (sees_nolink x u q t So). apply sees_iff. exact L.
Qed.
