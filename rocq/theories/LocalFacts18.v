(** Local trees with links in them: lookups through links, the tests, the depth of a tree. *)
From Coq Require Import Lia Permutation Sorted.
From Verif Require Import Str Exc Utf8 UriParse BaseUri StrFacts UriFacts SpecUri UriFacts2 UriFacts3 UriFacts4 UriFacts5 UriFacts6.
From Verif Require Import Mem SpecMem MemFacts MemUri.
From Verif Require Import Generic SpecGen.
From Verif Require Import Misc Posix Local SpecLocal LocalFacts1 LocalFacts3 LocalFacts6 LocalFacts7.

Local Notation LB := loc_backend.

(** A lookup raises only OSError; a test raises nothing. *)
Lemma walk_raises t f b : forall comps cur e, pwalk t f b cur comps = Raise e -> exists c, e = OSError c.
Proof.
  induction b as [|b IHb]; induction comps as [|c comps IHc]; intros cur e; cbn [pwalk];
    (destruct (pget cur t) as [[d mo mt|mo mt|tg]|]; try discriminate; try (intros E; injection E as <-; eauto; fail)).
  - destruct (str_eqb c [] || str_eqb c dot); [apply IHc|]. destruct (str_eqb c dotdot); [apply IHc|].
    destruct (pget (cur ++ [c]) t) as [[d' mo' mt'|mo' mt'|tg]|]; [apply IHc|apply IHc| |].
    + destruct (match comps with [] => negb f | _ => false end); [discriminate|]. intros E. injection E as <-. eauto.
    + destruct comps; [discriminate|]. intros E. injection E as <-. eauto.
  - destruct (str_eqb c [] || str_eqb c dot); [apply IHc|]. destruct (str_eqb c dotdot); [apply IHc|].
    destruct (pget (cur ++ [c]) t) as [[d' mo' mt'|mo' mt'|tg]|]; [apply IHc|apply IHc| |].
    + destruct (match comps with [] => negb f | _ => false end); [discriminate|]. destruct tg as [|a tg]; [intros E; injection E as <-; eauto|]. apply IHb.
    + destruct comps; [discriminate|]. intros E. injection E as <-. eauto.
Qed.
Lemma look_raises x f p e : plook x f p = Raise e -> e = ValueError \/ exists c, e = OSError c.
Proof.
  unfold plook. destruct (has_char 0 p); [intros E; injection E as <-; auto|].
  destruct p; [intros E; injection E as <-; eauto|]. intros E. right. eapply walk_raises, E.
Qed.
Definition tests (x : pst) (f : bool) (g : pent -> bool) (p : str) : bool :=
  match plook x f p with Ok (At _ e) => g e | _ => false end.
Lemma test_run x f g p : os_test f g p x = (Ok (tests x f g p), x).
Proof.
  unfold os_test, os_stat, tests. destruct (plook x f p) as [[q e|d n]|e] eqn:E; auto.
  apply look_raises in E as [->|[c ->]]; auto.
Qed.

(** What follows a path that leads to a directory is looked up there. *)
Lemma walk_on t q mo mt b : forall comps cur, pwalk t true b cur comps = Ok (At q (PDir mo mt)) ->
  exists b', (b' <= b)%nat /\ pget q t = Some (PDir mo mt) /\ forall f rest, rest <> [] -> pwalk t f b cur (comps ++ rest) = pwalk t f b' q rest.
Proof.
  induction b as [|b IHb]; induction comps as [|c comps IHc]; intros cur; cbn [pwalk app];
    (destruct (pget cur t) as [[d mo' mt'|mo' mt'|tg]|] eqn:Ec; try discriminate).
  - intros E. injection E as -> -> ->. exists 0. auto.
  - destruct (str_eqb c [] || str_eqb c dot); [apply IHc|]. destruct (str_eqb c dotdot); [apply IHc|].
    destruct (pget (cur ++ [c]) t) as [[d2 mo2 mt2|mo2 mt2|tg]|]; [apply IHc|apply IHc| |].
    + destruct comps; discriminate.
    + destruct comps; discriminate.
  - intros E. injection E as -> -> ->. exists (S b). auto.
  - destruct (str_eqb c [] || str_eqb c dot); [apply IHc|]. destruct (str_eqb c dotdot); [apply IHc|].
    destruct (pget (cur ++ [c]) t) as [[d2 mo2 mt2|mo2 mt2|tg]|]; [apply IHc|apply IHc| |].
    + intros E. assert (E' : tg <> [] /\ pwalk t true b (if prefixb [cSlash] tg then [] else cur) (split_on cSlash tg ++ comps) = Ok (At q (PDir mo mt)))
        by (destruct comps, tg; cbn [negb] in E; try discriminate; split; try discriminate; exact E).
      destruct E' as [Nt E']. apply IHb in E' as (b' & Lb & G & K). exists b'. split; [lia|]. split; [exact G|].
      intros f rest Nr. rewrite <- (K f rest Nr), <- app_assoc.
      assert (X : forall (A : Type) (a a' : A), match comps ++ rest with [] => a | _ => a' end = a')
        by (intros; destruct comps; [now destruct rest|reflexivity]).
      rewrite X. destruct tg; [easy|]. reflexivity.
    + destruct comps; discriminate.
Qed.

Section S.
Variable x : pst.
Hypothesis So : sound x.
Local Notation T := (p_tree x).

(** An entry of a directory the path leads to *)
Section In.
Variables (cs q : list str) (mo mt : Z) (n : str).
Hypothesis P : Forall plain_name (cs ++ [n]).
Hypothesis L : plook x true (abs_path cs) = Ok (At q (PDir mo mt)).
Lemma in_plain : Forall plain_name cs /\ plain_name n.
Proof. apply Forall_app in P as [? H]. inversion H; auto. Qed.
Lemma in_dir : is_dir_at x q.
Proof.
  rewrite plook_abs in L by (auto; apply in_plain). apply walk_on in L as (b & _ & G & _). exists mo, mt. exact G.
Qed.
Lemma in_walk f : exists b, plook x f (abs_path (cs ++ [n])) = pwalk T f b q [n].
Proof.
  rewrite plook_abs by auto. rewrite plook_abs in L by (auto; apply in_plain). apply walk_on in L as (b & _ & _ & K).
  exists b. apply K. easy.
Qed.
Lemma look_in f e : pget (q ++ [n]) T = Some e -> (is_plink e = true -> f = false) -> plook x f (abs_path (cs ++ [n])) = Ok (At (q ++ [n]) e).
Proof.
  intros E Lf. destruct (in_walk f) as [b ->]. pose proof in_dir as D. destruct in_plain as [_ Pn].
  destruct (is_plink e) eqn:El.
  - destruct e; try discriminate. rewrite Lf by auto. now apply (walk_link x).
  - rewrite (walk_enter x) by eauto. now apply (walk_here x).
Qed.
Lemma look_in_gap f : pget (q ++ [n]) T = None -> plook x f (abs_path (cs ++ [n])) = Ok (Gap q n).
Proof.
  intros E. destruct (in_walk f) as [b ->]. pose proof in_dir as D. destruct in_plain as [_ Pn]. now rewrite (walk_none x).
Qed.
End In.

(** Every directory on the way to an entry is an entry. *)
Lemma deep r : forall p, pget (p ++ r) T <> None -> (length r < length T)%nat.
Proof.
  intros p Hp. assert (Pre : forall k, pget (p ++ firstn k r) T <> None).
  { intros k. destruct (Nat.le_gt_cases (length r) k) as [H|H]; [now rewrite firstn_all2|].
    assert (D : is_dir_at x (p ++ firstn k r)).
    { apply (so_dir x So _ (skipn k r)); [|rewrite <- app_assoc, firstn_skipn; exact Hp].
      intros E. apply (f_equal (@length _)) in E. rewrite skipn_length in E. cbn in E. lia. }
    destruct D as (? & ? & D). congruence. }
  pose (l := map (fun k => p ++ firstn k r) (seq 0 (S (length r)))).
  assert (Nl : NoDup l).
  { unfold l. assert (X : forall a, (forall k, In k a -> k <= length r)%nat -> NoDup a -> NoDup (map (fun k => p ++ firstn k r) a)).
    { induction a as [|k a IH]; intros Ha Na; [constructor|]. inversion Na; subst. cbn. constructor.
      - intros I. apply in_map_iff in I as (k' & E & I). apply app_inv_head in E. apply (f_equal (@length _)) in E.
        rewrite !firstn_length in E. assert (k' = k).
        { specialize (Ha k (or_introl eq_refl)) as H. specialize (Ha k' (or_intror I)) as H'. lia. }
        now subst.
      - apply IH; auto. intros; apply Ha; now right. }
    apply X; [|apply seq_NoDup]. intros k Hk. apply in_seq in Hk. lia. }
  assert (I : incl l (map fst T)).
  { intros y Hy. unfold l in Hy. apply in_map_iff in Hy as (k & <- & _). specialize (Pre k).
    destruct (pget (p ++ firstn k r) T) as [e|] eqn:E; [|easy]. apply pget_in in E; [|apply (so_nodup x So)].
    apply in_map_iff. now exists (p ++ firstn k r, e). }
  pose proof (NoDup_incl_length Nl I) as H. unfold l in H. rewrite !map_length, seq_length in H. lia.
Qed.
End S.
