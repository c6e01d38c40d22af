(** Moves of local files that fail, and deciding soundness for the examples. *)
From Coq Require Import Lia.
From Verif Require Import Str Exc Utf8 UriParse BaseUri StrFacts UriFacts SpecUri UriFacts2 UriFacts3.
From Verif Require Import Mem SpecMem MemFacts MemFacts2 MemFacts3 MemFacts4 MemFacts5 MemFacts7 MemFacts9 MemUri.
From Verif Require Import Generic SpecGen GenFacts1 GenFacts2 GenFacts3.
From Verif Require Import Misc Posix Local SpecLocal LocalFacts1 LocalFacts2 LocalFacts3 LocalFacts6 LocalFacts7 LocalFacts12.

Fixpoint nodup_b (l : list (list str)) : bool :=
  match l with [] => true | p :: l' => negb (existsb (path_eqb p) l') && nodup_b l' end.
Lemma nodup_b_ok l : nodup_b l = true -> NoDup l.
Proof.
  induction l as [|p l IH]; [constructor|]. cbn [nodup_b]. intros H. apply andb_true_iff in H as [H1 H2].
  constructor; auto. intros I. apply negb_true_iff in H1. assert (X : existsb (path_eqb p) l = true).
  { apply existsb_exists. exists p. split; auto. apply path_eqb_refl. } congruence.
Qed.
Definition dir_b (t : ptree) (p : list str) : bool := match pget p t with Some (PDir _ _) => true | _ => false end.
Definition sound_b (x : pst) : bool :=
  dir_b (p_tree x) [] && nodup_b (map fst (p_tree x)) &&
  forallb (fun pe => match fst pe with [] => true | _ => dir_b (p_tree x) (removelast (fst pe)) end) (p_tree x).
Lemma dir_b_ok t p : dir_b t p = true -> exists mo mt, pget p t = Some (PDir mo mt).
Proof. unfold dir_b. destruct (pget p t) as [[]|]; try discriminate. eauto. Qed.
Lemma pget_in' p t : pget p t <> None -> exists e, In (p, e) t.
Proof.
  induction t as [|[q e] t IH]; [easy|]. cbn [pget]. destruct (path_eqb p q) eqn:E.
  - apply path_eqb_spec in E as ->. exists e. now left.
  - intros H. destruct (IH H) as [f I]. exists f. now right.
Qed.
Lemma sound_b_ok x : sound_b x = true -> sound x.
Proof.
  unfold sound_b. rewrite !andb_true_iff. intros [[H1 H2] H3]. split.
  - now apply dir_b_ok.
  - intros p n H. apply pget_in' in H as [e I]. rewrite forallb_forall in H3. specialize (H3 _ I). cbn [fst] in H3.
    destruct (p ++ [n]) eqn:E; [now destruct p|]. rewrite <- E, removelast_last in H3. now apply dir_b_ok.
  - now apply nodup_b_ok.
Qed.

(** ** A move that raises changes nothing. *)
Lemma test_keeps f g p x : exists b, os_test f g p x = (b, x).
Proof.
  unfold os_test, os_stat. destruct (plook x f p) as [[q e|d n]|e].
  - eauto.
  - eauto.
  - destruct e; eauto.
Qed.
Lemma rename_raises s d x e x' : os_rename s d x = (Raise e, x') -> x' = x.
Proof.
  unfold os_rename, sys_rename. intros H.
  repeat match type of H with
         | (match ?y with _ => _ end) = _ => destruct y
         | (if ?y then _ else _) = _ => destruct y
         end; try discriminate; now injection H as _ <-.
Qed.
(** After the first missing directory nothing else is in the way. *)
Lemma parents_fail x comps : sound x -> forall cur e x', make_parents cur comps x = (Raise e, x') -> x' = x.
Proof.
  intros So.
  assert (New : forall comps cur y, comps <> [] -> (forall r, r <> [] -> pget (cur ++ r) (p_tree y) = None) ->
            exists q y', make_parents cur comps y = (Ok q, y')).
  { clear comps. induction comps as [|c comps IH]; intros cur y N F; [easy|]. cbn [make_parents]. rewrite F by easy.
    destruct comps as [|c2 comps]; [eauto|]. apply IH; [easy|]. intros r Nr. cbn [p_tree set_tree]. rewrite pget_pset, path_eqb_neq.
    - rewrite <- app_assoc. now apply F.
    - intros E. apply Nr. apply (app_inv_head (cur ++ [c])). now rewrite app_nil_r. }
  induction comps as [|c comps IH]; intros cur e x' H; cbn [make_parents] in H; [now injection H as _ <-|].
  destruct comps as [|c2 comps].
  - destruct (pget (cur ++ [c]) (p_tree x)); [now injection H as _ <-|discriminate].
  - destruct (pget (cur ++ [c]) (p_tree x)) as [[]|] eqn:E; try (now injection H as _ <-); [now apply (IH (cur ++ [c]) e)|].
    exfalso. destruct (New (c2 :: comps) (cur ++ [c]) (set_tree x (pset (cur ++ [c]) (PDir (Z.land 511 (Z.lnot (p_umask x))) (p_now x)) (p_tree x)))) as (q & y' & Hq).
    + easy.
    + intros r Nr. cbn [p_tree set_tree]. rewrite pget_pset, path_eqb_neq.
      * destruct (pget ((cur ++ [c]) ++ r) (p_tree x)) eqn:E2; auto. exfalso.
        assert (D : is_dir_at x (cur ++ [c])) by (apply (so_dir x So (cur ++ [c]) r); [easy|congruence]).
        destruct D as (mo & mt & D). congruence.
      * intros E2. apply Nr. apply (app_inv_head (cur ++ [c])). now rewrite app_nil_r.
    + congruence.
Qed.
Lemma symlink_raises t p x e x' : os_symlink t p x = (Raise e, x') -> x' = x.
Proof.
  unfold os_symlink. intros H. destruct (slashed p); [now injection H as _ <-|]. unfold sys_symlink in H.
  repeat match type of H with
         | (match ?y with _ => _ end) = _ => destruct y
         | (if ?y then _ else _) = _ => destruct y
         end; try discriminate; now injection H as _ <-.
Qed.
