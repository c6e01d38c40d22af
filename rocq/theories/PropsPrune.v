(** C125: thinning out a walk. *)
From Verif Require Import Str StrFacts Exc UriParse BaseUri Mem MemOps MemFacts9 Generic GenFacts9 Posix Local LocalFacts14 Zip Prune SpecPrune PropsMem PropsGeneric.
Require Import Lia.
Local Open Scope string_scope.
Local Open Scope list_scope.

Section Walk.
Context {S : Type} (b : backend S) (s : S).
Hypothesis H : harmless b s.

Lemma quiet_bind {A B} (m : M S A) (k : A -> M S B) r s' : unchanged_by m s -> bind m k s = (Ok r, s') ->
  exists a, m s = (Ok a, s) /\ k a s = (Ok r, s').
Proof.
  unfold unchanged_by, bind. intros U E. destruct (m s) as [[a|e] s1]; cbn in U; subst s1; [|discriminate]. now exists a.
Qed.
Lemma bind_ok {A B} (m : M S A) (k : A -> M S B) a : m s = (Ok a, s) -> bind m k s = k a s.
Proof. intros E. unfold bind. now rewrite E. Qed.
Lemma islink_quiet u : unchanged_by (u_islink b u) s.
Proof.
  unfold unchanged_by, u_islink, hooked, bind. destruct (H u) as (_ & _ & Hl & Hh). specialize (Hh (lit "islink")). unfold unchanged_by in *.
  destruct (b_hook b u (lit "islink") s) as [[x|e] s1]; cbn in Hh; subst s1; [exact Hl|reflexivity].
Qed.
Lemma kinds_quiet top names : unchanged_by (kinds b top names) s.
Proof.
  unfold unchanged_by. induction names as [|n ns IH]; [reflexivity|]. cbn [kinds]. unfold bind, lift. destruct (u_div top n) as [p|e]; [|reflexivity].
  destruct (H p) as (_ & Hd & _ & _). unfold unchanged_by in Hd. destruct (b_isdir b p s) as [[d|e] s1]; cbn in Hd; subst s1; [|reflexivity].
  destruct (kinds b top ns s) as [[r|e] s1]; cbn in IH; subst s1; reflexivity.
Qed.

Definition full : list item -> uri -> list str -> list str -> M S (list item * list str) := fun acc root dirs files => ret (acc ++ [(root, dirs, files)], dirs).
Definition some (keep : uri -> str -> bool) : list item -> uri -> list str -> list str -> M S (list item * list str) :=
  fun acc root dirs files => ret (acc ++ [(root, dirs, files)], filter (keep root) dirs).
Definition is_link (u : uri) : Prop := u_islink b u s = (Ok true, s).

Definition good (fl : bool) (f : nat) (u : uri) (t : wtree) : Prop :=
  wtop t = u /\ coherent is_link fl t /\
  (forall acc, walk_gen b f true fl full acc u s = (Ok (acc ++ parents_first t), s)) /\
  (forall acc, walk_gen b f false fl full acc u s = (Ok (acc ++ children_first t), s)) /\
  (forall keep acc, walk_gen b f true fl (some keep) acc u s = (Ok (acc ++ parents_first (thinned keep t)), s)).

Definition stepper (td fl : bool) (f : nat) (body : list item -> uri -> list str -> list str -> M S (list item * list str)) (top : uri) : list item -> str -> M S (list item) :=
  fun a name => let! path <- lift (u_div top name); let! l <- u_islink b path; if negb l || fl then walk_gen b f td fl body a path else ret a.

Lemma foldM_cons {A X} (g : A -> X -> M S A) a x l s0 :
  foldM g a (x :: l) s0 = match g a x s0 with (Ok a', s1) => foldM g a' l s1 | (Raise e, s1) => (Raise e, s1) end.
Proof. reflexivity. Qed.
Lemma stepper_is td fl f body top a n p l : u_div top n = Ok p -> u_islink b p s = (Ok l, s) ->
  stepper td fl f body top a n s = (if negb l || fl then walk_gen b f td fl body a p else ret a) s.
Proof. intros Ep El. unfold stepper. rewrite Ep. unfold bind, lift. now rewrite El. Qed.

Lemma subtrees fl f top (IH : forall u acc L s', walk_gen b f true fl full acc u s = (Ok L, s') -> exists t, good fl f u t) :
  forall ds acc L s', foldM (stepper true fl f full top) acc ds s = (Ok L, s') ->
  exists subs, gone_into is_link fl top ds subs /\ (forall n t, In (n, t) subs -> exists u, good fl f u t) /\
    (forall a, foldM (stepper true fl f full top) a ds s = (Ok (a ++ concat (map (fun c => parents_first (snd c)) subs)), s)) /\
    (forall a, foldM (stepper false fl f full top) a ds s = (Ok (a ++ concat (map (fun c => children_first (snd c)) subs)), s)) /\
    (forall keep a, foldM (stepper true fl f (some keep) top) a (filter (keep top) ds) s =
       (Ok (a ++ concat (map (fun c => parents_first (snd c)) (flat_map (fun c => if keep top (fst c) then [(fst c, thinned keep (snd c))] else []) subs))), s)).
Proof.
  induction ds as [|n ds IHd]; intros acc L s' E.
  - exists []. cbn. split; [constructor|]. split; [easy|]. repeat split; intros; unfold ret; now rewrite app_nil_r.
  - rewrite foldM_cons in E. destruct (u_div top n) as [p|e] eqn:Ep; [|unfold stepper in E at 1; rewrite Ep in E; discriminate].
    pose proof (islink_quiet p) as Q. unfold unchanged_by in Q.
    destruct (u_islink b p s) as [[l|e] s1] eqn:El; cbn in Q; subst s1; [|unfold stepper in E at 1; rewrite Ep in E; unfold bind, lift in E; cbn [fst snd] in E; rewrite El in E; discriminate].
    rewrite (stepper_is _ _ _ _ _ _ _ p l Ep El) in E. destruct (negb l || fl) eqn:Go.
    + destruct (walk_gen b f true fl full acc p s) as [[a1|e] s1] eqn:Ew; [|discriminate].
      destruct (IH _ _ _ _ Ew) as (t & G). pose proof G as (Et & Co & P1 & P2 & P3). rewrite P1 in Ew. injection Ew as <- <-.
      destruct (IHd _ _ _ E) as (subs & Gi & Gs & F1 & F2 & F3). exists ((n, t) :: subs).
      split; [constructor; [now rewrite Et|rewrite Et; unfold is_link; rewrite El; intros [= ->]; now destruct fl|exact Gi]|].
      split; [intros n' t' [[= <- <-]|I]; [now exists p|eauto]|]. split; [|split].
      * intros a. rewrite foldM_cons, (stepper_is _ _ _ _ _ _ _ p l Ep El), Go, P1, F1. cbn [map concat snd]. now rewrite app_assoc.
      * intros a. rewrite foldM_cons, (stepper_is _ _ _ _ _ _ _ p l Ep El), Go, P2, F2. cbn [map concat snd]. now rewrite app_assoc.
      * intros keep a. cbn [filter fst flat_map]. destruct (keep top n); [|apply F3].
        rewrite foldM_cons, (stepper_is _ _ _ _ _ _ _ p l Ep El), Go, P3, F3. cbn [map concat snd fst app]. now rewrite app_assoc.
    + unfold ret at 1 in E. destruct (IHd _ _ _ E) as (subs & Gi & Gs & F1 & F2 & F3). pose proof Go as Go'. apply Bool.orb_false_elim in Go' as [Gl Gf].
      assert (l = true) as -> by now destruct l. exists subs.
      split; [apply (gone_by _ _ _ _ _ p); auto|]. split; [exact Gs|]. split; [|split].
      * intros a. rewrite foldM_cons, (stepper_is _ _ _ _ _ _ _ p true Ep El), Go. apply F1.
      * intros a. rewrite foldM_cons, (stepper_is _ _ _ _ _ _ _ p true Ep El), Go. apply F2.
      * intros keep a. cbn [filter]. destruct (keep top n); [|apply F3].
        rewrite foldM_cons, (stepper_is _ _ _ _ _ _ _ p true Ep El), Go. apply F3.
Qed.

Lemma tree_of fl f : forall u acc L s', walk_gen b f true fl full acc u s = (Ok L, s') -> exists t, good fl f u t.
Proof.
  induction f as [|f IH]; intros u acc L s' E; [discriminate|]. cbn [walk_gen] in E.
  destruct (quiet_bind _ _ _ _ (proj1 (H u)) E) as (names & En & E1). destruct (quiet_bind _ _ _ _ (kinds_quiet u _) E1) as ([ds fs] & Ek & E2).
  cbn [fst snd] in E2. unfold bind in E2 at 1. unfold full at 1, ret at 1 in E2. cbn [fst snd] in E2.
  change (bind (foldM (stepper true fl f full u) (acc ++ [(u, ds, fs)]) ds) (fun acc' => ret acc') s = (Ok L, s')) in E2. unfold bind in E2 at 1.
  destruct (foldM (stepper true fl f full u) (acc ++ [(u, ds, fs)]) ds s) as [[a|e] s1] eqn:Ef; [|discriminate].
  destruct (subtrees fl f u IH _ _ _ _ Ef) as (subs & Gi & Gs & F1 & F2 & F3). exists (WNode u ds fs subs).
  split; [reflexivity|]. split; [constructor; [exact Gi|]|split; [|split]].
  - intros n t I. destruct (Gs _ _ I) as (v & _ & Co & _). exact Co.
  - intros a0. cbn [walk_gen]. rewrite (bind_ok _ _ _ En), (bind_ok _ _ _ Ek). cbn [fst snd]. unfold bind at 1. unfold full at 1, ret at 1. cbn [fst snd].
    change (bind (foldM (stepper true fl f full u) (a0 ++ [(u, ds, fs)]) ds) (fun acc' => ret acc') s = (Ok (a0 ++ parents_first (WNode u ds fs subs)), s)).
    unfold bind. rewrite F1. unfold ret. cbn [parents_first]. now rewrite <- app_assoc.
  - intros a0. cbn [walk_gen]. rewrite (bind_ok _ _ _ En), (bind_ok _ _ _ Ek). cbn [fst snd]. unfold bind at 1. unfold ret at 1. cbn [fst snd].
    change (bind (foldM (stepper false fl f full u) a0 ds) (fun acc' => bind (full acc' u ds fs) (fun ad' => ret (fst ad'))) s = (Ok (a0 ++ children_first (WNode u ds fs subs)), s)).
    unfold bind at 1. rewrite F2. unfold bind, full, ret. cbn [children_first fst]. now rewrite <- app_assoc.
  - intros keep a0. cbn [walk_gen]. rewrite (bind_ok _ _ _ En), (bind_ok _ _ _ Ek). cbn [fst snd]. unfold bind at 1. unfold some at 1, ret at 1. cbn [fst snd].
    change (bind (foldM (stepper true fl f (some keep) u) (a0 ++ [(u, ds, fs)]) (filter (keep u) ds)) (fun acc' => ret acc') s = (Ok (a0 ++ parents_first (thinned keep (WNode u ds fs subs))), s)).
    unfold bind. rewrite F3. unfold ret. cbn [parents_first thinned]. now rewrite <- app_assoc.
Qed.
End Walk.

(** ** C125 *)
(** A walk that comes to an end has gone through a tree; bottom-up the same tree is gone through with the children first; and
    whatever names are kept, the thinned out walk goes through what is left of the tree. *)
Theorem C125_thinned {S} (b : backend S) (s : S) fuel fl u L s' : harmless b s -> u_walk b fuel true fl u s = (Ok L, s') ->
  exists t, wtop t = u /\ coherent (fun p => u_islink b p s = (Ok true, s)) fl t /\ L = parents_first t /\ s' = s /\
    u_walk b fuel false fl u s = (Ok (children_first t), s) /\
    forall keep, walk_keeping b keep fuel fl u s = (Ok (parents_first (thinned keep t)), s).
Proof.
  intros H E. unfold u_walk, walk_keeping, hooked, bind in *. destruct (H u) as (_ & _ & _ & Hh). specialize (Hh (lit "walk")). unfold unchanged_by in Hh.
  destruct (b_hook b u (lit "walk") s) as [[x|e] s1]; cbn in Hh; subst s1; [|discriminate].
  destruct (tree_of b s H fl fuel u [] L s' E) as (t & Et & Co & P1 & P2 & P3). exists t. split; [exact Et|]. split; [exact Co|].
  pose proof (P1 []) as Q. change (walk_gen b fuel true fl full [] u s = (Ok L, s')) in E. rewrite E in Q. injection Q as -> ->. split; [reflexivity|]. split; [reflexivity|]. split; [exact (P2 [])|].
  intros keep. exact (P3 keep []).
Qed.
Print Assumptions C125_thinned.

(** The backends that are harmless: the memory and the local one in every state, archives that have been opened. *)
Theorem C125_memory s : harmless mem_backend s.
Proof. intros u. repeat split; intros; [apply pure_listdir|apply pure_isdir|apply pure_islink|apply pure_hook]. Qed.
Print Assumptions C125_memory.
Theorem C125_local x : harmless loc_backend x.
Proof.
  intros u. repeat split; intros; unfold unchanged_by; cbn [b_listdir b_isdir b_islink b_hook loc_backend]; [|unfold loc_isdir, path_isdir|unfold loc_islink, path_islink].
  - unfold loc_listdir, bind, os_listdir. destruct (plook x true (u_path u)) as [[d []|]|]; reflexivity.
  - match goal with |- snd (os_test ?f ?g ?p x) = x => destruct (test_keeps f g p x) as [v ->]; reflexivity end.
  - match goal with |- snd (os_test ?f ?g ?p x) = x => destruct (test_keeps f g p x) as [v ->]; reflexivity end.
Qed.
Print Assumptions C125_local.
Theorem C125_zip z : z_handle z <> None -> harmless zip_backend z.
Proof.
  intros N. destruct (z_handle z) as [h|] eqn:Eh; [|easy]. intros u.
  assert (P : forall f, snd (zip_ispart u f z) = z) by (intros f; unfold zip_ispart; destruct (str_eqb _ _); [reflexivity|]; now rewrite Eh).
  repeat split; intros; unfold unchanged_by; cbn [b_listdir b_isdir b_islink b_hook zip_backend]; [|apply P].
  unfold zip_listdir. destruct (z_disk z); [reflexivity|..]; rewrite Eh; unfold bind, ret; pose proof (P (fun k => match k with KDir => true | _ => false end)) as Q;
    change (zip_ispart u (fun k => match k with KDir => true | _ => false end)) with (zip_isdir u) in Q; destruct (zip_isdir u z) as [[[]|e] z1]; cbn in Q; subst z1; cbn; try reflexivity; now rewrite Eh.
Qed.
Print Assumptions C125_zip.
Definition paths (r : res (list item)) : list str := match r with Ok l => map (fun x => u_path (fst (fst x))) l | Raise _ => [] end.
Definition not_d : uri -> str -> bool := fun _ n => negb (str_eqb n (lit "e")).
Example C125_witness : let top := U [] in
  paths (fst (u_walk mem_backend 5 true false top knot)) = [lit "/"; lit "/d"; lit "/d/e"; lit "/o"] /\
  paths (fst (u_walk mem_backend 5 false false top knot)) = [lit "/d/e"; lit "/d"; lit "/o"; lit "/"] /\
  paths (fst (walk_keeping mem_backend not_d 5 false top knot)) = [lit "/"; lit "/d"; lit "/o"] /\
  (exists z, z_handle z <> None /\ z_disk z <> DNone).
Proof.
  split; [vm_compute; reflexivity|]. split; [vm_compute; reflexivity|]. split; [vm_compute; reflexivity|].
  exists (mkZ DJunk (Some (mkZH true [] true true))). split; discriminate.
Qed.
