(** C165: recursive remove() of local files stopped before any of its system calls, and called again. *)
From Coq Require Import Lia Sorted.
From Verif Require Import Str Exc Utf8 UriParse BaseUri StrFacts Utf8Facts SpecUri Mem SpecMem MemOps Generic SpecGen UriOps.
From Verif Require Import UriFacts2 UriFacts3 MemFacts MemFacts2 MemFacts3 MemFacts4 MemFacts5 MemFacts6 MemFacts7 MemFacts9 MemUri MemFacts10 PropsMem.
From Verif Require Import GenFacts1 GenFacts2 GenFacts3 GenFacts4 GenFacts5 Enum PropsGeneric PropsCopy PropsWalk Fnmatch SpecFn.
From Verif Require Import Misc Posix Local SpecLocal Program LocalFacts1 LocalFacts2 LocalFacts3 LocalFacts4 LocalFacts5 LocalFacts6 LocalFacts7 LocalFacts8 LocalFacts9 LocalFacts10.
From Verif Require Import LocalFacts11 LocalFacts12 LocalFacts13 LocalFacts14 LocalFacts15 LocalFacts16 LocalFacts17 PropsLocal2.
From Verif Require Import PropsLocal3 LocProg LocSteps SpecPosix SpecStay StayFacts2 PropsRetry PropsRetry2 PropsSteps.
From Verif Require Resp LocTwin LocalFacts19.
From Coq Require Import String.
Open Scope nat_scope.
Open Scope list_scope.

(** ** Invariants with what is known of the values *)
Section Keeps.
Variable P : pst -> Prop.
Variable e : exc.
Definition gives {A} (Q : A -> Prop) (m : M mortal A) : Prop := forall z, P (fst z) -> P (fst (snd (m z))) /\ forall a, fst (m z) = Ok a -> Q a.
Lemma gives_kept {A} (Q : A -> Prop) m : gives Q m -> kept P m. Proof. intros H z Z. now apply H. Qed.
Lemma gives_bind {A B} (Q : A -> Prop) (m : M mortal A) (k : A -> M mortal B) : gives Q m -> (forall a, Q a -> kept P (k a)) -> kept P (bind m k).
Proof. intros H K z Z. unfold bind. destruct (H z Z) as [H1 H2]. destruct (m z) as [[a|r] y]; cbn [fst snd] in *; auto. apply K; auto. Qed.
Lemma gives_then {A B} (Q : A -> Prop) (R : B -> Prop) (m : M mortal A) (k : A -> M mortal B) : gives Q m -> (forall a, Q a -> gives R (k a)) -> gives R (bind m k).
Proof. intros H K z Z. unfold bind. destruct (H z Z) as [H1 H2]. destruct (m z) as [[a|r] y]; cbn [fst snd] in *; [apply K; auto|]. split; [exact H1|discriminate]. Qed.
Lemma gives_lift {A} (Q : A -> Prop) (r : res A) : (forall a, r = Ok a -> Q a) -> gives Q (lift r). Proof. intros H z Z. split; [exact Z|exact H]. Qed.
Lemma gives_ret {A} (Q : A -> Prop) (a : A) : Q a -> gives Q (ret a). Proof. intros H z Z. split; [exact Z|]. cbn. now intros b [= <-]. Qed.
Lemma gives_test f g p : gives (fun _ => True) (unless_stopped e (os_test f g p)). Proof. intros z Z. split; [now apply kept_test|trivial]. Qed.
Lemma kept_each {A} (Q : A -> Prop) (f : A -> M mortal unit) l : Forall Q l -> (forall a, Q a -> kept P (f a)) -> kept P (mapM_ f l).
Proof. intros F H. induction F as [|a l Qa F IH]; cbn [mapM_]; [apply kept_ret|]. apply kept_bind; auto. Qed.
Lemma kept_fold {A B} (Q : A -> Prop) (f : B -> A -> M mortal B) l : Forall Q l -> (forall a b, Q a -> kept P (f b a)) -> forall b, kept P (foldM f b l).
Proof. intros F H. induction F as [|a l Qa F IH]; intros b; cbn [foldM]; [apply kept_ret|]. apply kept_bind; auto. Qed.
End Keeps.

Section Below.
Variables (x : pst) (p : list str).
Hypothesis Ox : ordinary x.
(** Something at or below [p] is gone, all else is as it was. *)
Definition partly (y : pst) : Prop :=
  ordinary y /\ p_cwd y = p_cwd x /\ p_now y = p_now x /\ p_umask y = p_umask x /\
  forall q, pget q (p_tree y) = pget q (p_tree x) \/ below p q /\ entry_at y q None.
Lemma partly_del y q : partly y -> below p q -> sound (set_tree y (pdel q (p_tree y))) -> partly (set_tree y (pdel q (p_tree y))).
Proof.
  intros (O & A & B & C & D) Bq S. split; [constructor|].
  - exact S.
  - intros r tg. cbn [p_tree set_tree]. rewrite pget_pdel. destruct (path_eqb r q); [discriminate|apply (or_unlinked _ O)].
  - intros r. cbn [p_tree set_tree]. rewrite pget_pdel. destruct (path_eqb r q); [easy|apply (or_names _ O)].
  - split; [exact A|]. split; [exact B|]. split; [exact C|]. intros r. unfold entry_at. cbn [p_tree set_tree]. rewrite pget_pdel. destruct (path_eqb r q) eqn:E; [|apply D]. apply path_eqb_spec in E as ->. now right.
Qed.
Lemma found_itself y q f r en : ordinary y -> plain_path q -> plook y f (abs_path q) = Ok (At r en) -> r = q.
Proof.
  intros O Pq E. destruct (ordinary_mirror y O) as (s & R & Q & Mi & Hl). assert (T : twin s y) by (split; auto; now apply reachable_wf).
  pose proof (look s y T q f Pq) as L. rewrite E in L. inversion L; now subst.
Qed.
Lemma partly_unlink q : plain_path q -> below p q -> holds partly (os_unlink (abs_path q)).
Proof.
  intros Pq Bq y H. pose proof (resp_sound (os_unlink (abs_path q)) y (LocTwin.unlink_resp _) (or_sound _ (proj1 H))) as So.
  destruct (unlink_del (abs_path q) y) as [(r & E)|(r & en & E & _ & L & _)]; rewrite E in *; [exact H|]. cbn [snd] in *. apply (found_itself y q) in L; [|apply H|exact Pq]. subst r. now apply partly_del.
Qed.
Lemma partly_rmdir q : plain_path q -> below p q -> holds partly (os_rmdir (abs_path q)).
Proof.
  intros Pq Bq y H. pose proof (resp_sound (os_rmdir (abs_path q)) y (LocTwin.rmdir_resp _) (or_sound _ (proj1 H))) as So.
  destruct (rmdir_del (abs_path q) y) as [(r & E)|(r & mo & mt & E & L & _)]; rewrite E in *; [exact H|]. cbn [snd] in *. rewrite chop_abs in L by (apply plain_names, Pq). apply (found_itself y q) in L; [|apply H|exact Pq]. subst r. now apply partly_del.
Qed.
Variable e : exc.
Notation KB := (st_backend (@unless_stopped e)).
Definition inside (u : uri) : Prop := exists q, u = file_uri q /\ plain_path q /\ below p q.
Lemma inside_path u : inside u -> exists q, u_path u = abs_path q /\ plain_path q /\ below p q.
Proof. intros (q & -> & Pq & Bq). exists q. split; [now apply LocalFacts19.local_path|]. now split. Qed.
Lemma in_unlink u : inside u -> kept partly (unless_stopped e (os_unlink (u_path u))).
Proof. intros H. destruct (inside_path u H) as (q & -> & Pq & Bq). now apply kept_step, partly_unlink. Qed.
Lemma in_removedir u : inside u -> kept partly (st_removedir (@unless_stopped e) u).
Proof. intros H. unfold st_removedir. apply kept_bind; [apply kept_test|]. intros [|]; [apply kept_raise|]. destruct (inside_path u H) as (q & -> & Pq & Bq). now apply kept_step, partly_rmdir. Qed.
Lemma in_away u : inside u -> kept partly (let! l <- b_islink KB u; if l then b_removefile KB u else b_removedir KB u).
Proof. intros H. apply kept_bind; [apply kept_test|]. intros [|]; [now apply in_unlink|now apply in_removedir]. Qed.
Definition fits (u : uri) (n : str) : Prop := forall v, u_div u n = Ok v -> inside v.
Lemma in_list u : inside u -> gives partly (Forall (fits u)) (unless_stopped e (loc_listdir u)).
Proof.
  intros H z Z. split; [now apply kept_list|]. destruct z as [y [|k]]; [discriminate|]. cbn [fst snd] in *. unfold unless_stopped. cbn [fst snd]. pose proof (proj1 Z) as O.
  destruct H as (q & -> & Pq & Bq). unfold loc_listdir, bind, os_listdir. rewrite LocalFacts19.local_path by exact Pq. destruct (plook y true (abs_path q)) as [[r [| |]|]|] eqn:L; try discriminate.
  apply (found_itself y q) in L; [|exact O|exact Pq]. subst r. cbn. intros a [= <-]. apply Forall_forall. intros n I. apply (proj1 (sort_In _ _)), children_in in I. intros v E.
  assert (Pn : plain_path (q ++ [n])). { apply (or_names _ O). apply in_map_iff in I as [[r en] [X I]]. cbn in X. subst r. apply (LocalFacts1.pget_in _ _ _ (so_nodup _ (or_sound _ O))) in I. congruence. }
  rewrite file_div in E by apply Pn. injection E as <-. exists (q ++ [n]). split; [reflexivity|]. split; [exact Pn|]. destruct Bq as [r ->]. exists (r ++ [n]). now rewrite app_assoc.
Qed.
Lemma in_kinds u l : Forall (fits u) l -> gives partly (fun dn => Forall (fits u) (fst dn) /\ Forall (fits u) (snd dn)) (kinds KB u l).
Proof.
  intros F. induction F as [|n l Fn F IH]; cbn [kinds]; [apply gives_ret; split; constructor|]. apply (gives_then _ (fun _ => True)); [now apply gives_lift|]. intros v _. apply (gives_then _ (fun _ => True)); [apply gives_test|]. intros d _.
  apply (gives_then _ _ _ _ _ IH). intros r [F1 F2]. apply gives_ret. destruct d; cbn; split; auto.
Qed.
Lemma in_walk {Acc} fuel body : (forall a u ds fs, inside u -> Forall (fits u) ds -> Forall (fits u) fs -> kept partly (body a u ds fs)) ->
  forall (acc : Acc) u, inside u -> kept partly (walk_gen KB fuel false false body acc u).
Proof.
  intros Hb. induction fuel as [|f IH]; intros acc u Hu; cbn [walk_gen]; [apply kept_raise|].
  apply (gives_bind _ _ _ _ (in_list u Hu)). intros names Fn. apply (gives_bind _ (fun dn => Forall (fits u) (fst dn) /\ Forall (fits u) (snd dn))).
  { apply in_kinds. apply Forall_forall. intros n I. apply (proj1 (sort_In n names)) in I. exact (proj1 (Forall_forall _ _) Fn n I). }
  intros dn [F1 F2]. apply (gives_bind _ (fun ad => ad = (acc, fst dn))); [now apply gives_ret|]. intros ad ->. cbn [fst snd]. apply kept_bind.
  - apply (kept_fold _ (fits u)); [exact F1|]. intros n a Fn'. apply (gives_bind _ inside); [apply gives_lift; exact Fn'|]. intros v Hv.
    apply kept_bind; [|intros l; destruct (negb l || false); [now apply IH|apply kept_ret]]. unfold u_islink, hooked. apply kept_bind; [apply kept_ret|]. intros _. apply kept_test.
  - intros a. apply kept_bind; [now apply Hb|]. intros b. apply kept_ret.
Qed.
Lemma in_remove fuel rc u : inside u -> kept partly (u_remove KB fuel rc u).
Proof.
  intros Hu. unfold u_remove, hooked. apply kept_bind; [apply kept_ret|]. intros _. apply kept_bind; [apply kept_test|]. intros [|]; [now apply in_unlink|].
  apply kept_bind; [apply kept_test|]. intros [|]; cbn [negb]; [|apply kept_bind; [apply kept_lift|intros; apply kept_raise]].
  apply kept_bind; [apply kept_test|]. intros [|].
  - destruct rc; [|now apply in_removedir]. unfold remove_dir_recursively. apply kept_bind; [|intros _; now apply in_away]. apply in_walk; [|exact Hu]. intros _ v ds fs Hv F1 F2. apply kept_bind.
    + apply (kept_each _ (fits v)); [exact F2|]. intros n Fn. apply (gives_bind _ inside); [now apply gives_lift|]. intros w. apply in_unlink.
    + intros _. apply kept_bind; [|intros _; apply kept_ret]. apply (kept_each _ (fits v)); [exact F1|]. intros n Fn. apply (gives_bind _ inside); [now apply gives_lift|]. intros w. apply in_away.
  - apply kept_bind; [apply kept_test|]. intros [|]; [now apply in_unlink|apply kept_ret].
Qed.
End Below.
Lemma tried_partly x p l : ordinary x -> plain_path p -> forall y, partly x p y -> partly x p (tried (file_uri p) l y).
Proof.
  intros O P. induction l as [|[[[e k] fuel] rc] l IH]; intros y H; cbn [tried]; [exact H|]. apply IH. unfold kask. cbn [stask]. unfold told. apply (kept_bind (partly x p)); [|intros a; apply kept_ret|exact H].
  apply in_remove. exists p. split; [reflexivity|]. split; [exact P|]. exists []. now rewrite app_nil_r.
Qed.
(** ** Stopped any number of times: nothing outside has changed, inside every entry is as it was or gone *)
Theorem C165_stopped x p u l : ordinary x -> file_at p u ->
  let y := tried u l x in ordinary y /\ p_cwd y = p_cwd x /\ p_now y = p_now x /\ p_umask y = p_umask x /\
  forall q, pget q (p_tree y) = pget q (p_tree x) \/ below p q /\ entry_at y q None.
Proof.
  intros O Hu. rewrite (file_at_eq _ _ Hu). apply (tried_partly x p l O (proj1 Hu)). split; [exact O|]. repeat split. intros q. now left.
Qed.
(** ** Called once more it returns, or finds that all is gone already; in both cases it ends as if it had never been stopped *)
Theorem C165_again x i n u l fuel : ordinary x -> file_at (i ++ [n]) u -> is_dir_at x i -> (List.length (p_tree x) <= fuel)%nat ->
  exists r x', lask (LRemove fuel true u) (tried u l x) = (r, x') /\
    (r = Ok LUnit \/ r = Raise FileDoesNotExistError /\ free_at (tried u l x) (i ++ [n])) /\
    (forall q, content x' ((i ++ [n]) ++ q) = None) /\ forall q, ~ below (i ++ [n]) q -> content x' q = content x q.
Proof.
  intros O Hu D Lf. pose proof (C165_stopped x (i ++ [n]) u l O Hu) as H. set (y := tried u l x) in *. cbv zeta in H. destruct H as (Oy & _ & _ & _ & K).
  assert (Dy : is_dir_at y i). { destruct D as (mo & mt & G). destruct (K i) as [X|[[r X] _]]; [exists mo, mt; congruence|]. apply (f_equal (@List.length str)) in X. rewrite !app_length in X. cbn in X. lia. }
  assert (Ky : forall q, ~ below (i ++ [n]) q -> content y q = content x q). { intros q N. unfold content. destruct (K q) as [X|[X _]]; [now rewrite X|now apply N in X]. }
  assert (Ly : (List.length (p_tree y) <= List.length (p_tree x))%nat).
  { rewrite <- (map_length fst (p_tree y)), <- (map_length fst (p_tree x)). apply NoDup_incl_length; [apply (so_nodup _ (or_sound _ Oy))|]. intros q I. apply in_map_iff in I as [[r en] [X I]]. cbn in X. subst r.
    apply (LocalFacts1.pget_in _ _ _ (so_nodup _ (or_sound _ Oy))) in I. destruct (K q) as [X|[_ X]]; [|unfold entry_at in X; congruence]. rewrite X in I. apply (LocalFacts1.pget_in _ _ _ (so_nodup _ (or_sound _ O))) in I. apply in_map_iff. now exists (q, en). }
  destruct (pget (i ++ [n]) (p_tree y)) as [en|] eqn:G.
  - assert (C : is_file_at y (i ++ [n]) \/ is_dir_at y (i ++ [n])). { destruct en as [d mo mt|mo mt|tg]; [left; now exists d, mo, mt|right; now exists mo, mt|now apply (or_unlinked _ Oy) in G]. }
    destruct (C68_remove_partial y i n u true fuel Oy Hu) as (x' & E & _ & E1 & E2); [destruct C as [C|C]; [now left|right; right; split; [exact C|split; [reflexivity|lia]]]|].
    exists (Ok LUnit), x'. split; [cbn [lask]; unfold said, bind; rewrite E; reflexivity|]. split; [now left|]. split; [exact E1|]. intros q N. rewrite E2 by exact N. now apply Ky.
  - assert (Fr : free_at y (i ++ [n])) by (split; [exact G|now exists i, n]). destruct (C68_remove_missing_partial y i n u true fuel Oy Hu Fr) as (x' & E & E1).
    exists (Raise FileDoesNotExistError), x'. split; [cbn [lask]; unfold said, bind; rewrite E; reflexivity|]. split; [now right|]. split; [|intros q N; rewrite E1; now apply Ky].
    intros q. rewrite E1. unfold content. destruct q as [|c q]; [now rewrite app_nil_r, G|]. destruct (pget ((i ++ [n]) ++ c :: q) (p_tree y)) eqn:G1; [|reflexivity].
    destruct (so_dir y (or_sound _ Oy) (i ++ [n]) (c :: q)) as (mo & mt & G2); [easy|congruence|congruence].
Qed.
(** ** Cases: a directory with files and directories, stopped three times *)
Theorem C165_witness : let u := file_uri (map lit ["a"]%string) in
  let l k := [(UserError 0, 3, 20, true); (UserError 1, k, 20, true); (UserError 2, 6, 20, true)] in
  ordinary loc1 /\ file_at ([] ++ [lit "a"]) u /\ is_dir_at loc1 [] /\ List.length (p_tree loc1) <= 20 /\
  map (fun k => (filter (fun q => is_below (map lit ["a"]%string) q) (map fst (p_tree (tried u (l k) loc1))), fst (lask (LRemove 20 true u) (tried u (l k) loc1)))) [2; 11; 15; 17] =
    [(map (map lit) [["a"]; ["a"; "f"]; ["a"; "s"]; ["a"; "s"; "g"]]%string, Ok LUnit); (map (map lit) [["a"]; ["a"; "s"]]%string, Ok LUnit); ([map lit ["a"]%string], Ok LUnit); ([], Raise FileDoesNotExistError)].
Proof.
  cbv zeta. split; [apply loc1_ordinary|]. split; [split; [apply plain_b_ok; reflexivity|apply file_uri_eq, plain_b_ok; reflexivity]|]. split; [now exists 493%Z, 5%Z|]. split; [vm_compute; lia|]. vm_compute. reflexivity.
Qed.
Print Assumptions C165_stopped.
Print Assumptions C165_again.
Print Assumptions C165_witness.
