(** C146, C147: what recursive remove() of local files touches. *)
From Verif Require LocalFacts14.
From Verif Require Import Str Exc UriParse BaseUri StrFacts SpecUri SpecNames Mem Misc Generic Posix SpecLocal Local SpecPosix SpecStay PosixFacts PosixFacts2 StayFacts StayFacts2 StayFacts3.
Open Scope string_scope.
Open Scope list_scope.

(** C146: whatever the outcome, nothing outside is touched, when no name below is read as a way out. *)
Theorem C146_partial x s u d e fuel rc r x' : written s u -> sees x false u (Is d e) -> tame_below x d ->
  u_remove loc_backend fuel rc u x = (r, x') -> stays_in x x' d.
Proof. intros W S T E. pose proof (stays_remove x s u d e fuel rc T W S) as K. now rewrite E in K. Qed.

(** C147: entries are removed and nothing else happens; when the call returns, all of what the path names is gone. *)
Theorem C147_thins x fuel rc u r x' : sound x -> u_remove loc_backend fuel rc u x = (r, x') -> thinned x x'.
Proof. intros So E. exact (proj1 (remove_gone x fuel rc u r x' So E)). Qed.
Theorem C147_gone x fuel rc u x' : sound x -> u_remove loc_backend fuel rc u x = (Ok tt, x') ->
  exists p e, aims x u (Is p e) /\ forall q, below p q -> entry_at x' q None.
Proof. intros So E. exact (proj2 (remove_gone x fuel rc u (Ok tt) x' So E) eq_refl). Qed.

Print Assumptions C146_partial. Print Assumptions C147_thins. Print Assumptions C147_gone.

(** *** Names that are read as a way out *)
Definition up_ok (t : ptree) (qe : list str * pent) : bool :=
  match rev (fst qe) with [] => true | _ :: r => match pget (rev r) t with Some (PDir _ _) => true | _ => false end end.
Lemma sound_check x : (exists mo mt, pget [] (p_tree x) = Some (PDir mo mt)) -> forallb (up_ok (p_tree x)) (p_tree x) = true -> NoDup (map fst (p_tree x)) -> sound x.
Proof.
  intros R F N. constructor; auto. intros p n H. apply LocalFacts14.pget_in' in H as [e I]. rewrite forallb_forall in F. specialize (F _ I). unfold up_ok in F. cbn [fst] in F.
  rewrite rev_app_distr in F. cbn in F. rewrite rev_involutive in F. destruct (pget p (p_tree x)) as [[| |]|]; try discriminate. eauto.
Qed.
Local Definition P := map lit.
Definition around (n : string) : pst :=
  mkP [([], PDir 493 5); (P ["w"], PDir 493 5); (P ["w"; "aaa"], PDir 493 5); (P ["w"; "aaa"; "f"], PFile (lit "precious") 420 6);
       (P ["w"; "d"], PDir 493 5); (P ["w"; "d"; n], PFile (lit "x") 420 6)] [] 50 18.
Definition wd : uri := match URI (lit "/w/d") cSlash [] with Ok u => u | Raise _ => mkUri UBase [] cSlash (mkParsed None None [] [] None [] None None None 0 []) [] None None end.
Lemma wd_written : written (lit "/w/d") wd.
Proof.
  split; [|exists (lit "/w/d"), []; split; [now left|reflexivity]]. constructor.
  - intros c I J. cbn in I, J. intuition (subst; discriminate).
  - intros (a & b & E). assert (X : contains (lit "((") (lit "/w/d") = true) by (apply contains_spec; now exists a, b). discriminate X.
  - intros (a & b & E). assert (X : contains (lit "://") (lit "/w/d") = true) by (apply contains_spec; now exists a, b). discriminate X.
  - left. exists 119%N, (lit "/d"). split; [reflexivity|]. cbn. intuition discriminate.
Qed.
(** A directory /w/d with a file of that name, next to /w/aaa/f, which is gone after /w/d was removed *)
Definition escapes (n : string) : Prop :=
  written (lit "/w/d") wd /\ sound (around n) /\ (exists mo mt, sees (around n) false wd (Is (P ["w"; "d"]) (PDir mo mt))) /\
  entry_at (around n) (P ["w"; "aaa"; "f"]) (Some (PFile (lit "precious") 420 6)) /\ ~ below (P ["w"; "d"]) (P ["w"; "aaa"; "f"]) /\
  entry_at (snd (u_remove loc_backend 6 true wd (around n))) (P ["w"; "aaa"; "f"]) None.
Ltac escaping :=
  split; [apply wd_written|]; split; [apply sound_check; [now exists 493%Z, 5%Z|reflexivity|repeat constructor; cbn; intuition discriminate]|];
  split; [exists 493%Z, 5%Z; apply sees_iff; vm_compute; reflexivity|]; split; [reflexivity|]; split; [intros [r E]; discriminate E|vm_compute; reflexivity].
Theorem C146_backslash_refuted : escapes "..\aaa\f". Proof. escaping. Qed.
Theorem C146_question_refuted : escapes "..?x=y". Proof. escaping. Qed.
Theorem C146_hash_refuted : escapes "..#". Proof. escaping. Qed.

(** *** Examples: names with dots and blanks, links that lead out and back up, a path with a slash at its end *)
Definition inside : pst :=
  mkP [([], PDir 493 5); (P ["w"], PDir 493 5); (P ["w"; "aaa"], PDir 493 5); (P ["w"; "aaa"; "f"], PFile (lit "precious") 420 6);
       (P ["w"; "d"], PDir 493 5); (P ["w"; "d"; "... x"], PFile (lit "x") 420 6); (P ["w"; "d"; "up"], PLink (lit "../aaa")); (P ["w"; "d"; "s"], PDir 493 5);
       (P ["w"; "d"; "s"; "round"], PLink (lit "..")); (P ["w"; "k"], PLink (lit "d"))] [] 50 18.
Lemma inside_sound : sound inside.
Proof. apply sound_check; [now exists 493%Z, 5%Z|reflexivity|repeat constructor; cbn; intuition discriminate]. Qed.
Lemma tame_by n : existsb (fun c => N.eqb c cSlash || N.eqb c cBack || N.eqb c cHash) n = false -> contains (lit "((") n = false -> str_eqb n (lit "..") = false -> prefixb (lit "..?") n = false -> tame_name n.
Proof.
  intros A B C D. constructor.
  - intros c I J. assert (X : existsb (fun c => N.eqb c cSlash || N.eqb c cBack || N.eqb c cHash) n = true); [|congruence].
    apply existsb_exists. exists c. split; [exact J|]. destruct I as [<-|[<-|[<-|[]]]]; reflexivity.
  - intros (a & b & E). assert (X : contains (lit "((") n = true) by (apply contains_spec; now exists a, b). congruence.
  - now apply str_eqb_neq.
  - intros r ->. now rewrite prefixb_app in D.
Qed.
Lemma inside_tame : tame_below inside (P ["w"; "d"]).
Proof.
  intros p n _. destruct (pget (p ++ [n]) (p_tree inside)) as [e|] eqn:E; [right|now left].
  destruct (LocalFacts14.pget_in' (p ++ [n]) (p_tree inside)) as [e' I]; [congruence|]. apply (in_map (fun qe => last (fst qe) [])) in I. cbn [fst] in I. rewrite last_last in I.
  cbn [map inside p_tree fst last P] in I. repeat (destruct I as [<-|I]; [apply tame_by; reflexivity|]). destruct I.
Qed.
Example C146_witness : written (lit "/w/d") wd /\ sees inside false wd (Is (P ["w"; "d"]) (PDir 493 5)) /\ tame_below inside (P ["w"; "d"]) /\
  u_remove loc_backend 6 true wd inside =
    (Ok tt, mkP [([], PDir 493 5); (P ["w"], PDir 493 5); (P ["w"; "aaa"], PDir 493 5); (P ["w"; "aaa"; "f"], PFile (lit "precious") 420 6); (P ["w"; "k"], PLink (lit "d"))] [] 50 18).
Proof.
  split; [apply wd_written|]. split; [apply sees_iff; vm_compute; reflexivity|]. split; [apply inside_tame|]. vm_compute. reflexivity.
Qed.
(** "/w/k/" is what the link leads to: everything in it is removed, then the call fails. *)
Definition wk : uri := match URI (lit "/w/k/") cSlash [] with Ok u => u | Raise _ => wd end.
Example C146_link_witness : sees inside false wk (Is (P ["w"; "d"]) (PDir 493 5)) /\
  u_remove loc_backend 6 true wk inside =
    (Raise (OSError ENOTDIR), mkP [([], PDir 493 5); (P ["w"], PDir 493 5); (P ["w"; "aaa"], PDir 493 5); (P ["w"; "aaa"; "f"], PFile (lit "precious") 420 6);
                                   (P ["w"; "d"], PDir 493 5); (P ["w"; "k"], PLink (lit "d"))] [] 50 18).
Proof. split; [apply sees_iff; vm_compute; reflexivity|]. vm_compute. reflexivity. Qed.
Example C147_witness : sound inside /\ sound (around "..\aaa\f") /\ fst (u_remove loc_backend 6 true wd inside) = Ok tt /\
  aims inside wd (Is (P ["w"; "d"]) (PDir 493 5)) /\ below (P ["w"; "d"]) (P ["w"; "d"; "s"; "round"]) /\
  fst (u_remove loc_backend 6 true wd (around "..\aaa\f")) = Raise (OSError ENOTEMPTY).
Proof.
  split; [apply inside_sound|]. split; [apply C146_backslash_refuted|]. split; [vm_compute; reflexivity|]. split; [apply aims_iff; vm_compute; reflexivity|].
  split; [now exists (P ["s"; "round"])|]. vm_compute. reflexivity.
Qed.
