(** C148: what copying to a local destination writes. *)
From Verif Require MemFacts LocalFacts14.
From Verif Require Import Str Exc UriParse BaseUri StrFacts SpecUri SpecNames Mem SpecMem MemOps Misc Generic Posix Local Zip SpecZip World PropsMem PropsZip LocalFacts1 LocalFacts18 SpecLocal SpecPosix SpecStay PosixFacts PosixFacts2 StayFacts StayFacts2 StayFacts3.
From Verif Require Import MemUri PropsStay SpecInto IntoFacts IntoFacts2 IntoFacts3 IntoFacts4 IntoFacts5 IntoFacts6.
Open Scope string_scope.
Open Scope list_scope.

(** Whatever the outcome, what is outside of the destination is as before, apart from missing directories that were made on
    the way to it.  [landing x n v D T]: the destination is [D ++ T].  The names of the source have to be firm: none is read as
    another name or as a way out. *)
(** From local files; the source is written as [pre]/[n]. *)
Theorem C148_local_partial x pre n u v d e D T fuel rc ignore follow r x' :
  written (pre ++ cSlash :: n) u -> firm_name n -> sees x false u (Is d e) -> (forall t, e <> PLink t) -> firm_below x d -> landing x n v D T ->
  u_copy loc_backend fuel rc ignore follow u v x = (r, x') -> wrote_in x x' D T.
Proof.
  intros W F S N B La E. assert (L : looked x false (pre ++ cSlash :: n) (Is d e)).
  { apply sees_iff in S. apply looked_iff. rewrite (set_path _ _ (written_set _ _ W)) in S. exact S. }
  pose proof (into_local x pre n u v d e D T fuel rc ignore follow W F L N B La) as K. now rewrite E in K.
Qed.
(** From an archive *)
Theorem C148_zip_partial vc cs n u v D T z x fuel rc ignore follow r z' x' :
  zip_at vc (cs ++ [n]) u -> firm_name n -> firm_members z -> landing x n v D T ->
  u_copy zip_file fuel rc ignore follow u v (z, x) = (r, (z', x')) -> wrote_in x x' D T.
Proof. intros Z F M La E. pose proof (into_zip vc cs n u v D T z x fuel rc ignore follow Z F M La) as K. now rewrite E in K. Qed.
(** From a memory file system *)
Theorem C148_mem_partial cs n u v D T s x fuel rc ignore follow r s' x' :
  mem_at (cs ++ [n]) u -> firm_name n -> reachable s -> firm_mem s -> landing x n v D T ->
  u_copy mem_loc fuel rc ignore follow u v (s, x) = (r, (s', x')) -> wrote_in x x' D T.
Proof. intros Z F R M La E. pose proof (into_mem cs n u v D T s x fuel rc ignore follow Z F R M La) as K. now rewrite E in K. Qed.

Print Assumptions C148_local_partial. Print Assumptions C148_zip_partial. Print Assumptions C148_mem_partial.

(** *** Destinations of the examples *)
Local Definition P := map lit.
Definition SU (s : string) : uri := match URI (lit s) cSlash [] with Ok u => u | Raise _ => wd end.
Lemma path_by s c r : existsb (fun c => N.eqb c cQuest || N.eqb c cHash || N.eqb c cBack) s = false -> contains (lit "((") s = false -> contains (lit "://") s = false ->
  s = cSlash :: c :: r -> ~ In c [cSlash; cDot; cColon] -> path_text s.
Proof.
  intros A B C E F. constructor.
  - intros k I J. assert (X : existsb (fun c => N.eqb c cQuest || N.eqb c cHash || N.eqb c cBack) s = true); [|congruence].
    apply existsb_exists. exists k. split; [exact J|]. destruct I as [<-|[<-|[<-|[]]]]; reflexivity.
  - intros (a & b & X). assert (Y : contains (lit "((") s = true) by (apply contains_spec; now exists a, b). congruence.
  - intros (a & b & X). assert (Y : contains (lit "://") s = true) by (apply contains_spec; now exists a, b). congruence.
  - left. exists c, r. split; [exact E|exact F].
Qed.
Ltac a_path := eapply path_by; [reflexivity..|cbn; intuition discriminate].
Ltac a_uri := match goal with |- written ?s _ => split; [a_path|exists s, []; split; [now left|reflexivity]] end.
Lemma firm_by n : existsb (fun c => N.eqb c cSlash || N.eqb c cBack || N.eqb c cQuest || N.eqb c cHash) n = false -> contains (lit "((") n = false ->
  existsb (str_eqb n) [[]; lit "."; lit ".."] = false -> existsb (N.eqb (hd 0%N n)) blanks = false -> existsb (N.eqb (last n 0%N)) blanks = false -> firm_name n.
Proof.
  intros A B C D E. constructor.
  - intros k I J. assert (X : existsb (fun c => N.eqb c cSlash || N.eqb c cBack || N.eqb c cQuest || N.eqb c cHash) n = true); [|congruence].
    apply existsb_exists. exists k. split; [exact J|]. destruct I as [<-|[<-|[<-|[<-|[]]]]]; reflexivity.
  - intros (a & b & X). assert (Y : contains (lit "((") n = true) by (apply contains_spec; now exists a, b). congruence.
  - intros X. assert (Y : existsb (str_eqb n) [[]; lit "."; lit ".."] = true); [|congruence]. apply existsb_exists. exists n. split; [|apply str_eqb_refl].
    unfold special in X. cbn. intuition.
  - intros c r H I. assert (B' : existsb (N.eqb c) blanks = true) by (apply existsb_exists; exists c; split; [exact I|apply N.eqb_refl]).
    destruct H as [->| ->]; [cbn [hd] in D|rewrite last_last in E]; congruence.
Qed.
Ltac firm := apply firm_by; reflexivity.
Ltac firms := repeat (apply Forall_cons; [firm|]); apply Forall_nil.
Definition linkless (x : pst) : bool := forallb (fun qe => match snd qe with PLink _ => false | _ => true end) (p_tree x).
Lemma pget_stored q t e : pget q t = Some e -> In (q, e) t.
Proof.
  induction t as [|[q' e'] t IH]; [easy|]. cbn [pget]. destruct (path_eqb q q') eqn:E; [|intros H; right; auto]. apply path_eqb_spec in E as ->. intros H. injection H as ->. now left.
Qed.
Lemma linkless_ok x R : linkless x = true -> no_links x R.
Proof. intros L q t _ E. apply pget_stored in E. unfold linkless in L. rewrite forallb_forall in L. now specialize (L _ E). Qed.
Lemma land_in x n s D ns mo mt : linkless x = true -> looked x true [cSlash] (Is [] (PDir mo mt)) -> Forall firm_name ns -> written (under [] ns) (SU s) ->
  (exists p mo mt, sees x true (SU s) (Is p (PDir mo mt))) -> D = [] -> landing x n (SU s) D (ns ++ [n]).
Proof. intros L R F W E ->. apply (la_at x n (SU s) [] (ns ++ [n]) [] [cSlash] ns mo mt); auto; [now left|now apply linkless_ok]. Qed.
Lemma land_new x n s D ns mo mt : linkless x = true -> looked x true [cSlash] (Is [] (PDir mo mt)) -> Forall firm_name ns -> written (under [] ns) (SU s) ->
  tests x true is_pdir (u_path (SU s)) = false -> D = [] -> landing x n (SU s) D ns.
Proof.
  intros L R F W E ->. apply (la_at x n (SU s) [] ns [] [cSlash] ns mo mt); auto; [now left| |now apply linkless_ok]. right. split; [reflexivity|].
  intros p m1 m2 Se. apply sees_iff in Se. cbn [answer] in Se. unfold tests in E. rewrite Se in E. discriminate E.
Qed.
(** /w/f, and the empty directory /w/d *)
Definition yard (more : ptree) : pst := mkP ([([], PDir 493 5); (P ["w"], PDir 493 5); (P ["w"; "f"], PFile (lit "precious") 420 6); (P ["w"; "d"], PDir 493 5)] ++ more) [] 50 18.
Ltac root := apply looked_iff; reflexivity.
Lemma yard_d more n : linkless (yard more) = true -> landing (yard more) n (SU "/w/d") [] (P ["w"; "d"] ++ [n]).
Proof.
  intros L. eapply land_in; [exact L|root|firms| | |reflexivity].
  - change (under [] (P ["w"; "d"])) with (lit "/w/d"). a_uri.
  - exists (P ["w"; "d"]), 493%Z, 5%Z. apply sees_iff. reflexivity.
Qed.
(** A copy to /w/d or /w/e that writes /w/f *)
Definition overwrites (x x' : pst) (n : str) (v : uri) (T : list str) : Prop :=
  landing x n v [] T /\ entry_at x (P ["w"; "f"]) (Some (PFile (lit "precious") 420 6)) /\ ~ below T (P ["w"; "f"]) /\
  exists mo mt, entry_at x' (P ["w"; "f"]) (Some (PFile (lit "evil") mo mt)).
Theorem overwrites_not x x' n v T : overwrites x x' n v T -> ~ wrote_in x x' [] T.
Proof.
  intros (_ & E & N & mo & mt & E') [_ K]. destruct (K (P ["w"; "f"]) N) as [X|(_ & X & _)]; unfold entry_at in *; [|congruence]. rewrite E, E' in X. discriminate X.
Qed.

(** *** Names that are read as a way out *)
(** Members of archives: "zip slip" *)
Definition slip (ms : list member) : zst := snd (zip_listdir (ZU []) (zip_init (DZip ms))).
Definition evil_zip : list member := [(lit "/a/x", lit "1"); (lit "/a/../../f", lit "evil")].
Theorem C148_zip_refuted : zip_at zv (P ["a"]) (ZU ["a"]) /\ connected (slip evil_zip) evil_zip /\
  let r := u_copy zip_file 9 true [] true (ZU ["a"]) (SU "/w/d") (slip evil_zip, yard []) in
  fst r = Ok tt /\ overwrites (yard []) (snd (snd r)) (lit "a") (SU "/w/d") (P ["w"; "d"; "a"]).
Proof.
  split; [apply ZU_at; good|]. split; [split; [exists (DZip evil_zip), [ZListdir (ZU [])]; reflexivity|]; split; [discriminate|reflexivity]|]. split; [vm_compute; reflexivity|].
  split; [apply (yard_d [] (lit "a")); reflexivity|]. split; [reflexivity|]. split; [intros [r E]; discriminate E|]. exists 420%Z, 50%Z. vm_compute. reflexivity.
Qed.
(** A local directory whose name is two dots with any blank before or after them *)
Definition blank_dir (n : str) : pst := yard [(P ["w"; "s"], PDir 493 5); (P ["w"; "s"] ++ [n], PDir 493 5); (P ["w"; "s"] ++ [n; lit "f"], PFile (lit "evil") 420 6)].
Theorem C148_blank_refuted c n : In c blanks -> n = c :: lit ".." \/ n = lit ".." ++ [c] ->
  written (lit "/w/s") (SU "/w/s") /\ sees (blank_dir n) false (SU "/w/s") (Is (P ["w"; "s"]) (PDir 493 5)) /\
  let r := u_copy loc_backend 9 true [] true (SU "/w/s") (SU "/w/e") (blank_dir n) in
  fst r = Ok tt /\ overwrites (blank_dir n) (snd r) (lit "s") (SU "/w/e") (P ["w"; "e"]).
Proof.
  intros I H. split; [a_uri|]. split; [apply sees_iff; vm_compute; reflexivity|].
  assert (K : let r := u_copy loc_backend 9 true [] true (SU "/w/s") (SU "/w/e") (blank_dir n) in fst r = Ok tt /\ entry_at (snd r) (P ["w"; "f"]) (Some (PFile (lit "evil") 420 6))).
  { unfold blanks in I. repeat (destruct I as [<-|I]; [destruct H as [->| ->]; vm_compute; split; reflexivity|]). destruct I. }
  cbv zeta in *. destruct K as [K1 K2]. split; [exact K1|]. split.
  - eapply land_new; [reflexivity|root|firms| |vm_compute; reflexivity|reflexivity]. change (under [] (P ["w"; "e"])) with (lit "/w/e"). a_uri.
  - split; [reflexivity|]. split; [intros [r E]; discriminate E|]. exists 420%Z, 6%Z. exact K2.
Qed.
(** A directory of a memory file system that is named with two dots *)
Definition dots_ops : list op :=
  [OpMkdir (U ["a"]); OpMkdir (SU "memory:///a/.."); OpOpen (SU "memory:///a/../f") (Some (lit "wb")); OpWrite (mkHandle 3 false true) (VBytes (lit "evil"))].
Definition dots : mst := run_ops dots_ops (init_mem 5 0).
Theorem C148_mem_refuted : mem_at (P ["a"]) (U ["a"]) /\ reachable dots /\
  let r := u_copy mem_loc 9 true [] true (U ["a"]) (SU "/w/e") (dots, yard []) in
  fst r = Ok tt /\ overwrites (yard []) (snd (snd r)) (lit "a") (SU "/w/e") (P ["w"; "e"]).
Proof.
  split; [apply mem_at_uri; good|]. split; [now exists 5%Z, 0%nat, dots_ops|]. split; [vm_compute; reflexivity|]. split.
  - eapply land_new; [reflexivity|root|firms| |vm_compute; reflexivity|reflexivity]. change (under [] (P ["w"; "e"])) with (lit "/w/e"). a_uri.
  - split; [reflexivity|]. split; [intros [r E]; discriminate E|]. exists 420%Z, 50%Z. vm_compute. reflexivity.
Qed.
Print Assumptions C148_zip_refuted. Print Assumptions C148_blank_refuted. Print Assumptions C148_mem_refuted.

(** *** Examples: into a directory, to a new place below missing directories, and behind a link *)
Definition stock : ptree := [(P ["w"; "s"], PDir 493 5); (P ["w"; "s"; ".. x"], PDir 493 5); (P ["w"; "s"; ".. x"; "f"], PFile (lit "1") 420 6); (P ["w"; "s"; "g"], PFile (lit "2") 420 6)].
Lemma firm_tree x d : no_links x (below d) -> (forall q e, In (q, e) (p_tree x) -> q = [] \/ firm_name (last q [])) -> firm_below x d.
Proof.
  intros L F. split; [|exact L]. intros p n _. destruct (pget (p ++ [n]) (p_tree x)) as [e|] eqn:E; [right|now left].
  apply pget_stored, F in E as [E|E]; [now destruct p|]. now rewrite last_last in E.
Qed.
Lemma stock_firm : firm_below (yard stock) (P ["w"; "s"]).
Proof. apply firm_tree; [now apply linkless_ok|]. intros q e I. repeat (destruct I as [I|I]; [injection I as <- _; first [now left|right; firm]|]). destruct I. Qed.
Lemma yard_new more n : linkless (yard more) = true -> tests (yard more) true is_pdir (u_path (SU "/w/new/deep")) = false -> landing (yard more) n (SU "/w/new/deep") [] (P ["w"; "new"; "deep"]).
Proof.
  intros L N. eapply land_new; [exact L|root|firms| |exact N|reflexivity]. change (under [] (P ["w"; "new"; "deep"])) with (lit "/w/new/deep"). a_uri.
Qed.
(** /w/k leads to /w/d *)
Definition linked_yard : pst := mkP (p_tree (yard stock) ++ [(P ["w"; "k"], PLink (lit "d"))]) [] 50 18.
Lemma yard_behind : landing linked_yard (lit "s") (SU "/w/k/m/n") (P ["w"; "d"]) (P ["m"; "n"]).
Proof.
  apply (la_at linked_yard (lit "s") (SU "/w/k/m/n") (P ["w"; "d"]) (P ["m"; "n"]) (lit "/w/k") (lit "/w/k") (P ["m"; "n"]) 493 5).
  - right. right. split; [|reflexivity]. split; [a_path|]. intros r E. apply (f_equal (fun l => last l 0%N)) in E. rewrite last_last in E. discriminate E.
  - apply looked_iff. vm_compute. reflexivity.
  - firms.
  - change (under (lit "/w/k") (P ["m"; "n"])) with (lit "/w/k/m/n"). a_uri.
  - right. split; [reflexivity|]. intros p m1 m2 Se. apply sees_iff in Se. vm_compute in Se. discriminate Se.
  - intros q t (k & _ & -> & _) E. apply pget_stored in E. repeat (destruct E as [E|E]; [discriminate E|]). destruct E.
Qed.
Lemma linked_firm : firm_below linked_yard (P ["w"; "s"]).
Proof.
  apply firm_tree.
  - intros q t [r ->] E. apply pget_stored in E. repeat (destruct E as [E|E]; [discriminate E|]). destruct E.
  - intros q e I. repeat (destruct I as [I|I]; [injection I as <- _; first [now left|right; firm]|]). destruct I.
Qed.
Example C148_local_witness : written (lit "/w/s") (SU "/w/s") /\ firm_name (lit "s") /\
  (sees (yard stock) false (SU "/w/s") (Is (P ["w"; "s"]) (PDir 493 5)) /\ firm_below (yard stock) (P ["w"; "s"]) /\
   landing (yard stock) (lit "s") (SU "/w/d") [] (P ["w"; "d"; "s"]) /\ landing (yard stock) (lit "s") (SU "/w/new/deep") [] (P ["w"; "new"; "deep"]) /\
   (let r := u_copy loc_backend 9 true [] true (SU "/w/s") (SU "/w/d") (yard stock) in
    fst r = Ok tt /\ entry_at (snd r) (P ["w"; "d"; "s"; ".. x"; "f"]) (Some (PFile (lit "1") 420 6))) /\
   (let r := u_copy loc_backend 9 true [] true (SU "/w/s") (SU "/w/new/deep") (yard stock) in
    fst r = Ok tt /\ entry_at (snd r) (P ["w"; "new"; "deep"; "g"]) (Some (PFile (lit "2") 420 6)) /\ region [] (P ["w"; "new"; "deep"]) (P ["w"; "new"]))) /\
  sees linked_yard false (SU "/w/s") (Is (P ["w"; "s"]) (PDir 493 5)) /\ firm_below linked_yard (P ["w"; "s"]) /\
  landing linked_yard (lit "s") (SU "/w/k/m/n") (P ["w"; "d"]) (P ["m"; "n"]) /\
  let r := u_copy loc_backend 9 true [] true (SU "/w/s") (SU "/w/k/m/n") linked_yard in
  fst r = Ok tt /\ entry_at (snd r) (P ["w"; "d"; "m"; "n"; "g"]) (Some (PFile (lit "2") 420 6)).
Proof.
  split; [a_uri|]. split; [firm|]. split.
  - split; [apply sees_iff; vm_compute; reflexivity|]. split; [apply stock_firm|]. split; [now apply (yard_d stock (lit "s"))|]. split; [now apply yard_new|].
    split; [split; vm_compute; reflexivity|]. split; [vm_compute; reflexivity|]. split; [vm_compute; reflexivity|]. exists (P ["w"; "new"]). split; [discriminate|]. split; [reflexivity|]. left. now exists (P ["deep"]).
  - split; [apply sees_iff; vm_compute; reflexivity|]. split; [apply linked_firm|]. split; [apply yard_behind|]. split; vm_compute; reflexivity.
Qed.
(** A copy that fails half way: /w/d/s/g is a directory already. *)
Definition blocked : pst := yard (stock ++ [(P ["w"; "d"; "s"], PDir 493 5); (P ["w"; "d"; "s"; "g"], PDir 493 5)]).
Example C148_fails_witness : landing blocked (lit "s") (SU "/w/d") [] (P ["w"; "d"; "s"]) /\
  let r := u_copy loc_backend 9 true [] true (SU "/w/s") (SU "/w/d") blocked in
  fst r = Raise (OSError EISDIR) /\ is_dir_at (snd r) (P ["w"; "d"; "s"; ".. x"]).
Proof. split; [now apply (yard_d _ (lit "s"))|]. split; [vm_compute; reflexivity|]. eexists _, _. vm_compute. reflexivity. Qed.
Lemma arch_firm : firm_members open_arch.
Proof.
  intros ms m l c H I Pi J. assert (E : ms = arch). { destruct H as [H|(h & H & H')]; vm_compute in H; injection H as <-; [reflexivity|]. now rewrite <- H'. }
  subst ms. apply pieces_iff in Pi. subst l. repeat (destruct I as [<-|I]; [vm_compute in J; repeat (destruct J as [<-|J]; [first [now left|right; firm]|]); destruct J|]). destruct I.
Qed.
Example C148_zip_witness : zip_at zv (P ["dir1"]) (ZU ["dir1"]) /\ firm_name (lit "dir1") /\ firm_members open_arch /\
  landing (yard []) (lit "dir1") (SU "/w/d") [] (P ["w"; "d"; "dir1"]) /\
  let r := u_copy zip_file 9 true [] true (ZU ["dir1"]) (SU "/w/d") (open_arch, yard []) in
  fst r = Ok tt /\ entry_at (snd (snd r)) (P ["w"; "d"; "dir1"; "bar.txt"]) (Some (PFile (lit "2") 420 50)).
Proof. split; [apply ZU_at; good|]. split; [firm|]. split; [apply arch_firm|]. split; [now apply (yard_d [] (lit "dir1"))|]. split; vm_compute; reflexivity. Qed.
Definition calm_ops : list op :=
  [OpMkdir (U ["a"]); OpMkdir (U ["a"; "b"]); OpOpen (U ["a"; "b"; "f"]) (Some (lit "wb")); OpWrite (mkHandle 3 false true) (VBytes (lit "1"))].
Definition calm_mem : mst := run_ops calm_ops (init_mem 5 0).
Lemma calm_firm : firm_mem calm_mem.
Proof.
  assert (H : forall i, match m_heap calm_mem i with NDir es _ _ => Forall firm_name (map fst es) | NLink _ _ _ => False | _ => True end).
  { intros i. destruct i as [|[|[|[|i]]]]; vm_compute; first [exact I|firms]. }
  split.
  - intros p n E. unfold view, tree_of in E. rewrite MemFacts.phys_snoc in E. destruct (phys (m_heap calm_mem) root_id p) as [i|]; [|now elim E]. specialize (H i).
    destruct (m_heap calm_mem i) as [|es mt mo|]; [now elim E| |now elim E]. destruct (dget n es) as [j|] eqn:G; [|now elim E]. rewrite Forall_forall in H. apply H.
    apply in_map_iff. exists (n, j). split; [reflexivity|]. now apply dget_In.
  - intros p (t & mt & mo & E). unfold view, tree_of in E. destruct (phys (m_heap calm_mem) root_id p) as [i|]; [|discriminate E]. specialize (H i). cbn [option_map] in E. destruct (m_heap calm_mem i) as [f|es a b|l a b]; cbn [entry_of] in E; [discriminate E..|exact H].
Qed.
Example C148_mem_witness : mem_at (P ["a"]) (U ["a"]) /\ firm_name (lit "a") /\ reachable calm_mem /\ firm_mem calm_mem /\
  landing (yard []) (lit "a") (SU "/w/new/deep") [] (P ["w"; "new"; "deep"]) /\
  let r := u_copy mem_loc 9 true [] true (U ["a"]) (SU "/w/new/deep") (calm_mem, yard []) in
  fst r = Ok tt /\ entry_at (snd (snd r)) (P ["w"; "new"; "deep"; "b"; "f"]) (Some (PFile (lit "1") 420 50)).
Proof.
  split; [apply mem_at_uri; good|]. split; [firm|]. split; [now exists 5%Z, 0%nat, calm_ops|]. split; [apply calm_firm|]. split; [now apply yard_new|]. split; vm_compute; reflexivity.
Qed.
