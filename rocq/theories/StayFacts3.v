(** Removing a local tree whose names are tame touches nothing outside. *)
From Verif Require Import Str Exc UriParse BaseUri StrFacts SpecUri SpecNames UriFacts Mem Misc Generic Posix SpecLocal Local LocalFacts1 LocalFacts12 LocalFacts15 LocalFacts17 LocalFacts18 MoveFacts.
From Verif Require Import SpecPosix SpecStay PosixFacts PosixFacts2 StayFacts StayFacts2.
Open Scope string_scope.
Open Scope list_scope.
Local Notation LB := loc_backend.

(** ** Paths *)
Lemma split_nn (a : str) : split_on cSlash a <> [].
Proof. destruct a as [|x a]; cbn; [discriminate|]. destruct (N.eqb x cSlash); [discriminate|]. destruct (split_on cSlash a); discriminate. Qed.
Lemma split_snoc (a c : str) : ~ In cSlash c -> split_on cSlash (a ++ cSlash :: c) = split_on cSlash a ++ [c].
Proof.
  intros N. induction a as [|x a IH]; cbn [app split_on].
  - rewrite N.eqb_refl, split_on_none by exact N. reflexivity.
  - rewrite IH. destruct (N.eqb x cSlash); [reflexivity|]. destruct (split_on cSlash a) eqn:E; [now destruct (split_nn a)|reflexivity].
Qed.
Lemma stem_head s : begins s -> exists c r r', stem s = c :: r /\ s = c :: r'.
Proof.
  intros B. destruct (stem_spec s) as (k & E & T). destruct (stem s) as [|c r] eqn:S; [|exists c, r, (r ++ repeat cSlash k); auto].
  exfalso. destruct B as [(c & r & -> & N)|(r & ->)]; cbn in E.
  - destruct k as [|[|k]]; cbn in E; try discriminate. injection E as -> _. apply N. now left.
  - destruct k; cbn in E; discriminate.
Qed.
Lemma walk_slashes t b cur cs q mo mt k : pwalk t true b cur cs = Ok (At q (PDir mo mt)) -> pwalk t true b cur (cs ++ repeat [] k) = Ok (At q (PDir mo mt)).
Proof.
  intros W. destruct k as [|k]; [cbn; now rewrite app_nil_r|]. apply walk_on in W as (b' & _ & G & K). rewrite K by discriminate.
  induction (Datatypes.S k) as [|j IH]; rewrite pwalk_eq, G; cbn [repeat]; [reflexivity|exact IH].
Qed.
Lemma stem_walk t b s cur q mo mt : pwalk t true b cur (split_on cSlash (stem s)) = Ok (At q (PDir mo mt)) -> pwalk t true b cur (split_on cSlash s) = Ok (At q (PDir mo mt)).
Proof. destruct (stem_spec s) as (k & E & _). rewrite E at 2. rewrite split_slashes. apply walk_slashes. Qed.
Lemma stem_nul s : has_char 0 s = has_char 0 (stem s).
Proof.
  destruct (stem_spec s) as (k & E & _). rewrite E at 1. destruct (has_char 0 (stem s)) eqn:H.
  - apply has_char_In. apply in_app_iff. left. now apply has_char_In.
  - apply has_char_false. rewrite in_app_iff. intros [I|I]; [apply has_char_false in H; auto|]. apply repeat_spec in I. discriminate.
Qed.
Lemma look_ne x f s c r : s = c :: r -> plook x f s = if has_char 0 s then Raise ValueError else pwalk (p_tree x) f pbudget (if N.eqb cSlash c then [] else p_cwd x) (split_on cSlash s).
Proof. intros ->. unfold plook. cbn [prefixb]. rewrite andb_true_r. reflexivity. Qed.
Lemma stem_look x s q mo mt : begins s -> plook x false (stem s) = Ok (At q (PDir mo mt)) -> plook x true s = Ok (At q (PDir mo mt)).
Proof.
  intros B L. assert (L' : plook x true (stem s) = Ok (At q (PDir mo mt))).
  { apply (looked_iff x true (stem s) (Is q (PDir mo mt))). apply looked_follow; [now apply looked_iff|]. intros p t. discriminate. }
  revert L'. destruct (stem_head s B) as (c & r & r' & E & E'). rewrite (look_ne x true _ c r E), (look_ne x true s c r' E'), (stem_nul s). destruct (has_char 0 (stem s)); [discriminate|].
  apply stem_walk.
Qed.
Lemma stem_chop s : begins s -> chop s = stem s.
Proof.
  intros B. apply chopped_iff. destruct (stem_head s B) as (c & r & r' & E & _). apply ch_some; [now rewrite E|].
  destruct (stem_spec s) as (k & Es & T). exists (repeat cSlash k). split; [exact Es|]. split; [intros d I; now apply repeat_spec in I|exact T].
Qed.
Lemma exists_last_or (l : str) : l = [] \/ exists k c, l = k ++ [c].
Proof. destruct (rev l) as [|c k] eqn:E; rewrite <- (rev_involutive l), E; [now left|right; exists (rev k), c; reflexivity]. Qed.
Lemma cut_plain n : tame_name n -> cut_query n <> dotdot /\ ~ In cSlash (cut_query n).
Proof.
  intros [N1 _ N3 N4]. destruct (cut_spec n) as (w & E & T & _); [apply N1; cbn; auto|]. split.
  - intros X. rewrite X in E. destruct T as [->|(q & -> & _)]; [apply N3; rewrite app_nil_r in E; exact E|apply (N4 q); exact E].
  - intros I. apply (N1 cSlash); [cbn; auto|]. rewrite E. apply in_app_iff. now left.
Qed.
(** What a joined name leads to *)
Lemma joined_look x s n p mo mt q e : begins s -> tame_name n -> plook x true s = Ok (At p (PDir mo mt)) -> plook x false (joined_path s n) = Ok (At q e) ->
  q = p \/ q = p ++ [cut_query n].
Proof.
  intros B Tn. destruct (cut_plain n Tn) as [N1 N2]. destruct (stem_head s B) as (c & r & r' & E & E'). 
  rewrite (look_ne x true s c r' E'), (look_ne x false (joined_path s n) c (r ++ cSlash :: cut_query n)) by (unfold joined_path; now rewrite E).
  destruct (has_char 0 s) eqn:Z; [discriminate|]. intros L. destruct (has_char 0 (joined_path s n)); [discriminate|]. unfold joined_path.
  rewrite split_snoc by exact N2. intros W. apply walk_snoc in W as (p' & mo' & mt' & W & Q); [|exact N1].
  apply stem_walk in W.
  rewrite W in L. injection L as <- <- <-. destruct (str_eqb (cut_query n) [] || str_eqb (cut_query n) dot); auto.
Qed.
Lemma joined_chop x s n p mo mt q mo' mt' : begins s -> tame_name n -> plook x true s = Ok (At p (PDir mo mt)) ->
  plook x false (chop (joined_path s n)) = Ok (At q (PDir mo' mt')) -> q = p \/ q = p ++ [cut_query n].
Proof.
  intros B Tn L. destruct (cut_plain n Tn) as [_ N2]. destruct (exists_last_or (cut_query n)) as [Ec|(k & c & Ec)].
  - unfold joined_path. rewrite Ec. assert (X : chop (stem s ++ [cSlash]) = stem s).
    { apply chopped_iff. destruct (stem_head s B) as (c & r & r' & E & _). apply ch_some; [now rewrite E|]. exists [cSlash]. split; [reflexivity|].
      destruct (stem_spec s) as (j & Es & T). split; [now intros d [<-|[]]|exact T]. }
    rewrite X. intros W. apply stem_look in W; [|exact B]. left. congruence.
  - assert (X : chop (joined_path s n) = joined_path s n).
    { unfold joined_path. rewrite Ec. change (stem s ++ cSlash :: k ++ [c]) with (stem s ++ (cSlash :: k) ++ [c]). rewrite app_assoc. apply chop_end.
      intros ->. apply N2. rewrite Ec. apply in_app_iff. right. now left. }
    rewrite X. now apply joined_look with (mo := mo) (mt := mt) (e := PDir mo' mt').
Qed.

(** ** The walk *)
Section Stay.
Variables (x0 : pst) (d : list str).
Hypothesis Tame : tame_below x0 d.
Local Notation inv := (fun x => stays_in x0 x d).
Local Notation keep := (holds inv).
Lemma below_snoc (p : list str) n : below d p -> below d (p ++ [n]).
Proof. intros [r ->]. exists (r ++ [n]). now rewrite app_assoc. Qed.
Lemma stays_del x q : inv x -> below d q -> inv (set_tree x (pdel q (p_tree x))).
Proof.
  intros [T K] B. split; [now apply thinned_del|]. intros p N. cbn [p_tree set_tree]. rewrite pget_pdel. destruct (path_eqb p q) eqn:E; [|now apply K].
  apply path_eqb_spec in E. now subst.
Qed.
Lemma stays_look x f s p e : inv x -> plook x f s = Ok (At p e) -> plook x0 f s = Ok (At p e).
Proof. intros [T _]. apply look_thin; [apply T|now apply thinned_thin]. Qed.
Lemma stays_unlink s : (forall q e, plook x0 false s = Ok (At q e) -> below d q) -> keep (os_unlink s).
Proof.
  intros H x I. destruct (unlink_del s x) as [(e & ->)|(q & e & -> & _ & L & _)]; [exact I|]. apply stays_del; [exact I|]. exact (H q e (stays_look x false s q e I L)).
Qed.
Lemma stays_rmdir s : (forall q mo mt, plook x0 false (chop s) = Ok (At q (PDir mo mt)) -> below d q) -> keep (os_rmdir s).
Proof.
  intros H x I. destruct (rmdir_del s x) as [(e & ->)|(q & mo & mt & -> & L & _)]; [exact I|]. apply stays_del; [exact I|]. exact (H q mo mt (stays_look x false _ q _ I L)).
Qed.
Lemma stays_away u : (forall q e, plook x0 false (u_path u) = Ok (At q e) -> below d q) ->
  (forall q mo mt, plook x0 false (chop (u_path u)) = Ok (At q (PDir mo mt)) -> below d q) -> keep (let! l <- loc_islink u; if l then loc_removefile u else loc_removedir u).
Proof.
  intros H1 H2. apply holds_bind; [apply holds_quiet, quiet_test|]. intros [|]; [now apply stays_unlink|].
  unfold loc_removedir. apply holds_bind; [apply holds_quiet, quiet_test|]. intros [|]; [now apply holds_quiet|now apply stays_rmdir].
Qed.
Lemma kinds_in top l x a b y : kinds LB top l x = (Ok (a, b), y) -> (forall n, In n a \/ In n b -> In n l).
Proof.
  revert a b y. induction l as [|n l IH]; intros a b y; cbn [kinds].
  - intros E. injection E as <- <- <-. intros n [[]|[]].
  - unfold bind. destruct (lift (u_div top n) x) as [[v|e] x1] eqn:L; [|discriminate]. injection L as L <-.
    cbn [b_isdir loc_backend]. unfold loc_isdir, path_isdir. rewrite LocalFacts18.test_run.
    destruct (kinds LB top l x) as [[[a' b']|e] x2] eqn:K; [|discriminate]. cbn [fst snd ret]. intros E m.
    destruct (tests x true is_pdir (u_path v)); injection E as <- <- <-; intros [I|I]; try (destruct I as [->|I]; [now left|]); right; apply (IH a' b' x2 eq_refl); auto.
Qed.
(** A directory on the way, and a name in it *)
Section Dir.
Variables (s : str) (root : uri) (p : list str) (mo mt : Z).
Hypotheses (C : calm_uri s root) (L : plook x0 true s = Ok (At p (PDir mo mt))) (B : below d p).
Lemma child_path n v : tame_name n -> u_div root n = Ok v -> calm_uri (joined_path s n) v /\ u_path v = joined_path s n.
Proof. intros T E. pose proof (calm_div s root n v C T E) as K. split; [exact K|]. now apply calm_path. Qed.
Lemma child_look n q e : tame_name n -> plook x0 false (joined_path s n) = Ok (At q e) -> below d q.
Proof.
  intros T E. destruct (joined_look x0 s n p mo mt q e (px_start _ (cu_text _ _ C)) T L E) as [-> | ->]; [exact B|now apply below_snoc].
Qed.
Lemma child_chop n q mo' mt' : tame_name n -> plook x0 false (chop (joined_path s n)) = Ok (At q (PDir mo' mt')) -> below d q.
Proof.
  intros T E. destruct (joined_chop x0 s n p mo mt q mo' mt' (px_start _ (cu_text _ _ C)) T L E) as [-> | ->]; [exact B|now apply below_snoc].
Qed.
Lemma stays_body ds fs : (forall n, In n ds \/ In n fs -> tame_name n) -> keep (body tt root ds fs).
Proof.
  intros H. unfold body. apply holds_bind.
  - apply holds_mapM. intros n I x X. unfold bind, lift. destruct (u_div root n) as [v|e] eqn:E; [|exact X]. assert (T : tame_name n) by auto.
    destruct (child_path n v T E) as [_ Pv]. cbn [b_removefile loc_backend]. unfold loc_removefile. rewrite Pv. apply stays_unlink; [|exact X]. intros q e. now apply child_look.
  - intros _. apply holds_bind; [|intros _; now apply holds_quiet]. apply holds_mapM. intros n I x X. unfold lift. unfold bind at 1. destruct (u_div root n) as [v|e] eqn:E; [|exact X].
    assert (T : tame_name n) by auto. destruct (child_path n v T E) as [_ Pv].
    apply (stays_away v); [| |exact X]; rewrite Pv; [intros q e; now apply child_look|intros q m1 m2; now apply child_chop].
Qed.
End Dir.
Lemma in_pget (q : list str) t : In q (map fst t) -> pget q t <> None.
Proof.
  induction t as [|[r e] t IH]; cbn; [intros []|]. destruct (path_eqb q r) eqn:E; [discriminate|]. intros [->|I]; [now rewrite path_eqb_refl in E|auto].
Qed.
Lemma listed_tame p x n : inv x -> below d p -> In n (pchildren p (p_tree x)) -> tame_name n.
Proof.
  intros [T _] B I. apply children_in in I. destruct (Tame p n B) as [X|X]; [|exact X]. exfalso. unfold entry_at in X.
  assert (N : pget (p ++ [n]) (p_tree x) <> None) by now apply in_pget.
  destruct T as (_ & _ & _ & T). destruct (T (p ++ [n])) as [Y|Y]; [congruence|exact (N Y)].
Qed.
Lemma stays_walk fuel : forall s root x, calm_uri s root -> inv x -> (forall f q e, plook x f s = Ok (At q e) -> below d q) ->
  inv (snd (walk_gen LB fuel false false body tt root x)).
Proof.
  induction fuel as [|f IH]; intros s root x C I H; cbn [walk_gen]; [exact I|].
  unfold bind at 1. cbn [b_listdir loc_backend]. unfold loc_listdir, bind at 1, os_listdir. rewrite (calm_path _ _ C).
  destruct (plook x true s) as [[p [dd mo mt|mo mt|t]|p n]|e] eqn:Lx; try exact I. cbn [ret].
  pose proof (H true p _ Lx) as B. pose proof (stays_look x true s p _ I Lx) as L.
  assert (Tn : forall n, In n (sort_strs (sort_strs (pchildren p (p_tree x)))) -> tame_name n) by (intros n J; rewrite !sort_In in J; now apply (listed_tame p x)).
  unfold bind at 1. pose proof (quiet_kinds root (sort_strs (sort_strs (pchildren p (p_tree x)))) x) as Qk.
  destruct (kinds LB root (sort_strs (sort_strs (pchildren p (p_tree x)))) x) as [[[ds fs]|e] y] eqn:K; cbn [snd] in Qk; subst y; [|exact I].
  assert (Td : forall n, In n ds \/ In n fs -> tame_name n) by (intros n J; apply Tn; exact (kinds_in root _ x ds fs x K n J)).
  cbn [fst snd]. unfold bind at 1. cbn [ret fst snd]. apply holds_bind; [| |exact I].
  - apply holds_foldM. intros n [] J z Iz. unfold bind, lift. destruct (u_div root n) as [v|e] eqn:E; [|exact Iz]. assert (T : tame_name n) by auto.
    destruct (child_path s root C n v T E) as [Cv Pv]. unfold u_islink, hooked, bind. cbn [b_hook loc_backend ret b_islink]. unfold loc_islink, path_islink. rewrite LocalFacts18.test_run.
    destruct (tests z false is_plink (u_path v)) eqn:Lk; cbn [negb orb]; [exact Iz|]. apply (IH (joined_path s n)); auto.
    assert (F : forall q e, plook z false (joined_path s n) = Ok (At q e) -> below d q /\ is_plink e = false).
    { intros q e W. split; [apply (child_look s root p mo mt C L B n q e T); now apply (stays_look z)|]. rewrite Pv in Lk. unfold tests in Lk. now rewrite W in Lk. }
    intros [|] q e W; [|now apply F in W]. destruct (plook_ex z false (joined_path s n)) as [o O]. pose proof O as O'. apply looked_iff in O'.
    destruct o as [q' e'| |]; cbn [answer] in O'.
    + destruct (F q' e' O') as [Bq Ne]. apply looked_follow in O; [|intros p1 t1 X; injection X as -> ->; discriminate]. apply looked_iff in O. cbn [answer] in O. rewrite O in W. injection W as <- <-. exact Bq.
    + apply looked_follow in O; [|discriminate]. apply looked_iff in O. cbn [answer] in O. congruence.
    + apply looked_follow in O; [|discriminate]. apply looked_iff in O. cbn [answer] in O. congruence.
  - intros []. apply holds_bind; [apply (stays_body s root p mo mt); auto|]. intros a. now apply holds_quiet.
Qed.
End Stay.

Theorem stays_remove x s u d e fuel rc : tame_below x d -> written s u -> sees x false u (Is d e) -> stays_in x (snd (u_remove LB fuel rc u x)) d.
Proof.
  intros Tame Wr Se. pose proof (written_calm s u Wr) as C. pose proof (px_start _ (cu_text _ _ C)) as B. pose proof (calm_path s u C) as P.
  apply sees_iff in Se. cbn [answer] in Se. rewrite P in Se.
  assert (I : stays_in x x d) by (split; [apply thinned_refl|auto]).
  assert (U : holds (fun y => stays_in x y d) (loc_removefile u)).
  { apply stays_unlink. rewrite P. intros q e' W. rewrite W in Se. injection Se as -> _. apply below_refl. }
  unfold u_remove, hooked, bind at 1. cbn [b_hook loc_backend ret b_islink b_removefile b_exists b_isdir b_isfile b_removedir].
  unfold bind at 1. unfold loc_islink, path_islink. rewrite LocalFacts18.test_run. destruct (tests x false is_plink (u_path u)) eqn:Lk; [now apply U|].
  assert (Ne : is_plink e = false) by (rewrite P in Lk; unfold tests in Lk; now rewrite Se in Lk).
  assert (St : plook x true s = Ok (At d e)).
  { apply (looked_iff x true s (Is d e)). apply looked_follow; [now apply looked_iff|]. intros p t X. injection X as -> ->. discriminate. }
  assert (R : holds (fun y => stays_in x y d) (let! l <- loc_islink u; if l then loc_removefile u else loc_removedir u)).
  { apply stays_away; rewrite P; [intros q e' W; rewrite W in Se; injection Se as -> _; apply below_refl|].
    intros q mo mt W. rewrite (stem_chop s B) in W. apply stem_look in W; [|exact B]. rewrite W in St. injection St as -> _. apply below_refl. }
  cbn [bind]. unfold loc_exists, path_exists, bind at 1. rewrite LocalFacts18.test_run. destruct (tests x true (fun _ => true) (u_path u)); cbn [negb].
  2:{ unfold bind, lift. now destruct (u_str u). }
  unfold bind at 1. unfold loc_isdir, path_isdir. rewrite LocalFacts18.test_run. destruct (tests x true is_pdir (u_path u)).
  - destruct rc.
    + unfold remove_dir_recursively. fold body. unfold bind at 1.
      assert (K : stays_in x (snd (walk_gen LB fuel false false body tt u x)) d).
      { apply (stays_walk x d Tame fuel s u x C I). intros [|] q e' W; [rewrite W in St; injection St as -> _|rewrite W in Se; injection Se as -> _]; apply below_refl. }
      destruct (walk_gen LB fuel false false body tt u x) as [[a|e'] y]; cbn [snd] in *; [|exact K]. exact (R y K).
    + unfold loc_removedir. apply holds_bind; [| |exact I]; [apply holds_quiet, quiet_test|]. intros [|]; [now apply holds_quiet|].
      apply stays_rmdir. rewrite P, (stem_chop s B). intros q mo mt W. apply stem_look in W; [|exact B]. rewrite W in St. injection St as -> _. apply below_refl.
  - unfold bind at 1. unfold loc_isfile, path_isfile. rewrite LocalFacts18.test_run. destruct (tests x true is_pfile (u_path u)); [now apply U|exact I].
Qed.
