(** The URIs of a part *)
From Coq Require Import Lia.
From Verif Require Import Str Exc StrFacts UriParse BaseUri Mem SpecUri SpecMem UriFacts UriFacts2 UriFacts3 UriFacts4 UriFacts5 MemFacts MemFacts2 MemUri NetFacts UndoFacts SpecApart.
Open Scope nat_scope.

Lemma piece_sub c s : (exists w ws b, split_on c s = w :: ws /\ s = w ++ b) /\ forall x, In x (split_on c s) -> exists a b, s = a ++ x ++ b.
Proof.
  induction s as [|y s [(w & ws & b & E & Eb) IH]]; cbn [split_on].
  - split; [exists [], [], []; auto|]. intros x [<-|[]]. now exists [], [].
  - destruct (N.eqb y c) eqn:Y.
    + split; [exists [], (split_on c s), (y :: s); auto|]. intros x [<-|I]; [now exists [], (y :: s)|]. destruct (IH x I) as (a & b' & ->). now exists (y :: a), b'.
    + rewrite E in *. split; [exists (y :: w), ws, b; split; [reflexivity|]; cbn [app]; now rewrite Eb|].
      intros x [<-|I]; [exists [], b; cbn [app]; now rewrite Eb|]. destruct (IH x (or_intror I)) as (a & b' & ->). now exists (y :: a), b'.
Qed.
Lemma simple_sub p n : free_of meta p -> (forall x y, p <> x ++ lit "((" ++ y) -> (exists a b, p = a ++ n ++ b) -> simple_name n.
Proof.
  intros F G (a & b & E). split.
  - intros c Hc I. apply (F c Hc). rewrite E. apply in_app_iff. right. apply in_app_iff. now left.
  - intros x y En. apply (G (a ++ x) (y ++ b)). rewrite E, En, <- !app_assoc. reflexivity.
Qed.
Lemma simple_path p n : path_ok p -> (exists a b, p = a ++ n ++ b) -> simple_name n. Proof. intros [_ F G]. now apply simple_sub. Qed.
Lemma simple_in n m : simple_name n -> (exists a b, n = a ++ m ++ b) -> simple_name m. Proof. intros [F G]. now apply simple_sub. Qed.
Lemma strip_sub f s : exists a b, s = a ++ strip_p f s ++ b.
Proof.
  unfold strip_p. destruct (rstrip_decomp f (lstrip_p f s)) as (t & E & _). exists (fst (span f s)), t. rewrite <- E. unfold lstrip_p. symmetry. apply span_eq.
Qed.
(** Joining with a slash in between adds no bracket pair. *)
Lemma pars_apart x n : (forall a b, x <> a ++ lit "((" ++ b) -> (forall a b, n <> a ++ lit "((" ++ b) -> forall a b, x ++ cSlash :: n <> a ++ lit "((" ++ b.
Proof.
  revert n. induction x as [|c x IH]; intros n Hx Hn a b E; cbn [app] in E.
  - destruct a as [|d a]; [discriminate E|]. injection E as _ E. now apply (Hn a b).
  - destruct a as [|d a].
    + injection E as -> E. destruct x as [|c' x]; [discriminate E|]. injection E as -> _. now apply (Hx [] x).
    + injection E as -> E. apply (IH n) with a b; auto. intros a' b' Ex. apply (Hx (d :: a') b'). cbn [app]. now rewrite Ex.
Qed.
Lemma join_ok x n : x <> [] -> path_ok x -> simple_name n -> path_ok (x ++ cSlash :: n).
Proof.
  intros N [[r E] F G] [Fn Gn]. constructor.
  - exists (r ++ cSlash :: n). now rewrite E.
  - intros c Hc I. apply in_app_iff in I as [I|[<-|I]]; [now apply (F c)|cbn in Hc; intuition discriminate|now apply (Fn c)].
  - now apply pars_apart.
Qed.

Definition muri (p : str) : uri :=
  mkUri UMemory (lit "memory://" ++ p) cSlash (parse_of (lit "memory") NoAuth p [] None) [] (Some []) (Some []).
Lemma muri_text p : gtext (lit "memory") NoAuth p None None = lit "memory://" ++ p.
Proof. unfold gtext. cbn [auth_text qtext ftext]. now rewrite !app_nil_r. Qed.
Lemma muri_loc p : path_ok p -> loc_ok (lit "memory") NoAuth p. Proof. intros H. apply loc_remote; [apply scheme_mem|constructor|exact H]. Qed.
Lemma muri_URI p : path_ok p -> URI (lit "memory://" ++ p) cSlash [] = Ok (muri p).
Proof. intros H. rewrite <- muri_text. rewrite (URI_made _ _ _ [] None); auto using muri_loc, empty_query_ok, no_query_enc. now rewrite muri_text. Qed.

Section Part.
Variable K : str -> bool.
Hypothesis tops : top_names K.
(** Paths of the part *)
Definition heads (p : str) : Prop := exists c t, K c = true /\ (t = [] \/ exists r, t = cSlash :: r) /\ p = cSlash :: c ++ t.
Lemma mine_muri u : mine K u <-> exists p, heads p /\ path_ok p /\ u = muri p.
Proof.
  split.
  - intros (c & t & Kc & Ht & P & E). exists (cSlash :: c ++ t). rewrite (muri_URI _ P) in E. injection E as <-. split; [|now split]. now exists c, t.
  - intros (p & (c & t & Kc & Ht & ->) & P & ->). exists c, t. split; [exact Kc|]. split; [exact Ht|]. split; [exact P|]. now apply muri_URI.
Qed.
Lemma heads_path p : heads p -> u_path (muri p) = p.
Proof.
  intros (c & t & Kc & Ht & ->). unfold u_path, base_path. cbn [muri u_cls u_p parse_of p_path].
  destruct (prefixb (lit "/.") (cSlash :: c ++ t)) eqn:E; [|reflexivity]. exfalso. apply prefixb_spec in E as [x E]. destruct (tops c Kc) as (N & _ & D).
  destruct c as [|a c]; [easy|]. cbn in E. injection E as E _. now apply (D c); subst.
Qed.
Lemma heads_steps p : heads p -> exists q n rest, mem_path (muri p) = Ok q /\ q <> [] /\ p = cSlash :: q /\ steps_of q = n :: rest /\ K n = true.
Proof.
  intros H. pose proof (heads_path p H) as E. destruct H as (c & t & Kc & Ht & ->). destruct (tops c Kc) as (N & S & _).
  exists (c ++ t), c, (match t with [] => [] | _ :: r => split_on cSlash r end). unfold mem_path. rewrite E. change (N.eqb cSlash cSlash) with true. split; [reflexivity|].
  split; [destruct c; [easy|discriminate]|]. split; [reflexivity|]. split; [|exact Kc]. unfold steps_of.
  destruct Ht as [->|[r ->]]; [rewrite app_nil_r; now apply split_on_none|now apply split_on_app].
Qed.
Lemma heads_more p q : heads p -> q = [] \/ (exists r, q = cSlash :: r) -> heads (p ++ q).
Proof.
  intros (c & t & Kc & Ht & ->) Hq. exists c, (t ++ q). split; [exact Kc|]. split; [|cbn [app]; now rewrite <- app_assoc].
  destruct Ht as [->|[r ->]]; [exact Hq|right; now exists (r ++ q)].
Qed.
(** Without the slashes at the end *)
Lemma heads_strip p : heads p -> exists p0 k, p = p0 ++ repeat cSlash k /\ no_trailing_slash p0 /\ heads p0 /\ p0 <> [].
Proof.
  intros (c & t & Kc & Ht & ->). destruct (tops c Kc) as (N & S & _). destruct (rstrip_decomp is_slash t) as (z & E & Az & St).
  assert (Z : forall z, forallb is_slash z = true -> z = repeat cSlash (length z)).
  { intros y. induction y as [|a y IH]; cbn; [reflexivity|]. intros H. apply andb_true_iff in H as [A B]. apply N.eqb_eq in A as ->. now rewrite <- (IH B). }
  remember (rstrip_p is_slash t) as t0 eqn:Z0. clear Z0. exists (cSlash :: c ++ t0), (length z). split; [|split; [|split; [|discriminate]]].
  - cbn [app]. rewrite <- app_assoc, <- (Z z Az). now rewrite <- E.
  - intros r Er. destruct t0 as [|a t1].
    + rewrite app_nil_r in Er. destruct c as [|b c _] using rev_ind; [easy|]. rewrite app_comm_cons in Er. apply app_inj_tail in Er as [_ ->]. apply S. apply in_app_iff. right. now left.
    + destruct t1 as [|b t2 _] using rev_ind.
      * change (cSlash :: c ++ [a]) with ((cSlash :: c) ++ [a]) in Er. apply app_inj_tail in Er as [_ ->]. discriminate St.
      * change (cSlash :: c ++ a :: t2 ++ [b]) with ((cSlash :: c) ++ (a :: t2) ++ [b]) in Er. rewrite app_assoc in Er. apply app_inj_tail in Er as [_ ->].
        rewrite app_comm_cons, rev_app_distr in St. discriminate St.
  - exists c, t0. split; [exact Kc|]. split; [|reflexivity]. destruct t0 as [|a t1]; [now left|right]. destruct Ht as [->|[r ->]]; [discriminate E|]. cbn [app] in E. injection E as <- _. now exists t1.
Qed.
Lemma path_ok_left p q : p <> [] -> path_ok (p ++ q) -> path_ok p. Proof. apply path_ok_prefix. Qed.
Lemma mine_div u n r : mine K u -> simple_name n -> u_div u n = Ok r -> mine K r.
Proof.
  intros M Sn E. apply mine_muri in M as (p & H & P & ->). destruct (heads_strip p H) as (p0 & k & Ep & Nt & H0 & N0).
  assert (P0 : path_ok p0) by (apply (path_ok_left p0 (repeat cSlash k) N0); now rewrite <- Ep).
  assert (P1 : path_ok (p0 ++ cSlash :: n)) by (now apply join_ok).
  pose proof (join_made (muri p) (lit "memory") NoAuth p0 k [] None [] n (p0 ++ cSlash :: n)) as J.
  unfold u_div in E. change ([n]) with (([] : list str) ++ [n]) in E. rewrite J in E; auto using empty_query_ok, no_query_enc, muri_loc.
  - injection E as <-. apply mine_muri. exists (p0 ++ cSlash :: n). split; [apply heads_more; [exact H0|right; now exists n]|]. split; [exact P1|]. now rewrite muri_text.
  - cbn [muri u_p]. now rewrite Ep.
  - constructor.
Qed.
Lemma mine_rest u k : mine K u -> simple_name (strip_p is_space (skipn k (u_path u))).
Proof.
  intros M. apply mine_muri in M as (p & H & P & ->). rewrite (heads_path p H). apply (simple_path p); [exact P|].
  destruct (strip_sub is_space (skipn k p)) as (a & b & E). exists (firstn k p ++ a), b. rewrite <- app_assoc, <- E. symmetry. apply firstn_skipn.
Qed.
(** last() *)
Lemma muri_last q : u_last (muri (cSlash :: q)) = match rev (split_on cSlash q) with [] => [] | [x] => x | x :: y :: _ => match x with [] => y | _ => x end end \/ split_on cSlash q = [[]].
Proof.
  unfold u_last. cbn [muri u_uri]. change (lit "memory://" ++ cSlash :: q) with ((lit "memory://") ++ cSlash :: q).
  rewrite split_on_gen, rev_app_distr. destruct (rev (split_on cSlash q)) as [|x [|y r]] eqn:E; cbn [app].
  - exfalso. apply (f_equal (@rev str)) in E. rewrite rev_involutive in E. destruct (proj1 (piece_sub cSlash q)) as (w & ws & b & E' & _). rewrite E' in E. discriminate E.
  - destruct x as [|d x].
    + right. apply (f_equal (@rev str)) in E. now rewrite rev_involutive in E.
    + left. change (lit "memory://") with (lit "memory:" ++ cSlash :: cSlash :: []). now rewrite !split_on_gen.
  - now left.
Qed.
Lemma mine_last u : mine K u -> simple_name (u_last u).
Proof.
  intros M. apply mine_muri in M as (p & H & P & ->). destruct (heads_steps p H) as (q & n & rest & _ & Nq & -> & St & Kn). unfold steps_of in St. destruct (tops n Kn) as (Nn & _ & _).
  assert (S : forall x, In x (split_on cSlash q) -> simple_name x).
  { intros x I. apply (simple_path (cSlash :: q)); [exact P|]. destruct (proj2 (piece_sub cSlash q) x I) as (a & b & E). exists (cSlash :: a), b. cbn [app]. now rewrite E. }
  destruct (muri_last q) as [->|E]; [|rewrite E in St; injection St as <- _; easy].
  destruct (rev (split_on cSlash q)) as [|x [|y r]] eqn:E.
  - apply (f_equal (@rev str)) in E. rewrite rev_involutive, St in E. discriminate E.
  - apply S, in_rev. rewrite E. now left.
  - assert (simple_name x) by (apply S, in_rev; rewrite E; now left). assert (simple_name y) by (apply S, in_rev; rewrite E; right; now left). now destruct x.
Qed.
(** Where only one name is not empty, last() is this name, or empty. *)
Lemma last_top u q n : mine K u -> mem_path u = Ok q -> nonempty_steps q = [n] -> u_last u = n \/ u_last u = [].
Proof.
  intros M Eq Ne. apply mine_muri in M as (p & H & P & ->). destruct (heads_steps p H) as (q' & m & rest & Eq' & Nq & -> & St & Km). rewrite Eq' in Eq. injection Eq as ->.
  destruct (tops m Km) as (Nm & _ & _). unfold nonempty_steps in Ne. rewrite St in Ne. cbn [filter] in Ne. destruct m as [|a m]; [easy|]. injection Ne as <- Ne.
  assert (Z : forall x, In x rest -> x = []). { intros x I. destruct x as [|b x]; [reflexivity|]. exfalso. assert (X : In (b :: x) (filter (fun x => match x with [] => false | _ => true end) rest)) by (apply filter_In; now split). rewrite Ne in X. destruct X. }
  unfold steps_of in St. destruct (muri_last q) as [->|E]; [|rewrite E in St; discriminate St].
  rewrite St. destruct rest as [|b rest] using rev_ind; [now left|]. clear IHrest. cbn [rev]. rewrite rev_app_distr. cbn [rev app].
  assert (b = []) as -> by (apply Z, in_app_iff; right; now left). destruct rest as [|d rest _] using rev_ind; [now left|]. right. rewrite rev_app_distr. cbn [rev app]. apply Z. apply in_app_iff. left. apply in_app_iff. right. now left.
Qed.
Definition root_uri : uri := muri [cSlash].
Lemma mine_split u d n : mine K u -> u_split u = Ok (d, n) -> mine K d \/ d = root_uri.
Proof.
  intros M E. apply mine_muri in M as (p & H & P & ->). destruct H as (c & t & Kc & Ht & ->). destruct (tops c Kc) as (Nc & Sc & _).
  unfold u_split in E. cbn [muri u_uri u_cls u_sep u_all_extras] in E.
  assert (MK : forall x, path_ok x -> mk_uri UMemory (lit "memory://" ++ x) cSlash (u_all_extras (muri (cSlash :: c ++ t))) = Ok (muri x)).
  { intros x Px. rewrite <- muri_text. destruct (loc_parse _ _ _ [] None (muri_loc x Px) empty_query_ok no_query_enc) as [C Q].
    rewrite (mk_uri_made _ _ _ _ _ (eq_refl : bad_init_kw (u_all_extras (muri (cSlash :: c ++ t))) = false) C Q). now rewrite muri_text. }
  destruct Ht as [->|[r ->]].
  - right. rewrite app_nil_r in *. rewrite cut_last_app in E by exact Sc. cbn [suffixb] in E.
    assert (X : suffixb (lit "//") (lit "memory://") = true) by reflexivity. rewrite X in E. change ((lit "memory://" ++ [cSlash])) with (lit "memory://" ++ [cSlash]) in E.
    replace (match lit "memory://" ++ [cSlash] with [] => [cDot] | _ => lit "memory://" ++ [cSlash] end) with (lit "memory://" ++ [cSlash]) in E by reflexivity.
    rewrite MK in E by apply root_ok. cbn [rbind] in E. now injection E as <- _.
  - left. assert (X : exists a b, cSlash :: r = a ++ cSlash :: b /\ ~ In cSlash b /\ (a = [] \/ exists r', a = cSlash :: r')).
    { destruct (cut_last cSlash (cSlash :: r)) as [[a b]|] eqn:C.
      - apply cut_last_some in C as [C D]. exists a, b. split; [exact C|]. split; [exact D|]. destruct a as [|x a]; [now left|right]. injection C as <- _. now exists a.
      - apply cut_last_none in C. destruct C. now left. }
    destruct X as (a & b & Er & Nb & Ha). rewrite Er in *.
    replace (lit "memory://" ++ cSlash :: c ++ a ++ cSlash :: b) with ((lit "memory://" ++ cSlash :: c ++ a) ++ cSlash :: b) in E by (rewrite <- app_assoc; cbn [app]; now rewrite <- app_assoc).
    rewrite cut_last_app in E by exact Nb.
    assert (PA : path_ok (cSlash :: c ++ a)). { apply (path_ok_left _ (cSlash :: b)); [discriminate|]. cbn [app]. now rewrite <- app_assoc. }
    assert (HA : heads (cSlash :: c ++ a)) by (now exists c, a).
    destruct (suffixb (lit "//") (lit "memory://" ++ cSlash :: c ++ a)).
    + replace ((lit "memory://" ++ cSlash :: c ++ a) ++ [cSlash]) with (lit "memory://" ++ ((cSlash :: c ++ a) ++ [cSlash])) in E by (now rewrite app_assoc).
      replace (match lit "memory://" ++ (cSlash :: c ++ a) ++ [cSlash] with [] => [cDot] | _ => lit "memory://" ++ (cSlash :: c ++ a) ++ [cSlash] end) with (lit "memory://" ++ (cSlash :: c ++ a) ++ [cSlash]) in E by reflexivity.
      assert (PA' : path_ok ((cSlash :: c ++ a) ++ [cSlash])). { apply join_ok; [discriminate|exact PA|]. split; [intros ? _ []|]. intros x y Ex. destruct x; discriminate Ex. }
      rewrite MK in E by exact PA'. cbn [rbind] in E. injection E as <- _. apply mine_muri. eexists. split; [|split; [exact PA'|reflexivity]]. apply heads_more; [exact HA|right; now exists []].
    + replace (match lit "memory://" ++ cSlash :: c ++ a with [] => [cDot] | _ => lit "memory://" ++ cSlash :: c ++ a end) with (lit "memory://" ++ cSlash :: c ++ a) in E by reflexivity.
      rewrite MK in E by exact PA. cbn [rbind] in E. injection E as <- _. apply mine_muri. eexists. split; [exact HA|split; [exact PA|reflexivity]].
Qed.
End Part.
