(** urljoin and normpath are what [SpecJoin] says. *)
From Coq Require Import Lia.
From Verif Require Import Str Exc UriParse StrFacts SpecUri UriFacts2 SpecParse ParseFacts ParseFacts2 SpecNames NamesFacts SpecJoin.

Lemma str_eqb_spec a b : reflect (a = b) (str_eqb a b).
Proof. destruct (str_eqb a b) eqn:E; constructor; [now apply str_eqb_eq|now apply str_eqb_neq]. Qed.
Lemma names_iff s l : names_of s l <-> split_on cSlash s = l.
Proof.
  unfold names_of. split.
  - intros (N & -> & F). apply split_join; auto. apply Forall_forall. intros i I. apply free1. auto.
  - intros <-. split; [apply split_on_nonnil|]. split; [symmetry; apply join_split|]. intros i I. apply free1. pose proof (split_on_no_sep cSlash s) as F. rewrite Forall_forall in F. auto.
Qed.
Lemma idle_iff c : idle c <-> str_eqb c [] || str_eqb c [cDot] = true.
Proof.
  unfold idle. destruct (str_eqb_spec c []) as [->|N]; [cbn; tauto|]. destruct (str_eqb_spec c [cDot]) as [->|M]; [cbn; tauto|].
  cbn. split; [intros [H|H]; [easy|now destruct M]|discriminate].
Qed.
Lemma not_idle c : ~ idle c <-> str_eqb c [] || str_eqb c [cDot] = false.
Proof. rewrite idle_iff. destruct (_ || _); split; congruence. Qed.
Lemma norm_idle r st c cs : idle c -> norm_comps r st (c :: cs) = norm_comps r st cs.
Proof. intros I. cbn [norm_comps]. apply idle_iff in I. now rewrite I. Qed.
Lemma norm_name r st c cs : ~ idle c -> c <> lit ".." -> norm_comps r st (c :: cs) = norm_comps r (c :: st) cs.
Proof. intros I D. cbn [norm_comps]. apply not_idle in I. rewrite I. destruct (str_eqb_spec c (lit "..")) as [->|_]; [easy|reflexivity]. Qed.
Lemma norm_app r a : forall st b, norm_comps r st (a ++ b) = norm_comps r (rev (norm_comps r st a)) b.
Proof.
  induction a as [|c a IH]; intros st b; [cbn; now rewrite rev_involutive|]. cbn [app norm_comps].
  destruct (str_eqb c [] || _); auto. destruct (negb _ || _ || _); auto. destruct st; auto.
Qed.
Lemma tidies_same r l l' : tidies r l l' -> norm_comps r [] l = norm_comps r [] l'.
Proof.
  intros [a c b I|a c b I D|b R].
  - rewrite !norm_app. now apply norm_idle.
  - rewrite !norm_app. rewrite norm_name by auto. cbn [norm_comps].
    destruct (str_eqb_spec (lit "..") []) as [H|_]; [discriminate|]. destruct (str_eqb_spec (lit "..") [cDot]) as [H|_]; [discriminate|].
    destruct (str_eqb_spec (lit "..") (lit "..")) as [_|H]; [|easy]. destruct (str_eqb_spec c (lit "..")) as [->|_]; [easy|]. now rewrite andb_false_r.
  - subst r. reflexivity.
Qed.
(** What a tidy list looks like *)
Inductive tidy (r : bool) : list str -> Prop :=
| ty_names l : (forall c, In c l -> ~ idle c /\ c <> lit "..") -> tidy r l
| ty_up l : r = false -> tidy r l -> tidy r (lit ".." :: l).
Lemma tidy_stuck r l l' : tidy r l -> ~ tidies r l l'.
Proof.
  intros T. revert l'. induction T as [l A|l R T IH]; intros l' H.
  - destruct H as [a c b I|a c b I D|b R].
    + destruct (A c) as [N _]; [apply in_or_app; right; now left|easy].
    + destruct (A (lit "..")) as [_ N]; [apply in_or_app; right; right; now left|easy].
    + destruct (A (lit "..")) as [_ N]; [now left|easy].
  - inversion H as [a c b I E|a c b I D E|b R' E]; subst.
    + destruct a as [|x a]; injection E as E1 E2; subst.
      * destruct I; discriminate.
      * eapply IH. now apply ti_idle.
    + destruct a as [|x a]; injection E as E1 E2; subst; [easy|]. eapply IH. now apply ti_back.
    + discriminate.
Qed.
Lemma stuck_tidy r l : (forall l', ~ tidies r l l') -> tidy r l.
Proof.
  induction l as [|c l IH]; intros N; [apply ty_names; intros c []|].
  assert (Nc : ~ idle c) by (intros I; exact (N l (ti_idle r [] c l I))).
  assert (Tl : tidy r l).
  { apply IH. intros l' H. destruct H as [a d b I|a d b I D|b R].
    - apply (N (c :: a ++ b)). now apply (ti_idle r (c :: a)).
    - apply (N (c :: a ++ b)). now apply (ti_back r (c :: a)).
    - destruct (str_eq_dec c (lit "..")) as [->|Nd]; [now apply (N (lit ".." :: b)), ti_root|]. apply (N b). now apply (ti_back r []). }
  destruct (str_eq_dec c (lit "..")) as [->|Nd].
  - apply ty_up; auto. destruct r; auto. exfalso. apply (N l). now apply ti_root.
  - destruct Tl as [l A|l R T]; [|exfalso; apply (N l); now apply (ti_back r [])]. apply ty_names. intros d [<-|I]; auto.
Qed.
Lemma norm_names r l : forall st, (forall c, In c l -> ~ idle c /\ c <> lit "..") -> norm_comps r st l = rev st ++ l.
Proof.
  induction l as [|c l IH]; intros st A; [cbn; now rewrite app_nil_r|]. destruct (A c) as [I D]; [now left|]. rewrite norm_name by auto. rewrite IH; [cbn; now rewrite <- app_assoc|]. intros d J. apply A. now right.
Qed.
Lemma norm_tidy r l : tidy r l -> norm_comps r [] l = l.
Proof.
  intros T. assert (K : forall st, (st = [] \/ exists s, st = lit ".." :: s) -> norm_comps r st l = rev st ++ l); [|now apply (K []); left].
  induction T as [l A|l R T IH]; intros st Hs; [now apply norm_names|]. subst r.
  change (norm_comps false st (lit ".." :: l)) with (if (negb true || (negb false && match st with [] => true | _ => false end) || match st with t :: _ => str_eqb t (lit "..") | [] => false end)
           then norm_comps false (lit ".." :: st) l else match st with _ :: s => norm_comps false s l | [] => norm_comps false st l end).
  destruct Hs as [->|[s ->]].
  - cbn [negb orb andb]. rewrite IH by eauto. reflexivity.
  - cbn [negb orb andb]. destruct (str_eqb_spec (lit "..") (lit "..")) as [_|H]; [|easy]. rewrite IH by eauto. cbn [rev]. now rewrite <- app_assoc.
Qed.
Lemma tidied_det r l t : tidied r l t -> norm_comps r [] l = t.
Proof. induction 1 as [l N|l l' t H T IH]; [apply norm_tidy, stuck_tidy; auto|]. rewrite (tidies_same _ _ _ H). exact IH. Qed.
Lemma tidies_shorter r l l' : tidies r l l' -> (length l' < length l)%nat.
Proof. intros [a c b I|a c b I D|b R]; rewrite ?app_length; cbn; lia. Qed.
Lemma tidy_or r l : tidy r l \/ exists l', tidies r l l'.
Proof.
  induction l as [|c l IH]; [left; apply ty_names; intros ? []|]. destruct (str_eqb c [] || str_eqb c [cDot]) eqn:I.
  { right. exists l. apply (ti_idle r []). now apply idle_iff. }
  apply not_idle in I. destruct IH as [T|[l' H]].
  - destruct (str_eq_dec c (lit "..")) as [->|Nd].
    + destruct r; [right; exists l; now apply ti_root|left; now apply ty_up].
    + destruct T as [l A|l R T]; [|right; exists l; now apply (ti_back r [])]. left. apply ty_names. intros d [<-|J]; auto.
  - destruct H as [a d b J|a d b J D|b R].
    + right. exists (c :: a ++ b). now apply (ti_idle r (c :: a)).
    + right. exists (c :: a ++ b). now apply (ti_back r (c :: a)).
    + destruct (str_eq_dec c (lit "..")) as [->|Nd]; right; [exists (lit ".." :: b); now apply ti_root|exists b; now apply (ti_back r [])].
Qed.
Lemma tidied_ex r : forall l, exists t, tidied r l t.
Proof.
  intros l. remember (length l) as n eqn:E. assert (Le : (length l <= n)%nat) by lia. clear E. revert l Le. induction n as [|n IH]; intros l Le.
  - destruct l; [|cbn in Le; lia]. exists []. apply td_done. intros l' H. apply tidies_shorter in H. cbn in H. lia.
  - destruct (tidy_or r l) as [T|[l' H]]; [exists l; apply td_done; intros l'; now apply tidy_stuck|].
    pose proof (tidies_shorter _ _ _ H). destruct (IH l') as [t T]; [lia|]. exists t. eapply td_step; eauto.
Qed.
Theorem tidied_iff r l t : tidied r l t <-> norm_comps r [] l = t.
Proof. split; [apply tidied_det|]. intros <-. destruct (tidied_ex r l) as [t T]. now rewrite (tidied_det _ _ _ T). Qed.

(** ** normpath *)
Definition opens_with (s : str) : str := if prefixb (lit "/") s then if prefixb (lit "//") s && negb (prefixb (lit "///") s) then lit "//" else lit "/" else [].
Lemma head_iff pat s : no_head pat s <-> prefixb pat s = false.
Proof.
  unfold no_head. destruct (prefixb pat s) eqn:P; split; try easy.
  - intros N. apply prefixb_spec in P. destruct P as [r ->]. now destruct (N r).
  - intros _ r ->. rewrite prefixb_app in P. discriminate.
Qed.
Lemma opening_iff s o : opening s o <-> opens_with s = o.
Proof.
  unfold opens_with. destruct (prefixb (lit "/") s) eqn:P1.
  - apply prefixb_spec in P1. destruct P1 as [r ->]. cbn [lit]. change (lit "/") with [cSlash]. destruct r as [|c r].
    + split; [intros [N|r E N|N K]; auto; [now destruct (N [])|discriminate]|]. intros <-. apply og_one; [intros N; now destruct (N [])|intros r E; discriminate].
    + change (prefixb (lit "//") ([cSlash] ++ c :: r)) with (N.eqb cSlash c && true). change (prefixb (lit "///") ([cSlash] ++ c :: r)) with (N.eqb cSlash c && prefixb (lit "/") r).
      destruct (N.eqb_spec cSlash c) as [<-|Nc].
      * cbn [andb]. destruct (prefixb (lit "/") r) eqn:P2; cbn [negb].
        -- split; [intros [N|r' E N|N K]; auto; [now destruct (N (cSlash :: r))|injection E as <-; apply head_iff in N; congruence]|]. intros <-. apply og_one; [intros N; now destruct (N (cSlash :: r))|].
           intros r' E. injection E as <-. rewrite head_iff. congruence.
        -- split; [intros [N|r' E N|N K]; auto; [now destruct (N (cSlash :: r))|exfalso; apply (K r eq_refl); now apply head_iff]|]. intros <-. apply og_two with r; auto. now apply head_iff.
      * cbn [andb]. split; [intros [N|r' E N|N K]; auto; [now destruct (N (c :: r))|injection E as E _; now destruct Nc]|]. intros <-. apply og_one; [intros N; now destruct (N (c :: r))|]. intros r' E. injection E as E _. now destruct Nc.
  - apply head_iff in P1. split; [intros [N|r' E N|N K]; auto; [subst s; now destruct (P1 (cSlash :: r'))|easy]|]. intros <-. now apply og_none.
Qed.
Lemma norm_nonempty_rooted (s : str) : normpath s = match opens_with s ++ join_with [cSlash] (norm_comps (match opens_with s with [] => false | _ => true end) [] (split_on cSlash s)) with [] => [cDot] | r => r end.
Proof. destruct s; [reflexivity|]. reflexivity. Qed.
Lemma join_empty (l : list str) : tidy false l -> join_with [cSlash] l = [] -> l = [].
Proof.
  destruct l as [|c l]; auto. intros T E. exfalso. assert (c = []) as ->.
  { destruct l; [exact E|]. rewrite join_with_cons in E by discriminate. now destruct c. }
  inversion T as [l' A|]; subst. destruct (A []) as [N _]; [now left|]. apply N. now left.
Qed.
Lemma norm_result r l : tidy r (norm_comps r [] l).
Proof.
  destruct (tidied_ex r l) as [t T]. rewrite (tidied_det _ _ _ T). clear -T. induction T as [l N|]; auto. now apply stuck_tidy.
Qed.
Theorem normal_iff s r : normal s r <-> normpath s = r.
Proof.
  rewrite norm_nonempty_rooted. split.
  - intros [o l t O L T N|l O L T]; apply opening_iff in O; apply names_iff in L; apply tidied_iff in T; rewrite O, L.
    + rewrite T. now destruct (o ++ join_with [cSlash] t).
    + rewrite T. reflexivity.
  - intros <-. destruct (opens_with s ++ _) as [|c r] eqn:E.
    + apply app_eq_nil in E. destruct E as [E1 E2]. rewrite E1 in E2. apply no_dot with (split_on cSlash s); [now apply opening_iff|now apply names_iff|]. apply tidied_iff. apply join_empty; auto. apply norm_result.
    + rewrite <- E. eapply no_some; [now apply opening_iff|now apply names_iff|now apply tidied_iff|rewrite E; discriminate].
Qed.

(** ** Putting the paths together *)
Lemma lstrip_cons f x (s : str) : lstrip_p f (x :: s) = if f x then lstrip_p f s else x :: s.
Proof. unfold lstrip_p. cbn [span]. destruct (f x); auto. now destruct (span f s). Qed.
Lemma up_iff p d : up_to_slash p d <-> dirname_ p = d.
Proof.
  unfold dirname_. split.
  - intros (b & -> & F & D). rewrite rev_app_distr.
    assert (K : forall a c : str, ~ In cSlash a -> lstrip_p (fun x => negb (N.eqb x cSlash)) (a ++ c) = lstrip_p (fun x => negb (N.eqb x cSlash)) c).
    { induction a as [|x a IH]; intros c N; auto. cbn [app]. rewrite lstrip_cons. destruct (N.eqb_spec x cSlash) as [->|_]; [exfalso; apply N; now left|]. cbn [negb]. apply IH. intros I. apply N. now right. }
    rewrite K; [|rewrite <- in_rev; now apply free1]. destruct D as [->|[r ->]]; [reflexivity|]. rewrite rev_app_distr. cbn [rev app]. rewrite lstrip_cons. change (N.eqb cSlash cSlash) with true. cbn [negb rev]. now rewrite rev_involutive.
  - intros <-. set (f := fun x => negb (N.eqb x cSlash)).
    assert (K : forall q : str, exists a, q = a ++ lstrip_p f q /\ ~ In cSlash a /\ (lstrip_p f q = [] \/ exists r, lstrip_p f q = cSlash :: r)).
    { induction q as [|x q IH]; [exists []; cbn; auto|]. rewrite lstrip_cons. assert (Fx : f x = negb (N.eqb x cSlash)) by reflexivity. rewrite Fx. destruct (N.eqb_spec x cSlash) as [Ex|N]; cbn [negb]; [subst x|].
      - exists []. split; auto. split; [intros []|]. right. eauto.
      - destruct IH as (a & E & F & G). exists (x :: a). split; [cbn; now f_equal|]. split; auto. intros [Ix|I]; [now apply N|now apply F]. }
    destruct (K (rev p)) as (a & E & F & G). exists (rev a). split; [|split].
    + rewrite <- rev_app_distr, <- E. now rewrite rev_involutive.
    + apply free1. now rewrite <- in_rev.
    + destruct G as [->|[r ->]]; [now left|right]. exists (rev r). reflexivity.
Qed.
Lemma placed_iff p q r : (forall q', q <> cSlash :: q') -> q <> [] -> (placed p q r <-> pathjoin_ (dirname_ p) q = r).
Proof.
  intros Nq Ne. unfold pathjoin_. split.
  - intros [U|d U N]; apply up_iff in U; rewrite U; auto. destruct d; [easy|]. destruct q as [|c q]; [easy|]. destruct (N.eqb_spec c cSlash) as [->|_]; [now destruct (Nq q)|]. reflexivity.
  - intros <-. destruct (dirname_ p) as [|x d] eqn:E; [apply pl_whole; now apply up_iff|]. destruct q as [|c q]; [easy|]. destruct (N.eqb_spec c cSlash) as [->|_]; [now destruct (Nq q)|].
    apply (pl_under p (c :: q) (x :: d)); [now apply up_iff|discriminate].
Qed.
Lemma colon_iff s x : colon_part s x <-> (match s with Some (c :: w) => (c :: w) ++ [cColon] | _ => [] end) = x.
Proof.
  split.
  - intros [w [-> N]|[-> | ->]]; auto. now destruct w.
  - intros <-. destruct s as [[|c w]|]; [apply cp_lacking; now right|apply cp_given; now split|apply cp_lacking; now left].
Qed.
Lemma together_iff s a p q f t : together s a p q f t <-> uriunsplit s a (Some p) q f = t.
Proof.
  assert (P : opt_add [] (Some p) = p) by now destruct p. unfold uriunsplit. rewrite P. split.
  - intros (x1 & x2 & x3 & x4 & A & B & C & D & ->). apply colon_iff in A. apply opt_iff in B, C, D. now rewrite A, B, C, D.
  - intros <-. eexists _, _, _, _. split; [now apply colon_iff|]. split; [now apply opt_iff|]. split; [now apply opt_iff|]. split; [now apply opt_iff|]. reflexivity.
Qed.
(** Without an authority the path begins with a dot. *)
Lemma no_authority t u : urisplit t = Ok u -> s_authority u = None -> exists r, s_path u = cDot :: r.
Proof.
  intros E A. apply takes_apart_iff in E. inversion E as [|m t1 s a p q f p' f' M P Sw H|m t1 s a a' p q f p' f' M P Sw N H]; subst; [|discriminate].
  cbn [s_path]. inversion H; subst; eauto. cbn [app]. eauto.
Qed.
Lemma scheme_test (b u : option str) : (match u with Some _ => negb (ostr_eqb b u) | None => false end) = true <-> exists s, u = Some s /\ b <> Some s.
Proof.
  destruct u as [s|]; [|split; [discriminate|intros (s & E & _); discriminate]]. destruct b as [b|]; cbn [ostr_eqb].
  - destruct (str_eqb_spec b s) as [->|N]; cbn [negb]; split; try easy; [intros (s' & E & F); injection E as <-; easy|]. intros _. exists s. split; auto. congruence.
  - cbn [negb]. split; auto. intros _. exists s. split; auto. discriminate.
Qed.
Theorem resolves_iff base ref r : resolves base ref r <-> urljoin base ref = r.
Proof.
  unfold urljoin. split.
  - intros H.
    assert (T : forall b u, s_scheme u = None \/ s_scheme u = s_scheme b -> match s_scheme u with Some _ => negb (ostr_eqb (s_scheme b) (s_scheme u)) | None => false end = false).
    { intros b u Hs. apply not_true_iff_false. rewrite scheme_test. intros (s & E & N). destruct Hs as [Hs|Hs]; [congruence|]. apply N. congruence. }
    destruct H as [e B|b e B U|b u s B U S N|b u a t B U S A P|b u p n t B U S A Pl Nm P]; apply takes_apart_iff in B; rewrite B; cbn [rbind]; auto; apply takes_apart_iff in U; rewrite U; cbn [rbind]; auto.
    + replace (match s_scheme u with Some _ => _ | None => false end) with true; auto. symmetry. apply scheme_test. eauto.
    + rewrite (T _ _ S), A. apply together_iff in P. now rewrite P.
    + rewrite (T _ _ S), A. destruct (no_authority _ _ U A) as [q Q]. assert (J : placed (s_path b) (s_path u) p) by exact Pl. apply placed_iff in J; [|rewrite Q; discriminate|rewrite Q; discriminate].
      apply normal_iff in Nm. apply together_iff in P. rewrite J, Nm, P, Q. reflexivity.
  - intros <-. destruct (urisplit base) as [b|e] eqn:B; cbn [rbind]; [|apply rs_base; now apply takes_apart_iff]. destruct (urisplit ref) as [u|e] eqn:U; cbn [rbind]; [|eapply rs_ref; apply takes_apart_iff; eauto].
    pose proof B as B'. pose proof U as U'. apply takes_apart_iff in B', U'.
    destruct (match s_scheme u with Some _ => _ | None => false end) eqn:T; [apply scheme_test in T; destruct T as (s & E & N); eapply rs_other; eauto|].
    assert (S : s_scheme u = None \/ s_scheme u = s_scheme b).
    { apply not_true_iff_false in T. rewrite scheme_test in T. destruct (s_scheme u) as [s|]; auto. right. destruct (s_scheme b) as [s'|]; [|exfalso; apply T; exists s; split; auto; discriminate].
      destruct (str_eq_dec s s') as [->|N]; auto. exfalso. apply T. exists s. split; auto. congruence. }
    destruct (s_authority u) as [a|] eqn:A.
    + eapply rs_site; eauto. now apply together_iff.
    + destruct (no_authority _ _ U A) as [q Q]. rewrite Q at 1. eapply rs_path; eauto; [apply placed_iff; [rewrite Q; discriminate|rewrite Q; discriminate|reflexivity]|now apply normal_iff|now apply together_iff].
Qed.
