(** The constructor of URIs is the rules of SpecParse.v. *)
From Verif Require Import Str Exc Utf8 UriParse BaseUri SpecUri SpecParse StrFacts UriFacts UriFacts2 ParseFacts ParseFacts2 ParseFacts3.

Lemma local_iff t a : local_part t a <-> (if prefixb (lit "file://") t then skipn 7 t else t) = a.
Proof.
  split.
  - intros [r ->|N]; [rewrite prefixb_app; reflexivity|]. destruct (prefixb (lit "file://") t) eqn:E; [|reflexivity]. apply prefixb_spec in E as [r E]. now apply N in E.
  - destruct (prefixb (lit "file://") t) eqn:E; intros <-.
    + apply prefixb_spec in E as [r ->]. now apply lp_file.
    + apply lp_other. intros r ->. now rewrite prefixb_app in E.
Qed.
Lemma unslashed_iff t a : unslashed t a <-> replace_char cBack cSlash t = a.
Proof.
  unfold unslashed, replace_char. split.
  - induction 1 as [|c d t a [[-> ->]|[N ->]] _ IH]; [reflexivity| |]; cbn [map]; rewrite IH; [now rewrite N.eqb_refl|]. now rewrite (proj2 (N.eqb_neq _ _) N).
  - intros <-. induction t as [|c t IH]; [constructor|]. constructor; auto. destruct (N.eqb_spec c cBack); auto.
Qed.
Definition drive_text (t : str) : str := match t with a :: c :: r => if N.eqb c cColon then [cSlash; a] ++ r else t | _ => t end.
Lemma driven_iff t a : driven t a <-> drive_text t = a.
Proof.
  unfold drive_text. split.
  - intros [c r ->|N]; [now rewrite N.eqb_refl|]. destruct t as [|x [|y r]]; auto. destruct (N.eqb_spec y cColon) as [->|]; auto. exfalso. now apply (N x r).
  - intros <-. destruct t as [|x [|y r]]; try (apply dr_none; intros; discriminate). destruct (N.eqb_spec y cColon) as [->|N]; [now apply dr_drive|].
    apply dr_none. intros c r' E. injection E as -> -> ->. now apply N.
Qed.
Definition anchor_text (uri : str) : str :=
  let uri := if negb (contains (lit "://") uri) && negb (prefixb [cSlash] uri || prefixb [cDot] uri) then lit "./" ++ uri else uri in
  if negb (contains (lit "://") uri) then lit "file://" ++ uri else uri.
Lemma contains_dot t : contains (lit "://") (lit "./" ++ t) = contains (lit "://") t.
Proof. reflexivity. Qed.
Lemma head_iff c t : prefixb [c] t = true <-> exists r, t = c :: r.
Proof. apply prefixb_spec. Qed.
Lemma anchored_iff t a : anchored t a <-> anchor_text t = a.
Proof.
  unfold anchor_text. destruct (contains (lit "://") t) eqn:E.
  - cbn [negb andb]. rewrite E. cbn [negb]. assert (N : ~ no_part (lit "://") t) by (intros N; apply contains_no in N; congruence). split.
    + intros [_|r Np _|Np _]; [reflexivity|contradiction|contradiction].
    + intros <-. now apply an_uri.
  - cbn [negb andb]. assert (N : no_part (lit "://") t) by exact (proj2 (contains_no _ _) E).
    destruct (prefixb [cSlash] t || prefixb [cDot] t) eqn:H; cbn [negb].
    + rewrite E. cbn [negb]. apply orb_true_iff in H. rewrite !head_iff in H. split.
      * intros [Np|r _ _|_ Nh]; [contradiction|reflexivity|]. destruct H as [[r ->]|[r ->]]; now destruct (Nh r).
      * intros <-. destruct H as [[r Er]|[r Er]]; apply an_path with r; auto.
    + rewrite contains_dot, E. cbn [negb]. apply orb_false_iff in H as [H1 H2].
      assert (H1' : forall r, t <> cSlash :: r) by (intros r Er; rewrite (proj2 (head_iff cSlash t) (ex_intro _ r Er)) in H1; discriminate H1).
      assert (H2' : forall r, t <> cDot :: r) by (intros r Er; rewrite (proj2 (head_iff cDot t) (ex_intro _ r Er)) in H2; discriminate H2). split.
      * intros [Np|r _ [Er|Er]|_ _]; [contradiction|now apply H1' in Er|now apply H2' in Er|reflexivity].
      * intros <-. apply (an_name t N). intros r. split; auto.
Qed.
Lemma cleaned_iff text t : cleaned text t <-> clean_uri text = t.
Proof.
  assert (X : forall u, clean_uri u = anchor_text (drive_text (replace_char cBack cSlash (if prefixb (lit "file://") u then skipn 7 u else u)))).
  { intros u. unfold clean_uri, normalize_uri. change (cBack =? cSlash)%N with false. reflexivity. }
  rewrite X. split.
  - intros (a & b & c & L & U & D & A). apply local_iff in L. apply unslashed_iff in U. apply driven_iff in D. apply anchored_iff in A. rewrite <- A, <- D, <- U, <- L. reflexivity.
  - intros E. do 3 eexists. split; [now apply local_iff|]. split; [now apply unslashed_iff|]. split; [now apply driven_iff|now apply anchored_iff].
Qed.
Lemma cred_iff name v ex q r ex' : cred name v ex q r ex' <-> take_cred name v ex q = (r, ex').
Proof.
  unfold take_cred. split.
  - intros [x ->|x -> E| -> E]; auto; now rewrite E.
  - destruct v as [x|]; [intros H; injection H as <- <-; now apply cd_uri|]. destruct (dget name ex) as [x|] eqn:E; intros H; injection H as <- <-; [now apply cd_kw|now apply cd_query].
Qed.
Lemma letter_iff c : scheme_char c = true <-> scheme_letter c.
Proof.
  unfold scheme_char, scheme_letter, between. rewrite !orb_true_iff, andb_true_iff, !N.leb_le, !N.eqb_eq. tauto.
Qed.
Lemma scheme_at_iff t s : scheme_at t s <-> match scheme_re t with Some s => s | None => lit "file" end = s.
Proof.
  assert (K : forall w r, is_scheme w -> t = w ++ lit "://" ++ r -> scheme_re t = Some w).
  { intros w r [N L] ->. unfold scheme_re. rewrite (span_app scheme_char w (lit "://" ++ r)); [|apply forallb_forall; intros c I; apply letter_iff; auto|reflexivity].
    destruct w; [now contradict N|]. now rewrite prefixb_app. }
  split.
  - intros [w r I E|N]; [now rewrite (K w r I E)|]. destruct (scheme_re t) as [w|] eqn:E; [|reflexivity]. exfalso. unfold scheme_re in E.
    destruct (span scheme_char t) as [[|c w0] r] eqn:S; [discriminate E|]. destruct (prefixb (lit "://") r) eqn:P; [|discriminate E]. injection E as <-.
    apply prefixb_spec in P as [r' ->]. pose proof (span_eq scheme_char t) as Et. pose proof (span_fst scheme_char t) as F. rewrite S in Et, F. cbn [fst snd] in *.
    apply (N (c :: w0) r'); [|auto]. split; [discriminate|]. intros x I. apply letter_iff. rewrite forallb_forall in F. auto.
  - unfold scheme_re at 1. destruct (span scheme_char t) as [w r] eqn:S. pose proof (span_eq scheme_char t) as Et. pose proof (span_fst scheme_char t) as F. rewrite S in Et, F. cbn [fst snd] in *.
    assert (No : scheme_re t = None -> scheme_at t (lit "file")) by (intros E; apply sa_none; intros w' r' I E'; rewrite (K w' r' I E') in E; discriminate E).
    destruct w as [|c w0]; [intros <-; apply No; unfold scheme_re; now rewrite S|]. destruct (prefixb (lit "://") r) eqn:P; intros <-.
    + apply prefixb_spec in P as [r' ->]. apply sa_some with r'; [|auto]. split; [discriminate|]. intros x I. apply letter_iff. rewrite forallb_forall in F. auto.
    + apply No. unfold scheme_re. now rewrite S, P.
Qed.
Lemma class_iff s c : class_for s c <-> class_of_scheme (Some s) = c.
Proof.
  cbn [class_of_scheme]. split.
  - intros [| | |s0 N]; [reflexivity|reflexivity|reflexivity|].
    destruct (str_eqb s0 (lit "file")) eqn:E1; [exfalso; apply N; apply str_eqb_eq in E1; subst s0; unfold In; auto|]. destruct (str_eqb s0 (lit "memory")) eqn:E2; [exfalso; apply N; apply str_eqb_eq in E2; subst s0; unfold In; auto|].
    destruct (str_eqb s0 (lit "zip")) eqn:E3; [exfalso; apply N; apply str_eqb_eq in E3; subst s0; unfold In; auto|]. reflexivity.
  - intros <-. destruct (str_eqb s (lit "file")) eqn:E1; [apply str_eqb_eq in E1 as ->; constructor|]. destruct (str_eqb s (lit "memory")) eqn:E2; [apply str_eqb_eq in E2 as ->; constructor|].
    destruct (str_eqb s (lit "zip")) eqn:E3; [apply str_eqb_eq in E3 as ->; constructor|]. apply str_eqb_neq in E1, E2, E3. apply cf_other. intros [H|[H|[H|[]]]]; congruence.
Qed.
Lemma bad_kw_iff ex : bad_init_kw ex = false <-> forall k, In k [lit "uri"; lit "sep"; lit "self"] -> dget k ex = None.
Proof.
  unfold bad_init_kw, dhas. split.
  - intros H k I. apply orb_false_iff in H as [H H3]. apply orb_false_iff in H as [H1 H2].
    destruct I as [<-|[<-|[<-|[]]]]; [destruct (dget (lit "uri") ex)|destruct (dget (lit "sep") ex)|destruct (dget (lit "self") ex)]; auto; discriminate.
  - intros H. rewrite !H by (cbn; auto). reflexivity.
Qed.
Theorem built_iff cls text sep ex r : built cls text sep ex r <-> mk_uri cls text sep ex = r.
Proof.
  unfold mk_uri. split.
  - intros [k I N|t e K C U|t p us ex1 pw ex2 K C U C1 C2].
    + destruct (bad_init_kw ex) eqn:E; [reflexivity|]. rewrite bad_kw_iff in E. now apply E in I.
    + apply bad_kw_iff in K. rewrite K. apply cleaned_iff in C. apply understood_iff in U. rewrite C. cbv zeta. now rewrite U.
    + apply bad_kw_iff in K. rewrite K. apply cleaned_iff in C. apply understood_iff in U. rewrite C. cbv zeta. rewrite U. cbn [rbind].
      apply cred_iff in C1, C2. now rewrite C1, C2.
  - destruct (bad_init_kw ex) eqn:E.
    + intros <-. unfold bad_init_kw, dhas in E. apply orb_true_iff in E as [E|E]; [apply orb_true_iff in E as [E|E]|].
      * apply bu_kw with (lit "uri"); [cbn; auto|]. now destruct (dget (lit "uri") ex).
      * apply bu_kw with (lit "sep"); [cbn; auto|]. now destruct (dget (lit "sep") ex).
      * apply bu_kw with (lit "self"); [cbn; auto|]. now destruct (dget (lit "self") ex).
    + cbv zeta. destruct (uri_parse (clean_uri text)) as [p|e] eqn:U; cbn [rbind].
      * destruct (take_cred (lit "username") (p_username p) ex (p_query p)) as [us ex1] eqn:C1.
        destruct (take_cred (lit "password") (p_password p) ex1 (p_query p)) as [pw ex2] eqn:C2. intros <-.
        apply bu_ok with ex1; [now apply bad_kw_iff|now apply cleaned_iff|now apply understood_iff|now apply cred_iff|now apply cred_iff].
      * intros <-. apply bu_bad with (clean_uri text); [now apply bad_kw_iff|now apply cleaned_iff|now apply understood_iff].
Qed.
Theorem made_iff text sep ex r : made text sep ex r <-> URI text sep ex = r.
Proof.
  unfold made, URI. split.
  - intros (s & cls & S & C & U). apply scheme_at_iff in S. rewrite S. apply class_iff in C. cbv zeta. rewrite C. now apply built_iff.
  - cbv zeta. intros H. do 2 eexists. split; [now apply scheme_at_iff|]. split; [now apply class_iff|now apply built_iff].
Qed.
