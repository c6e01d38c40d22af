(** Joined names of local URIs, and lookup in a tree from which entries are missing. *)
From Verif Require LocalFacts1.
From Verif Require Import Str Exc UriParse BaseUri StrFacts SpecUri UriFacts UriFacts2 UriFacts3 UriFacts7 NetFacts Mem Misc Generic Posix SpecLocal Local SpecPosix SpecStay PosixFacts.
Open Scope string_scope.
Open Scope list_scope.

(** ** Texts *)
Definition begins (s : str) : Prop := (exists c r, s = cSlash :: c :: r /\ ~ In c [cSlash; cDot; cColon]) \/ exists r, s = lit "./" ++ r.
Definition tailed (w : str) : Prop := w = [] \/ exists q, w = cQuest :: q /\ ~ In cHash q.

Lemma span_tail s w : free_of [cQuest; cHash] s -> tailed w -> span (not_in [cQuest; cHash]) (s ++ w) = (s, w).
Proof.
  intros F T. apply span_app.
  - apply forallb_forall. intros c I. unfold not_in. apply negb_true_iff. apply not_true_iff_false. rewrite existsb_exists. intros (d & J & E).
    apply N.eqb_eq in E. subst d. exact (F c J I).
  - destruct T as [->|(q & -> & _)]; [exact I|reflexivity].
Qed.
Lemma query_tail w : tailed w -> exists o, re_query w = (o, []) /\ (w = [] -> o = None).
Proof.
  intros [->|(q & -> & N)]; [now exists None|]. exists (Some q). split; [|discriminate]. cbn [re_query]. rewrite N.eqb_refl. rewrite span_all; [reflexivity|].
  apply forallb_forall. intros c I. unfold not_in. cbn [existsb]. rewrite orb_false_r. apply negb_true_iff, N.eqb_neq. now intros ->.
Qed.
Lemma split_file s w : begins s -> free_of [cQuest; cHash] s -> tailed w -> ~ has_group (s ++ w) ->
  exists a q, urisplit (lit "file://" ++ s ++ w) = Ok (mkSplit5 (Some (lit "file")) a s q None) /\ (a = None \/ a = Some []) /\ (w = [] -> q = None).
Proof.
  intros B F T G. destruct (query_tail w T) as (q & Q & Q0). unfold urisplit.
  rewrite no_group_find by (intros H; apply G; revert H; apply (group_drop (lit "file://")); cbn; intuition discriminate).
  change (re_scheme (lit "file://" ++ s ++ w)) with (Some (lit "file"), lit "//" ++ s ++ w). cbv iota beta.
  destruct B as [(c & r & E & N)|(r & E)].
  - assert (A : re_authority (lit "//" ++ s ++ w) = (Some [], s ++ w)) by now rewrite E.
    rewrite A. cbv iota beta. unfold re_path. rewrite span_tail by assumption. rewrite Q. cbn [re_fragment].
    exists (Some []), q. split; [|split; [now right|exact Q0]]. reflexivity.
  - assert (A : re_authority (lit "//" ++ s ++ w) = (Some [cDot], cSlash :: r ++ w)) by now rewrite E.
    rewrite A. cbv iota beta. unfold re_path. change (cSlash :: r ++ w) with ((cSlash :: r) ++ w). rewrite span_tail; [|intros d I J; apply (F d I); rewrite E; now right|exact T].
    rewrite Q. cbn [re_fragment]. exists None, q. split; [|split; [now left|exact Q0]]. rewrite E. reflexivity.
Qed.
Lemma parse_file s w p : begins s -> free_of [cQuest; cHash] s -> tailed w -> ~ has_group (s ++ w) -> uri_parse (lit "file://" ++ s ++ w) = Ok p ->
  p_path p = s /\ p_scheme p = Some (lit "file") /\ as_list_netloc p = [] /\ (w = [] -> p_query p = []).
Proof.
  intros B F T G. destruct (split_file s w B F T G) as (a & q & E & A & Q). unfold uri_parse. rewrite E. cbn [rbind s_authority s_query s_scheme s_path s_fragment].
  assert (K : forall y, match q with Some (c :: x) => parse_query_string (c :: x) | _ => Ok [] end = Ok y -> w = [] -> y = []).
  { intros y H W. rewrite (Q W) in H. now injection H as <-. }
  revert K. generalize (match q with Some (c :: x) => parse_query_string (c :: x) | _ => Ok [] end). intros o K.
  destruct A as [-> | ->]; (change (contains (lit "((") []) with false || idtac); cbv iota beta; cbn [rbind];
    (destruct o as [y|]; cbn [rbind]; [|discriminate]); intros H; injection H as <-; cbn; auto.
Qed.
Lemma clean_local s : begins s -> ~ In cBack s -> ~ part_of (lit "://") s -> clean_uri s = lit "file://" ++ s /\ clean_uri (lit "file://" ++ s) = lit "file://" ++ s.
Proof.
  intros B N S.
  assert (P : prefixb (lit "file://") s = false) by (destruct B as [(c & r & -> & _)|(r & ->)]; reflexivity).
  assert (C : contains (lit "://") s = false) by (apply not_true_iff_false; intros H; apply contains_spec in H; exact (S H)).
  assert (Z : normalize_uri s cBack = s).
  { unfold normalize_uri. change (N.eqb cBack cSlash) with false. cbv iota zeta. rewrite replace_char_id by exact N.
    destruct B as [(c & r & -> & M)|(r & ->)]; [|reflexivity]. destruct (N.eqb_spec c cColon) as [->|]; [exfalso; apply M; cbn; auto|reflexivity]. }
  unfold clean_uri. rewrite P, prefixb_app. change (skipn 7 (lit "file://" ++ s)) with s. cbv iota zeta. rewrite Z, C.
  assert (X : prefixb [cSlash] s || prefixb [cDot] s = true) by (destruct B as [(c & r & -> & _)|(r & ->)]; reflexivity).
  rewrite X. cbn [negb andb]. rewrite C. auto.
Qed.

(** ** URIs written so *)
Record calm_uri (s : str) (u : uri) : Prop := {
  cu_text : path_text s; cu_cls : u_cls u = ULocal; cu_sep : u_sep u = cSlash; cu_path : p_path (u_p u) = s;
  cu_scheme : u_scheme u = Some (lit "file"); cu_query : p_query (u_p u) = []; cu_net : as_list_netloc (u_p u) = [] }.

Lemma calm_path s u : calm_uri s u -> u_path u = s.
Proof.
  intros H. unfold u_path, base_path. rewrite (cu_cls _ _ H), (cu_sep _ _ H), N.eqb_refl, (cu_path _ _ H). destruct (px_start _ (cu_text _ _ H)) as [(c & r & -> & N)|(r & ->)]; [|reflexivity].
  change (prefixb (lit "/.") (cSlash :: c :: r)) with ((N.eqb cDot c) && true). destruct (N.eqb_spec cDot c) as [<-|]; [|reflexivity]. exfalso. apply N. cbn. auto.
Qed.
Lemma no_group s : ~ part_of (lit "((") s -> ~ has_group s.
Proof. intros H (x & y & z & -> & _). apply H. now exists x, (y ++ lit "))" ++ z). Qed.
Lemma mk_file s w t sep ex u : begins s -> free_of [cQuest; cHash] s -> tailed w -> ~ In cBack (s ++ w) -> ~ part_of (lit "((") (s ++ w) -> ~ part_of (lit "://") (s ++ w) ->
  t = s ++ w \/ t = lit "file://" ++ s ++ w -> mk_uri ULocal t sep ex = Ok u ->
  u_cls u = ULocal /\ u_sep u = sep /\ p_path (u_p u) = s /\ u_scheme u = Some (lit "file") /\ as_list_netloc (u_p u) = [] /\ (w = [] -> p_query (u_p u) = []).
Proof.
  intros B F T N G S Et. assert (B' : begins (s ++ w)).
  { destruct B as [(c & r & -> & M)|(r & ->)]; [left; exists c, (r ++ w); auto|right; now exists (r ++ w)]. }
  destruct (clean_local (s ++ w) B' N S) as [C1 C2]. unfold mk_uri. destruct (bad_init_kw ex); [discriminate|].
  assert (C : clean_uri t = lit "file://" ++ s ++ w) by now destruct Et as [-> | ->].
  cbv zeta. rewrite C. destruct (uri_parse (lit "file://" ++ s ++ w)) as [p|] eqn:E; cbn [rbind]; [|discriminate].
  destruct (parse_file s w p B F T (no_group _ G) E) as (E1 & E2 & E3 & E4).
  destruct (take_cred (lit "username") (p_username p) ex (p_query p)) as [us ex1].
  destruct (take_cred (lit "password") (p_password p) ex1 (p_query p)) as [pw ex2].
  intros H. injection H as <-. unfold u_scheme. cbn [u_cls u_sep u_p]. auto 10.
Qed.
Lemma written_calm s u : written s u -> calm_uri s u.
Proof.
  intros (P & t & ex & Et & H). pose proof P as [F G S B]. unfold URI in H.
  assert (C : class_of_scheme (Some match scheme_re t with Some s => s | None => lit "file" end) = ULocal).
  { destruct Et as [-> | ->]; [|reflexivity]. destruct B as [(c & r & -> & _)|(r & ->)]; reflexivity. }
  rewrite C in H. rewrite <- (app_nil_r s) in G, S, Et. apply (mk_file s [] t) in H; auto.
  - destruct H as (H1 & H2 & H3 & H4 & H5 & H6). constructor; auto.
  - intros c I. apply F. cbn in *. tauto.
  - now left.
  - rewrite app_nil_r. apply F. cbn. auto.
Qed.

(** A name up to the first question mark *)
Definition cut_query (n : str) : str := fst (span (not_in [cQuest]) n).
Lemma cut_spec n : ~ In cHash n -> exists w, n = cut_query n ++ w /\ tailed w /\ ~ In cQuest (cut_query n).
Proof.
  intros H. pose proof (span_eq (not_in [cQuest]) n) as E. pose proof (span_fst (not_in [cQuest]) n) as F. unfold cut_query.
  destruct (span (not_in [cQuest]) n) as [a b] eqn:X. cbn [fst snd] in *. exists b. split; [auto|]. split.
  - destruct b as [|c q]; [now left|]. right. assert (S : not_in [cQuest] c = false) by (apply (span_snd (not_in [cQuest]) n c q); now rewrite X).
    unfold not_in in S. cbn [existsb] in S. rewrite orb_false_r, negb_false_iff in S. apply N.eqb_eq in S. subst c. exists q. split; [reflexivity|].
    intros I. apply H. rewrite <- E. apply in_app_iff. right. now right.
  - intros I. rewrite forallb_forall in F. specialize (F _ I). discriminate F.
Qed.
Definition stem (s : str) : str := rstrip_p is_slash s.
Lemma stem_spec s : exists k, s = stem s ++ repeat cSlash k /\ forall r, stem s <> r ++ [cSlash].
Proof.
  destruct (rstrip_decomp is_slash s) as (t & E & A & S). exists (length t). split.
  - fold (stem s) in E. rewrite E at 1. f_equal. clear -A. induction t as [|c t IH]; [reflexivity|]. cbn [forallb] in A. apply andb_true_iff in A as [A1 A2].
    unfold is_slash in A1. apply N.eqb_eq in A1. subst c. cbn [length repeat]. now rewrite <- IH.
  - intros r X. fold (stem s) in S. rewrite X, rev_app_distr in S. cbn in S. discriminate S.
Qed.
Lemma stem_begins s y : begins s -> begins (stem s ++ cSlash :: y).
Proof.
  destruct (stem_spec s) as (k & E & T). intros [(c & r & Es & N)|(r & Es)].
  - left. destruct (stem s) as [|z [|z' st]] eqn:St.
    + exfalso. rewrite Es in E. destruct k as [|[|k]]; cbn in E; try discriminate E. injection E as -> _. apply N. now left.
    + exfalso. rewrite Es in E. cbn in E. injection E as <- _. now apply (T []).
    + exists z', (st ++ cSlash :: y). rewrite Es in E. cbn [app] in E. injection E as <- <- _. auto.
  - right. destruct (stem s) as [|z [|z' st]] eqn:St; rewrite Es in E.
    + destruct k; cbn in E; discriminate E.
    + cbn in E. injection E as <- _. now exists y.
    + cbn in E. injection E as <- <- _. exists (st ++ cSlash :: y). reflexivity.
Qed.
Lemma part_cut w c a b : ~ In c w -> part_of w (a ++ c :: b) -> part_of w a \/ part_of w b.
Proof.
  intros N (x & y & E). symmetry in E. apply app_eq_app in E as (l & [[E1 E2]|[E1 E2]]).
  - destruct l as [|d l]; cbn in E2.
    + destruct w as [|d w]; [left; exists [], a; reflexivity|]. cbn in E2. injection E2 as <- _. exfalso. apply N. now left.
    + injection E2 as _ E2. right. now exists l, y.
  - apply app_eq_app in E2 as (l' & [[E2 E3]|[E2 E3]]).
    + destruct l' as [|d l']; cbn in E3.
      * left. rewrite app_nil_r in E2. subst l. exists x, []. now rewrite app_nil_r.
      * injection E3 as <- _. exfalso. apply N. rewrite E2. apply in_app_iff. right. now left.
    + left. exists x, l'. now rewrite E1, E2.
Qed.
Lemma part_front w a b : part_of w a -> part_of w (a ++ b).
Proof. intros (x & y & ->). exists x, (y ++ b). now rewrite <- !app_assoc. Qed.
Lemma no_scheme_join s n : ~ part_of (lit "://") s -> (forall r, s <> r ++ [cSlash]) -> ~ In cSlash n -> ~ part_of (lit "://") (s ++ cSlash :: n).
Proof.
  intros S T N (x & y & E). replace (x ++ lit "://" ++ y) with ((x ++ lit ":/") ++ cSlash :: y) in E by now rewrite <- app_assoc.
  apply app_eq_app in E as (l & [[E1 E2]|[E1 E2]]).
  - destruct l as [|d l]; cbn in E2.
    + rewrite app_nil_r in E1. apply (T (x ++ lit ":")). rewrite E1, <- app_assoc. reflexivity.
    + injection E2 as D E2. apply S. rewrite E1, <- D. exists x, l. rewrite <- app_assoc. reflexivity.
  - destruct l as [|d l]; cbn in E2.
    + rewrite app_nil_r in E1. apply (T (x ++ lit ":")). rewrite <- E1, <- app_assoc. reflexivity.
    + injection E2 as _ E2. apply N. rewrite E2. apply in_app_iff. right. now left.
Qed.

(** The name [n] joined to a URI *)
Definition joined_path (s n : str) : str := stem s ++ cSlash :: cut_query n.
Lemma calm_div s u n v : calm_uri s u -> tame_name n -> u_div u n = Ok v -> calm_uri (joined_path s n) v.
Proof.
  intros [[F G S B] C1 C2 C3 C4 C5 C6] [N1 N2 _ _]. unfold u_div, u_join. rewrite C2, C1, C3, C4, C5, C6. change (N.eqb cSlash cSlash) with true. cbv iota zeta.
  cbn [rev app map uri_from_parts rbind join_with]. fold (stem s).
  destruct (cut_spec n) as (w & En & Tw & Qn); [apply N1; cbn; auto|].
  destruct (stem_spec s) as (k & Es & Ts).
  assert (Fs : free_of [cBack; cQuest; cHash] (stem s)). { intros c I J. apply (F c I). rewrite Es. apply in_app_iff. now left. }
  assert (Gs : ~ part_of (lit "((") (stem s)). { intros H. apply G. rewrite Es. now apply part_front. }
  assert (Ss : ~ part_of (lit "://") (stem s)). { intros H. apply S. rewrite Es. now apply part_front. }
  set (j := joined_path s n).
  assert (Ej : stem s ++ cSlash :: n = j ++ w). { unfold j, joined_path. rewrite <- app_assoc. cbn [app]. now rewrite <- En. }
  change (lit "file" ++ lit "://" ++ stem s ++ cSlash :: n) with (lit "file://" ++ stem s ++ cSlash :: n). rewrite Ej.
  assert (Xb : ~ In cBack (j ++ w)).
  { rewrite <- Ej. rewrite in_app_iff. intros [I|[I|I]]; [revert I; apply Fs; cbn; auto|discriminate I|revert I; apply N1; cbn; auto]. }
  assert (Xg : ~ part_of (lit "((") (j ++ w)).
  { rewrite <- Ej. intros H. apply part_cut in H as [H|H]; auto. cbn. intuition discriminate. }
  assert (Xs : ~ part_of (lit "://") (j ++ w)) by (rewrite <- Ej; apply no_scheme_join; auto; apply N1; cbn; auto).
  assert (Fj : free_of [cQuest; cHash] j).
  { intros c I J. unfold j, joined_path in J. apply in_app_iff in J as [J|[J|J]].
    - apply (Fs c); [cbn in *; tauto|exact J].
    - subst c. cbn in I. intuition discriminate.
    - destruct I as [<-|[<-|[]]]; [exact (Qn J)|]. apply (N1 cHash); [cbn; auto|]. rewrite En. apply in_app_iff. now left. }
  assert (Bj : begins j) by now apply stem_begins.
  destruct (mk_uri ULocal (lit "file://" ++ j ++ w) cSlash (u_all_extras u)) as [r|] eqn:E; cbn [rbind]; [|discriminate]. intros X. injection X as <-.
  apply (mk_file j w) in E; auto. destruct E as (H1 & H2 & H3 & H4 & H5 & _).
  constructor; cbn [u_cls u_sep u_set_query u_p p_query]; auto.
  - constructor; auto.
    + intros c [<-|I]; [|apply Fj; cbn in *; tauto]. intros I. apply Xb. apply in_app_iff. now left.
    + intros H. apply Xg. now apply part_front.
    + intros H. apply Xs. now apply part_front.
Qed.

(** ** Lookup when entries are missing *)
Definition thin (t t0 : ptree) : Prop := forall q, pget q t = pget q t0 \/ pget q t = None.
Lemma thin_get t t0 q e : thin t t0 -> pget q t = Some e -> pget q t0 = Some e.
Proof. intros H E. destruct (H q) as [X|X]; congruence. Qed.
Lemma thin_refl t : thin t t.
Proof. intros q. now left. Qed.
Lemma thin_trans t1 t2 t3 : thin t1 t2 -> thin t2 t3 -> thin t1 t3.
Proof. intros A B q. destruct (A q) as [X|X]; [|now right]. destruct (B q) as [Y|Y]; [left|right]; congruence. Qed.
Lemma thin_del t p : thin (pdel p t) t.
Proof. intros q. rewrite LocalFacts1.pget_pdel. destruct (Misc.path_eqb q p); auto. Qed.

Lemma walk_thin t t0 f : thin t t0 -> forall b cs cur p e, pwalk t f b cur cs = Ok (At p e) -> pwalk t0 f b cur cs = Ok (At p e).
Proof.
  intros T. induction b as [|b IHb]; intros cs; induction cs as [|c cs IH]; intros cur p e; rewrite (pwalk_eq t _ _ cur), (pwalk_eq t0 _ _ cur);
    (destruct (pget cur t) as [[d mo mt|mo mt|tg]|] eqn:E; try discriminate; rewrite (thin_get _ _ _ _ T E); auto);
    (destruct (str_eqb c [] || str_eqb c dot); [now apply IH|]); (destruct (str_eqb c dotdot); [now apply IH|]);
    (destruct (pget (cur ++ [c]) t) as [[d' mo' mt'|mo' mt'|tg]|] eqn:E'; [| | |destruct cs; discriminate]); rewrite (thin_get _ _ _ _ T E'); try (now apply IH);
    (destruct (match cs with [] => negb f | _ => false end); [auto|]); auto; destruct tg; auto.
Qed.
Lemma look_thin x x0 f s p e : p_cwd x = p_cwd x0 -> thin (p_tree x) (p_tree x0) -> plook x f s = Ok (At p e) -> plook x0 f s = Ok (At p e).
Proof. intros C T. unfold plook. rewrite C. destruct (has_char 0 s); [auto|]. destruct s; [auto|]. now apply walk_thin. Qed.

(** The last piece of a path *)
Lemma walk_snoc t c : c <> dotdot -> forall b cs cur q e, pwalk t false b cur (cs ++ [c]) = Ok (At q e) ->
  exists p mo mt, pwalk t true b cur cs = Ok (At p (PDir mo mt)) /\ (if str_eqb c [] || str_eqb c dot then q = p else q = p ++ [c]).
Proof.
  intros N. assert (Nb : str_eqb c dotdot = false) by (apply not_true_iff_false; intros H; apply str_eqb_eq in H; auto).
  induction b as [|b IHb]; intros cs; induction cs as [|a cs IH]; intros cur q e; cbn [app]; rewrite (pwalk_eq t false _ cur), (pwalk_eq t true _ cur);
    destruct (pget cur t) as [[d mo mt|mo mt|tg]|] eqn:E; try discriminate.
  - rewrite Nb. destruct (str_eqb c [] || str_eqb c dot).
    + rewrite pwalk_eq, E. intros X. injection X as <- <-. eauto 10.
    + destruct (pget (cur ++ [c]) t) as [[d' mo' mt'|mo' mt'|tg]|] eqn:E'; try discriminate; [| |cbn; intros X; injection X as <- <-; eauto 10];
        rewrite pwalk_eq, E'; intros X; injection X as <- <-; eauto 10.
  - destruct (str_eqb a [] || str_eqb a dot); [now apply IH|]. destruct (str_eqb a dotdot); [now apply IH|].
    destruct (pget (cur ++ [a]) t) as [[d' mo' mt'|mo' mt'|tg]|] eqn:E'; try (now apply IH); destruct (cs ++ [c]) eqn:Z; try discriminate; destruct cs; discriminate.
  - rewrite Nb. destruct (str_eqb c [] || str_eqb c dot).
    + rewrite pwalk_eq, E. intros X. injection X as <- <-. eauto 10.
    + destruct (pget (cur ++ [c]) t) as [[d' mo' mt'|mo' mt'|tg]|] eqn:E'; try discriminate; [| |cbn; intros X; injection X as <- <-; eauto 10];
        rewrite pwalk_eq, E'; intros X; injection X as <- <-; eauto 10.
  - destruct (str_eqb a [] || str_eqb a dot); [now apply IH|]. destruct (str_eqb a dotdot); [now apply IH|].
    destruct (pget (cur ++ [a]) t) as [[d' mo' mt'|mo' mt'|tg]|] eqn:E'; try (now apply IH); [|destruct (cs ++ [c]) eqn:Z; [destruct cs|]; discriminate].
    assert (Z : match cs ++ [c] with [] => negb false | _ => false end = false) by now destruct cs. rewrite Z.
    assert (Z' : match cs with [] => negb true | _ => false end = false) by now destruct cs. rewrite Z'.
    destruct tg as [|g tg]; [discriminate|]. rewrite app_assoc. apply IHb.
Qed.
