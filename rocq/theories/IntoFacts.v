(** Texts of local paths below a path, and what they lead to. *)
From Verif Require Import Str Exc UriParse BaseUri StrFacts SpecUri SpecNames UriFacts Mem Misc Generic Posix SpecLocal Local LocalFacts1 LocalFacts12 LocalFacts15 LocalFacts17 LocalFacts18 MoveFacts.
From Verif Require Import SpecPosix SpecStay SpecInto PosixFacts PosixFacts2 StayFacts StayFacts2 StayFacts3.
Open Scope string_scope.
Open Scope list_scope.

(** ** Texts *)
Lemma under_nil s : under s [] = s. Proof. unfold under. cbn. apply app_nil_r. Qed.
Lemma under_snoc s ks k : under s (ks ++ [k]) = under s ks ++ cSlash :: k.
Proof. unfold under. rewrite map_app, concat_app. cbn. now rewrite app_nil_r, app_assoc. Qed.
Lemma under_app s ks ls : under (under s ks) ls = under s (ks ++ ls).
Proof. unfold under. now rewrite map_app, concat_app, app_assoc. Qed.
Lemma under_join s ks : ks <> [] -> under s ks = s ++ cSlash :: join_with [cSlash] ks.
Proof.
  intros N. unfold under. f_equal. induction ks as [|k ks IH]; [easy|]. destruct ks as [|l ks]; [cbn; now rewrite app_nil_r|].
  rewrite join_with_cons by easy. cbn [map concat]. cbn [map concat] in IH. rewrite IH by easy. cbn. reflexivity.
Qed.
Lemma firm_last n : firm_name n -> forall r, n <> r ++ [cSlash].
Proof. intros F r E. apply (fi_signs _ F cSlash); [cbn; auto|]. rewrite E. apply in_app_iff. right. now left. Qed.
Lemma firm_ne n : firm_name n -> n <> []. Proof. intros F E. apply (fi_plain _ F). now left. Qed.
Lemma firm_end (ks : list str) s : Forall firm_name ks -> ks <> [] -> forall r, under s ks <> r ++ [cSlash].
Proof.
  intros F N r. destruct (exists_last N) as (l & k & ->). apply Forall_app in F as [_ F]. inversion F; subst. rewrite under_snoc.
  pose proof (firm_ne _ H1) as E. destruct (exists_last E) as (m & c & Ek). rewrite Ek, app_comm_cons, app_assoc. intros X. apply app_inj_tail in X as [_ ->]. now apply (firm_last _ H1 m).
Qed.
Lemma bare_end s ks : Forall firm_name ks -> (forall r, s <> r ++ [cSlash]) -> forall r, under s ks <> r ++ [cSlash].
Proof. intros F B. destruct ks as [|k ks]; [now rewrite under_nil|]. now apply firm_end. Qed.
Lemma path_under s ks : bare s -> Forall firm_name ks -> path_text (under s ks).
Proof.
  intros [P B] F. induction ks as [|k ks IH] using rev_ind; [now rewrite under_nil|]. apply Forall_app in F as [F1 F2]. inversion F2 as [|? ? Fk _]; subst. rewrite under_snoc.
  pose proof (bare_end s ks F1 B) as B'. destruct (IH F1) as [P1 P2 P3 P4]. pose proof Fk as [K1 K2 K3 K4]. constructor.
  - intros c I J. apply in_app_iff in J as [J|[J|J]]; [now apply (P1 c)| |apply (K1 c); [cbn in *; tauto|exact J]]. subst c. cbn in I. intuition discriminate.
  - intros H. apply part_cut in H as [H|H]; auto. cbn. intuition discriminate.
  - apply no_scheme_join; auto. apply K1. cbn. auto.
  - destruct P4 as [(c & r & -> & M)|(r & ->)]; [left; exists c, (r ++ cSlash :: k); auto|right; exists (r ++ cSlash :: k)]. reflexivity.
Qed.
Lemma bare_under s ks : bare s -> Forall firm_name ks -> bare (under s ks).
Proof. intros B F. split; [now apply path_under|]. apply bare_end; auto. apply B. Qed.
(** A path with its URI *)
Definition set_uri (s : str) (u : uri) : Prop := calm_uri s u /\ u_uri u = lit "file://" ++ s.
Lemma made_text t sep ex u : mk_uri ULocal t sep ex = Ok u -> u_uri u = clean_uri t.
Proof.
  unfold mk_uri. destruct (bad_init_kw ex); [discriminate|]. cbv zeta. destruct (uri_parse (clean_uri t)) as [p|]; cbn [rbind]; [|discriminate].
  destruct (take_cred (lit "username") (p_username p) ex (p_query p)) as [us ex1]. destruct (take_cred (lit "password") (p_password p) ex1 (p_query p)) as [pw ex2]. intros H. injection H as <-. reflexivity.
Qed.
Lemma make_set s t ex u : path_text s -> t = s \/ t = lit "file://" ++ s -> mk_uri ULocal t cSlash ex = Ok u -> set_uri s u.
Proof.
  intros P Et H. pose proof P as [F G S B]. assert (Nb : ~ In cBack s) by (apply F; cbn; auto). split.
  - pose proof H as H'. rewrite <- (app_nil_r s) in G, S, Et. apply (mk_file s [] t) in H'; auto.
    + destruct H' as (H1 & H2 & H3 & H4 & H5 & H6). constructor; auto.
    + intros c I. apply F. cbn in *. tauto.
    + now left.
    + now rewrite app_nil_r.
  - rewrite (made_text _ _ _ _ H). destruct (clean_local s B Nb S) as [C1 C2]. now destruct Et as [-> | ->].
Qed.
Lemma written_set s u : written s u -> set_uri s u.
Proof.
  intros (P & t & ex & Et & H). unfold URI in H. pose proof (px_start _ P) as B.
  assert (C : class_of_scheme (Some match scheme_re t with Some s => s | None => lit "file" end) = ULocal).
  { destruct Et as [-> | ->]; [|reflexivity]. destruct B as [(c & r & -> & _)|(r & ->)]; reflexivity. }
  rewrite C in H. now apply (make_set s t ex).
Qed.
Lemma bare_stem s : (forall r, s <> r ++ [cSlash]) -> stem s = s.
Proof.
  intros B. destruct (stem_spec s) as (k & E & _). destruct k as [|k]; [cbn in E; now rewrite app_nil_r in E|].
  exfalso. apply (B (stem s ++ repeat cSlash k)). rewrite <- app_assoc. rewrite E at 1. f_equal. now rewrite <- repeat_cons.
Qed.
Lemma set_join s u ks v : set_uri s u -> (forall r, s <> r ++ [cSlash]) -> Forall firm_name ks -> ks <> [] -> u_div u (join_with [cSlash] ks) = Ok v -> set_uri (under s ks) v.
Proof.
  intros [[P C1 C2 C3 C4 C5 C6] _] B F N. unfold u_div, u_join. rewrite C2, C1, C3, C4, C5, C6. change (N.eqb cSlash cSlash) with true. cbv iota zeta.
  cbn [rev app map uri_from_parts rbind join_with]. fold (stem s). rewrite bare_stem by exact B. rewrite <- under_join by exact N.
  change (lit "file" ++ lit "://" ++ under s ks) with (lit "file://" ++ under s ks).
  destruct (mk_uri ULocal (lit "file://" ++ under s ks) cSlash (u_all_extras u)) as [r|] eqn:E; cbn [rbind]; [|discriminate]. intros X. injection X as <-.
  apply (make_set (under s ks)) in E; auto; [|now apply path_under]. destruct E as [[H1 H2 H3 H4 H5 H6 H7] H8]. split; [|exact H8]. constructor; cbn [u_cls u_sep u_set_query u_p p_query]; auto.
Qed.
Lemma set_div s u n v : set_uri s u -> (forall r, s <> r ++ [cSlash]) -> firm_name n -> u_div u n = Ok v -> set_uri (under s [n]) v.
Proof. intros S B F E. apply (set_join s u [n]); auto. discriminate. Qed.
(** The directory of a path: a path, the root, or the working directory *)
Lemma split_top ex d : (mk_uri ULocal (lit "file:///") cSlash ex = Ok d -> u_path d = [cSlash] /\ u_scheme d = Some (lit "file")) /\ (mk_uri ULocal (lit "file://.") cSlash ex = Ok d -> u_path d = lit "." /\ u_scheme d = Some (lit "file")).
Proof.
  split; unfold mk_uri; (destruct (bad_init_kw ex); [discriminate|]); cbv zeta.
  - set (p := uri_parse (clean_uri (lit "file:///"))). vm_compute in p. subst p. cbn [rbind p_username p_password p_query].
    destruct (take_cred _ _ ex _) as [us ex1]. destruct (take_cred _ _ ex1 _) as [pw ex2]. intros H. injection H as <-. split; reflexivity.
  - set (p := uri_parse (clean_uri (lit "file://."))). vm_compute in p. subst p. cbn [rbind p_username p_password p_query].
    destruct (take_cred _ _ ex _) as [us ex1]. destruct (take_cred _ _ ex1 _) as [pw ex2]. intros H. injection H as <-. split; reflexivity.
Qed.
Lemma cut_slash a n : ~ In cSlash n -> cut_last cSlash (a ++ cSlash :: n) = Some (a, n). Proof. intros N. now apply cut_last_app. Qed.
Lemma set_split sw sa ks k u d n : anchor sw sa -> Forall firm_name (ks ++ [k]) -> set_uri (under sw (ks ++ [k])) u -> u_split u = Ok (d, n) ->
  n = k /\ ((ks = [] /\ u_path d = sa /\ u_scheme d = Some (lit "file")) \/ (ks <> [] /\ set_uri (under sw ks) d)).
Proof.
  intros A F [C U]. rewrite under_snoc in C, U. apply Forall_app in F as [F Fk]. inversion Fk as [|? ? Fk' _]; subst. pose proof Fk' as [K1 K2 K3 K4].
  unfold u_split. rewrite U. assert (Nk : ~ In cSlash k) by (apply K1; cbn; auto). rewrite (app_assoc (lit "file://")), cut_slash by exact Nk.
  assert (Q : cut_first cQuest k = None) by (apply cut_first_none; apply K1; cbn; auto). rewrite Q. rewrite (cu_cls _ _ C), (cu_sep _ _ C). cbv zeta.
  assert (Path : ks <> [] \/ bare sw -> path_text (under sw ks) /\ forall r, under sw ks <> r ++ [cSlash]).
  { intros H. assert (E : forall r, under sw ks <> r ++ [cSlash]). { destruct H as [H|H]; [now apply firm_end|apply bare_end; auto; apply H]. }
    split; [|exact E]. destruct H as [H|H]; [|now apply path_under]. destruct (cu_text _ _ C) as [P1 P2 P3 P4].
    constructor.
    - intros c I J. apply (P1 c I). apply in_app_iff. now left.
    - intros X. apply P2. now apply part_front.
    - intros X. apply P3. now apply part_front.
    - destruct ks as [|j ks]; [easy|]. inversion F as [|? ? Fj _]; subst. destruct A as [[-> ->]|[[-> ->]|[A ->]]].
      + left. unfold under in *. cbn [app map concat] in *. pose proof (firm_ne _ Fj) as Ej. destruct j as [|c j]; [easy|]. exists c, (j ++ concat (map (cons cSlash) ks)). split; [reflexivity|].
        destruct P4 as [(c' & r & X & M)|(r & X)]; cbn in X; [injection X as X _; now subst|discriminate].
      + right. exists (j ++ concat (map (cons cSlash) ks)). reflexivity.
      + destruct (px_start _ (proj1 A)) as [(c & r & -> & M)|(r & ->)]; [left; exists c, (r ++ concat (map (cons cSlash) (j :: ks))); auto|right; exists (r ++ concat (map (cons cSlash) (j :: ks)))]. reflexivity. }
  assert (Go : path_text (under sw ks) /\ (forall r, under sw ks <> r ++ [cSlash]) -> forall d0 n0, 
    (rlet d <- mk_uri ULocal (match (if suffixb (lit "//") (lit "file://" ++ under sw ks) then (lit "file://" ++ under sw ks) ++ [cSlash] else lit "file://" ++ under sw ks) with [] => [cDot] | _ => (if suffixb (lit "//") (lit "file://" ++ under sw ks) then (lit "file://" ++ under sw ks) ++ [cSlash] else lit "file://" ++ under sw ks) end) cSlash (u_all_extras u); Ok (d, k)) = Ok (d0, n0) -> n0 = k /\ set_uri (under sw ks) d0).
  { intros [P E] d0 n0. assert (S : suffixb (lit "//") (lit "file://" ++ under sw ks) = false).
    { destruct (suffixb _ _) eqn:X; auto. exfalso. apply suffixb_spec in X as [z X].
      destruct (exists_last_or (under sw ks)) as [Z|(l & c & Z)]; [rewrite Z in P; destruct (px_start _ P) as [(? & ? & ? & _)|(? & ?)]; discriminate|].
      rewrite Z in X. change (lit "//") with ([cSlash] ++ [cSlash]) in X. rewrite !app_assoc in X. apply app_inj_tail in X as [_ ->]. now apply (E l). }
    rewrite S. change (mk_uri ULocal ?a cSlash ?b) with (mk_uri ULocal (lit "file://" ++ under sw ks) cSlash b).
    destruct (mk_uri _ _ _ _) as [r|] eqn:R; cbn [rbind]; [|discriminate]. intros X. injection X as <- <-. split; [reflexivity|]. apply (make_set _ _ _ _ P (or_intror eq_refl) R). }
  destruct ks as [|j ks].
  - destruct A as [[-> ->]|[[-> ->]|[A ->]]].
    + rewrite under_nil. change (mk_uri ULocal ?a cSlash ?b) with (mk_uri ULocal (lit "file:///") cSlash b).
      destruct (mk_uri _ _ _ _) as [r|] eqn:R; cbn [rbind]; [|discriminate]. intros X. injection X as <- <-. split; [reflexivity|]. left. split; [reflexivity|]. now apply split_top in R.
    + rewrite under_nil. change (mk_uri ULocal ?a cSlash ?b) with (mk_uri ULocal (lit "file://.") cSlash b).
      destruct (mk_uri _ _ _ _) as [r|] eqn:R; cbn [rbind]; [|discriminate]. intros X. injection X as <- <-. split; [reflexivity|]. left. split; [reflexivity|]. now apply split_top in R.
    + intros X. apply Go in X as [-> X]; [|apply Path; now right]. split; [reflexivity|]. left. split; [reflexivity|]. rewrite under_nil in X. split; [apply calm_path, X|apply X].
  - intros X. apply Go in X as [-> X]; [|apply Path; left; discriminate]. split; [reflexivity|]. right. split; [discriminate|exact X].
Qed.
