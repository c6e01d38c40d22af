(** The property lemmas about URIs, continued: urisplit, urljoin, file names. *)
From Verif Require Import Str Exc Utf8 UriParse BaseUri StrFacts Utf8Facts UriFacts SpecUri UriFacts2 UriFacts3 UriFacts4 UriFacts5 UriFacts6.
From Coq Require Import ZifyBool ZifyNat ZifyN.
Local Open Scope N_scope.

Lemma close_inner_sound s b r : close_inner s = Some (b, r) -> s = b ++ lit "))" ++ r /\ ~ In cNL b.
Proof.
  revert b r; induction s as [|c s IH]; intros b r; cbn [close_inner]; [discriminate|].
  destruct (prefixb (lit "))") (c :: s)) eqn:P.
  - intros E. injection E as <- <-. apply prefixb_spec in P as [x E]. split; auto.
    cbn in E. injection E as -> ->. reflexivity.
  - destruct (N.eqb_spec c cNL); [discriminate|].
    destruct (close_inner s) as [[b' r']|]; [|discriminate]. intros E. injection E as <- <-.
    destruct (IH b' r' eq_refl) as [-> H]. split; [reflexivity|]. intros [->|Hin]; auto.
Qed.
Lemma find_inner_sound s b m r : find_inner s = Some (b, m, r) ->
  exists y, m = lit "((" ++ y ++ lit "))" /\ s = b ++ m ++ r /\ ~ In cNL y.
Proof.
  revert b m r; induction s as [|c s IH]; intros b m r; cbn [find_inner]; [discriminate|].
  destruct (prefixb (lit "((") (c :: s)) eqn:P.
  - apply prefixb_spec in P as [x E]. cbn in E. injection E as -> ->. cbn [tl].
    destruct (close_inner x) as [[y z]|] eqn:C.
    + intros E. injection E as <- <- <-. apply close_inner_sound in C as [-> H].
      exists y. repeat split; auto. cbn. now rewrite <- !app_assoc.
    + destruct (find_inner _) as [[[b' m'] r']|]; [|discriminate]. intros E. injection E as <- <- <-.
      destruct (IH b' m' r' eq_refl) as (y & -> & E2 & H). exists y. rewrite E2. repeat split; auto.
  - destruct (find_inner s) as [[[b' m'] r']|]; [|discriminate]. intros E. injection E as <- <- <-.
    destruct (IH b' m' r' eq_refl) as (y & -> & E2 & H). exists y. rewrite E2. repeat split; auto.
Qed.
Lemma no_group_find s : ~ has_group s -> find_inner s = None.
Proof.
  intros H. destruct (find_inner s) as [[[b m] r]|] eqn:E; auto. exfalso. apply H.
  apply find_inner_sound in E as (y & -> & -> & Hn). exists b, y, r. split; auto. now rewrite <- !app_assoc.
Qed.
Lemma group_drop pre s : ~ In cLpar pre -> has_group (pre ++ s) -> has_group s.
Proof.
  intros Hp (x & y & z & E & Hn). revert x E. induction pre as [|c pre IH]; intros x E.
  - now exists x, y, z.
  - destruct x as [|d x]; cbn in E; injection E as -> E.
    + exfalso. apply Hp. now left.
    + apply (IH (fun H => Hp (or_intror H)) x E).
Qed.

(** C01 *)
Lemma unsplit_text s a path q f :
  split_ok s a path q f ->
  uriunsplit (Some s) (Some a) (Some path) q f = s ++ lit "://" ++ a ++ path ++ qtext q ++ ftext f.
Proof.
  intros [[Hs _] [Hp _] Hq Hf Ha]. unfold uriunsplit, opt_add.
  destruct s as [|c s]; [easy|].
  assert (a <> []) by (destruct Ha as [(v & -> & _)|(? & _)]; easy).
  destruct a as [|ca a]; [easy|].
  assert (E1 : match path with [] => [] | c :: w => c :: w end = path) by (now destruct path).
  destruct path as [|cp path], q as [[|cq q]|], f as [[|cf f]|]; try (now destruct Hq); try (now destruct Hf);
    cbn [qtext ftext]; rewrite <- ?app_assoc; cbn [app]; rewrite <- ?app_assoc, ?app_nil_r; reflexivity.
Qed.
Lemma urisplit_unsplit s a path q f :
  split_ok s a path q f ->
  urisplit (uriunsplit (Some s) (Some a) (Some path) q f)
  = Ok (mkSplit5 (Some s) (Some a) (fst (path_with_fragment s path f)) q (snd (path_with_fragment s path f))).
Proof.
  intros H. rewrite unsplit_text by auto. destruct H as [[Hs1 Hs2] [Hp1 Hp2] Hq Hf Ha].
  assert (Hh : heads [cSlash] path) by (destruct Hp1 as [->|[r ->]]; cbn; auto).
  assert (Oq : ook [cHash] q) by (destruct q; [apply Hq|exact I]).
  assert (Of : ook [cNL] f) by (destruct f; [apply Hf|exact I]).
  assert (Hs3 : avoids [cColon; cSlash; cQuest; cHash] s) by (eapply avoids_incl; [|exact Hs2]; incl_tac).
  destruct Ha as [(v & -> & Hv & Hn & Hc)|(Ha1 & Ha2 & Ha3 & Ha4 & Ha5)].
  - apply (urisplit_assembled _ _ _ _ _ true); auto.
    + replace (s ++ lit "://" ++ (lit "((" ++ v ++ lit "))") ++ path ++ qtext q ++ ftext f)
        with ((s ++ lit "://") ++ lit "((" ++ v ++ lit "))" ++ path ++ qtext q ++ ftext f)
        by (now rewrite <- !app_assoc).
      apply find_inner_some; auto.
      * rewrite in_app_iff. intros [H|H]; [revert H; apply Hs2; cbn; tauto|].
        cbn in H. intuition discriminate.
      * now apply contains_no.
    + discriminate.
  - apply (urisplit_assembled _ _ _ _ _ false); auto. split; [|split; auto].
    + now apply no_group_find.
    + now apply contains_no.
Qed.

(** C02 *)
Lemma authority_roundtrip user pass host port :
  (match user with Some u => u <> [] /\ free_of [cColon; cAt] u | None => True end) ->
  (match pass with Some p => p <> [] /\ free_of [cAt] p | None => True end) ->
  (pass <> None -> user <> None) ->
  host <> [] -> free_of [cColon; cAt] host ->
  (match port with Some p => p <> [] /\ free_of [cAt] p | None => True end) ->
  exists t, join_authority user pass (Some host) port = Ok t /\
            split_authority t = (user, pass, Some host, port).
Proof.
  intros Hu Hp Hup Hh Hh2 Hpo.
  pose proof (split_authority_join user pass host port) as K.
  exists ((match user with
       | Some u => u ++ (match pass with Some p => cColon :: p | None => [] end) ++ [cAt]
       | None => []
       end) ++ host ++ (match port with Some n => cColon :: n | None => [] end)).
  split.
  - unfold join_authority, opt_add. f_equal.
    destruct user as [[|c u]|], pass as [[|d p]|], port as [[|o q]|]; try (now destruct Hu); try (now destruct Hp);
      try (now destruct Hpo); try reflexivity; exfalso; now apply Hup.
  - apply K; auto. destruct port; [apply Hpo|exact I].
Qed.

(** C15 *)
Lemma urisplit_raises t e : urisplit t = Raise e -> e = AttributeError.
Proof.
  unfold urisplit. destruct (match find_inner t with Some _ => _ | None => _ end) as [iv t'].
  destruct (re_scheme t') as [sc r1]. destruct (re_authority r1) as [au r2]. destruct (re_path r2) as [pa r3].
  destruct (re_query r3) as [q r4]. destruct au as [a|].
  - destruct (if str_eqb _ _ then _ else _) as [a2 p2].
    destruct (if _ && _ then _ else _) as [p3 f3]. discriminate.
  - intros H. now injection H.
Qed.
Lemma relative_ref_raises base ref :
  (forall x y, ref <> x ++ lit "//" ++ y) -> ~ has_group ref ->
  urisplit ref = Raise AttributeError /\ urljoin base ref = Raise AttributeError.
Proof.
  intros H1 H2.
  assert (E : urisplit ref = Raise AttributeError).
  { unfold urisplit. rewrite no_group_find by auto.
    assert (K : forall sc r1, re_scheme ref = (sc, r1) -> exists x, ref = x ++ r1).
    { unfold re_scheme. intros sc r1. pose proof (span_eq (not_in [cColon; cSlash; cQuest; cHash]) ref) as S.
      destruct (span _ ref) as [[|x w] [|c r]]; cbn in S.
      - intros E. injection E as <- <-. now exists [].
      - intros E. injection E as <- <-. now exists [].
      - intros E. injection E as <- <-. now exists [].
      - destruct (N.eqb_spec c cColon).
        + intros E. injection E as <- <-. exists (x :: w ++ [c]). rewrite <- S. cbn. now rewrite <- app_assoc.
        + intros E. injection E as <- <-. now exists []. }
    destruct (re_scheme ref) as [sc r1] eqn:E1. destruct (K _ _ eq_refl) as [x Ex].
    assert (E2 : re_authority r1 = (None, r1)).
    { unfold re_authority. destruct (prefixb (lit "//") r1) eqn:P; auto. apply prefixb_spec in P as [y ->].
      exfalso. exact (H1 x y Ex). }
    rewrite E2. destruct (re_path r1) as [pa r3]. destruct (re_query r3) as [q r4]. reflexivity. }
  split; auto. unfold urljoin. destruct (urisplit base) as [b|e] eqn:B; cbn [rbind].
  - now rewrite E.
  - now rewrite (urisplit_raises _ _ B).
Qed.
Lemma urljoin_absolute base bs s a path q f :
  urisplit base = Ok bs -> split_ok s a path q f ->
  (s_scheme bs <> Some s \/ s = lit "http" \/ s = lit "https" \/ q = None \/ f = None) ->
  let ref := uriunsplit (Some s) (Some a) (Some path) q f in
  urljoin base ref = Ok ref.
Proof.
  intros B H Hor ref. unfold urljoin. rewrite B. cbn [rbind].
  pose proof (urisplit_unsplit _ _ _ _ _ H) as U. fold ref in U. rewrite U.
  cbn [rbind s_scheme s_authority s_path s_query s_fragment].
  destruct (ostr_eqb (s_scheme bs) (Some s)) eqn:E; [|reflexivity]. cbn [negb].
  apply ostr_eqb_spec in E. rewrite E. f_equal. unfold ref.
  destruct H as [[Hs1 Hs2] [Hp1 Hp2] Hq Hf _].
  unfold path_with_fragment. destruct f as [[|cf fr]|]; [now destruct Hf| |reflexivity].
  destruct (is_http (Some s)) eqn:Hh; cbn [fst snd]; [reflexivity|].
  destruct Hor as [Hor|[->|[->|[->|Hor]]]]; try discriminate; try easy.
  unfold uriunsplit, opt_add. f_equal. f_equal.
  destruct path as [|cp path]; cbn [app]; rewrite ?app_nil_r; reflexivity.
Qed.

(** C60 *)
Lemma parse_nohost (sch path : str) f :
  sch <> [] -> avoids [cColon; cSlash; cQuest; cHash; cLpar] sch -> is_http (Some sch) = false ->
  heads [cSlash] path -> avoids [cQuest; cHash] path ->
  ~ has_group (path ++ ftext f) ->
  (match f with Some f => f <> [] /\ ~ In cNL f | None => True end) ->
  uri_parse (sch ++ lit "://" ++ path ++ ftext f)
  = Ok (parse_of sch NoAuth (path ++ ftext f) [] (match f with Some _ => Some [] | None => None end)).
Proof.
  intros Hs Hs2 Hh Hp Hp2 Hg Hf.
  pose proof (urisplit_assembled [] sch path None f false) as U. cbn [qtext app] in U.
  unfold uri_parse. rewrite U; auto.
  - cbn [rbind s_authority s_query s_scheme s_path s_fragment].
    change (contains (lit "((") []) with false. cbv iota. cbn [rbind].
    unfold path_with_fragment. destruct f as [fr|].
    + destruct Hf as [Hf _]. destruct fr as [|c fr]; [easy|]. rewrite Hh. reflexivity.
    + cbn. rewrite app_nil_r. reflexivity.
  - eapply avoids_incl; [|exact Hs2]. incl_tac.
  - split; [|split; [apply avoids_nil|reflexivity]]. apply no_group_find.
    intros G. apply Hg. apply (group_drop (sch ++ lit "://")); [|now rewrite <- app_assoc].
    rewrite in_app_iff. intros [H|H]; [revert H; apply Hs2; cbn; tauto|]. cbn in H. intuition discriminate.
  - discriminate.
  - exact I.
  - destruct f as [fr|]; [|exact I]. intros c [<-|[]]. apply Hf.
Qed.
Definition mem_root : uri := made UMemory (lit "memory:///") cSlash (parse_of (lit "memory") NoAuth [cSlash] [] None) [].
Lemma mem_root_ok : URI (lit "memory:///") cSlash [] = Ok mem_root.
Proof. reflexivity. Qed.
Lemma usable_name_path n : usable_name n ->
  exists r, u_div mem_root n = Ok r /\ u_cls r = UMemory /\ u_path r = cSlash :: n /\ p_path (u_p r) = cSlash :: n.
Proof.
  intros [Hn Hs Ht Hg Hd].
  assert (T : exists p1 f, n = p1 ++ ftext f /\ avoids [cQuest; cHash] p1 /\
                (match f with Some f => f <> [] /\ ~ In cNL f | None => True end)).
  { destruct Ht as [p Hp|p f Hp Hf Hf2].
    - exists p, None. cbn. now rewrite app_nil_r.
    - exists p, (Some f). repeat split; auto. apply Hf2. now left. }
  destruct T as (p1 & f & E & A & F).
  assert (P : uri_parse (lit "memory:///" ++ n) =
     Ok (parse_of (lit "memory") NoAuth (cSlash :: n) [] (match f with Some _ => Some [] | None => None end))).
  { rewrite E. change (lit "memory:///" ++ p1 ++ ftext f) with (lit "memory" ++ lit "://" ++ (cSlash :: p1) ++ ftext f).
    change (cSlash :: p1 ++ ftext f) with ((cSlash :: p1) ++ ftext f).
    apply parse_nohost; auto.
    - discriminate.
    - intros c Hc1 Hc2. cbn in Hc1, Hc2. intuition (subst; discriminate).
    - cbn; auto.
    - apply avoids_cons. split; auto. cbn. intuition discriminate.
    - intros G. apply Hg. rewrite E. apply (group_drop [cSlash]) in G; auto. cbn. intuition discriminate. }
  assert (C : clean_uri (lit "memory:///" ++ n) = lit "memory:///" ++ n).
  { unfold clean_uri. change (prefixb (lit "file://") (lit "memory:///" ++ n)) with false. cbv iota.
    assert (NN : normalize_uri (lit "memory:///" ++ n) cBack = lit "memory:///" ++ n).
    { unfold normalize_uri. change (cBack =? cSlash) with false. cbv iota. rewrite replace_char_id; [reflexivity|].
      rewrite in_app_iff. intros [H|H]; [cbn in H; intuition discriminate|]. revert H. apply Hs. cbn; auto. }
    rewrite NN. reflexivity. }
  eexists. split.
  - unfold u_div, u_join, mem_root. rewrite made_sep. change (cSlash =? cSlash) with true. cbn [rev app map].
    unfold u_scheme. rewrite made_p, made_cls. cbn [parse_of p_scheme p_query p_path].
    change (rstrip_p is_slash [cSlash]) with (@nil N).
    change (as_list_netloc _) with (@nil N). cbn [join_with uri_from_parts app rbind].
    change (u_all_extras _) with (@nil (str * str)).
    change (lit "memory" ++ lit "://" ++ cSlash :: n) with (lit "memory:///" ++ n).
    rewrite (mk_uri_made UMemory _ cSlash [] _ eq_refl C P). cbn [rbind]. now rewrite set_query_same.
  - split; [apply made_cls|]. split; [|now rewrite made_p].
    unfold u_path. rewrite made_cls. unfold base_path. rewrite made_p. cbn [parse_of p_path].
    destruct n as [|c n]; [easy|].
    destruct (prefixb (lit "/.") (cSlash :: c :: n)) eqn:D; auto. apply prefixb_spec in D as [x D].
    cbn in D. injection D as -> _. now destruct (Hd n).
Qed.
