(** URIs of one memory connection, and what is made of them. *)
From Verif Require Import Str Exc Utf8 UriParse BaseUri StrFacts UriFacts SpecUri UriFacts2 UriFacts3 UriFacts7 Mem Prog UriOps SpecNet.

Lemma noq_incl s t : noq t -> (forall c, In c s -> In c t) -> noq s.
Proof. intros H I E. exact (H (I _ E)). Qed.
Lemma noq_app s t : noq s -> noq t -> noq (s ++ t).
Proof. intros H I E. apply in_app_iff in E as [E|E]; auto. Qed.
Lemma noq_app_l s t : noq (s ++ t) -> noq s.
Proof. intros H E. apply H. apply in_app_iff. now left. Qed.
Lemma noq_app_r s t : noq (s ++ t) -> noq t.
Proof. intros H E. apply H. apply in_app_iff. now right. Qed.
Lemma span_in p s c : In c (fst (span p s)) \/ In c (snd (span p s)) -> In c s.
Proof. intros H. rewrite <- (span_eq p s). apply in_app_iff. exact H. Qed.
Lemma strip_in p s c : In c (strip_p p s) -> In c s.
Proof.
  unfold strip_p, rstrip_p, lstrip_p. intros H. apply in_rev in H. apply (span_in p s). right.
  apply in_rev. apply (span_in p). now right.
Qed.
Lemma rstrip_in p s c : In c (rstrip_p p s) -> In c s.
Proof. unfold rstrip_p, lstrip_p. intros H. apply in_rev in H. apply in_rev. apply (span_in p). now right. Qed.
Lemma replace_char_noq s : noq s -> noq (replace_char cBack cSlash s).
Proof.
  intros H E. apply in_map_iff in E as (x & E & I). destruct (N.eqb_spec x cBack); [discriminate E|]. subst x. exact (H I).
Qed.

Lemma find_inner_pre pre x : ~ In cLpar pre ->
  find_inner (pre ++ x) = match find_inner x with Some (b, m, r) => Some (pre ++ b, m, r) | None => None end.
Proof.
  induction pre as [|c pre IH]; intros H; cbn [app].
  - destruct (find_inner x) as [[[b m] r]|]; reflexivity.
  - cbn [find_inner].
    assert (E : prefixb (lit "((") (c :: pre ++ x) = false).
    { change (lit "((") with [cLpar; cLpar]. cbn [prefixb]. destruct (N.eqb_spec cLpar c) as [E|]; [|reflexivity]. exfalso. apply H. now left. }
    rewrite E, IH by (intros I; apply H; now right). destruct (find_inner x) as [[[b m] r]|]; reflexivity.
Qed.

Definition rooted (x : str) : Prop := x = [] \/ exists r, x = cSlash :: r.
Definition pre : str := lit "memory://".

(** [urisplit] after the inner part has been found *)
Definition tail_of (inner_value uri : str) : res split5 :=
  let (scheme, r1) := re_scheme uri in
  let (authority, r2) := re_authority r1 in
  let (path, r3) := re_path r2 in
  let (query, r4) := re_query r3 in
  let fragment := re_fragment r4 in
  match authority with
  | None => Raise AttributeError
  | Some a =>
      let a := replace inner_token inner_value a in
      let '(authority, path) :=
        if str_eqb a [cDot] then (None, a ++ path) else (Some a, path) in
      let '(path, fragment) :=
        if negb (is_http scheme) && truthy fragment
        then (path ++ [cHash] ++ match fragment with Some f => f | None => [] end, Some [])
        else (path, fragment) in
      Ok (mkSplit5 scheme authority path query fragment)
  end.
Lemma split_tail t : urisplit t = match find_inner t with Some (b, m, r) => tail_of m (b ++ inner_token ++ r) | None => tail_of [] t end.
Proof. unfold urisplit, tail_of. destruct (find_inner t) as [[[b m] r]|]; reflexivity. Qed.

Section Auth.
Variable a : str.
Hypothesis A : authority a.

Lemma auth_not c : In c [cSlash; cQuest; cHash; cBack; cLpar; cUnder] -> ~ In c a.
Proof. intros H I. exact (proj1 (Forall_forall _ _) (proj1 A) c I H). Qed.
Lemma auth_span x : rooted x -> span (not_in [cSlash; cQuest; cHash]) (a ++ x) = (a, x).
Proof.
  intros H. apply span_app.
  - apply forallb_forall. intros c I. unfold not_in. apply negb_true_iff. destruct (existsb (N.eqb c) [cSlash; cQuest; cHash]) eqn:E; [|reflexivity].
    apply existsb_exists in E as (d & I' & E). apply N.eqb_eq in E. subst d. exfalso. revert I. apply auth_not. cbn in I' |- *. tauto.
  - destruct H as [->|[r ->]]; [exact I|reflexivity].
Qed.
Definition splits (x : str) (t : res split5) : Prop :=
  exists p f, t = Ok (mkSplit5 (Some (lit "memory")) (Some a) p None f) /\ noq p /\ rooted p /\ (x = [] -> p = []).
Lemma tail_is v x' : noq x' -> rooted x' -> splits x' (tail_of v (pre ++ a ++ x')).
Proof.
  intros Nx Rx'. unfold splits, tail_of.
  change (re_scheme (pre ++ a ++ x')) with (Some (lit "memory"), lit "//" ++ a ++ x').
  cbv iota beta.
  assert (Ea : re_authority (lit "//" ++ a ++ x') = (Some a, x')).
  { change (re_authority (lit "//" ++ a ++ x')) with (let (w, r) := span (not_in [cSlash; cQuest; cHash]) (a ++ x') in (Some w, r)). now rewrite (auth_span x' Rx'). }
  rewrite Ea.
  unfold re_path. destruct (span (not_in [cQuest; cHash]) x') as [p r3] eqn:Sp.
  pose proof (span_eq (not_in [cQuest; cHash]) x') as Eq. rewrite Sp in Eq. cbn [fst snd] in Eq.
  assert (Np : noq p) by (rewrite <- Eq in Nx; exact (noq_app_l _ _ Nx)).
  assert (Nr : noq r3) by (rewrite <- Eq in Nx; exact (noq_app_r _ _ Nx)).
  assert (Eqy : re_query r3 = (None, r3)).
  { unfold re_query. destruct r3 as [|c r3]; [reflexivity|]. destruct (N.eqb_spec c cQuest) as [->|]; [|reflexivity]. exfalso. apply Nr. now left. }
  rewrite Eqy.
  assert (Rp : p = [] \/ exists q, p = cSlash :: q).
  { destruct Rx' as [->|[q ->]]; [left; cbn in Sp; now injection Sp as <- <-|]. right. cbn [span] in Sp.
    change (not_in [cQuest; cHash] cSlash) with true in Sp. cbv iota in Sp. destruct (span (not_in [cQuest; cHash]) q) as [w r]. injection Sp as <- <-. now eexists. }
  assert (Er : replace inner_token v a = a).
  { apply replace_id; [discriminate|]. apply (contains_not_char _ cUnder); [cbn; tauto|]. apply auth_not. cbn; tauto. }
  rewrite Er. destruct (str_eqb a [cDot]) eqn:Ed; [apply str_eqb_eq in Ed; exfalso; exact (proj2 A Ed)|]. cbv iota beta.
  change (negb (is_http (Some (lit "memory")))) with true. cbn [andb].
  assert (Ep : x' = [] -> p = []) by (intros ->; cbn in Sp; now injection Sp as <- <-).
  destruct (re_fragment r3) as [f|] eqn:Ef; cbn [truthy]; [|exists p, None; auto].
  destruct f as [|fc fw]; [exists p, (Some []); auto|].
  exists (p ++ [cHash] ++ fc :: fw), (Some []). split; [reflexivity|].
  assert (Sub : forall c, In c (fc :: fw) -> In c r3).
  { unfold re_fragment in Ef. destruct r3 as [|d r3]; [discriminate|]. destruct (N.eqb d cHash); [|discriminate]. injection Ef as Ef.
    intros c I. right. apply (span_in (not_in [cNL])). left. now rewrite Ef. }
  split; [|split].
  - apply noq_app; [exact Np|]. apply noq_app; [intros [E|[]]; discriminate E|]. exact (noq_incl _ _ Nr Sub).
  - destruct Rp as [->|[q ->]]; [|right; now eexists].
    (* a path of no characters is not followed by a fragment *)
    exfalso. destruct Rx' as [->|[q ->]].
    + cbn in Eq. subst r3. discriminate Ef.
    + cbn in Sp. destruct (span _ q); discriminate Sp.
  - intros ->. cbn in Eq. apply app_eq_nil in Eq as [_ ->]. discriminate Ef.
Qed.
(** The parts of the text, as the code splits it *)
Lemma split_is x : noq x -> rooted x -> splits x (urisplit (pre ++ a ++ x)).
Proof.
  intros Hx Rx. rewrite split_tail.
  assert (NP : ~ In cLpar (pre ++ a)).
  { intros I. apply in_app_iff in I as [I|I]; [cbn in I; repeat (destruct I as [I|I]; [discriminate|]); exact I|]. revert I. apply auth_not. cbn; tauto. }
  pose proof (find_inner_pre (pre ++ a) x NP) as F. rewrite <- app_assoc in F. rewrite F. clear F.
  destruct (find_inner x) as [[[b m] r]|] eqn:E; [|now apply tail_is].
  apply find_inner_sound in E as (y & -> & -> & _). rewrite <- !app_assoc.
  match goal with |- splits _ (tail_of _ (pre ++ a ++ ?z)) => assert (Tl : noq z -> rooted z -> splits z (tail_of (lit "((" ++ y ++ lit "))") (pre ++ a ++ z))) by apply tail_is end.
  destruct Tl as (p & f & Ep & N1 & R1 & _).
  3:{ exists p, f. split; [exact Ep|]. split; [exact N1|]. split; [exact R1|]. intros X. apply app_eq_nil in X as [_ X]. apply app_eq_nil in X as [X _]. discriminate. }
  - apply noq_app; [exact (noq_app_l _ _ Hx)|]. apply noq_app.
    + intros I. cbn in I. repeat (destruct I as [I|I]; [discriminate I|]). exact I.
    + exact (noq_app_r _ _ (noq_app_r _ _ Hx)).
  - destruct Rx as [E|[q E]].
    + apply app_eq_nil in E as [_ E]. apply app_eq_nil in E as [E _]. discriminate.
    + destruct b as [|c b]; [discriminate E|]. injection E as -> E. right. now eexists.
Qed.
(** The user, password, host and port *)
Definition creds : res (option str * option str * option str * Z) :=
  match a with
  | c :: w =>
      let '(us, pw, ho, po) := split_authority (c :: w) in
      rlet port <- (match po with Some (d :: t) => py_int (d :: t) | _ => Ok 0%Z end);
      Ok (us, pw, ho, port)
  | _ => Ok (Some [], Some [], Some [], 0%Z)
  end.
Definition netloc_of (ho : option str) (port : Z) : str :=
  match ho with
  | Some (c :: w) => if (port =? 0)%Z then c :: w else (c :: w) ++ [cColon] ++ str_of_Z port
  | _ => []
  end.
Lemma parse_is x : noq x -> rooted x ->
  exists p f, noq p /\ rooted p /\ (x = [] -> p = []) /\
    uri_parse (pre ++ a ++ x) = rlet q <- creds; let '(us, pw, ho, po) := q in
                                Ok (mkParsed (Some (lit "memory")) (Some a) p [] f [] us pw ho po (netloc_of ho po)).
Proof.
  intros Hx Rx. destruct (split_is x Hx Rx) as (p & f & E & Np & Rp & Ep). exists p, f. split; [exact Np|]. split; [exact Rp|]. split; [exact Ep|].
  unfold uri_parse. rewrite E. cbn [rbind s_authority s_query s_scheme s_path s_fragment].
  assert (Ec : contains (lit "((") a = false) by (apply (contains_not_char _ cLpar); [cbn; tauto|apply auth_not; cbn; tauto]).
  rewrite Ec. unfold creds. destruct a as [|c w]; [reflexivity|].
  destruct (split_authority (c :: w)) as [[[us pw] ho] po].
  destruct (match po with Some (d :: t) => py_int (d :: t) | _ => Ok 0%Z end); reflexivity.
Qed.

(** Everything about a URI of the connection *)
Record shape (u : uri) : Prop := mkShape {
  sh_cls : u_cls u = UMemory; sh_sep : u_sep u = cSlash; sh_extras : u_extras u = [];
  sh_none : u_uri u = pre ++ a -> p_path (u_p u) = [];
  sh_text : exists x, noq x /\ rooted x /\ u_uri u = pre ++ a ++ x;
  sh_parsed : exists p f us pw ho po, creds = Ok (us, pw, ho, po) /\ noq p /\ rooted p /\ u_user u = us /\ u_pass u = pw
     /\ u_p u = mkParsed (Some (lit "memory")) (Some a) p [] f [] us pw ho po (netloc_of ho po) }.

Lemma rooted_back x : rooted x -> rooted (replace_char cBack cSlash x).
Proof. intros [->|[r ->]]; [now left|]. right. now eexists. Qed.
Lemma clean_is x : clean_uri (pre ++ a ++ x) = pre ++ a ++ replace_char cBack cSlash x.
Proof.
  unfold clean_uri. change (prefixb (lit "file://") (pre ++ a ++ x)) with false. cbv iota.
  assert (E : normalize_uri (pre ++ a ++ x) cBack = pre ++ a ++ replace_char cBack cSlash x).
  { change (normalize_uri (pre ++ a ++ x) cBack) with (replace_char cBack cSlash (pre ++ a ++ x)).
    rewrite !replace_char_app. rewrite (replace_char_id cBack cSlash a); [reflexivity|]. apply auth_not. cbn; tauto. }
  rewrite E.
  assert (C : contains (lit "://") (pre ++ a ++ replace_char cBack cSlash x) = true).
  { apply contains_spec. exists (lit "memory"), (a ++ replace_char cBack cSlash x). reflexivity. }
  rewrite C. cbn [negb andb]. now rewrite C.
Qed.
Lemma scheme_is x : scheme_re (pre ++ x) = Some (lit "memory").
Proof. reflexivity. Qed.
Lemma made_shape x u : noq x -> rooted x -> mk_uri UMemory (pre ++ a ++ x) cSlash [] = Ok u -> shape u.
Proof.
  intros Hx Rx. unfold mk_uri. change (bad_init_kw []) with false. cbv iota. rewrite clean_is.
  destruct (parse_is _ (replace_char_noq x Hx) (rooted_back x Rx)) as (p & f & Np & Rp & Ep & E). cbv zeta. rewrite E. clear E.
  destruct creds as [[[[us pw] ho] po]|e] eqn:C; cbn [rbind]; [|discriminate].
  cbn [p_username p_password p_query].
  assert (T : forall n v, take_cred n v [] [] = (v, [])) by (intros n [v|]; reflexivity).
  rewrite !T. intros E. injection E as <-. constructor; cbn [u_cls u_sep u_extras u_uri u_p u_user u_pass]; try reflexivity.
  - cbn [p_path]. intros X. apply Ep. change (pre ++ a ++ replace_char cBack cSlash x = pre ++ a) in X. apply app_inv_head in X. rewrite <- (app_nil_r a) in X at 2. exact (app_inv_head _ _ _ X).
  - exists (replace_char cBack cSlash x). split; [now apply replace_char_noq|]. split; [now apply rooted_back|reflexivity].
  - exists p, f, us, pw, ho, po. auto 10.
Qed.
Lemma ours_shape u : ours a u -> shape u.
Proof. intros (x & Hx & Rx & E). apply (made_shape x u Hx Rx). exact E. Qed.
Lemma ours_made x u : noq x -> rooted x -> mk_uri UMemory (pre ++ a ++ x) cSlash [] = Ok u -> ours a u.
Proof. intros Hx Rx E. exists x. auto. Qed.

Lemma shape_extras u : shape u -> u_all_extras u = [].
Proof.
  intros H. destruct (sh_parsed _ H) as (p & f & us & pw & ho & po & _ & _ & _ & _ & _ & E). unfold u_all_extras, u_scheme. rewrite E, (sh_extras _ H). reflexivity.
Qed.
Lemma ours_key u v : ours a u -> ours a v -> u_key u = u_key v.
Proof.
  intros Hu Hv. apply ours_shape in Hu, Hv. unfold u_key. rewrite (shape_extras u Hu), (shape_extras v Hv).
  destruct (sh_parsed _ Hu) as (p & f & us & pw & ho & po & C & _ & _ & U1 & U2 & E), (sh_parsed _ Hv) as (p' & f' & us' & pw' & ho' & po' & C' & _ & _ & U1' & U2' & E').
  rewrite C in C'. injection C' as <- <- <- <-. unfold u_scheme. rewrite E, E', U1, U2, U1', U2'. reflexivity.
Qed.
Lemma key_plain u : ours a u -> k_scheme (u_key u) = Some (lit "memory") /\ k_extras (u_key u) = [] /\ u_all_extras u = [].
Proof.
  intros Hu. apply ours_shape in Hu. pose proof (shape_extras u Hu) as X. split; [|split; [exact X|exact X]].
  destruct (sh_parsed _ Hu) as (p & f & us & pw & ho & po & C & _ & _ & U1 & U2 & E). cbn. unfold u_scheme. now rewrite E.
Qed.
Lemma path_noq u : ours a u -> noq (u_path u).
Proof.
  intros Hu. apply ours_shape in Hu. destruct (sh_parsed _ Hu) as (p & f & us & pw & ho & po & C & Np & _ & U1 & U2 & E).
  unfold u_path. rewrite (sh_cls _ Hu). unfold base_path. rewrite E. cbn [p_path]. destruct (prefixb (lit "/.") p); [|exact Np].
  destruct p as [|c p]; [exact Np|]. apply (noq_incl _ _ Np). intros d I. now right.
Qed.
Lemma rest_noq u k : ours a u -> noq (strip_p is_space (skipn k (u_path u))).
Proof.
  intros Hu. apply (noq_incl _ _ (path_noq u Hu)). intros c I. apply strip_in in I. rewrite <- (firstn_skipn k (u_path u)). apply in_app_iff. now right.
Qed.
Lemma uri_noq u : ours a u -> noq (u_uri u).
Proof.
  intros Hu. apply ours_shape in Hu. destruct (sh_text _ Hu) as (x & Hx & _ & ->). apply noq_app; [intros I; cbn in I; repeat (destruct I as [I|I]; [discriminate I|]); exact I|].
  apply noq_app; [apply auth_not; cbn; tauto|exact Hx].
Qed.
Lemma piece_in c s w d : In w (split_on c s) -> In d w -> In d s.
Proof.
  intros H I. rewrite <- (join_split c s). revert H. generalize (split_on c s). intros l. induction l as [|v l IH]; [intros []|].
  intros [->|J]; destruct l as [|v' l]; cbn [join_with]; try (apply in_app_iff; now left); try exact I; [destruct J|].
  apply in_app_iff. right. apply in_app_iff. right. now apply IH.
Qed.
Lemma last_noq u : ours a u -> noq (u_last u).
Proof.
  intros Hu. apply (noq_incl _ _ (uri_noq u Hu)). intros d. unfold u_last.
  destruct (rev (split_on cSlash (u_uri u))) as [|x [|y r]] eqn:E; [intros []| |].
  - apply piece_in with cSlash. apply in_rev. rewrite E. now left.
  - assert (Ix : In x (split_on cSlash (u_uri u))) by (apply in_rev; rewrite E; now left).
    assert (Iy : In y (split_on cSlash (u_uri u))) by (apply in_rev; rewrite E; right; now left).
    destruct x; [exact (piece_in _ _ _ _ Iy)|exact (piece_in _ _ _ _ Ix)].
Qed.
Lemma ours_div u n r : ours a u -> noq n -> u_div u n = Ok r -> ours a r.
Proof.
  intros Hu Hn. pose proof Hu as O. apply ours_shape in Hu. unfold u_div, u_join. rewrite (sh_sep _ Hu), N.eqb_refl. cbn [rev app].
  rewrite (shape_extras u Hu), (sh_cls _ Hu).
  destruct (sh_parsed _ Hu) as (p & f & us & pw & ho & po & C & Np & Rp & U1 & U2 & E). unfold u_scheme. rewrite E. cbn [p_scheme p_path p_query map rev app].
  cbn [uri_from_parts rbind].
  assert (Nl : match a with [] => netloc_of ho po | c :: w => c :: w end = a).
  { unfold creds in C. destruct a as [|c w] eqn:Ea; [|reflexivity]. injection C as <- <- <- <-. reflexivity. }
  assert (Nl' : as_list_netloc (mkParsed (Some (lit "memory")) (Some a) p [] f [] us pw ho po (netloc_of ho po)) = a).
  { cbn [as_list_netloc p_vpath p_authority p_netloc]. rewrite <- Nl at 2. unfold as_list_netloc. cbn [p_vpath p_authority p_netloc]. destruct a; reflexivity. }
  rewrite Nl'. set (t := join_with [cSlash] [rstrip_p is_slash p; n]).
  assert (Nt : noq t). { unfold t. cbn [join_with]. apply noq_app; [apply (noq_incl _ _ Np); apply rstrip_in|]. apply noq_app; [intros [X|[]]; discriminate X|exact Hn]. }
  assert (Rt : rooted t).
  { unfold t. cbn [join_with]. right. destruct (rstrip_p is_slash p) as [|c w] eqn:R; [now eexists|]. destruct Rp as [->|[q ->]]; [discriminate R|].
    (* what is left of a path that begins with a slash begins with a slash *)
    assert (F : exists z, cSlash :: q = (c :: w) ++ z). { destruct (rstrip_decomp is_slash (cSlash :: q)) as (z & Ez & _). rewrite R in Ez. now exists z. }
    destruct F as [z F]. injection F as <- F. now eexists. }
  change (lit "memory" ++ lit "://" ++ a ++ t) with (pre ++ a ++ t).
  destruct (mk_uri UMemory (pre ++ a ++ t) cSlash []) as [u'|e] eqn:M; cbn [rbind]; [|discriminate]. intros X. injection X as <-.
  pose proof (ours_made t u' Nt Rt M) as O'. pose proof (ours_shape u' O') as S'.
  assert (Eq : u_set_query u' [] = u').
  { destruct (sh_parsed _ S') as (p' & f' & us' & pw' & ho' & po' & _ & _ & _ & _ & _ & E'). destruct u' as [cl tx sp pp ex us2 pw2]. cbn [u_p] in E'. rewrite E'. reflexivity. }
  now rewrite Eq.
Qed.
Lemma ours_split u d n : ours a u -> u_path u <> [] -> u_split u = Ok (d, n) -> ours a d.
Proof.
  intros Hu Hp. apply ours_shape in Hu. unfold u_split. rewrite (sh_cls _ Hu), (sh_sep _ Hu), (shape_extras u Hu).
  destruct (sh_text _ Hu) as (x & Hx & Rx & Ex).
  assert (Rr : exists r, x = cSlash :: r).
  { destruct Rx as [->|R]; [|exact R]. exfalso. apply Hp. rewrite app_nil_r in Ex. pose proof (sh_none _ Hu Ex) as P0. unfold u_path. rewrite (sh_cls _ Hu). unfold base_path. now rewrite P0. }
  destruct Rr as [r ->]. rewrite Ex.
  assert (F : exists y second, cut_last cSlash (pre ++ a ++ cSlash :: r) = Some (pre ++ a ++ y, second) /\ noq y /\ rooted y).
  { destruct (cut_last cSlash r) as [[r1 r2]|] eqn:C.
    - apply cut_last_some in C as [-> N2]. exists (cSlash :: r1), r2. split; [|split].
      + pose proof (cut_last_app cSlash (pre ++ a ++ cSlash :: r1) r2 N2) as C1. rewrite <- !app_assoc in C1. exact C1.
      + change (cSlash :: r1 ++ cSlash :: r2) with ((cSlash :: r1) ++ cSlash :: r2) in Hx. exact (noq_app_l _ _ Hx).
      + right. now eexists.
    - apply cut_last_none in C. exists [], r. split; [|split; [intros []|now left]]. pose proof (cut_last_app cSlash (pre ++ a) r C) as C1. rewrite <- app_assoc in C1. rewrite app_nil_r. exact C1. }
  destruct F as (y & second & -> & Ny & Ry).
  assert (G : exists z, (if suffixb (lit "//") (pre ++ a ++ y) then (pre ++ a ++ y) ++ [cSlash] else pre ++ a ++ y) = pre ++ a ++ z /\ noq z /\ rooted z).
  { destruct (suffixb (lit "//") (pre ++ a ++ y)); [|now exists y]. exists (y ++ [cSlash]). rewrite <- !app_assoc. split; [reflexivity|]. split.
    - apply noq_app; [exact Ny|]. intros [X|[]]. discriminate X.
    - right. destruct Ry as [->|[q ->]]; now eexists. }
  destruct G as (z & -> & Nz & Rz).
  change (match pre ++ a ++ z with [] => [cDot] | _ => pre ++ a ++ z end) with (pre ++ a ++ z).
  destruct (mk_uri UMemory (pre ++ a ++ z) cSlash []) as [u'|e] eqn:M; cbn [rbind]; [|discriminate]. intros X. injection X as <- _. exact (ours_made z u' Nz Rz M).
Qed.
End Auth.
