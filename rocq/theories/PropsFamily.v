(** Property C83: the parsers of URIs by scheme (URIParser). *)
From Verif Require Import Str Exc Utf8 UriParse BaseUri StrFacts Utf8Facts UriFacts SpecUri UriFamily
  UriFacts2 UriFacts3 UriFacts4 UriFacts5 UriFacts6 UriFacts7 PropsUri.
Local Open Scope N_scope.

(** ** C83 *)
(** user:password@host:port, what is None left out *)
Definition site_text (user pass : option str) (host : str) (port : option str) : str :=
  (match user with Some u => u ++ (match pass with Some p => cColon :: p | None => [] end) ++ [cAt] | None => [] end)
  ++ host ++ (match port with Some p => cColon :: p | None => [] end).
(** The text of a URI of which the query and the fragment may be missing *)
Definition url_text (s a path : str) (q f : option str) : str :=
  s ++ lit "://" ++ a ++ path ++ (match q with Some q => cQuest :: q | None => [] end) ++ (match f with Some f => cHash :: f | None => [] end).
Record site_parts (user pass : option str) (host : str) (port : option str) : Prop := {
  sp_user : match user with Some u => u <> [] /\ free_of [cColon; cAt] u | None => True end;
  sp_pass : match pass with Some p => p <> [] /\ free_of [cAt] p | None => True end;
  sp_both : pass <> None -> user <> None;
  sp_host : host <> [] /\ free_of [cColon; cAt] host;
  sp_port : match port with Some p => p <> [] /\ free_of [cAt] p | None => True end }.
(** What a class or a caller supplies when a part is missing *)
Definition part_or (x d : option str) : option str := match x with Some t => Some t | None => d end.

Lemma url_text_eq s a path q f : split_ok s a path q f -> url_text s a path q f = uriunsplit (Some s) (Some a) (Some path) q f.
Proof.
  intros [[S _] _ Q F A]. unfold url_text, uriunsplit.
  assert (Na : a <> []) by (destruct A as [(v & -> & _)|[A _]]; [discriminate|exact A]).
  assert (Eq : opt_add [cQuest] q = match q with Some q => cQuest :: q | None => [] end) by (destruct q as [[|x q]|]; cbn; auto; now destruct Q).
  assert (Ef : opt_add [cHash] f = match f with Some f => cHash :: f | None => [] end) by (destruct f as [[|x f]|]; cbn; auto; now destruct F).
  assert (Ep : opt_add [] (Some path) = path) by now destruct path.
  rewrite Eq, Ef, Ep. destruct s as [|c s]; [easy|]. destruct a as [|d a]; [easy|]. cbn [opt_add]. now rewrite <- !app_assoc.
Qed.
Lemma site_join user pass host port : site_parts user pass host port -> join_authority user pass (Some host) port = Ok (site_text user pass host port).
Proof.
  intros [U P B _ Po]. unfold join_authority, site_text. f_equal. f_equal.
  - destruct user as [[|c u]|]; cbn; auto; [now destruct U|]. f_equal. f_equal. f_equal. destruct pass as [[|d p]|]; cbn; auto. now destruct P.
  - f_equal. destruct port as [[|d p]|]; cbn; auto. now destruct Po.
Qed.
Lemma scheme_of_text s r : ~ In cColon s -> scheme_of (s ++ cColon :: r) = s.
Proof. intros H. unfold scheme_of. now rewrite cut_first_app. Qed.
Lemma url_split s a path q f : split_ok s a path q f ->
  urisplit (url_text s a path q f) =
    Ok (match f with
        | Some f' => if is_http (Some s) then mkSplit5 (Some s) (Some a) path q f else mkSplit5 (Some s) (Some a) (path ++ cHash :: f') q (Some [])
        | None => mkSplit5 (Some s) (Some a) path q None
        end).
Proof.
  intros H. rewrite url_text_eq by auto. destruct (is_http (Some s)) eqn:E.
  - rewrite C01_urisplit_roundtrip_http; auto; [now destruct f|]. cbn in E. apply orb_true_iff in E as [E|E]; apply str_eqb_eq in E; auto.
  - cbn in E. apply orb_false_iff in E as [E1 E2]. rewrite C01_urisplit_roundtrip; auto; now apply str_eqb_neq.
Qed.
Lemma url_split_auth user pass host port : site_parts user pass host port -> split_authority (site_text user pass host port) = (user, pass, Some host, port).
Proof.
  intros H. pose proof (site_join _ _ _ _ H) as J. destruct H as [U P B [H1 H2] Po].
  destruct (C02_authority_roundtrip user pass host port U P B H1 H2 Po) as (t & E & S). pose proof (eq_trans (eq_sym E) J) as Y. injection Y as ->. exact S.
Qed.

(** All parts of a URI, those that are missing from the defaults.  In URIs of http and https the fragment is a part; in
    others it belongs to the path (C01).  Partial: the authority is no connector; not for mailto. *)
Definition uses (parsers : dict pclass) (s : str) (own : list (option str)) : Prop :=
  dget s parsers = Some (Url own) \/ dget s parsers = None /\ Url own = DefaultURIParser.
Lemma parsed_text parsers s user pass host port path q f own defaults : let a := site_text user pass host port in
  site_parts user pass host port -> split_ok s a path q f -> uses parsers s own ->
  urip_parse parsers (url_text s a path q f) defaults = rlet p <- class_parse (Url own) defaults (url_text s a path q f); Ok (Some s :: p).
Proof.
  intros a Sp Ok_ Cl. assert (Sc : scheme_of (url_text s a path q f) = s).
  { unfold url_text. change (lit "://") with (cColon :: lit "//"). cbn [app]. apply scheme_of_text. intros X. now apply (proj2 (so_scheme _ _ _ _ _ Ok_) cColon); [left|]. }
  unfold urip_parse. rewrite Sc. unfold parser_for. rewrite Sc. destruct Cl as [-> | [-> ->]]; auto.
Qed.
Theorem C83_parse_partial parsers s user pass host port path q f own defaults du dpw dh dpo dpa dq df : let a := site_text user pass host port in
  site_parts user pass host port -> split_ok s a path q f -> uses parsers s own ->
  [du; dpw; dh; dpo; dpa; dq; df] = (match defaults with [] => own | _ => defaults end) ->
  f = None \/ s = lit "http" \/ s = lit "https" ->
  urip_parse parsers (url_text s a path q f) defaults =
    Ok [Some s; part_or user du; part_or pass dpw; Some host; part_or port dpo;
        (match path with [] => dpa | _ => Some path end); part_or q dq; part_or f df].
Proof.
  intros a Sp Ok_ Cl D Hf. unfold a. rewrite parsed_text with (own := own) by auto. unfold class_parse. rewrite url_split by auto.
  assert (X : match f with Some f' => if is_http (Some s) then mkSplit5 (Some s) (Some (site_text user pass host port)) path q f else mkSplit5 (Some s) (Some (site_text user pass host port)) (path ++ cHash :: f') q (Some [])
                         | None => mkSplit5 (Some s) (Some (site_text user pass host port)) path q None end = mkSplit5 (Some s) (Some (site_text user pass host port)) path q f).
  { destruct f as [f|]; auto. destruct Hf as [Hf|[-> | ->]]; [discriminate|reflexivity|reflexivity]. }
  rewrite X. cbn [rbind s_authority s_path s_query s_fragment]. rewrite url_split_auth, <- D by auto. cbn [rbind]. destruct user, pass, port, q, path, f; reflexivity.
Qed.
Print Assumptions C83_parse_partial.
Theorem C83_parse_hash_partial parsers s user pass host port path q f own defaults du dpw dh dpo dpa dq df : let a := site_text user pass host port in
  site_parts user pass host port -> split_ok s a path q (Some f) -> uses parsers s own ->
  [du; dpw; dh; dpo; dpa; dq; df] = (match defaults with [] => own | _ => defaults end) ->
  s <> lit "http" -> s <> lit "https" ->
  urip_parse parsers (url_text s a path q (Some f)) defaults =
    Ok [Some s; part_or user du; part_or pass dpw; Some host; part_or port dpo; Some (path ++ cHash :: f); part_or q dq; Some []].
Proof.
  intros a Sp Ok_ Cl D H1 H2. unfold a. rewrite parsed_text with (own := own) by auto. unfold class_parse. rewrite url_split by auto.
  assert (X : is_http (Some s) = false) by (cbn; apply orb_false_iff; split; now apply str_eqb_neq). rewrite X.
  cbn [rbind s_authority s_path s_query s_fragment]. rewrite url_split_auth, <- D by auto. cbn [rbind]. destruct user, pass, port, q, path; reflexivity.
Qed.
Print Assumptions C83_parse_hash_partial.
Example C83_parse_witness :
  site_parts (Some (lit "joe")) None (lit "host") None /\ split_ok (lit "http") (site_text (Some (lit "joe")) None (lit "host") None) (lit "/p") None (Some (lit "top")) /\
  urip_parse Schemes (lit "http://joe@host/p#top") [] =
    Ok [Some (lit "http"); Some (lit "joe"); None; Some (lit "host"); Some (lit "80"); Some (lit "/p"); None; Some (lit "top")] /\
  urip_parse Schemes (lit "ftp://h") [] =
    Ok [Some (lit "ftp"); Some (lit "anonymous"); Some (lit "anonymous"); Some (lit "h"); Some (lit "21"); Some (lit "/"); None; None].
Proof.
  split; [constructor; try (split; [discriminate|free]); auto; congruence|]. split; [|split; reflexivity].
  constructor; try (split; [|free]; try discriminate); auto.
  - right; eexists; reflexivity.
  - right. repeat split; try discriminate; try free.
    + now apply not_contains.
    + now apply no_par_no_group.
Qed.

(** scheme_of is right for all URIs; info_of when there is one colon only. *)
Theorem C83_scheme_of s r : free_of [cColon] s -> scheme_of (s ++ cColon :: r) = s.
Proof. intros H. apply scheme_of_text. apply H. now left. Qed.
Print Assumptions C83_scheme_of.
Theorem C83_info_partial s r : free_of [cColon] s -> free_of [cColon] r -> info_of (s ++ cColon :: r) = Ok r.
Proof.
  intros H1 H2. unfold info_of. rewrite split_on_app by (apply H1; now left). rewrite split_on_none by (apply H2; now left). reflexivity.
Qed.
Print Assumptions C83_info_partial.
Theorem C83_info_refuted s a b : free_of [cColon] s -> free_of [cColon] a -> info_of (s ++ cColon :: a ++ cColon :: b) = Ok a.
Proof.
  intros H1 H2. unfold info_of. rewrite split_on_app by (apply H1; now left). rewrite split_on_app by (apply H2; now left). reflexivity.
Qed.
Print Assumptions C83_info_refuted.

(** unparse of what parse has returned never gives the URI back, whatever the parsers and defaults: the scheme is taken
    for the user name, the user name for the password, and so on. *)
Lemma split_colon t v : (let (scheme, r1) := re_scheme (cColon :: t) in
  let (authority, r2) := re_authority r1 in
  let (path, r3) := re_path r2 in
  let (query, r4) := re_query r3 in
  let fragment := re_fragment r4 in
  match authority with
  | None => Raise AttributeError
  | Some a =>
      let a := replace inner_token v a in
      let '(authority, path) := if str_eqb a [cDot] then (None, a ++ path) else (Some a, path) in
      let '(path, fragment) :=
        if negb (is_http scheme) && truthy fragment
        then (path ++ [cHash] ++ match fragment with Some f => f | None => [] end, Some [])
        else (path, fragment) in
      Ok (mkSplit5 scheme authority path query fragment)
  end) = Raise AttributeError.
Proof.
  change (re_scheme (cColon :: t)) with (@None str, cColon :: t). cbv iota beta. change (re_authority (cColon :: t)) with (@None str, cColon :: t).
  cbv iota beta. destruct (re_path (cColon :: t)) as [p1 r1]. destruct (re_query r1) as [q1 r2]. reflexivity.
Qed.
Lemma urisplit_colon r : urisplit (cColon :: r) = Raise AttributeError.
Proof.
  unfold urisplit. change (find_inner (cColon :: r)) with (match find_inner r with None => None | Some (x, m, r) => Some (cColon :: x, m, r) end).
  destruct (find_inner r) as [[[x m] z]|]; cbv iota beta; apply split_colon.
Qed.
Lemma scheme_cases uri : (exists r, uri = scheme_of uri ++ cColon :: r) \/ uri = scheme_of uri.
Proof. unfold scheme_of. destruct (cut_first cColon uri) as [[a b]|] eqn:E; auto. apply cut_first_some in E as [-> _]. eauto. Qed.
Lemma scheme_nocolon uri : ~ In cColon (scheme_of uri).
Proof. unfold scheme_of. destruct (cut_first cColon uri) as [[a b]|] eqn:E; [now apply cut_first_some in E|now apply cut_first_none]. Qed.
Lemma scheme_of_scheme s : ~ In cColon s -> scheme_of s = s.
Proof. intros H. unfold scheme_of. apply cut_first_none in H. now rewrite H. Qed.
Lemma head_colon (s z w t : list N) : ~ In cColon s -> (lit "//" ++ s ++ z) ++ w <> s ++ cColon :: t.
Proof.
  intros Nc X. assert (N1 : nth_error (s ++ cColon :: t) (length s) = Some cColon) by (rewrite nth_error_app2, Nat.sub_diag; [reflexivity|lia]).
  assert (N2 : nth_error (lit "//" ++ s) (length s) = Some cColon).
  { rewrite <- N1, <- X, <- !app_assoc, (app_assoc (lit "//") s). symmetry. apply nth_error_app1. rewrite app_length. cbn. lia. }
  apply nth_error_In in N2. apply in_app_or in N2 as [N2|N2]; [cbn in N2; destruct N2 as [N2|[N2|[]]]; discriminate|contradiction].
Qed.
Lemma head_longer (s z w : list N) : (lit "//" ++ s ++ z) ++ w <> s.
Proof. intros X. apply (f_equal (@length N)) in X. rewrite !app_length in X. cbn in X. lia. Qed.
Lemma head_at (s h w t : list N) : (s ++ cAt :: h) ++ w = t -> (exists c r, t = s ++ c :: r /\ c <> cAt) \/ t = s -> False.
Proof.
  intros <- [(c & r & X & N)|X]; rewrite <- app_assoc in X.
  - apply app_inv_head in X. injection X as X _. now apply N.
  - rewrite <- (app_nil_r s) in X at 2. apply app_inv_head in X. discriminate.
Qed.
Theorem C83_unparse_refuted parsers uri defaults p : urip_parse parsers uri defaults = Ok p -> urip_unparse parsers p <> Ok uri.
Proof.
  unfold urip_parse. destruct (class_parse (parser_for parsers uri) defaults uri) as [l|e] eqn:E; [|discriminate]. cbn [rbind]. intros X. injection X as <-.
  cbn [urip_unparse]. pose proof (scheme_nocolon uri) as Nc. set (s := scheme_of uri) in *.
  assert (Ne : s <> []).
  { intros Es. unfold class_parse in E. destruct (scheme_cases uri) as [[r X]|X]; fold s in X; rewrite Es in X; cbn [app] in X; rewrite X in E.
    - now rewrite urisplit_colon in E.
    - discriminate. }
  assert (Pf : parser_for parsers s = parser_for parsers uri) by (unfold parser_for; now rewrite scheme_of_scheme by auto).
  rewrite Pf. destruct (parser_for parsers uri) as [own|].
  - destruct l as [|l1 [|l2 [|l3 rest]]]; cbn [class_unparse]; try discriminate.
    destruct l2 as [h|]; [|discriminate]. unfold join_authority. destruct s as [|c s'] eqn:Es; [easy|]. rewrite <- Es in *.
    cbn [rbind]. destruct rest as [|r1 [|r2 [|r3 rest]]]; try discriminate. unfold uriunsplit.
    assert (Z : exists z, opt_add (lit "//") (Some ((s ++ opt_add [cColon] l1 ++ [cAt]) ++ h ++ opt_add [cColon] l3)) = lit "//" ++ s ++ z /\ z <> []).
    { exists (opt_add [cColon] l1 ++ [cAt] ++ h ++ opt_add [cColon] l3). split; [rewrite Es; cbn [app opt_add]; now rewrite <- !app_assoc|]. intros X. now apply app_eq_nil in X as [_ X]. }
    destruct Z as (z & Z & Nz). match goal with |- Ok ([] ++ ?A ++ _) <> _ => replace A with (lit "//" ++ s ++ z) by (symmetry; exact Z) end. clear Z. rewrite app_nil_l. intros X. injection X as X. destruct (scheme_cases uri) as [[t Y]|Y].
    + fold s in Y. exact (head_colon s z _ t Nc (eq_trans X Y)).
    + fold s in Y. exact (head_longer s z _ (eq_trans X Y)).
  - destruct l as [|l1 rest]; cbn [class_unparse]; try discriminate. destruct l1 as [h|]; [|discriminate]. destruct rest as [|r1 [|r2 rest]]; try discriminate.
    unfold uriunsplit. destruct s as [|c s'] eqn:Es; [easy|]. rewrite <- Es in *.
    match goal with |- Ok ([] ++ opt_add _ None ++ ?A ++ ?B) <> _ => replace A with (s ++ cAt :: h) by (now rewrite Es); intros X; injection X as X; pose proof (X : (s ++ cAt :: h) ++ B = uri) as X'; clear X end.
    destruct (scheme_cases uri) as [[t Y]|Y]; fold s in Y; apply (head_at s h _ _ (eq_trans X' Y)); [left|now right].
    exists cColon, t. split; [reflexivity|discriminate].
Qed.
Print Assumptions C83_unparse_refuted.
Example C83_unparse_witness : exists p, urip_parse Schemes (lit "http://u:p@h:1/x") [] = Ok p /\ urip_unparse Schemes p = Ok (lit "//http:u@p:h1?/x").
Proof. eexists. split; reflexivity. Qed.
(** Addresses: a mailto URI (RFC 6068) has no '//' and cannot be parsed. *)
Theorem C83_mailto_refuted t : (forall r, t <> lit "//" ++ r) -> ~ has_group (lit "mailto:" ++ t) ->
  forall defaults, urip_parse Schemes (lit "mailto:" ++ t) defaults = Raise AttributeError.
Proof.
  intros N G defaults. unfold urip_parse.
  assert (Sc : scheme_of (lit "mailto:" ++ t) = lit "mailto").
  { change (lit "mailto:") with (lit "mailto" ++ [cColon]). rewrite <- app_assoc. apply scheme_of_text. cbn. intuition discriminate. }
  assert (Us : urisplit (lit "mailto:" ++ t) = Raise AttributeError).
  { unfold urisplit. rewrite no_group_find by auto. change (re_scheme (lit "mailto:" ++ t)) with (Some (lit "mailto"), t). cbv iota beta.
    assert (X : re_authority t = (None, t)).
    { unfold re_authority. destruct (prefixb (lit "//") t) eqn:E; auto. apply prefixb_spec in E as [r ->]. now destruct (N r). }
    rewrite X. destruct (re_path t) as [p1 r1]. destruct (re_query r1) as [q1 r2]. reflexivity. }
  unfold parser_for. rewrite Sc. change (dget (lit "mailto") Schemes) with (Some Mailto). cbv iota. unfold class_parse. now rewrite Us.
Qed.
Print Assumptions C83_mailto_refuted.
Example C83_mailto_witness : (forall r, lit "joe@example.com" <> lit "//" ++ r) /\ ~ has_group (lit "mailto:" ++ lit "joe@example.com").
Proof. split; [discriminate|]. now apply no_par_no_group. Qed.

(** The built-in defaults: the ports of the well-known schemes, the anonymous user of ftp, the local host of imap, the
    path /.  All schemes but mailto, also those that have no parser of their own. *)
Definition known_port (s : str) : option str :=
  if str_eqb s (lit "http") then Some (lit "80") else if str_eqb s (lit "https") then Some (lit "443")
  else if str_eqb s (lit "imap") then Some (lit "143") else if str_eqb s (lit "imaps") then Some (lit "993")
  else if str_eqb s (lit "ftp") then Some (lit "21") else if str_eqb s (lit "tftp") then Some (lit "69")
  else if str_eqb s (lit "telnet") then Some (lit "23") else None.
Definition known_user (s : str) : option str := if str_eqb s (lit "ftp") then Some (lit "anonymous") else None.
Definition known_host (s : str) : option str := if str_in s [lit "imap"; lit "imaps"] then Some (lit "localhost") else None.
Lemma known_uses s : s <> lit "mailto" -> uses Schemes s [known_user s; known_user s; known_host s; known_port s; Some (lit "/"); None; None].
Proof.
  intros N. unfold uses, known_user, known_host, known_port, Schemes, str_in. cbn [dget existsb].
  destruct (str_eqb s (lit "http")) eqn:E1; [apply str_eqb_eq in E1; subst; left; reflexivity|].
  destruct (str_eqb s (lit "https")) eqn:E2; [apply str_eqb_eq in E2; subst; left; reflexivity|].
  destruct (str_eqb s (lit "imap")) eqn:E3; [apply str_eqb_eq in E3; subst; left; reflexivity|].
  destruct (str_eqb s (lit "imaps")) eqn:E4; [apply str_eqb_eq in E4; subst; left; reflexivity|].
  destruct (str_eqb s (lit "ftp")) eqn:E5; [apply str_eqb_eq in E5; subst; left; reflexivity|].
  destruct (str_eqb s (lit "tftp")) eqn:E6; [apply str_eqb_eq in E6; subst; left; reflexivity|].
  destruct (str_eqb s (lit "file")) eqn:E7; [apply str_eqb_eq in E7; subst; left; reflexivity|].
  destruct (str_eqb s (lit "telnet")) eqn:E8; [apply str_eqb_eq in E8; subst; left; reflexivity|].
  destruct (str_eqb s (lit "mailto")) eqn:E9; [apply str_eqb_eq in E9; now subst|]. right. split; reflexivity.
Qed.
Theorem C83_builtin_partial s user pass host port path q f : let a := site_text user pass host port in
  site_parts user pass host port -> split_ok s a path q f -> s <> lit "mailto" -> f = None \/ s = lit "http" \/ s = lit "https" ->
  urip_parse Schemes (url_text s a path q f) [] =
    Ok [Some s; part_or user (known_user s); part_or pass (known_user s); Some host; part_or port (known_port s);
        Some (match path with [] => lit "/" | _ => path end); q; f].
Proof.
  intros a Sp Ok_ N Hf. unfold a. erewrite C83_parse_partial; [|eassumption|eassumption|now apply known_uses|reflexivity|exact Hf].
  do 6 f_equal. f_equal; [now destruct path|]. destruct q, f; reflexivity.
Qed.
Print Assumptions C83_builtin_partial.
(** Without an authority: s:///path *)
Theorem C83_nohost_partial s path q : s <> [] -> free_of [cColon; cSlash; cQuest; cHash; cLpar] s -> s <> lit "mailto" ->
  (exists r, path = cSlash :: r) -> free_of [cQuest; cHash] path -> match q with Some q => q <> [] /\ free_of [cHash] q | None => True end ->
  ~ has_group (url_text s [] path q None) ->
  urip_parse Schemes (url_text s [] path q None) [] =
    Ok [Some s; known_user s; known_user s; known_host s; known_port s; Some path; q; None].
Proof.
  intros S1 S2 N [r Hr] P Q G.
  assert (Sc : scheme_of (url_text s [] path q None) = s).
  { unfold url_text. change (lit "://") with (cColon :: lit "//"). cbn [app]. apply scheme_of_text. intros X. now apply (S2 cColon); [left|]. }
  assert (Us : urisplit (url_text s [] path q None) = Ok (mkSplit5 (Some s) (Some []) path q None)).
  { assert (T : url_text s [] path q None = s ++ lit "://" ++ [] ++ path ++ qtext q ++ ftext None).
    { unfold url_text. destruct q as [[|c q]|]; cbn [qtext ftext]; [now destruct Q|reflexivity|reflexivity]. }
    rewrite T in *. rewrite (urisplit_assembled [] s path q None false); auto.
    - eapply avoids_incl; [|exact S2]. incl_tac.
    - split; [now apply no_group_find|]. split; [intros c _ []|reflexivity].
    - discriminate.
    - rewrite Hr. cbn. auto.
    - destruct q; [apply Q|exact I].
    - exact I. }
  unfold urip_parse. rewrite Sc. unfold parser_for. rewrite Sc.
  assert (C : match dget s Schemes with Some c => c | None => DefaultURIParser end = Url [known_user s; known_user s; known_host s; known_port s; Some (lit "/"); None; None]).
  { destruct (known_uses s N) as [-> | [-> E]]; [reflexivity|now rewrite E]. }
  rewrite C. unfold class_parse. rewrite Us. cbn [rbind s_authority s_path s_query s_fragment]. rewrite Hr. destruct q; reflexivity.
Qed.
Print Assumptions C83_nohost_partial.
Example C83_builtin_witness :
  urip_parse Schemes (lit "imap:///INBOX") [] = Ok [Some (lit "imap"); None; None; Some (lit "localhost"); Some (lit "143"); Some (lit "/INBOX"); None; None] /\
  url_text (lit "imap") [] (lit "/INBOX") None None = lit "imap:///INBOX" /\ ~ has_group (lit "imap:///INBOX") /\
  urip_parse Schemes (lit "telnet://h") [] = Ok [Some (lit "telnet"); None; None; Some (lit "h"); Some (lit "23"); Some (lit "/"); None; None] /\
  urip_parse Schemes (lit "gopher://h:70") [] = Ok [Some (lit "gopher"); None; None; Some (lit "h"); Some (lit "70"); Some (lit "/"); None; None].
Proof. split; [reflexivity|]. split; [reflexivity|]. split; [now apply no_par_no_group|]. split; reflexivity. Qed.
(** A parser given as extra is used in place of the built-in one; the others are kept.  (The later of two pairs with one
    key counts.) *)
Theorem C83_extra schemes extra uri defaults : 
  (forall c, dget (scheme_of uri) (rev extra) = Some c -> urip_parse (parsers_of schemes extra) uri defaults = urip_parse [(scheme_of uri, c)] uri defaults) /\
  (dget (scheme_of uri) (rev extra) = None -> urip_parse (parsers_of schemes extra) uri defaults = urip_parse schemes uri defaults).
Proof.
  unfold urip_parse, parser_for, parsers_of. rewrite dget_dupdate. split.
  - intros c ->. cbn. now rewrite str_eqb_refl.
  - now intros ->.
Qed.
Print Assumptions C83_extra.
Example C83_extra_witness : dget (scheme_of (lit "http://h")) (rev [(lit "http", Mailto)]) = Some Mailto. Proof. reflexivity. Qed.
(** mailto: user and host are taken from the path; a URI can only be parsed if it has two slashes (C83_mailto_refuted). *)
Theorem C83_mailto_partial a u h q : split_ok (lit "mailto") a (u ++ cAt :: h) q None -> ~ In cAt u ->
  forall defaults, urip_parse Schemes (url_text (lit "mailto") a (u ++ cAt :: h) q None) defaults = Ok [Some (lit "mailto"); Some u; Some h; q; None].
Proof.
  intros Ok_ N defaults. assert (Sc : scheme_of (url_text (lit "mailto") a (u ++ cAt :: h) q None) = lit "mailto").
  { unfold url_text. change (lit "://") with (cColon :: lit "//"). cbn [app]. apply scheme_of_text. intros X. now apply (proj2 (so_scheme _ _ _ _ _ Ok_) cColon); [left|]. }
  unfold urip_parse. rewrite Sc. unfold parser_for. rewrite Sc. change (dget (lit "mailto") Schemes) with (Some Mailto). cbv iota. unfold class_parse.
  rewrite url_split by auto. cbn [rbind s_path s_query s_fragment]. now rewrite cut_first_app.
Qed.
Print Assumptions C83_mailto_partial.
Example C83_mailto_partial_witness : split_ok (lit "mailto") (lit "x") (lit "/joe" ++ cAt :: lit "h") None None /\ ~ In cAt (lit "/joe").
Proof.
  split; [|cbn; intuition discriminate]. constructor; try (split; [|free]; try discriminate); auto.
  - right; eexists; reflexivity.
  - right. repeat split; try discriminate; try free.
    + now apply not_contains.
    + now apply no_par_no_group.
Qed.
