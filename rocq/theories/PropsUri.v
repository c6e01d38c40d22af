(** Properties C01-C16 and C60: URIs.  Each theorem is closed by a lemma of the *Facts files;
    examples show that the hypotheses are met; [_refuted] theorems show where the natural
    statement is false of the code. *)
From Verif Require Import Str Exc Utf8 UriParse BaseUri StrFacts Utf8Facts UriFacts SpecUri
  UriFacts2 UriFacts3 UriFacts4 UriFacts5 UriFacts6 UriFacts7.
Local Open Scope N_scope.

(** ** C01 urisplit inverts uriunsplit *)

Theorem C01_urisplit_roundtrip_http s a path q f :
  split_ok s a path q f -> s = lit "http" \/ s = lit "https" ->
  urisplit (uriunsplit (Some s) (Some a) (Some path) q f)
  = Ok (mkSplit5 (Some s) (Some a) path q f).
Proof.
  intros H Hs. rewrite urisplit_unsplit by auto. unfold path_with_fragment.
  destruct f as [[|c f]|]; try reflexivity. now destruct Hs as [-> | ->].
Qed.

Theorem C01_urisplit_roundtrip s a path q f :
  split_ok s a path q f -> s <> lit "http" -> s <> lit "https" ->
  urisplit (uriunsplit (Some s) (Some a) (Some path) q f)
  = Ok (match f with
        | Some f => mkSplit5 (Some s) (Some a) (path ++ cHash :: f) q (Some [])
        | None => mkSplit5 (Some s) (Some a) path q None
        end).
Proof.
  intros H H1 H2. rewrite urisplit_unsplit by auto. unfold path_with_fragment.
  apply str_eqb_neq in H1, H2. cbn [is_http]. rewrite H1, H2. cbn [orb].
  destruct f as [[|c f]|]; try reflexivity. now destruct (proj1 (so_fragment _ _ _ _ _ H)).
Qed.

Ltac free := let c := fresh in let H1 := fresh in let H2 := fresh in
  intros c H1 H2; cbn in H1, H2; intuition (subst; discriminate).
Lemma not_contains pat s : contains pat s = false -> forall x y, s <> x ++ pat ++ y.
Proof. apply contains_no. Qed.
Lemma no_par_no_group s : contains (lit "((") s = false -> ~ has_group s.
Proof. intros H (x & y & z & E & _). rewrite contains_false in H. eapply H. exact E. Qed.

Example C01_witness_http :
  split_ok (lit "http") (lit "user@host:80") (lit "/a/b") (Some (lit "x=1")) (Some (lit "top")).
Proof.
  constructor; try (split; [|free]; try discriminate).
  - right; eexists; reflexivity.
  - right. repeat split; try discriminate; try free.
    + now apply not_contains.
    + now apply no_par_no_group.
Qed.
Example C01_witness_connector :
  split_ok (lit "zip") (lit "((file:///a/b.zip))") (lit "/c") None (Some (lit "1")).
Proof.
  constructor; try (split; [|free]; try discriminate); auto.
  - right; eexists; reflexivity.
  - left. exists (lit "file:///a/b.zip"). repeat split; try discriminate.
    + cbn. intuition discriminate.
    + now apply not_contains.
Qed.

(** An authority that contains the internal marker loses it, and '.' is moved to the path. *)
Theorem C01_refuted :
  urisplit (uriunsplit (Some (lit "s")) (Some (lit "x__inner_part__y")) (Some (lit "/p")) None None)
  = Ok (mkSplit5 (Some (lit "s")) (Some (lit "xy")) (lit "/p") None None)
  /\ urisplit (uriunsplit (Some (lit "s")) (Some (lit "h")) (Some (lit "/((x))")) None None)
     = Ok (mkSplit5 (Some (lit "s")) (Some (lit "h")) (lit "/__inner_part__") None None)
  /\ urisplit (uriunsplit (Some (lit "s")) None (Some (lit "/p")) None None) = Raise AttributeError.
Proof. repeat split. Qed.

(** ** C02 split_authority inverts join_authority *)

Theorem C02_authority_roundtrip user pass host port :
  (match user with Some u => u <> [] /\ free_of [cColon; cAt] u | None => True end) ->
  (match pass with Some p => p <> [] /\ free_of [cAt] p | None => True end) ->
  (pass <> None -> user <> None) ->
  host <> [] -> free_of [cColon; cAt] host ->
  (match port with Some p => p <> [] /\ free_of [cAt] p | None => True end) ->
  exists t, join_authority user pass (Some host) port = Ok t /\
            split_authority t = (user, pass, Some host, port).
Proof. exact (authority_roundtrip user pass host port). Qed.

Example C02_witness :
  join_authority (Some (lit "joe")) (Some (lit "a:b")) (Some (lit "host")) (Some (lit "22")) = Ok (lit "joe:a:b@host:22")
  /\ split_authority (lit "joe:a:b@host:22") = (Some (lit "joe"), Some (lit "a:b"), Some (lit "host"), Some (lit "22")).
Proof. split; reflexivity. Qed.

(** ** C03 query strings round-trip *)

Theorem C03_query_roundtrip_partial q :
  q <> [] -> (forall k v, In (k, v) q -> plain k) -> (forall k v, In (k, v) q -> text_ok v) ->
  NoDup (map fst q) ->
  exists t, urlencode q = Ok t /\ parse_query_string t = Ok q.
Proof.
  intros H1 H2 H3 H4. destruct (query_roundtrip q H1 H2 H3 H4) as (t & E1 & E2 & _). eauto.
Qed.

Example C03_witness :
  exists t, urlencode [(lit "a", lit "x y&=/?%+"); (lit "b", [8364; 128512; 10])] = Ok t
    /\ parse_query_string t = Ok [(lit "a", lit "x y&=/?%+"); (lit "b", [8364; 128512; 10])].
Proof. eexists. split; vm_compute; reflexivity. Qed.

(** The empty dictionary and keys that need quoting do not round-trip. *)
Theorem C03_refuted :
  (exists t, urlencode [] = Ok t /\ parse_query_string t = Raise ValueError) /\
  (exists t, urlencode [(lit "a b", lit "c")] = Ok t /\ parse_query_string t = Ok [(lit "a+b", lit "c")]).
Proof. split; eexists; split; vm_compute; reflexivity. Qed.

(** ** C04 str() of a URI parses back *)

Theorem C04_str_reparses sch a path q t sep sep' ex ex' :
  scheme_ok sch -> auth_ok a -> path_ok path -> query_ok q -> plain_values q ->
  ((exists user pass host port, a = Host user pass host port) \/ forall r, sch <> lit "http" ++ r) ->
  uri_text sch a path q t -> kw_ok ex -> kw_ok ex' ->
  exists u s v, URI t sep ex = Ok u /\ u_str u = Ok s /\ URI s sep' ex' = Ok v /\
    u_eqb v u = true /\ u_p v = u_p u.
Proof. exact (str_reparses sch a path q t sep sep' ex ex'). Qed.

(** For file URIs str() is the path. *)
Theorem C04_str_reparses_file p sep' ex ex' :
  posix_ok p -> (exists r, p = cSlash :: r) -> (forall r, p <> lit "/." ++ r) -> kw_ok ex -> kw_ok ex' ->
  exists u v, URI (lit "file://" ++ p) cSlash ex = Ok u /\ u_str u = Ok p /\ URI p sep' ex' = Ok v /\
    u_eqb v u = true.
Proof.
  intros Hp Hr Hd Hk Hk'.
  destruct (posix_absolute p cSlash ex Hp Hr Hk) as (u & U & C & S & P & Sc & Q & K).
  destruct (posix_absolute p sep' ex' Hp Hr Hk') as (v & V & C' & S' & P' & Sc' & Q' & K').
  exists u, v. rewrite <- plain_is_file by (apply no_scheme_re, (px_uri _ Hp)).
  destruct (K eq_refl Hd) as [_ K2]. repeat split; auto.
  assert (W : forall x t s e, URI t s e = Ok x -> query_wf x).
  { intros x t s e E. unfold URI in E. now apply mk_uri_wf in E. }
  apply u_eqb_spec; eauto. rewrite Sc, Sc', P, P', Q, Q'. repeat split.
  clear -U V Hp Hr Hk Hk'.
  assert (N : forall s e w, kw_ok e -> URI p s e = Ok w -> p_netloc (u_p w) = []).
  { intros s e w He E. unfold URI in E. rewrite (no_scheme_re _ (px_uri _ Hp)) in E.
    assert (C := clean_posix _ Hp). destruct Hr as [r Hr]. rewrite Hr in C at 2. cbn [prefixb N.eqb orb] in C.
    change (cSlash =? cSlash) with true in C. cbn [andb orb] in C.
    destruct (path_text_split _ (px_text _ Hp) (px_par _ Hp)) as (p1 & f & E1 & A1 & Ff).
    assert (H1 : heads [cSlash] p1).
    { destruct p1 as [|c p1]; [exact I|]. rewrite Hr in E1. cbn in E1. injection E1 as <- _. cbn. auto. }
    assert (P : uri_parse (lit "file://" ++ p) = Ok (parse_of (lit "file") NoAuth p [] (match f with Some _ => Some [] | None => None end))).
    { rewrite E1. change (lit "file://" ++ p1 ++ ftext f) with (gtext (lit "file") NoAuth p1 None f).
      apply parse_grammar; auto.
      - discriminate. - free.
      - constructor.
      - left. apply contains_no. intros x y E2. apply (px_par _ Hp x (y ++ ftext f)). rewrite E1, E2. now rewrite <- !app_assoc. }
    rewrite (mk_uri_of _ _ _ _ _ _ He C P) in E. injection E as <-. now rewrite made_p. }
  rewrite (N _ _ _ Hk U), (N _ _ _ Hk' V). reflexivity.
Qed.

Lemma kw_nil : kw_ok [].
Proof. split; [constructor|cbn; auto]. Qed.
Lemma query_one k v : plain k -> text_ok v -> ~ In k [lit "uri"; lit "sep"; lit "self"] -> query_ok [(k, v)].
Proof.
  intros Hk Hv Hn. constructor.
  - intros k' v' [E|[]]. injection E as <- <-. auto.
  - intros k' v' [E|[]]. injection E as <- <-. auto.
  - repeat constructor. easy.
  - intros k' Hk' [<-|[]]. auto.
Qed.
Lemma scheme_ssh : scheme_ok (lit "ssh").
Proof.
  constructor; try (cbn; lia); try (split; discriminate); try discriminate.
  intros c Hc. cbn in Hc. unfold scheme_letter. intuition (subst; lia).
Qed.
Lemma scheme_memory : scheme_ok (lit "memory").
Proof.
  constructor; try (cbn; lia); try (split; discriminate); try discriminate.
  intros c Hc. cbn in Hc. unfold scheme_letter. intuition (subst; lia).
Qed.
Lemma word_lit s : s <> [] -> free_of ([cSlash; cColon; cAt; cLpar] ++ meta) s -> word s.
Proof. now split. Qed.
Definition ex_auth : auth := Host (Some (lit "joe")) (Some (lit "pw")) (lit "host.net") (Some 2222).
Lemma ex_auth_ok : auth_ok ex_auth.
Proof.
  constructor; try (apply word_lit; [discriminate|free]); try easy.
  apply not_contains. vm_compute. reflexivity.
Qed.
Lemma path_lit p : (exists r, p = cSlash :: r) -> free_of meta p -> contains (lit "((") p = false -> path_ok p.
Proof. intros H1 H2 H3. constructor; auto. now apply not_contains. Qed.
Lemma name_lit n : n <> [] -> free_of (cSlash :: meta) n -> contains (lit "((") n = false -> name_ok n.
Proof. intros H1 H2 H3. constructor; auto. now apply not_contains. Qed.
Lemma ex_path_ok : path_ok (lit "/a b/c").
Proof. apply path_lit; [eexists; reflexivity|free|reflexivity]. Qed.
Lemma ex_loc : loc_ok (lit "ssh") ex_auth (lit "/a b/c").
Proof. apply loc_remote; auto using scheme_ssh, ex_auth_ok, ex_path_ok. Qed.
Lemma ex_query : query_ok [(lit "key", lit "value")].
Proof. apply query_one; [reflexivity|reflexivity|]. intros H. cbn in H. intuition discriminate. Qed.

Example C04_witness :
  scheme_ok (lit "ssh") /\ auth_ok ex_auth /\ path_ok (lit "/a b/c") /\ query_ok [(lit "key", lit "value")] /\
  plain_values [(lit "key", lit "value")] /\
  uri_text (lit "ssh") ex_auth (lit "/a b/c") [(lit "key", lit "value")]
           (lit "ssh://joe:pw@host.net:2222/a b/c?key=value").
Proof.
  repeat apply conj; try solve [apply scheme_ssh | apply ex_auth_ok | apply ex_query | apply ex_path_ok].
  - intros k v [E|[]]. injection E as <- <-. reflexivity.
  - exists (lit "?key=value"). split; [|reflexivity]. exists (lit "key=value"). split; vm_compute; reflexivity.
Qed.

(** Values that need quoting make str() unparsable, and a file URI loses its query. *)
Theorem C04_refuted :
  (exists u, URI (lit "ssh://host/p?k=a%26b") cSlash [] = Ok u /\
     u_str u = Ok (lit "ssh://host/p?k=a&b") /\ URI (lit "ssh://host/p?k=a&b") cSlash [] = Raise ValueError) /\
  (exists u v, URI (lit "file:///p?k=v") cSlash [] = Ok u /\ u_str u = Ok (lit "/p") /\
     URI (lit "/p") cSlash [] = Ok v /\ u_eqb v u = false).
Proof. split; repeat eexists; vm_compute; reflexivity. Qed.

(** ** C05 joining appends exactly one component *)

Theorem C05_join_appends sch a p0 k q t ex n :
  loc_ok sch a (p0 ++ repeat cSlash k) -> no_trailing_slash p0 -> query_ok q ->
  uri_text sch a (p0 ++ repeat cSlash k) q t -> kw_ok ex -> name_ok n -> no_drive sch n ->
  exists u r, URI t cSlash ex = Ok u /\ u_div u n = Ok r /\
    p_path (u_p u) = p0 ++ repeat cSlash k /\ p_path (u_p r) = p0 ++ cSlash :: n /\
    ((forall x, p0 ++ cSlash :: n <> lit "/." ++ x) -> u_path r = p0 ++ cSlash :: n) /\
    u_cls r = u_cls u /\ u_scheme r = u_scheme u /\ u_scheme u = Some sch /\
    p_hostname (u_p r) = p_hostname (u_p u) /\ p_port (u_p r) = p_port (u_p u) /\
    p_username (u_p r) = p_username (u_p u) /\ p_password (u_p r) = p_password (u_p u) /\
    p_vpath (u_p r) = p_vpath (u_p u) /\ p_query (u_p r) = q /\ p_query (u_p u) = q /\
    exists t', uri_text sch a (p0 ++ cSlash :: n) q t' /\ URI t' cSlash (u_all_extras u) = Ok r.
Proof. exact (join_appends sch a p0 k q t ex n). Qed.

Example C05_witness :
  loc_ok (lit "ssh") ex_auth (lit "/a b/c" ++ repeat cSlash 0) /\ no_trailing_slash (lit "/a b/c") /\
  name_ok (lit "x:y z") /\ no_drive (lit "ssh") (lit "x:y z").
Proof.
  split; [exact ex_loc|]. split; [|split].
  - intros r E. apply (f_equal (@rev N)) in E. rewrite rev_app_distr in E. discriminate.
  - apply name_lit; [discriminate|free|reflexivity].
  - discriminate.
Qed.

(** A name beginning with a dot, joined to the root, gives a relative path. *)
Theorem C05_refuted :
  exists u r, URI (lit "memory:///") cSlash [] = Ok u /\ u_div u (lit ".x") = Ok r /\ u_path r = lit ".x".
Proof. repeat eexists; vm_compute; reflexivity. Qed.

(** ** C06 split() undoes join *)

Theorem C06_split_undoes_join_partial sch a p ex t n :
  loc_ok sch a p -> (no_trailing_slash p \/ p = [cSlash] /\ a = NoAuth) -> uri_text sch a p [] t ->
  kw_ok ex -> name_ok n -> no_drive sch n ->
  exists u r d, URI t cSlash ex = Ok u /\ u_div u n = Ok r /\ u_split r = Ok (d, n) /\
    u_eqb d u = true /\ u_uri d = u_uri u /\ u_p d = u_p u /\
    u_dirname 1 r = Ok d /\ u_basename r = Ok n /\ u_last r = n.
Proof. exact (split_undoes sch a p ex t n). Qed.

(** With a query, or at the root of a host, split() does not undo join. *)
Theorem C06_refuted :
  (exists u r d, URI (lit "ssh://host/p?k=v") cSlash [] = Ok u /\ u_div u (lit "n") = Ok r /\
     u_split r = Ok (d, lit "n") /\ u_eqb d u = false) /\
  (exists u r d, URI (lit "ssh://host/") cSlash [] = Ok u /\ u_div u (lit "n") = Ok r /\
     u_split r = Ok (d, lit "n") /\ u_eqb d u = false).
Proof. split; repeat eexists; vm_compute; reflexivity. Qed.

(** ** C07 joining is associative and ignores trailing slashes of the base *)

Theorem C07_join_assoc sch a p0 k q t ex n1 n2 :
  loc_ok sch a (p0 ++ repeat cSlash k) -> no_trailing_slash p0 -> query_ok q ->
  uri_text sch a (p0 ++ repeat cSlash k) q t -> kw_ok ex ->
  name_ok n1 -> name_ok n2 -> no_drive sch n1 -> no_drive sch n2 ->
  exists u v w r, URI t cSlash ex = Ok u /\
    u_div u n1 = Ok v /\ u_div v n2 = Ok w /\
    u_join u [n1; n2] = Ok r /\ u_div u (n1 ++ cSlash :: n2) = Ok r /\
    u_eqb w r = true /\ u_uri w = u_uri r /\ u_p w = u_p r.
Proof. exact (join_assoc sch a p0 k q t ex n1 n2). Qed.

Theorem C07_join_trailing sch a p0 k q t t' ex n :
  loc_ok sch a (p0 ++ repeat cSlash k) -> loc_ok sch a p0 -> no_trailing_slash p0 -> query_ok q ->
  uri_text sch a (p0 ++ repeat cSlash k) q t -> uri_text sch a p0 q t' -> kw_ok ex ->
  name_ok n -> no_drive sch n ->
  exists u v r, URI t cSlash ex = Ok u /\ URI t' cSlash ex = Ok v /\ u_div u n = Ok r /\ u_div v n = Ok r.
Proof. exact (join_trailing sch a p0 k q t t' ex n). Qed.

Example C07_witness :
  loc_ok (lit "file") NoAuth (lit "/a" ++ repeat cSlash 3) /\ loc_ok (lit "file") NoAuth (lit "/a") /\
  name_ok (lit "b") /\ no_drive (lit "file") (lit "b").
Proof.
  repeat apply conj.
  - apply loc_file; auto; [apply path_lit; [eexists; reflexivity|free|reflexivity]|now apply not_contains|discriminate].
  - apply loc_file; auto; [apply path_lit; [eexists; reflexivity|free|reflexivity]|now apply not_contains|discriminate].
  - apply name_lit; [discriminate|free|reflexivity].
  - intros _ r. discriminate.
Qed.

(** ** C08 dirname *)

Theorem C08_dirname_levels_partial sch a cs q t sep ex level :
  site_ok sch a -> Forall name_ok cs -> (forall n, In n cs -> no_drive sch n) -> query_ok q ->
  uri_text sch a (abs_path cs) q t -> kw_ok ex -> (level <> 0)%nat ->
  (a = NoAuth \/ level < length cs)%nat ->
  exists u d, URI t sep ex = Ok u /\ u_dirname level u = Ok d /\
    p_path (u_p d) = abs_path (firstn (length cs - level) cs) /\
    u_uri d = sch ++ lit "://" ++ auth_text a ++ abs_path (firstn (length cs - level) cs) /\
    u_scheme d = u_scheme u /\ p_hostname (u_p d) = p_hostname (u_p u) /\ p_port (u_p d) = p_port (u_p u) /\
    p_username (u_p d) = p_username (u_p u) /\ p_password (u_p d) = p_password (u_p u) /\
    p_vpath (u_p d) = p_vpath (u_p u).
Proof. exact (dirname_levels sch a cs q t sep ex level). Qed.

Example C08_witness :
  site_ok (lit "memory") NoAuth /\ Forall name_ok [lit "a"; lit "b c"; lit "d"] /\
  (forall n, In n [lit "a"; lit "b c"; lit "d"] -> no_drive (lit "memory") n) /\
  abs_path [lit "a"; lit "b c"; lit "d"] = lit "/a/b c/d".
Proof.
  repeat apply conj; try reflexivity.
  - right. split; [apply scheme_memory|constructor].
  - repeat constructor; try discriminate; try free; now apply not_contains.
  - intros n _. discriminate.
Qed.

(** With an authority, the directory of a top-level entry has no path, and the next one is garbage. *)
Theorem C08_refuted :
  exists u d d2, URI (lit "ssh://host/x") cSlash [] = Ok u /\ u_dirname 1 u = Ok d /\ p_path (u_p d) = [] /\
    u_dirname 2 u = Ok d2 /\ u_scheme d2 = Some (lit "file").
Proof. repeat eexists; vm_compute; reflexivity. Qed.

(** ** C09 derived URIs address the same backend *)

Theorem C09_derived_same_backend_partial sch a p0 k q t ex n :
  loc_ok sch a (p0 ++ repeat cSlash k) -> no_trailing_slash p0 -> query_ok q ->
  uri_text sch a (p0 ++ repeat cSlash k) q t -> kw_ok ex -> name_ok n -> no_drive sch n ->
  no_outside_creds a ex q -> (a = NoAuth \/ p0 <> []) ->
  exists u r d, URI t cSlash ex = Ok u /\ u_div u n = Ok r /\ u_dirname 1 r = Ok d /\
    same_key (u_key u) (u_key r) /\ same_key (u_key r) (u_key d) /\
    u_cls u = u_cls r /\ u_cls r = u_cls d.
Proof. exact (derived_same_key sch a p0 k q t ex n). Qed.

Example C09_witness :
  no_outside_creds ex_auth [(lit "timeout", lit "5")] [(lit "key", lit "value")] /\
  kw_ok [(lit "timeout", lit "5")].
Proof.
  split.
  - split; discriminate.
  - constructor; [repeat constructor; easy|]. intros x Hx [<-|[]]. cbn in Hx. intuition discriminate.
Qed.

(** Credentials given as keyword arguments are lost by join. *)
Theorem C09_refuted :
  exists u r, URI (lit "ssh://host/p") cSlash [(lit "username", lit "joe")] = Ok u /\
    u_div u (lit "n") = Ok r /\ k_user (u_key u) = Some (lit "joe") /\ k_user (u_key r) = None.
Proof. repeat eexists; vm_compute; reflexivity. Qed.

(** ** C10 a plain path and its file:// form *)

Theorem C10_plain_is_file p sep ex :
  scheme_re p = None -> URI p sep ex = URI (lit "file://" ++ p) sep ex.
Proof. exact (plain_is_file p sep ex). Qed.
(** [scheme_re p = None] is met by every text without "://". *)
Theorem C10_plain_is_file' p sep ex :
  (forall x y, p <> x ++ lit "://" ++ y) -> URI p sep ex = URI (lit "file://" ++ p) sep ex.
Proof. intros H. apply plain_is_file. now apply no_scheme_re. Qed.

Example C10_witness : exists u, URI (lit "a/b?k=v") cSlash [] = Ok u /\ URI (lit "file://a/b?k=v") cSlash [] = Ok u.
Proof. eexists; split; vm_compute; reflexivity. Qed.

(** ** C11 POSIX paths *)

Theorem C11_absolute_partial p ex :
  posix_ok p -> (exists r, p = cSlash :: r) -> (forall r, p <> lit "/." ++ r) -> kw_ok ex ->
  exists u, URI p cSlash ex = Ok u /\ u_path u = p /\ u_str u = Ok p /\ u_is_absolute u = true.
Proof.
  intros Hp Hr Hd Hk. destruct (posix_absolute p cSlash ex Hp Hr Hk) as (u & U & C & S & P & Sc & Q & K).
  destruct (K eq_refl Hd) as [K1 K2].
  exists u. repeat split; auto. unfold u_is_absolute. rewrite P.
  destruct (prefixb (lit "/.") p) eqn:E; [apply prefixb_spec in E as [x E]; now destruct (Hd x)|].
  destruct Hr as [r ->]. reflexivity.
Qed.
(** A relative path keeps its meaning, written with a leading './'. *)
Theorem C11_relative_partial p ex :
  posix_ok p -> (forall r, p <> cSlash :: r) -> (forall r, p <> cDot :: r) -> kw_ok ex ->
  exists u, URI p cSlash ex = Ok u /\ u_path u = lit "./" ++ p /\ u_is_absolute u = false.
Proof.
  intros Hp H1 H2 Hk. destruct (posix_relative p cSlash ex Hp H1 H2 Hk) as (u & U & C & S & P & K).
  exists u. repeat split; auto. unfold u_is_absolute. now rewrite P.
Qed.
Theorem C11_dot_slash_partial r ex :
  posix_ok (lit "./" ++ r) -> kw_ok ex ->
  exists u, URI (lit "./" ++ r) cSlash ex = Ok u /\ u_path u = lit "./" ++ r /\ u_is_absolute u = false.
Proof.
  intros Hp Hk. destruct (posix_dot_slash r cSlash ex Hp Hk) as (u & U & C & S & P & K).
  exists u. repeat split; auto. unfold u_is_absolute. now rewrite P.
Qed.

Example C11_witness :
  posix_ok (lit "/home/joe/C#/my file (1)") /\ posix_ok (lit "src/a..b") /\ posix_ok (lit "./x").
Proof.
  repeat apply conj; constructor; try (now apply not_contains); try free; try (intros c r; discriminate).
  - change (lit "/home/joe/C#/my file (1)") with (lit "/home/joe/C" ++ cHash :: lit "/my file (1)").
    apply pt_hash; [free|discriminate|free].
  - apply pt_plain. free.
  - apply pt_plain. free.
Qed.

(** Relative paths that begin with a dot and anything but a slash, and hidden files in the root
    directory, denote other files afterwards. *)
Theorem C11_refuted :
  (exists u, URI (lit "../x") cSlash [] = Ok u /\ u_path u = lit "/x") /\
  (exists u, URI (lit ".hidden/x") cSlash [] = Ok u /\ u_path u = lit "/x") /\
  (exists u, URI (lit "/.hidden") cSlash [] = Ok u /\ u_path u = lit ".hidden") /\
  (exists u, URI (lit "a:b") cSlash [] = Ok u /\ u_path u = lit "/ab") /\
  (exists u, URI (lit "a\b") cSlash [] = Ok u /\ u_path u = lit "./a/b") /\
  (exists u, URI (lit "/a#") cSlash [] = Ok u /\ u_path u = lit "/a") /\
  URI (lit "/a://b") cSlash [] = Raise AttributeError.
Proof. repeat apply conj; repeat eexists; vm_compute; reflexivity. Qed.

(** ** C12 Windows paths *)

Theorem C12_windows_roundtrip d cs ex :
  kw_ok ex -> ~ In d [cSlash; cBack; cColon; cQuest; cHash; cLpar] ->
  Forall (fun c => free_of [cSlash; cBack; cColon; cQuest; cHash; cLpar] c) cs ->
  let p := [d; cColon; cBack] ++ join_with [cBack] cs in
  exists u, URI p cBack ex = Ok u /\ u_path u = p /\ u_str u = Ok p /\
            p_path (u_p u) = [cSlash; d; cSlash] ++ join_with [cSlash] cs.
Proof. exact (windows_path d cs ex). Qed.

Example C12_witness :
  exists u, URI (lit "C:\Program Files\x") cBack [] = Ok u /\ u_path u = lit "C:\Program Files\x" /\
            p_path (u_p u) = lit "/C/Program Files/x".
Proof. repeat eexists; vm_compute; reflexivity. Qed.

(** ** C13 equality *)

(** [query_wf]: the keys of the query dictionary are distinct; every way of making a URI
    establishes it. *)
Theorem C13_query_wf :
  (forall t sep ex u, URI t sep ex = Ok u -> query_wf u) /\
  (forall u v, URI_of u = Ok v -> query_wf v) /\
  (forall u args v, query_wf u -> u_join u args = Ok v -> query_wf v) /\
  (forall u s v, query_wf u -> u_add u s = Ok v -> query_wf v) /\
  (forall u d n, u_split u = Ok (d, n) -> query_wf d).
Proof.
  repeat apply conj.
  - intros t sep ex u H. unfold URI in H. now apply mk_uri_wf in H.
  - intros u v H. unfold URI_of in H. now apply clone_wf in H.
  - exact join_wf.
  - exact add_wf.
  - exact split_wf.
Qed.
Theorem C13_equality_partial u v w :
  query_wf u -> query_wf v -> query_wf w ->
  u_eqb u u = true /\ (u_eqb u v = true -> u_eqb v u = true) /\
  (u_eqb u v = true -> u_eqb v w = true -> u_eqb u w = true) /\
  u_neb u v = negb (u_eqb u v) /\
  (u_eqb u v = true <->
   u_scheme u = u_scheme v /\ p_netloc (u_p u) = p_netloc (u_p v) /\
   p_path (u_p u) = p_path (u_p v) /\ same_dict (p_query (u_p u)) (p_query (u_p v))).
Proof.
  intros Hu Hv Hw. rewrite !u_eqb_spec by auto. unfold same_dict. repeat apply conj; auto.
  - intros (A & B & C & D). repeat split; auto.
  - intros (A & B & C & D) (A' & B' & C' & D'). repeat split; try congruence; intros k; now rewrite D.
Qed.

Example C13_witness :
  exists u v, URI (lit "ssh://h/p?a=1&b=2") cSlash [] = Ok u /\ URI (lit "ssh://h/p?b=2&a=1") cSlash [] = Ok v /\
    u_eqb u v = true.
Proof. repeat eexists; vm_compute; reflexivity. Qed.

(** Equal URIs need not address the same resource: the connector and the credentials are ignored. *)
Theorem C13_refuted :
  (exists u v, URI (lit "zip://((/a.zip))/x") cSlash [] = Ok u /\ URI (lit "zip://((/b.zip))/x") cSlash [] = Ok v /\
     u_eqb u v = true /\ k_vpath (u_key u) <> k_vpath (u_key v)) /\
  (exists u v, URI (lit "ssh://joe@h/x") cSlash [] = Ok u /\ URI (lit "ssh://ann@h/x") cSlash [] = Ok v /\
     u_eqb u v = true /\ k_user (u_key u) <> k_user (u_key v)).
Proof.
  split.
  - let u := eval vm_compute in (URI (lit "zip://((/a.zip))/x") cSlash []) in let v := eval vm_compute in (URI (lit "zip://((/b.zip))/x") cSlash []) in
    match u with Ok ?u => match v with Ok ?v => exists u, v end end.
    split; [vm_compute; reflexivity|]. split; [vm_compute; reflexivity|]. split; [vm_compute; reflexivity|]. vm_compute. discriminate.
  - let u := eval vm_compute in (URI (lit "ssh://joe@h/x") cSlash []) in let v := eval vm_compute in (URI (lit "ssh://ann@h/x") cSlash []) in
    match u with Ok ?u => match v with Ok ?v => exists u, v end end.
    split; [vm_compute; reflexivity|]. split; [vm_compute; reflexivity|]. split; [vm_compute; reflexivity|]. vm_compute. discriminate.
Qed.

(** ** C14 adding a suffix *)

Theorem C14_add_suffix_partial sch a p s t ex :
  loc_ok sch a p -> loc_ok sch a (p ++ s) -> uri_text sch a p [] t -> kw_ok ex ->
  exists u r, URI t cSlash ex = Ok u /\ u_add u s = Ok r /\
    p_path (u_p u) = p /\ p_path (u_p r) = p ++ s /\ u_cls r = u_cls u /\ u_scheme r = u_scheme u /\
    p_hostname (u_p r) = p_hostname (u_p u) /\ p_port (u_p r) = p_port (u_p u) /\
    p_username (u_p r) = p_username (u_p u) /\ p_password (u_p r) = p_password (u_p u) /\
    p_vpath (u_p r) = p_vpath (u_p u) /\ p_query (u_p r) = [] /\
    (no_outside_creds a ex [] -> same_key (u_key u) (u_key r)).
Proof. exact (add_suffix sch a p s t ex). Qed.

Example C14_witness :
  loc_ok (lit "ssh") ex_auth (lit "/a b/c") /\ loc_ok (lit "ssh") ex_auth (lit "/a b/c" ++ lit ".bak/d").
Proof.
  split; [exact ex_loc|]. apply loc_remote; auto using scheme_ssh, ex_auth_ok.
  apply path_lit; [eexists; reflexivity|free|reflexivity].
Qed.

(** With a query the suffix ends up in the query text: the path does not change. *)
Theorem C14_refuted :
  exists u r, URI (lit "ssh://h/p?k=v") cSlash [] = Ok u /\ u_add u (lit ".bak") = Ok r /\
    p_path (u_p r) = lit "/p" /\ u_eqb u r = true /\ u_uri r = lit "ssh://h/p?k=v.bak".
Proof. repeat eexists; vm_compute; reflexivity. Qed.

(** ** C15 urljoin *)

(** Absolute references are returned unchanged (the part of the property that holds). *)
Theorem C15_absolute_reference_partial base bs s a path q f :
  urisplit base = Ok bs -> split_ok s a path q f ->
  (s_scheme bs <> Some s \/ s = lit "http" \/ s = lit "https" \/ q = None \/ f = None) ->
  let ref := uriunsplit (Some s) (Some a) (Some path) q f in
  urljoin base ref = Ok ref.
Proof. exact (urljoin_absolute base bs s a path q f). Qed.

Example C15_witness :
  urljoin (lit "http://h/a/b") (lit "http://user@host:80/a/b?x=1#top") = Ok (lit "http://user@host:80/a/b?x=1#top")
  /\ urljoin (lit "http://h/a/b") (lit "ftp://g/c") = Ok (lit "ftp://g/c").
Proof. split; vm_compute; reflexivity. Qed.

(** Every reference without '//' raises, whatever the base: no relative reference is resolved. *)
Theorem C15_refuted base ref :
  (forall x y, ref <> x ++ lit "//" ++ y) -> ~ has_group ref ->
  urljoin base ref = Raise AttributeError.
Proof. intros H1 H2. exact (proj2 (relative_ref_raises base ref H1 H2)). Qed.
(** And a non-http reference with query and fragment comes back with the two swapped. *)
Theorem C15_refuted_fragment :
  urljoin (lit "ssh://h/a") (lit "ssh://g/b?q=1#f") = Ok (lit "ssh://g/b#f?q=1").
Proof. reflexivity. Qed.

(** ** C16 is_absolute and unipath *)

Theorem C16_absolute_unipath_partial u :
  (exists r, u_unipath u = cSlash :: r \/ u_unipath u = cDot :: r) /\
  (u_cls u <> ULocal \/ u_sep u = cSlash ->
   (u_is_absolute u = true <-> exists r, u_path u = cSlash :: r)).
Proof.
  split.
  - unfold u_unipath. destruct (p_path (u_p u)) as [|c p] eqn:E; [eexists; right; reflexivity|].
    cbn [prefixb]. destruct (N.eqb_spec cDot c) as [<-|]; [eexists; right; reflexivity|].
    destruct (N.eqb_spec cSlash c) as [<-|]; eexists; [left|right]; reflexivity.
  - intros H. assert (P : u_path u = base_path u).
    { unfold u_path. destruct (u_cls u); auto. destruct H as [H| ->]; [easy|reflexivity]. }
    rewrite P. unfold u_is_absolute, base_path.
    destruct (if prefixb (lit "/.") (p_path (u_p u)) then _ else _) as [|c p].
    + split; [discriminate|]. intros [r E]. discriminate.
    + cbn [prefixb lit]. change (prefixb [cSlash] (c :: p) = true <-> exists r, c :: p = cSlash :: r).
      cbn [prefixb]. rewrite andb_true_r. split.
      * intros E. apply N.eqb_eq in E. subst. eauto.
      * intros [r E]. injection E as -> _. reflexivity.
Qed.

Example C16_witness :
  exists u v, URI (lit "a/b") cSlash [] = Ok u /\ u_is_absolute u = false /\ u_path u = lit "./a/b" /\
    URI (lit "memory:///a") cSlash [] = Ok v /\ u_is_absolute v = true /\ u_path v = lit "/a".
Proof. repeat eexists; vm_compute; reflexivity. Qed.

(** With the Windows separator the path of an absolute URI begins with the drive. *)
Theorem C16_refuted :
  exists u, URI (lit "C:\a") cBack [] = Ok u /\ u_is_absolute u = true /\ u_path u = lit "C:\a".
Proof. repeat eexists; vm_compute; reflexivity. Qed.

(** ** C60 every file name *)

Theorem C60_usable_names_partial n :
  usable_name n ->
  exists u r, URI (lit "memory:///") cSlash [] = Ok u /\ u_div u n = Ok r /\ u_path r = cSlash :: n.
Proof.
  intros H. destruct (usable_name_path n H) as (r & R & _ & P & _). exists mem_root, r. auto using mem_root_ok.
Qed.
Theorem C60_distinct_names_partial n m :
  usable_name n -> usable_name m -> n <> m ->
  exists u r s, URI (lit "memory:///") cSlash [] = Ok u /\ u_div u n = Ok r /\ u_div u m = Ok s /\
    u_path r <> u_path s /\ u_eqb r s = false.
Proof.
  intros Hn Hm Hd. destruct (usable_name_path n Hn) as (r & R & _ & P & P2).
  destruct (usable_name_path m Hm) as (s & S & _ & Q & Q2).
  exists mem_root, r, s. rewrite P, Q. repeat split; auto using mem_root_ok.
  - intros E. injection E as E. auto.
  - destruct (u_eqb r s) eqn:E; auto. unfold u_eqb, parsed_eqb in E.
    rewrite !andb_true_iff in E. destruct E as [[_ E] _]. apply str_eqb_eq in E. rewrite P2, Q2 in E.
    injection E as E. easy.
Qed.

Example C60_witness : usable_name (lit "a b & c: 100% ((x #1? ~") /\ usable_name (lit "x..").
Proof.
  split.
  - constructor; try discriminate; try free.
    + change (lit "a b & c: 100% ((x #1? ~") with (lit "a b & c: 100% ((x " ++ cHash :: lit "1? ~").
      apply pt_hash; [free|discriminate|free].
    + intros (x & y & z & E & _). assert (H : In cRpar (lit "a b & c: 100% ((x #1? ~")).
      { rewrite E. rewrite !in_app_iff. right. right. right. left. now left. }
      cbn in H. intuition discriminate.
  - constructor; try discriminate; try free.
    + apply pt_plain. free.
    + now apply no_par_no_group.
Qed.

(** The excluded names really fail. *)
Theorem C60_refuted :
  (exists u r, URI (lit "memory:///") cSlash [] = Ok u /\ u_div u (lit "a?b") = Raise ValueError /\
     u_div u (lit "a?b=c") = Ok r /\ u_path r = lit "/a") /\
  (exists u r, URI (lit "memory:///") cSlash [] = Ok u /\ u_div u (lit "a#") = Ok r /\ u_path r = lit "/a") /\
  (exists u r, URI (lit "memory:///") cSlash [] = Ok u /\ u_div u (lit "a\b") = Ok r /\ u_path r = lit "/a/b") /\
  (exists u r, URI (lit "memory:///") cSlash [] = Ok u /\ u_div u (lit ".a") = Ok r /\ u_path r = lit ".a") /\
  (exists u r s, URI (lit "memory:///") cSlash [] = Ok u /\ u_div u (lit "((a))") = Ok r /\
     u_path r = lit "/__inner_part__" /\ u_div u (lit "((b))") = Ok s /\ u_eqb r s = true).
Proof. repeat apply conj; repeat eexists; vm_compute; reflexivity. Qed.

Print Assumptions C01_urisplit_roundtrip_http.
Print Assumptions C01_urisplit_roundtrip.
Print Assumptions C01_refuted.
Print Assumptions C02_authority_roundtrip.
Print Assumptions C03_query_roundtrip_partial.
Print Assumptions C03_refuted.
Print Assumptions C04_str_reparses.
Print Assumptions C04_str_reparses_file.
Print Assumptions C04_refuted.
Print Assumptions C05_join_appends.
Print Assumptions C05_refuted.
Print Assumptions C06_split_undoes_join_partial.
Print Assumptions C06_refuted.
Print Assumptions C07_join_assoc.
Print Assumptions C07_join_trailing.
Print Assumptions C08_dirname_levels_partial.
Print Assumptions C08_refuted.
Print Assumptions C09_derived_same_backend_partial.
Print Assumptions C09_refuted.
Print Assumptions C10_plain_is_file.
Print Assumptions C10_plain_is_file'.
Print Assumptions C11_absolute_partial.
Print Assumptions C11_relative_partial.
Print Assumptions C11_dot_slash_partial.
Print Assumptions C11_refuted.
Print Assumptions C12_windows_roundtrip.
Print Assumptions C13_query_wf.
Print Assumptions C13_equality_partial.
Print Assumptions C13_refuted.
Print Assumptions C14_add_suffix_partial.
Print Assumptions C14_refuted.
Print Assumptions C15_absolute_reference_partial.
Print Assumptions C15_refuted.
Print Assumptions C15_refuted_fragment.
Print Assumptions C16_absolute_unipath_partial.
Print Assumptions C16_refuted.
Print Assumptions C60_usable_names_partial.
Print Assumptions C60_distinct_names_partial.
Print Assumptions C60_refuted.
