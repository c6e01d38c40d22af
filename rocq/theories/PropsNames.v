(** Properties C72, C73 and C74: the name of a URI, copies of URIs, and which URIs share a backend. *)
From Verif Require Import Str Exc Utf8 UriParse BaseUri StrFacts SpecUri UriFacts
  UriFacts2 UriFacts3 UriFacts4 UriFacts5 UriFacts6 PropsUri.
Local Open Scope N_scope.

(** ** C72 last(), basename() and splitext() *)

(** What a caller expects of os.path.splitext for a name: the extension is the last dot and what follows it,
    unless nothing but dots comes before. *)
Record ext_spec (b root ext : str) : Prop := {
  es_whole : root ++ ext = b;
  es_form : ext = [] \/ exists x, ext = cDot :: x /\ ~ In cDot x;
  es_some : ext <> [] -> exists c, In c root /\ c <> cDot;
  es_none : ext = [] -> forall x y, b = x ++ cDot :: y -> forall c, In c x -> c = cDot }.

Lemma all_dots a : forallb (N.eqb cDot) a = true <-> forall c, In c a -> c = cDot.
Proof.
  rewrite forallb_forall. split; intros H c Hc.
  - symmetry. now apply N.eqb_eq, H.
  - apply N.eqb_eq. symmetry. auto.
Qed.
Lemma not_all_dots a : forallb (N.eqb cDot) a = false -> exists c, In c a /\ c <> cDot.
Proof.
  induction a as [|x a IH]; cbn [forallb]; [discriminate|].
  destruct (N.eqb_spec cDot x); cbn [andb]; intros H.
  - destruct (IH H) as (c & A & B). exists c. split; [now right|auto].
  - exists x. split; [now left|auto].
Qed.
Lemma splitext_spec b : ext_spec b (fst (splitext b)) (snd (splitext b)).
Proof.
  unfold splitext. destruct (cut_last cDot b) as [[x y]|] eqn:C.
  - apply cut_last_some in C as [-> C]. destruct (forallb (N.eqb cDot) x) eqn:F; cbn [fst snd]; constructor; auto.
    + now rewrite app_nil_r.
    + easy.
    + intros _ x' y' E c Hc. pose proof (proj1 (all_dots _) F) as D.
      assert (I : In c (x ++ cDot :: y)) by (rewrite E; apply in_app_iff; now left).
      apply in_app_iff in I as [I|[I|I]]; auto.
      (* c lies behind the last dot, yet a dot follows it *)
      destruct (le_lt_dec (length x') (length x)) as [L|L].
      * (* x' is a prefix of x *)
        apply (f_equal (firstn (length x'))) in E.
        rewrite (firstn_app _ x), (firstn_app _ x'), Nat.sub_diag, (firstn_all x') in E.
        replace (length x' - length x)%nat with O in E by lia. cbn [firstn] in E. rewrite !app_nil_r in E.
        apply D. rewrite <- (firstn_skipn (length x') x). apply in_app_iff. left. rewrite E. exact Hc.
      * exfalso. apply C.
        apply (f_equal (skipn (S (length x)))) in E.
        replace (x ++ cDot :: y) with ((x ++ [cDot]) ++ y) in E by (now rewrite <- app_assoc).
        rewrite skipn_app in E.
        replace (skipn (S (length x)) (x ++ [cDot])) with (@nil N) in E
          by (symmetry; apply skipn_all2; rewrite app_length; cbn [length]; lia).
        replace (S (length x) - length (x ++ [cDot]))%nat with O in E by (rewrite app_length; cbn [length]; lia).
        rewrite skipn_O, app_nil_l, skipn_app in E.
        rewrite E. apply in_app_iff. right.
        replace (S (length x) - length x')%nat with O by lia. now left.
    + right. exists y. auto.
    + intros _. now apply not_all_dots.
    + discriminate.
  - apply cut_last_none in C. cbn [fst snd]. constructor; auto.
    + now rewrite app_nil_r.
    + easy.
    + intros _ x y -> c _. exfalso. apply C. apply in_app_iff. right. now left.
Qed.
(** There is only one way to satisfy it. *)
Lemma ext_unique b r e r' e' : ext_spec b r e -> ext_spec b r' e' -> r = r' /\ e = e'.
Proof.
  intros [A1 A2 A3 A4] [B1 B2 B3 B4].
  destruct A2 as [-> |(x & -> & Hx)], B2 as [-> |(y & -> & Hy)].
  - rewrite app_nil_r in A1, B1. subst. auto.
  - exfalso. destruct B3 as (c & I & D); [discriminate|]. apply D. apply (A4 eq_refl r' y); auto.
  - exfalso. destruct A3 as (c & I & D); [discriminate|]. apply D. apply (B4 eq_refl r x); auto.
  - assert (E : cut_last cDot b = Some (r, x)) by (rewrite <- A1; now apply cut_last_app).
    assert (E' : cut_last cDot b = Some (r', y)) by (rewrite <- B1; now apply cut_last_app).
    rewrite E in E'. injection E' as -> ->. auto.
Qed.

(** For every URI whatever: splitext() splits the basename, and a basename contains neither slash nor '?'. *)
Theorem C72_splitext u r e : u_splitext u = Ok (r, e) <->
  exists b, u_basename u = Ok b /\ ext_spec b r e.
Proof.
  unfold u_splitext. destruct (u_basename u) as [b|x]; cbn [rbind]; split.
  - intros H. injection H as H. exists b. split; auto. pose proof (splitext_spec b) as S. now rewrite H in S.
  - intros (b' & E & H). injection E as <-. f_equal. destruct (ext_unique _ _ _ _ _ (splitext_spec b) H) as [<- <-].
    now destruct (splitext b).
  - discriminate.
  - now intros (b & E & _).
Qed.
Print Assumptions C72_splitext.
Theorem C72_basename u b : u_basename u = Ok b -> ~ In cSlash b /\ ~ In cQuest b.
Proof.
  unfold u_basename, u_split. destruct (cut_last cSlash (u_uri u)) as [[f s]|] eqn:C;
    (destruct (mk_uri _ _ _ _) as [d|]; cbn [rbind snd]; [|discriminate]); intros E; injection E as <-.
  - apply cut_last_some in C as [_ C]. destruct (cut_first cQuest s) as [[x y]|] eqn:F.
    + apply cut_first_some in F as [-> F]. split; auto. intros I. apply C. apply in_app_iff. now left.
    + apply cut_first_none in F. auto.
  - apply cut_last_none in C. destruct (cut_first cQuest (u_uri u)) as [[x y]|] eqn:F.
    + apply cut_first_some in F as [E F]. rewrite E in C. split; auto. intros I. apply C. apply in_app_iff. now left.
    + apply cut_first_none in F. auto.
Qed.
Print Assumptions C72_basename.
(** last() is the last name, with or without a slash behind it; basename() is the last name, also before a query. *)
Theorem C72_last_partial sch a cs n k t sep ex :
  site_ok sch a -> Forall name_ok (cs ++ [n]) -> (forall m, In m (cs ++ [n]) -> no_drive sch m) -> (k <= 1)%nat ->
  uri_text sch a (abs_path (cs ++ [n]) ++ repeat cSlash k) [] t -> kw_ok ex ->
  exists u, URI t sep ex = Ok u /\ u_last u = n.
Proof.
  intros Hs Hn Hd Hk Ht Hx. destruct (uri_text_gtext _ _ _ _ _ Ht) as (e & -> & He).
  assert (L : loc_ok sch a (abs_path (cs ++ [n]))).
  { apply loc_abs; auto. intros F m Hm r. now apply (Hd m Hm F). }
  assert (Hnn : name_ok n). { apply Forall_app in Hn as [_ Hn]. now inversion Hn. }
  assert (L' : loc_ok sch a (abs_path (cs ++ [n]) ++ repeat cSlash k)).
  { destruct k as [|[|k]]; [now rewrite app_nil_r| |lia]. cbn [repeat].
    assert (P : path_ok (abs_path (cs ++ [n])) -> path_ok (abs_path (cs ++ [n]) ++ [cSlash])).
    { intros [[r E] F G]. constructor.
      - exists (r ++ [cSlash]). now rewrite E.
      - intros c Hc I. apply in_app_iff in I as [I|[<-|[]]]; [now apply (F c)|]. cbn in Hc. intuition discriminate.
      - intros x y E2. destruct y as [|c y _] using rev_ind.
        + rewrite app_nil_r in E2. change (lit "((") with ([cLpar] ++ [cLpar]) in E2. rewrite app_assoc in E2.
          apply app_inj_tail in E2 as [_ E2]. discriminate.
        + rewrite !app_assoc in E2. apply app_inj_tail in E2 as [E2 _]. rewrite <- app_assoc in E2. now apply (G x y). }
    destruct L as [S A Q|S A Q U D]; [apply loc_remote; auto|apply loc_file; auto].
    - intros x y E2. destruct y as [|c y _] using rev_ind.
      + rewrite app_nil_r in E2. change (lit "://") with ((lit ":/") ++ [cSlash]) in E2. rewrite app_assoc in E2.
        apply app_inj_tail in E2 as [E2 _].
        rewrite abs_path_snoc in E2.
        change (lit ":/") with ([cColon] ++ [cSlash]) in E2. rewrite app_assoc in E2.
        assert (T : no_trailing_slash (flat_map (fun c => cSlash :: c) cs ++ cSlash :: n)).
        { change (cSlash :: n) with ([cSlash] ++ n). rewrite app_assoc. apply nts_app; [apply (name_ne _ Hnn)|now apply name_nts]. }
        exact (T _ E2).
      + rewrite !app_assoc in E2. apply app_inj_tail in E2 as [E2 _]. rewrite <- app_assoc in E2. now apply (U x y).
    - intros r E2. rewrite abs_path_snoc in E2. destruct cs as [|c cs].
      + cbn [flat_map app] in E2. destruct n as [|x n]; [now destruct (name_ne _ Hnn)|]. cbn in E2.
        injection E2 as E2 _. apply (Hd (x :: n)) with (r := n); [now left|auto|]. now rewrite E2.
      + cbn in E2. destruct c as [|x c]; [apply Forall_app in Hn as [Hn _]; inversion Hn as [|? ? Hc]; now destruct (name_ne _ Hc)|].
        cbn in E2. injection E2 as E2 _. apply (Hd (x :: c)) with (r := c); [now left|auto|]. now rewrite E2. }
  destruct (kw_ex _ Hx) as [Hb _].
  eexists. split; [apply (URI_made sch a _ [] e); auto using empty_query_ok|].
  assert (E : e = None) by (destruct He as [[_ ->]|[He _]]; [reflexivity|now destruct He]). subst e.
  assert (T : forall cls sep' p ex', u_uri (made cls (gtext sch a (abs_path (cs ++ [n]) ++ repeat cSlash k) None None) sep' p ex')
              = gtext sch a (abs_path (cs ++ [n]) ++ repeat cSlash k) None None).
  { intros. unfold made. destruct (take_cred (lit "username") _ _ _) as [us e1].
    destruct (take_cred (lit "password") _ _ _) as [pw e2]. reflexivity. }
  destruct k as [|[|k]]; [| |lia].
  - apply (last_of_text _ (sch ++ lit "://" ++ auth_text a ++ flat_map (fun c => cSlash :: c) cs)); auto.
    rewrite T. unfold gtext. cbn [qtext ftext repeat]. rewrite !app_nil_r, abs_path_snoc, <- !app_assoc. reflexivity.
  - unfold u_last. rewrite T. unfold gtext. cbn [qtext ftext repeat]. rewrite !app_nil_r, abs_path_snoc.
    replace (sch ++ lit "://" ++ auth_text a ++ (flat_map (fun c => cSlash :: c) cs ++ cSlash :: n) ++ [cSlash])
      with (((sch ++ lit "://" ++ auth_text a ++ flat_map (fun c => cSlash :: c) cs) ++ cSlash :: n) ++ cSlash :: [])
      by (rewrite <- !app_assoc; reflexivity).
    rewrite split_on_gen, split_on_gen, (split_on_none cSlash n) by (now apply name_no_slash).
    rewrite !rev_app_distr. reflexivity.
Qed.
Print Assumptions C72_last_partial.
Theorem C72_basename_partial sch a cs n q t sep ex :
  site_ok sch a -> Forall name_ok (cs ++ [n]) -> (forall m, In m (cs ++ [n]) -> no_drive sch m) ->
  query_ok q -> uri_text sch a (abs_path (cs ++ [n])) q t -> kw_ok ex -> (a = NoAuth \/ cs <> []) ->
  exists u, URI t sep ex = Ok u /\ u_basename u = Ok n.
Proof.
  intros Hs Hn Hd Hq Ht Hx Ha. destruct (uri_text_gtext _ _ _ _ _ Ht) as (e & -> & He).
  assert (CF : forall l, (forall m, In m l -> In m (cs ++ [n])) -> colon_free sch l).
  { intros l Hl F m Hm r. now apply (Hd m (Hl m Hm) F). }
  assert (L : loc_ok sch a (abs_path (cs ++ [n]))) by (apply loc_abs; auto).
  pose proof Hn as Hn'. apply Forall_app in Hn' as [Hc Hn']. inversion Hn' as [|? ? Hnn _]; subst.
  destruct (kw_ex _ Hx) as [Hb Hd'].
  eexists. split; [apply (URI_made sch a _ q e); auto|].
  unfold u_basename.
  rewrite (split_made _ sch a (flat_map (fun c => cSlash :: c) cs) n e q); auto.
  - unfold made. destruct (take_cred (lit "username") _ _ _) as [us e1].
    destruct (take_cred (lit "password") _ _ _) as [pw e2]. cbn [u_uri]. now rewrite abs_path_snoc.
  - apply made_extras_ok; auto.
  - now apply comps_nts.
  - rewrite dir_path_abs by auto. apply loc_abs; auto. apply CF. intros m Hm. apply in_app_iff. now left.
Qed.
Print Assumptions C72_basename_partial.
Example C72_witness :
  ext_spec (lit "a.tar.gz") (lit "a.tar") (lit ".gz") /\ ext_spec (lit "..rc") (lit "..rc") [] /\
  (exists u, URI (lit "ssh://joe@h/a/b.c/") cSlash [] = Ok u /\ u_last u = lit "b.c") /\
  (exists u, URI (lit "memory:///a/b.c?x=1") cSlash [] = Ok u /\ u_basename u = Ok (lit "b.c") /\
             u_splitext u = Ok (lit "b", lit ".c")).
Proof.
  split; [exact (splitext_spec (lit "a.tar.gz"))|]. split; [exact (splitext_spec (lit "..rc"))|].
  split; repeat eexists; vm_compute; reflexivity.
Qed.
(** last() takes the query for a part of the name, and gives up at a second trailing slash. *)
Theorem C72_refuted :
  (exists u, URI (lit "memory:///a/b?x=1") cSlash [] = Ok u /\ u_last u = lit "b?x=1" /\ u_basename u = Ok (lit "b")) /\
  (exists u, URI (lit "memory:///a/b//") cSlash [] = Ok u /\ u_last u = []).
Proof. split; repeat eexists; vm_compute; reflexivity. Qed.
Print Assumptions C72_refuted.

(** ** C73 URI(u) *)

(** For every text: the copy is an equal URI with the same text and separator. *)
Lemma cred_again name o ex q v ex' :
  take_cred name o ex q = (v, ex') -> (o = None -> ~ In name (map fst ex)) -> v = match o with Some x => Some x | None => dget name q end /\ ex' = ex.
Proof.
  unfold take_cred. intros H N. destruct o as [x|]; [injection H as <- <-; auto|].
  rewrite (dget_not _ _ (N eq_refl)) in H. injection H as <- <-. auto.
Qed.
Theorem C73_copy_equal t sep ex u : URI t sep ex = Ok u ->
  exists v, URI_of u = Ok v /\ u_eqb v u = true /\ u_uri v = u_uri u /\ u_sep v = sep /\
    p_path (u_p v) = p_path (u_p u) /\ p_query (u_p v) = p_query (u_p u).
Proof.
  unfold URI, mk_uri, URI_of, clone_uri. destruct (bad_init_kw ex); [discriminate|].
  destruct (uri_parse (clean_uri t)) as [p|] eqn:P; cbn [rbind]; [|discriminate].
  destruct (take_cred (lit "username") _ _ _) as [us ex1].
  destruct (take_cred (lit "password") _ _ _) as [pw ex2].
  intros E. injection E as <-. cbn [u_uri u_extras u_sep u_p]. rewrite P. cbn [rbind].
  destruct (take_cred (lit "username") (p_username p) ex2 (p_query p)) as [us' ex3].
  destruct (take_cred (lit "password") (p_password p) ex3 (p_query p)) as [pw' ex4].
  eexists. split; [reflexivity|]. cbn [u_uri u_sep u_p]. repeat split; auto.
  apply u_eqb_spec; try (red; cbn [u_p]; now apply uri_parse_nodup in P). unfold u_scheme. cbn [u_p]. repeat split.
Qed.
Print Assumptions C73_copy_equal.
(** It addresses the same backend if the credentials were not given as keywords. *)
Theorem C73_copy_backend_partial t sep ex u : URI t sep ex = Ok u ->
  (p_username (u_p u) = None -> ~ In (lit "username") (map fst ex)) ->
  (p_password (u_p u) = None -> ~ In (lit "password") (map fst ex)) ->
  exists v, URI_of u = Ok v /\ u_key v = u_key u.
Proof.
  unfold URI, mk_uri, URI_of, clone_uri. destruct (bad_init_kw ex); [discriminate|].
  destruct (uri_parse (clean_uri t)) as [p|] eqn:P; cbn [rbind]; [|discriminate].
  destruct (take_cred (lit "username") _ _ _) as [us ex1] eqn:T1.
  destruct (take_cred (lit "password") _ _ _) as [pw ex2] eqn:T2.
  intros E. injection E as <-. cbn [u_uri u_extras u_sep u_p]. intros N1 N2. rewrite P. cbn [rbind].
  destruct (cred_again _ _ _ _ _ _ T1 N1) as [-> ->]. destruct (cred_again _ _ _ _ _ _ T2 N2) as [-> ->].
  rewrite T1, T2. eexists. split; reflexivity.
Qed.
Print Assumptions C73_copy_backend_partial.
(** The copy is of the same class (hence behaves alike) for the URIs of the grammar. *)
Theorem C73_copy_class sch a path q t sep ex u :
  loc_ok sch a path -> query_ok q -> uri_text sch a path q t -> kw_ok ex -> URI t sep ex = Ok u ->
  exists v, URI_of u = Ok v /\ u_cls v = u_cls u.
Proof.
  intros L Q T K E. destruct (uri_text_gtext _ _ _ _ _ T) as (e & -> & He). destruct (kw_ex _ K) as [Hb _].
  destruct (C73_copy_equal _ _ _ _ E) as (v & V & _). exists v. split; auto.
  rewrite (URI_made sch a path q e sep ex L Q He Hb) in E. injection E as <-.
  unfold URI_of, clone_uri in V.
  destruct (uri_parse _) as [p|]; cbn [rbind] in V; [|discriminate].
  destruct (take_cred (lit "username") _ _ _) as [us' ex3].
  destruct (take_cred (lit "password") _ _ _) as [pw' ex4]. injection V as <-. cbn [u_cls]. rewrite made_p.
  unfold made. destruct (take_cred (lit "username") _ _ _) as [us1 ex1].
  now destruct (take_cred (lit "password") _ _ _) as [pw1 ex2].
Qed.
Print Assumptions C73_copy_class.
Example C73_witness :
  exists u, URI (lit "ssh://joe:pw@host/a?k=v") cBack [(lit "timeout", lit "5")] = Ok u /\
    (p_username (u_p u) = None -> ~ In (lit "username") (map fst [(lit "timeout", lit "5")])) /\
    (p_password (u_p u) = None -> ~ In (lit "password") (map fst [(lit "timeout", lit "5")])) /\
    u_key u = mkKey (Some (lit "ssh")) (Some (lit "host")) 0 (Some (lit "joe")) (Some (lit "pw")) [] [(lit "timeout", lit "5"); (lit "k", lit "v")].
Proof. eexists. split; [vm_compute; reflexivity|]. repeat split; try discriminate; vm_compute; reflexivity. Qed.
(** Keyword credentials are lost by URI(u), and so is a scheme set afterwards. *)
Theorem C73_refuted :
  (exists u v, URI (lit "ssh://host/p") cSlash [(lit "username", lit "joe")] = Ok u /\ URI_of u = Ok v /\
     k_user (u_key u) = Some (lit "joe") /\ k_user (u_key v) = None /\ u_eqb v u = true) /\
  (exists u v, URI (lit "ssh://host/p") cSlash [] = Ok u /\ URI_of (u_set_scheme u (lit "sftp")) = Ok v /\
     u_scheme v = Some (lit "ssh")).
Proof. split; repeat eexists; vm_compute; reflexivity. Qed.
Print Assumptions C73_refuted.

(** ** C74 which URIs share a backend *)

Lemma key_made sch a path q t ex sep u :
  loc_ok sch a path -> query_ok q -> uri_text sch a path q t -> kw_ok ex -> no_outside_creds a ex q ->
  URI t sep ex = Ok u ->
  u_key u = mkKey (Some sch) (auth_host a) (auth_port a) (auth_user a) (auth_pass a) (auth_vpath a) (dupdate ex q).
Proof.
  intros L Q T K C E. destruct (uri_text_gtext _ _ _ _ _ T) as (e & -> & He). destruct (kw_ex _ K) as [Hb _].
  rewrite (URI_made sch a path q e sep ex L Q He Hb) in E. injection E as <-.
  unfold u_key. rewrite (all_extras_plain _ _ _ _ _ _ _ _ _ C (loc_not_http _ _ _ L)).
  rewrite made_plain by auto. reflexivity.
Qed.
Lemma auth_same a b : auth_ok a -> auth_ok b ->
  auth_host a = auth_host b -> auth_port a = auth_port b -> auth_user a = auth_user b ->
  auth_pass a = auth_pass b -> auth_vpath a = auth_vpath b -> a = b.
Proof.
  intros A B. destruct A as [|v Hv F1 F2|us pw ho po A1 A2 A3 A4 A5 A6 A7];
  destruct B as [|v' Hv' F1' F2'|us' pw' ho' po' B1 B2 B3 B4 B5 B6 B7]; cbn; intros E1 E2 E3 E4 E5; try congruence.
  all: try (exfalso; injection E1 as E1; repeat match goal with W : word _ |- _ => destruct W as [W _] end; congruence).
  injection E1 as ->. subst.
  assert (po = po') as ->; [|reflexivity].
    destruct po as [n|], po' as [m|]; auto.
    + f_equal. lia.
    + destruct n; [now destruct A5|lia].
    + destruct m; [now destruct B5|lia].
Qed.
(** Two URIs get the same connection (C17) exactly if scheme, authority and parameters are the same,
    whatever the paths. *)
Theorem C74_backends_partial sch a path q t ex sep u sch' a' path' q' t' ex' sep' u' :
  loc_ok sch a path -> query_ok q -> uri_text sch a path q t -> kw_ok ex -> no_outside_creds a ex q ->
  loc_ok sch' a' path' -> query_ok q' -> uri_text sch' a' path' q' t' -> kw_ok ex' -> no_outside_creds a' ex' q' ->
  URI t sep ex = Ok u -> URI t' sep' ex' = Ok u' ->
  (same_key (u_key u) (u_key u') <->
   sch = sch' /\ a = a' /\ same_dict (dupdate ex q) (dupdate ex' q')).
Proof.
  intros L Q T K C L' Q' T' K' C' E E'.
  rewrite (key_made _ _ _ _ _ _ _ _ L Q T K C E), (key_made _ _ _ _ _ _ _ _ L' Q' T' K' C' E').
  unfold same_key. cbn [k_scheme k_host k_port k_user k_pass k_vpath k_extras]. split.
  - intros (A & B & D & F & G & H & I). injection A as ->. repeat split; auto.
    apply auth_same; eauto using loc_auth.
  - intros (-> & -> & H). repeat split; auto.
Qed.
Print Assumptions C74_backends_partial.
(** The parameters of a connection: query first, then keywords. *)
Theorem C74_parameters sch a path q t ex sep u k :
  loc_ok sch a path -> query_ok q -> uri_text sch a path q t -> kw_ok ex -> no_outside_creds a ex q ->
  URI t sep ex = Ok u ->
  dget k (k_extras (u_key u)) = match dget k q with Some v => Some v | None => dget k ex end.
Proof.
  intros L Q T K C E. rewrite (key_made _ _ _ _ _ _ _ _ L Q T K C E). cbn [k_extras]. rewrite dget_dupdate.
  now rewrite (dget_rev k q (q_dup _ Q)).
Qed.
Print Assumptions C74_parameters.
Example C74_witness :
  loc_ok (lit "ssh") ex_auth (lit "/a b/c") /\ query_ok [(lit "key", lit "value")] /\
  uri_text (lit "ssh") ex_auth (lit "/a b/c") [(lit "key", lit "value")]
           (lit "ssh://joe:pw@host.net:2222/a b/c?key=value") /\
  no_outside_creds ex_auth [] [(lit "key", lit "value")] /\
  (exists u v, URI (lit "ssh://joe:pw@host.net:2222/a b/c?key=value") cSlash [] = Ok u /\
     URI (lit "ssh://joe:pw@host.net:2223/a b/c?key=value") cSlash [] = Ok v /\ ~ same_key (u_key u) (u_key v)).
Proof.
  split; [exact ex_loc|]. split; [exact ex_query|]. split; [apply C04_witness|]. split; [split; discriminate|].
  eexists. eexists. split; [vm_compute; reflexivity|]. split; [vm_compute; reflexivity|].
  intros (_ & _ & E & _). discriminate.
Qed.
(** Credentials outside the URI are mixed up with those inside: a user name given as keyword or in the query of
    a URI without authority is an ordinary parameter. *)
Theorem C74_refuted :
  exists u v, URI (lit "ssh:///p") cSlash [(lit "username", lit "joe")] = Ok u /\
    URI (lit "ssh://h/p") cSlash [(lit "username", lit "joe")] = Ok v /\
    k_user (u_key u) = Some [] /\ k_extras (u_key u) = [(lit "username", lit "joe")] /\
    k_user (u_key v) = Some (lit "joe") /\ k_extras (u_key v) = [].
Proof. repeat eexists; vm_compute; reflexivity. Qed.
Print Assumptions C74_refuted.
