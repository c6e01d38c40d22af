(** The property lemmas about URIs, continued. *)
From Verif Require Import Str Exc Utf8 UriParse BaseUri StrFacts Utf8Facts UriFacts SpecUri UriFacts2 UriFacts3 UriFacts4 UriFacts5.
From Coq Require Import ZifyBool ZifyNat ZifyN.
Local Open Scope N_scope.

(** C09 *)
Lemma dget_not k (d : dict str) : ~ In k (map fst d) -> dget k d = None.
Proof. apply dget_none. Qed.
Lemma made_plain cls t sep sch a path q f ex :
  no_outside_creds a ex q ->
  made cls t sep (parse_of sch a path q f) ex
  = mkUri cls t sep (parse_of sch a path q f) ex (auth_user a) (auth_pass a).
Proof.
  intros H. unfold made. cbn [parse_of p_username p_password p_query].
  destruct a as [|v|user pass host port]; [reflexivity..|]. cbn [auth_user auth_pass].
  destruct H as [H1 H2]. unfold take_cred.
  destruct user as [us|].
  - destruct pass as [pw|]; [reflexivity|]. destruct H2 as [H2 H3]; auto.
    now rewrite (dget_not _ _ H2), (dget_not _ _ H3).
  - destruct H1 as [H1 H4]; auto. rewrite (dget_not _ _ H1), (dget_not _ _ H4).
    destruct pass as [pw|]; [reflexivity|]. destruct H2 as [H2 H3]; auto.
    now rewrite (dget_not _ _ H2), (dget_not _ _ H3).
Qed.
Lemma dupdate_key {V} k (d e : dict V) : ~ In k (map fst d) -> ~ In k (map fst e) -> ~ In k (map fst (dupdate d e)).
Proof.
  intros Hd He Hin. apply dhas_In in Hin. rewrite dhas_dupdate in Hin. apply orb_true_iff in Hin as [H|H];
    apply dhas_In in H; auto.
Qed.
Lemma creds_update a ex q q' : no_outside_creds a ex q -> (forall k, In k (map fst q') -> In k (map fst q)) ->
  no_outside_creds a (dupdate ex q) q'.
Proof.
  destruct a; cbn; auto. intros [H1 H2] H3. split; intros E.
  - destruct (H1 E) as [A B]. split; [now apply dupdate_key|intros C; auto].
  - destruct (H2 E) as [A B]. split; [now apply dupdate_key|intros C; auto].
Qed.
Lemma all_extras_plain cls t sep sch a path q f ex :
  no_outside_creds a ex q -> is_http (Some sch) = false ->
  u_all_extras (made cls t sep (parse_of sch a path q f) ex) = dupdate ex q.
Proof.
  intros H Hh. rewrite made_plain by auto. unfold u_all_extras, u_scheme. cbn [u_p u_extras parse_of p_scheme p_query].
  now rewrite Hh.
Qed.
Lemma loc_not_http sch a path : loc_ok sch a path -> is_http (Some sch) = false.
Proof.
  intros [Hs _ _| -> _ _ _ _]; [|reflexivity].
  destruct (sch_http _ Hs) as [H1 H2]. apply str_eqb_neq in H1, H2. cbn [is_http]. now rewrite H1, H2.
Qed.
Lemma dupdate_twice (d e : dict str) : same_dict (dupdate d e) (dupdate (dupdate d e) e).
Proof. intros k. rewrite !dget_dupdate. now destruct (dget k (rev e)). Qed.

Lemma derived_same_key sch a p0 k q t ex n :
  loc_ok sch a (p0 ++ repeat cSlash k) -> no_trailing_slash p0 -> query_ok q ->
  uri_text sch a (p0 ++ repeat cSlash k) q t -> kw_ok ex -> name_ok n -> no_drive sch n ->
  no_outside_creds a ex q -> (a = NoAuth \/ p0 <> []) ->
  exists u r d, URI t cSlash ex = Ok u /\ u_div u n = Ok r /\ u_dirname 1 r = Ok d /\
    same_key (u_key u) (u_key r) /\ same_key (u_key r) (u_key d) /\
    u_cls u = u_cls r /\ u_cls r = u_cls d.
Proof.
  intros HL Ht Hq Htx Hkw Hn Hd Hcr Hne. apply uri_text_gtext in Htx as (e & -> & He).
  pose proof (kw_ex _ Hkw) as [Hb Hnd]. pose proof (loc_auth _ _ _ HL) as Ha.
  pose proof (loc_not_http _ _ _ HL) as Hh.
  pose proof (URI_made _ _ _ _ _ cSlash ex HL Hq He Hb) as HU. set (u := made _ _ cSlash _ ex) in HU.
  assert (Hx : ex_ok (u_all_extras u)) by (apply made_ex_ok; auto; now split).
  assert (HL2 : loc_ok sch a (p0 ++ cSlash :: n)) by (eapply loc_join; eauto).
  assert (J : u_div u n = Ok (made (u_cls u) (gtext sch a (p0 ++ cSlash :: n) e None) cSlash
                                   (parse_of sch a (p0 ++ cSlash :: n) q None) (u_all_extras u))).
  { apply (join_made u sch a p0 k q e [] n); auto; [apply made_sep|apply made_p|apply Hx]. }
  set (r := made _ _ cSlash _ (u_all_extras u)) in J.
  assert (Hr : ex_ok (u_all_extras r)) by (apply made_ex_ok; auto).
  assert (HD : loc_ok sch a (dir_path a p0)).
  { destruct p0 as [|c p0].
    - destruct Hne as [-> |?]; [|easy]. cbn [dir_path]. apply loc_root.
      destruct HL as [Hs HA _|Hs HA _ _ _]; auto.
    - replace (dir_path a (c :: p0)) with (c :: p0) by (now destruct a).
      assert (PP : path_ok (c :: p0)).
      { assert (P : path_ok ((c :: p0) ++ repeat cSlash k)) by (destruct HL; auto).
        destruct P as [[x Hx2] Pf Pp]. constructor.
        - cbn in Hx2. injection Hx2 as -> _. eauto.
        - now apply avoids_app in Pf as [Pf _].
        - intros x1 y1 E. apply (Pp x1 (y1 ++ repeat cSlash k)). rewrite E. now rewrite <- !app_assoc. }
      destruct HL as [Hs HA _|Hs HA _ Hu1 Hu2]; [now apply loc_remote|]. apply loc_file; auto.
      + intros x y E. apply (Hu1 x (y ++ repeat cSlash k)). rewrite E. now rewrite <- !app_assoc.
      + intros x E. apply (Hu2 (x ++ repeat cSlash k)). rewrite E. reflexivity. }
  assert (S : u_split r = Ok (made (u_cls r) (gtext sch a (dir_path a p0) None None) (u_sep r)
                                (parse_of sch a (dir_path a p0) [] None) (u_all_extras r), n)).
  { apply (split_made r sch a p0 n e q); auto. - apply made_uri. - apply Hr. }
  set (d := made (u_cls r) _ _ _ _) in S.
  assert (E1 : u_all_extras u = dupdate ex q) by (apply all_extras_plain; auto).
  assert (C2 : no_outside_creds a (u_all_extras u) q) by (rewrite E1; now apply creds_update with (q' := q)).
  assert (E2 : u_all_extras r = dupdate (u_all_extras u) q) by (apply all_extras_plain; auto).
  assert (C3 : no_outside_creds a (u_all_extras r) []) by (rewrite E2; now apply creds_update with (q' := [])).
  assert (E3 : u_all_extras d = dupdate (u_all_extras r) []) by (apply all_extras_plain; auto).
  assert (Fu : forall cls t sep path q' ex', no_outside_creds a ex' q' ->
    let w := made cls t sep (parse_of sch a path q' None) ex' in
    u_key w = mkKey (Some sch) (auth_host a) (auth_port a) (auth_user a) (auth_pass a) (auth_vpath a) (u_all_extras w)).
  { intros cls t sep path q' ex' Hw w. unfold u_key, u_scheme, w. rewrite made_p.
    rewrite made_plain by auto. reflexivity. }
  exists u, r, d. split; [exact HU|]. split; [exact J|]. split.
  { unfold u_dirname, u_dirname_loop. now rewrite S. }
  split; [|split; [|split]].
  - unfold u at 1, r at 1. rewrite (Fu _ _ _ _ _ _ Hcr), (Fu _ _ _ _ _ _ C2). fold u r.
    unfold same_key. cbn [k_scheme k_host k_port k_user k_pass k_vpath k_extras].
    repeat split; auto. rewrite E2, E1. apply dupdate_twice.
  - unfold r at 1, d. rewrite (Fu _ _ _ _ _ _ C2), (Fu _ _ _ _ _ _ C3). fold r d.
    unfold same_key. cbn [k_scheme k_host k_port k_user k_pass k_vpath k_extras].
    repeat split; auto. rewrite E3. intros x. reflexivity.
  - unfold r. now rewrite made_cls.
  - unfold d. now rewrite made_cls.
Qed.

(** C14 *)
Lemma add_suffix sch a p s t ex :
  loc_ok sch a p -> loc_ok sch a (p ++ s) -> uri_text sch a p [] t -> kw_ok ex ->
  exists u r, URI t cSlash ex = Ok u /\ u_add u s = Ok r /\
    p_path (u_p u) = p /\ p_path (u_p r) = p ++ s /\ u_cls r = u_cls u /\ u_scheme r = u_scheme u /\
    p_hostname (u_p r) = p_hostname (u_p u) /\ p_port (u_p r) = p_port (u_p u) /\
    p_username (u_p r) = p_username (u_p u) /\ p_password (u_p r) = p_password (u_p u) /\
    p_vpath (u_p r) = p_vpath (u_p u) /\ p_query (u_p r) = [] /\
    (no_outside_creds a ex [] -> same_key (u_key u) (u_key r)).
Proof.
  intros HL HL2 Htx Hkw. apply uri_text_gtext in Htx as (e & -> & He).
  destruct He as [[_ ->]|(? & _)]; [|easy].
  pose proof (kw_ex _ Hkw) as [Hb Hnd].
  pose proof (URI_made sch a p [] None cSlash ex HL empty_query_ok no_query_enc Hb) as HU.
  set (u := made _ _ cSlash _ ex) in HU.
  assert (Hx : ex_ok (u_all_extras u)) by (apply made_ex_ok; auto using empty_query_ok; now split).
  destruct (loc_parse sch a (p ++ s) [] None HL2 empty_query_ok no_query_enc) as [C P].
  assert (A : u_add u s = Ok (made (u_cls u) (gtext sch a (p ++ s) None None) cSlash
                                  (parse_of sch a (p ++ s) [] None) (u_all_extras u))).
  { unfold u_add.
    replace (u_uri u ++ s) with (gtext sch a (p ++ s) None None).
    - unfold u at 2. rewrite made_sep. rewrite (mk_uri_made _ _ _ _ _ (proj1 Hx) C P). cbn [rbind].
      unfold u at 3. rewrite made_p. cbn [parse_of p_query]. now rewrite set_query_same.
    - unfold u. rewrite made_uri. unfold gtext. cbn [qtext ftext]. now rewrite !app_nil_r, <- !app_assoc. }
  set (r := made _ _ cSlash _ (u_all_extras u)) in A.
  exists u, r. split; [exact HU|]. split; [exact A|].
  assert (Pu : u_p u = parse_of sch a p [] None) by apply made_p.
  assert (Pr : u_p r = parse_of sch a (p ++ s) [] None) by apply made_p.
  assert (Cr : u_cls r = u_cls u) by apply made_cls.
  unfold u_scheme. rewrite Pu, Pr, Cr. do 10 (split; [reflexivity|]). intros Hcr.
  pose proof (loc_not_http _ _ _ HL) as Hh.
  assert (E1 : u_all_extras u = dupdate ex []) by (apply all_extras_plain; auto).
  assert (C2 : no_outside_creds a (u_all_extras u) []) by (rewrite E1; auto).
  assert (E2 : u_all_extras r = dupdate (u_all_extras u) []) by (apply all_extras_plain; auto).
  split; [|split; [|split; [|split; [|split; [|split]]]]];
    try (unfold u_key, u_scheme; rewrite Pu, Pr; reflexivity).
  - unfold u, r. rewrite !made_plain by auto. reflexivity.
  - unfold u, r. rewrite !made_plain by auto. reflexivity.
  - unfold u_key. cbn [k_extras]. rewrite E2. intros x. reflexivity.
Qed.

(** C04 *)
Lemma plain_text s : plain s -> text_ok s.
Proof.
  unfold plain, text_ok. rewrite !forallb_forall. intros H c Hc. specialize (H c Hc).
  unfold always_safe, between, scalar, cUnder, cDot, cMinus in *. lia.
Qed.
Lemma urlencode_plain q :
  query_ok q -> plain_values q ->
  urlencode q = Ok (join_with [cAmp] (map (fun kv => fst kv ++ [cEq] ++ snd kv) q)).
Proof.
  intros Hq Hp. unfold urlencode.
  assert (E : urlencode_items q = Ok (map (fun kv => fst kv ++ [cEq] ++ snd kv) q)).
  { pose proof (q_keys _ Hq) as Hk. clear Hq. induction q as [|[k v] q IH]; [reflexivity|].
    cbn [urlencode_items map fst snd].
    rewrite (quote_plus_safe k) by (apply (Hk k v); now left).
    rewrite (quote_plus_safe v) by (apply (Hp k v); now left). cbn [rbind].
    rewrite IH; [reflexivity| |].
    - intros k' v' H. apply (Hp k' v'). now right.
    - intros k' v' H. apply (Hk k' v'). now right. }
  now rewrite E.
Qed.
Lemma parsed_str_text sch a path q :
  auth_ok a -> query_ok q -> plain_values q ->
  ((exists user pass host port, a = Host user pass host port) \/ forall r, sch <> lit "http" ++ r) ->
  exists s, parsed_str (parse_of sch a path q None) = Ok s /\ uri_text sch a path q s.
Proof.
  intros Ha Hq Hp Hs. eexists. split; [reflexivity|].
  exists (query_text q). split.
  - unfold query_text_of, query_text. destruct q as [|kv q]; auto.
    eexists. split; [now apply urlencode_plain|reflexivity].
  - cbn [parse_of p_query p_fragment p_hostname p_username p_password p_vpath p_port p_path opt_add].
    rewrite app_nil_r.
    assert (H1 : (if (prefixb (lit "http") sch && truthy (auth_host a)) || negb (prefixb (lit "http") sch)
             then sch ++ lit "://" else []) = sch ++ lit "://").
    { destruct (prefixb (lit "http") sch) eqn:E; [|reflexivity].
      destruct Hs as [(us & pw & ho & po & ->)|Hs].
      - assert (W : word ho) by (now inversion Ha). cbn. destruct ho; [now destruct W|reflexivity].
      - apply prefixb_spec in E as [r E]. now destruct (Hs r). }
    rewrite H1.
    rewrite <- !app_assoc. do 2 f_equal.
    destruct a as [|v|user pass host port]; cbn [auth_user auth_pass auth_host auth_vpath auth_port auth_text].
    + reflexivity.
    + inversion Ha; subst. destruct v as [|c v]; [easy|]. cbn [truthy opt_add opt_text orb Z.eqb app].
      now rewrite <- !app_assoc.
    + inversion Ha as [| |? ? ? ? Hu Hpw Hup Hho Hpo]; subst.
      assert (N0 : forall s, word s -> s <> []) by (now intros s [? _]).
      assert (P : (if (match port with Some n => Z.of_N n | None => 0 end =? 0)%Z then []
                   else [cColon] ++ str_of_Z (match port with Some n => Z.of_N n | None => 0%Z end))
                  = match port with Some n => cColon :: decimal n | None => [] end).
      { destruct port as [n|]; [|reflexivity]. destruct (Z.eqb_spec (Z.of_N n) 0) as [E|E].
        - exfalso. apply Hpo. f_equal. lia.
        - unfold str_of_Z. destruct (Z.ltb_spec (Z.of_N n) 0); [lia|]. now rewrite N2Z.id. }
      rewrite P.
      destruct host as [|ch host]; [exfalso; now apply (N0 [] Hho)|].
      destruct user as [us|].
      * destruct us as [|cu us]; [exfalso; now apply (N0 [] Hu)|].
        destruct pass as [pw|].
        -- destruct pw as [|cp pw]; [exfalso; now apply (N0 [] Hpw)|]. cbn [opt_add truthy orb opt_text].
           rewrite <- ?app_assoc. cbn [app]. rewrite <- ?app_assoc. cbn [app]. now rewrite <- ?app_assoc.
        -- cbn [opt_add truthy orb opt_text app]. rewrite <- ?app_assoc. cbn [app]. rewrite <- ?app_assoc. reflexivity.
      * destruct pass as [pw|]; [exfalso; apply Hup; easy|]. cbn [opt_add truthy orb opt_text app].
        now rewrite <- ?app_assoc.
Qed.
Lemma str_reparses sch a path q t sep sep' ex ex' :
  scheme_ok sch -> auth_ok a -> path_ok path -> query_ok q -> plain_values q ->
  ((exists user pass host port, a = Host user pass host port) \/ forall r, sch <> lit "http" ++ r) ->
  uri_text sch a path q t -> kw_ok ex -> kw_ok ex' ->
  exists u s v, URI t sep ex = Ok u /\ u_str u = Ok s /\ URI s sep' ex' = Ok v /\
    u_eqb v u = true /\ u_p v = u_p u.
Proof.
  intros Hs Ha Hp Hq Hpv Hh Htx Hkw Hkw'. apply uri_text_gtext in Htx as (e & -> & He).
  pose proof (kw_ex _ Hkw) as [Hb _]. pose proof (kw_ex _ Hkw') as [Hb' _].
  assert (HL : loc_ok sch a path) by (now apply loc_remote).
  destruct (parsed_str_text sch a path q Ha Hq Hpv Hh) as (s & Es & Ht).
  apply uri_text_gtext in Ht as (e' & -> & He').
  eexists _, _, _. split; [apply (URI_made sch a path q e); auto|].
  split; [|split; [apply (URI_made sch a path q e'); auto|]].
  - unfold u_str. rewrite made_cls, made_p.
    assert (class_of_scheme (Some sch) <> ULocal).
    { unfold class_of_scheme. destruct (str_eqb sch (lit "file")) eqn:E.
      - apply str_eqb_eq in E. now destruct (sch_file _ Hs).
      - destruct (str_eqb sch (lit "memory")); [easy|]. destruct (str_eqb sch (lit "zip")); easy. }
    rewrite Es. now destruct (class_of_scheme (Some sch)).
  - rewrite !made_p. split; auto. apply made_eqb. apply (q_dup _ Hq).
Qed.

(** C10 *)
Lemma plain_is_file p sep ex : scheme_re p = None -> URI p sep ex = URI (lit "file://" ++ p) sep ex.
Proof.
  intros Hs. unfold URI. rewrite Hs.
  assert (S : scheme_re (lit "file://" ++ p) = Some (lit "file")).
  { apply (scheme_re_text (lit "file") p); [easy|]. intros c Hc. cbn in Hc. unfold scheme_letter.
    intuition (subst; lia). }
  rewrite S. unfold mk_uri. destruct (bad_init_kw ex); auto.
  replace (clean_uri (lit "file://" ++ p)) with (clean_uri p); auto.
  assert (F : prefixb (lit "file://") p = false).
  { destruct (prefixb (lit "file://") p) eqn:E; auto. apply prefixb_spec in E as [r ->]. exfalso.
    change (lit "file://" ++ r) with (lit "file" ++ lit "://" ++ r) in Hs.
    rewrite scheme_re_text in Hs; [discriminate|easy|].
    intros c Hc. cbn in Hc. unfold scheme_letter. intuition (subst; lia). }
  unfold clean_uri. rewrite F, prefixb_app. reflexivity.
Qed.

(** C11 *)
Lemma dot_split (r e : str) f :
  avoids [cQuest; cHash] r -> heads [cSlash] r ->
  contains (lit "((") (r ++ ftext f) = false -> ook [cNL] f ->
  (match f with Some x => x <> [] | None => True end) ->
  uri_parse (lit "file://." ++ r ++ ftext f)
  = Ok (mkParsed (Some (lit "file")) None (cDot :: r ++ ftext f) []
                 (match f with Some _ => Some [] | None => None end) [] (Some []) (Some []) (Some []) 0%Z []).
Proof.
  intros Hr Hh Hp Hf Hf0. unfold uri_parse, urisplit.
  assert (FI : find_inner (lit "file://." ++ r ++ ftext f) = None).
  { apply find_inner_none. change (lit "((") with [cLpar; cLpar] in *.
    change (lit "file://." ++ r ++ ftext f) with (102 :: 105 :: 108 :: 101 :: 58 :: 47 :: 47 :: 46 :: r ++ ftext f).
    rewrite !double_char_cons by discriminate. exact Hp. }
  rewrite FI.
  change (lit "file://." ++ r ++ ftext f) with (lit "file" ++ cColon :: (lit "//" ++ [cDot] ++ r ++ ftext f)).
  rewrite re_scheme_ok; [|easy|intros c Hc1 Hc2; cbn in Hc1, Hc2; intuition (subst; discriminate)].
  rewrite re_authority_ok.
  2:{ intros c Hc1 Hc2. cbn in Hc1, Hc2. intuition (subst; discriminate). }
  2:{ destruct r as [|c r]; [destruct f; cbn; auto|]. cbn in *. intuition. }
  rewrite re_path_ok; [|auto|destruct f; cbn; auto].
  assert (Q : re_query (ftext f) = (None, ftext f)) by (now destruct f).
  rewrite Q, re_fragment_ok by auto.
  change (replace inner_token [] [cDot]) with [cDot].
  change (str_eqb [cDot] [cDot]) with true. cbv iota.
  change (negb (is_http (Some (lit "file")))) with true. cbn [andb].
  destruct f as [x|]; cbn [truthy ftext].
  - destruct x as [|c x]; [easy|]. cbn [rbind s_authority s_query s_scheme s_path s_fragment]. reflexivity.
  - rewrite app_nil_r. reflexivity.
Qed.
Lemma no_prefix_suffix pat (x s : str) : (forall a b, x ++ s <> a ++ pat ++ b) -> contains pat s = false.
Proof.
  intros H. apply contains_no. intros a b E. apply (H (x ++ a) b). rewrite E. now rewrite <- !app_assoc.
Qed.
Lemma mk_uri_of cls t t' p sep ex :
  kw_ok ex -> clean_uri t = t' -> uri_parse t' = Ok p -> mk_uri cls t sep ex = Ok (made cls t' sep p ex).
Proof.
  intros Hk Hc Hp. unfold mk_uri, made. destruct (kw_ex _ Hk) as [-> _]. rewrite Hc, Hp. cbn [rbind].
  destruct (take_cred (lit "username") (p_username p) ex (p_query p)) as [us ex1].
  destruct (take_cred (lit "password") (p_password p) ex1 (p_query p)) as [pw ex2]. reflexivity.
Qed.
Lemma no_scheme_re p : (forall x y, p <> x ++ lit "://" ++ y) -> scheme_re p = None.
Proof.
  intros H. unfold scheme_re. pose proof (span_eq scheme_char p) as E.
  destruct (span scheme_char p) as [[|c w] r]; auto. cbn in E.
  destruct (prefixb (lit "://") r) eqn:P; auto. apply prefixb_spec in P as [y ->]. exfalso.
  apply (H (c :: w) y). rewrite <- E. reflexivity.
Qed.
Lemma path_text_split p : path_text p -> (forall x y, p <> x ++ lit "((" ++ y) ->
  exists p1 f, p = p1 ++ ftext f /\ avoids [cQuest; cHash] p1 /\ frag_ok f.
Proof.
  intros [q Hq|q f Hq Hf Hn] Hp.
  - exists q, None. cbn. rewrite app_nil_r. auto.
  - exists q, (Some f). repeat split; auto.
    + apply Hn. now left.
    + change (q ++ cHash :: f) with (q ++ [cHash] ++ f) in Hp. rewrite app_assoc in Hp.
      now apply no_prefix_suffix in Hp.
Qed.
Lemma clean_posix p : posix_ok p ->
  clean_uri p = lit "file://" ++ (if prefixb [cSlash] p || prefixb [cDot] p then p else lit "./" ++ p).
Proof.
  intros [Ht Hb Hp Hu Hd]. unfold clean_uri.
  assert (F : prefixb (lit "file://") p = false).
  { destruct (prefixb (lit "file://") p) eqn:E; auto. apply prefixb_spec in E as [r ->].
    exfalso. now apply (Hu (lit "file") r). }
  rewrite F.
  assert (N : normalize_uri p cBack = p).
  { unfold normalize_uri. change (cBack =? cSlash) with false. cbv iota. rewrite replace_char_id by (apply Hb; now left).
    destruct p as [|x [|y p]]; auto. destruct (N.eqb_spec y cColon); auto. subst. now destruct (Hd x p). }
  rewrite N. assert (C : contains (lit "://") p = false) by (now apply contains_no).
  rewrite C. cbn [negb andb]. destruct (prefixb [cSlash] p || prefixb [cDot] p) eqn:E; cbn [negb].
  - now rewrite C.
  - assert (C2 : contains (lit "://") (lit "./" ++ p) = false).
    { cbn [app lit]. cbn. exact C. }
    rewrite C2. reflexivity.
Qed.
Lemma posix_absolute p sep ex :
  posix_ok p -> (exists r, p = cSlash :: r) -> kw_ok ex ->
  exists u, URI p sep ex = Ok u /\ u_cls u = ULocal /\ u_sep u = sep /\ p_path (u_p u) = p /\ u_scheme u = Some (lit "file") /\
            p_query (u_p u) = [] /\
            (sep = cSlash -> (forall r, p <> lit "/." ++ r) -> u_path u = p /\ u_str u = Ok p).
Proof.
  intros Hx [r Hr] Hkw. pose proof (clean_posix _ Hx) as C.
  assert (Pf : prefixb [cSlash] p = true) by (now subst). rewrite Pf in C. cbn [orb] in C.
  destruct (path_text_split _ (px_text _ Hx) (px_par _ Hx)) as (p1 & f & E & A1 & Ff).
  assert (H1 : heads [cSlash] p1).
  { destruct p1 as [|c p1]; [exact I|]. rewrite Hr in E. cbn in E. injection E as <- _. cbn. auto. }
  assert (P : uri_parse (lit "file://" ++ p) = Ok (parse_of (lit "file") NoAuth p [] (match f with Some _ => Some [] | None => None end))).
  { rewrite E. change (lit "file://" ++ p1 ++ ftext f) with (gtext (lit "file") NoAuth p1 None f).
    apply parse_grammar; auto.
    - discriminate. - intros c Hc1 Hc2. cbn in Hc1, Hc2. intuition (subst; discriminate).
    - constructor.
    - left. apply contains_no. intros x y E2. apply (px_par _ Hx x (y ++ ftext f)). rewrite E, E2. now rewrite <- !app_assoc. }
  eexists. split.
  - unfold URI. rewrite (no_scheme_re _ (px_uri _ Hx)). apply mk_uri_of; eauto.
  - rewrite made_cls, made_sep, made_p. unfold u_scheme. rewrite made_p.
    change (class_of_scheme (Some (lit "file"))) with ULocal. repeat split; auto.
    + unfold u_path. rewrite made_cls, made_sep. subst sep. cbn [N.eqb Pos.eqb]. unfold base_path. rewrite made_p.
      cbn [parse_of p_path].
      destruct (prefixb (lit "/.") p) eqn:E2; auto. apply prefixb_spec in E2 as [x E2]. now destruct (H0 x).
    + unfold u_str, u_path. rewrite made_cls, made_sep. subst sep. cbn [N.eqb Pos.eqb]. unfold base_path. rewrite made_p.
      cbn [parse_of p_path].
      destruct (prefixb (lit "/.") p) eqn:E2; auto. apply prefixb_spec in E2 as [x E2]. now destruct (H0 x).
Qed.
Lemma posix_dotted p sep ex :
  path_text (cSlash :: p) -> (forall x y, p <> x ++ lit "((" ++ y) -> kw_ok ex -> forall t,
  clean_uri t = lit "file://./" ++ p -> scheme_re t = None ->
  exists u, URI t sep ex = Ok u /\ u_cls u = ULocal /\ u_sep u = sep /\ p_path (u_p u) = lit "./" ++ p /\
            (sep = cSlash -> u_path u = lit "./" ++ p).
Proof.
  intros Hx Hpar Hkw t C S.
  assert (Hp : forall x y, cSlash :: p <> x ++ lit "((" ++ y).
  { intros x y E. destruct x as [|c x]; [discriminate|]. injection E as _ E. now destruct (Hpar x y). }
  destruct (path_text_split _ Hx Hp) as (p1 & f & E & A1 & Ff).
  assert (H1 : heads [cSlash] p1).
  { destruct p1 as [|c p1]; [exact I|]. cbn in E. injection E as <- _. cbn. auto. }
  assert (P : uri_parse (lit "file://./" ++ p) = Ok (mkParsed (Some (lit "file")) None (lit "./" ++ p) []
                 (match f with Some _ => Some [] | None => None end) [] (Some []) (Some []) (Some []) 0%Z [])).
  { change (lit "file://./" ++ p) with (lit "file://." ++ (cSlash :: p)).
    change (lit "./" ++ p) with (cDot :: (cSlash :: p)). rewrite E. apply (dot_split p1 []); auto.
    - apply contains_no. intros x y E2. apply (Hp x y). rewrite E. exact E2.
    - destruct f as [f|]; [|exact I]. intros c [<-|[]]. apply Ff.
    - destruct f as [f|]; [|exact I]. apply Ff. }
  eexists. split.
  - unfold URI. rewrite S. apply mk_uri_of; eauto.
  - rewrite made_cls, made_sep, made_p. repeat split; auto.
    intros ->. unfold u_path. rewrite made_cls, made_sep. cbn [N.eqb Pos.eqb]. unfold base_path. rewrite made_p.
    reflexivity.
Qed.
Lemma path_text_cons c p : path_text p -> ~ In c [cQuest; cHash] -> path_text (c :: p).
Proof.
  intros [q Hq|q f Hq Hf Hn] Hc.
  - constructor. apply avoids_cons. auto.
  - change (c :: q ++ cHash :: f) with ((c :: q) ++ cHash :: f). apply pt_hash; auto. apply avoids_cons. auto.
Qed.
Lemma posix_relative p sep ex :
  posix_ok p -> (forall r, p <> cSlash :: r) -> (forall r, p <> cDot :: r) -> kw_ok ex ->
  exists u, URI p sep ex = Ok u /\ u_cls u = ULocal /\ u_sep u = sep /\ p_path (u_p u) = lit "./" ++ p /\
            (sep = cSlash -> u_path u = lit "./" ++ p).
Proof.
  intros Hx H1 H2 Hkw. apply posix_dotted; auto.
  - apply path_text_cons; [apply (px_text _ Hx)|]. cbn. intuition discriminate.
  - apply (px_par _ Hx).
  - rewrite (clean_posix _ Hx).
    destruct p as [|c p]; [reflexivity|]. cbn [prefixb].
    destruct (N.eqb_spec cSlash c); [subst; now destruct (H1 p)|].
    destruct (N.eqb_spec cDot c); [subst; now destruct (H2 p)|]. reflexivity.
  - apply no_scheme_re. apply (px_uri _ Hx).
Qed.
Lemma posix_dot_slash r sep ex :
  posix_ok (lit "./" ++ r) -> kw_ok ex ->
  exists u, URI (lit "./" ++ r) sep ex = Ok u /\ u_cls u = ULocal /\ u_sep u = sep /\ p_path (u_p u) = lit "./" ++ r /\
            (sep = cSlash -> u_path u = lit "./" ++ r).
Proof.
  intros Hx Hkw. apply posix_dotted; auto.
  - pose proof (px_text _ Hx) as T. inversion T as [q Hq E|q f Hq Hf Hn E].
    + constructor. apply avoids_cons in Hq. apply Hq.
    + destruct q as [|c q]; [discriminate|]. cbn in E. injection E as E0 E.
      change (path_text (47 :: r)). rewrite <- E. apply pt_hash; auto. now apply avoids_cons in Hq.
  - intros x y E. apply (px_par _ Hx (lit "./" ++ x) y). rewrite E. now rewrite <- !app_assoc.
  - now rewrite (clean_posix _ Hx).
Qed.

(** C12 *)
Lemma windows_path d cs ex :
  kw_ok ex -> ~ In d [cSlash; cBack; cColon; cQuest; cHash; cLpar] ->
  Forall (fun c => free_of [cSlash; cBack; cColon; cQuest; cHash; cLpar] c) cs ->
  let p := [d; cColon; cBack] ++ join_with [cBack] cs in
  exists u, URI p cBack ex = Ok u /\ u_path u = p /\ u_str u = Ok p /\
            p_path (u_p u) = [cSlash; d; cSlash] ++ join_with [cSlash] cs.
Proof.
  intros Hkw Hd HF p.
  assert (R : replace_char cBack cSlash (join_with [cBack] cs) = join_with [cSlash] cs).
  { induction HF as [|c cs Hc HF IH]; [reflexivity|]. destruct cs as [|c2 cs].
    - cbn [join_with]. apply replace_char_id. apply Hc. cbn. tauto.
    - rewrite !join_with_cons by easy. rewrite !replace_char_app, IH.
      rewrite (replace_char_id _ _ c) by (apply Hc; cbn; tauto). reflexivity. }
  assert (R2 : replace_char cSlash cBack (join_with [cSlash] cs) = join_with [cBack] cs).
  { rewrite <- R. apply replace_char_back. intros Hin. apply join_with_In in Hin as [Hin|(w & Hw & Hin)]; [discriminate|].
    rewrite Forall_forall in HF. revert Hin. apply (HF w Hw). now left. }
  assert (J : avoids [cColon; cQuest; cHash; cLpar] (join_with [cSlash] cs)).
  { intros c Hc Hin. apply join_with_In in Hin as [Hin|(w & Hw & Hin)].
    - subst. cbn in Hc. intuition discriminate.
    - rewrite Forall_forall in HF. revert Hin. apply (HF w Hw). cbn in *. tauto. }
  set (q := [cSlash; d; cSlash] ++ join_with [cSlash] cs).
  assert (Jq : avoids [cColon; cQuest; cHash; cLpar] q).
  { unfold q. apply avoids_app. split; auto. repeat (apply avoids_cons; split); try apply avoids_nil;
      cbn in *; intuition (subst; try discriminate; auto 10). }
  assert (C : clean_uri p = lit "file://" ++ q).
  { unfold clean_uri.
    assert (F : prefixb (lit "file://") p = false).
    { unfold p. cbn. now rewrite andb_false_r. }
    rewrite F.
    assert (N : normalize_uri p cBack = q).
    { unfold normalize_uri, p. change (cBack =? cSlash) with false. cbv iota.
      rewrite replace_char_app, R. cbn [replace_char map].
      assert (Dd : (d =? cBack) = false) by (apply N.eqb_neq; intros ->; apply Hd; cbn; tauto).
      rewrite Dd. reflexivity. }
    rewrite N.
    assert (Cq : contains (lit "://") q = false).
    { apply contains_not_char with (c := cColon); [cbn; tauto|]. apply Jq. cbn; tauto. }
    rewrite Cq. cbn [negb andb]. change (prefixb [cSlash] q) with true. cbn [orb negb]. now rewrite Cq. }
  assert (P : uri_parse (lit "file://" ++ q) = Ok (parse_of (lit "file") NoAuth q [] None)).
  { pose proof (parse_grammar (lit "file") NoAuth q [] None None) as PG.
    cbn [ftext] in PG. rewrite app_nil_r in PG.
    replace (lit "file://" ++ q) with (gtext (lit "file") NoAuth q None None)
      by (unfold gtext; cbn [qtext ftext auth_text]; now rewrite !app_nil_r).
    apply PG; auto; try easy.
    - intros c Hc1 Hc2. cbn in Hc1, Hc2. intuition (subst; discriminate).
    - constructor.
    - cbn; auto.
    - eapply avoids_incl; [|exact Jq]. incl_tac.
    - left. apply contains_not_char with (c := cLpar); [cbn; tauto|]. apply Jq. cbn; tauto. }
  eexists. split; [|split; [|split]].
  - unfold URI.
    assert (S : scheme_re p = None).
    { unfold scheme_re, p. cbn [app span].
      destruct (scheme_char d); [|reflexivity]. reflexivity. }
    rewrite S. apply mk_uri_of; eauto.
  - unfold u_path. rewrite made_cls, made_sep. change (cBack =? cSlash) with false. cbv iota.
    rewrite made_p. cbn [parse_of p_path]. unfold q, denormalize_path. cbn [app].
    change ((cSlash =? cSlash) && (cSlash =? cSlash)) with true. cbv iota. now rewrite R2.
  - unfold u_str, u_path. rewrite made_cls, made_sep. change (cBack =? cSlash) with false. cbv iota.
    change (class_of_scheme (Some (lit "file"))) with ULocal. cbv iota.
    rewrite made_p. cbn [parse_of p_path]. unfold q, denormalize_path. cbn [app].
    change ((cSlash =? cSlash) && (cSlash =? cSlash)) with true. cbv iota. now rewrite R2.
  - now rewrite made_p.
Qed.
