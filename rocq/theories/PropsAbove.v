(** C153 and C154: which dictionaries a query string gives back, and where dirname() leads beyond the top. *)
From Verif Require Import Str Exc StrFacts Utf8 UriParse BaseUri SpecUri UriFacts UriFacts2 UriFacts3 UriFacts4 UriFacts5 QueryFacts SpecAbove AboveFacts PropsUri.
From Coq Require Import Lia.

(** ** C153 *)

(** A dictionary comes back (as a dictionary: whatever the order) just if it is not empty, its keys consist of letters,
    digits and _.-~, and its values can be encoded. *)
Theorem C153_exactly q : NoDup (map fst q) ->
  ((exists t r, urlencode q = Ok t /\ parse_query_string t = Ok r /\ forall k, dget k r = dget k q) <->
   q <> [] /\ forall k v, In (k, v) q -> plain k /\ text_ok v).
Proof. exact (back_iff q). Qed.

(** Every other dictionary that can be written and is not empty comes back with its keys quoted. *)
Theorem C153_keys q : NoDup (map fst q) -> q <> [] -> (forall k v, In (k, v) q -> text_ok k /\ text_ok v) ->
  exists t r, urlencode q = Ok t /\ parse_query_string t = Ok r /\
    Forall2 (fun kv kv' => quote_plus (fst kv) = Ok (fst kv') /\ snd kv' = snd kv) q r.
Proof. intros Hn Hq He. exact (read_back q Hq Hn He). Qed.

(** Writing fails just for lone surrogates, reading just for the empty dictionary. *)
Theorem C153_written q e : urlencode q = Raise e <-> e = UnicodeEncodeError /\ ~ forall k v, In (k, v) q -> text_ok k /\ text_ok v.
Proof.
  split.
  - intros H. split; [exact (enc_error q e H)|]. intros E. assert (N : exists e, urlencode q = Raise e) by eauto. apply enc_fails in N. exact (N E).
  - intros [-> N]. apply enc_fails in N as [e H]. pose proof (enc_error q e H) as ->. exact H.
Qed.
Theorem C153_empty t : urlencode [] = Ok t -> parse_query_string t = Raise ValueError.
Proof. exact (read_empty t). Qed.

Example C153_witness : exists t r,
  urlencode [(lit "a b", lit "x&y"); (lit "c", lit "1")] = Ok t /\ t = lit "a+b=x%26y&c=1" /\
  parse_query_string t = Ok r /\ r = [(lit "a+b", lit "x&y"); (lit "c", lit "1")].
Proof. do 2 eexists. repeat split; vm_compute; reflexivity. Qed.
Example C153_written_witness : urlencode [(lit "a", [55296%N])] = Raise UnicodeEncodeError.
Proof. vm_compute. reflexivity. Qed.
(** [plain] and [text_ok] for one dictionary *)
Example C153_exactly_witness : NoDup (map fst [(lit "a-1", lit "x y"); (lit "b_2.c~", [8364%N])]) /\
  forall k v, In (k, v) [(lit "a-1", lit "x y"); (lit "b_2.c~", [8364%N])] -> plain k /\ text_ok v.
Proof.
  split; [repeat constructor; cbn; intuition discriminate|].
  intros k v [E|[E|[]]]; injection E as <- <-; split; vm_compute; reflexivity.
Qed.

(** ** C154 *)

(** At the top of a host: an empty path, everything else as it was. *)
Theorem C154_top sch a cs q t sep ex : scheme_ok sch -> auth_ok a -> (exists u p h o, a = Host u p h o) ->
  Forall name_ok cs -> query_ok q -> uri_text sch a (abs_path cs) q t -> kw_ok ex ->
  exists u d, URI t sep ex = Ok u /\ u_dirname (Nat.max 1 (length cs)) u = Ok d /\
    u_uri d = sch ++ lit "://" ++ auth_text a /\ p_path (u_p d) = [] /\ p_query (u_p d) = [] /\ u_cls d = u_cls u /\
    u_scheme d = u_scheme u /\ p_hostname (u_p d) = p_hostname (u_p u) /\ p_port (u_p d) = p_port (u_p u) /\
    p_username (u_p d) = p_username (u_p u) /\ p_password (u_p d) = p_password (u_p u).
Proof.
  intros Hs Ha (us & pw & h & o & Eh) HF Hq Ht Hk. apply uri_text_gtext in Ht as (e & -> & He). pose proof (kw_ex _ Hk) as Hex.
  assert (Hh : is_host a) by (now rewrite Eh).
  assert (HL : loc_ok sch a (abs_path cs)) by (apply loc_abs; auto; intros E; destruct (sch_file _ Hs E)).
  destruct (reach_top (class_of_scheme (Some sch)) sch a cs q e sep ex Hs Ha Hh HF Hq He Hex) as (ex' & _ & E).
  eexists. eexists. split; [apply (URI_made _ _ _ _ _ sep ex HL Hq He (proj1 Hex))|]. split; [rewrite dirname_is by lia; exact E|].
  unfold top, u_scheme. rewrite !made_p, !made_cls, made_uri. unfold gtext. cbn [qtext ftext app]. rewrite app_nil_r. cbn. repeat split; reflexivity.
Qed.

(** Above it: local URIs with relative paths, after the first two the same three for ever.  They are of the class of the
    URI that was asked. *)
Theorem C154_beyond sch a cs q t sep ex level : scheme_ok sch -> auth_ok a -> (exists u p h o, a = Host u p h o) ->
  Forall name_ok cs -> query_ok q -> uri_text sch a (abs_path cs) q t -> kw_ok ex -> (Nat.max 1 (length cs) < level)%nat ->
  exists u d, URI t sep ex = Ok u /\ u_dirname level u = Ok d /\ u_scheme d = Some (lit "file") /\ u_cls d = u_cls u /\
    p_path (u_p d) = beyond sch (level - Nat.max 1 (length cs) - 1) /\
    u_uri d = lit "file://" ++ beyond sch (level - Nat.max 1 (length cs) - 1).
Proof.
  intros Hs Ha (us & pw & h & o & Eh) HF Hq Ht Hk Hl. apply uri_text_gtext in Ht as (e & -> & He). pose proof (kw_ex _ Hk) as Hex.
  assert (Hh : is_host a) by (now rewrite Eh).
  assert (HL : loc_ok sch a (abs_path cs)) by (apply loc_abs; auto; intros E; destruct (sch_file _ Hs E)).
  set (k := (level - Nat.max 1 (length cs) - 1)%nat).
  destruct (above_host (class_of_scheme (Some sch)) sch a cs q e sep ex k Hs Ha Hh HF Hq He Hex) as (d & E & [H1 H2 H3 H4 H5 H6]).
  replace (Nat.max 1 (length cs) + S k)%nat with level in E by (unfold k; lia).
  eexists. exists d. split; [apply (URI_made _ _ _ _ _ sep ex HL Hq He (proj1 Hex))|]. split; [rewrite dirname_is by lia; exact E|].
  rewrite made_cls. auto.
Qed.

(** So it never stays anywhere. *)
Theorem C154_never_stays sch a cs q t sep ex level : scheme_ok sch -> auth_ok a -> (exists u p h o, a = Host u p h o) ->
  Forall name_ok cs -> query_ok q -> uri_text sch a (abs_path cs) q t -> kw_ok ex -> (Nat.max 1 (length cs) < level)%nat ->
  exists u d d', URI t sep ex = Ok u /\ u_dirname level u = Ok d /\ u_dirname (S level) u = Ok d' /\ p_path (u_p d') <> p_path (u_p d).
Proof.
  intros Hs Ha Hh HF Hq Ht Hk Hl.
  destruct (C154_beyond sch a cs q t sep ex level) as (u & d & E & Ed & _ & _ & P & _); auto.
  destruct (C154_beyond sch a cs q t sep ex (S level)) as (u' & d' & E' & Ed' & _ & _ & P' & _); auto.
  exists u, d, d'. rewrite E in E'. injection E' as <-. repeat split; auto. rewrite P, P'.
  set (k := (level - Nat.max 1 (length cs) - 1)%nat). replace (S level - Nat.max 1 (length cs) - 1)%nat with (S k) by (unfold k; lia).
  apply beyond_moves. apply (sch_len _ Hs).
Qed.

(** Relative local paths: to the current directory, and then the same three for ever. *)
Theorem C154_relative cs sep ex level : Forall name_ok cs -> kw_ok ex -> (level <> 0)%nat ->
  exists u d, URI (here_path cs) sep ex = Ok u /\ p_path (u_p u) = here_path cs /\ u_dirname level u = Ok d /\
    u_scheme d = Some (lit "file") /\
    p_path (u_p d) = (if level <=? length cs then here_path (firstn (length cs - level) cs) else round (level - length cs)).
Proof.
  intros HF Hk Hl. destruct (relative_uri cs sep ex HF Hk) as (u & E & H).
  destruct (relative_level ULocal sep cs u level HF H) as (d & Ed & Hd). exists u, d.
  destruct H as [_ _ _ H _ _], Hd as [_ _ _ D1 D2 _]. rewrite dirname_is by auto. auto.
Qed.

(** The hypotheses are met, *)
Example C154_witness :
  scheme_ok (lit "ssh") /\ auth_ok ex_auth /\ (exists u p h o, ex_auth = Host u p h o) /\ Forall name_ok [lit "a b"; lit "c"] /\
  query_ok [(lit "key", lit "value")] /\ kw_ok [] /\
  uri_text (lit "ssh") ex_auth (abs_path [lit "a b"; lit "c"]) [(lit "key", lit "value")] (lit "ssh://joe:pw@host.net:2222/a b/c?key=value").
Proof.
  split; [apply scheme_ssh|]. split; [apply ex_auth_ok|]. split; [do 4 eexists; reflexivity|].
  split; [repeat constructor; try discriminate; try free; now apply not_contains|]. split; [apply ex_query|].
  split; [constructor; [constructor|intros k _ []]|].
  exists (lit "?key=value"). split; [|reflexivity]. exists (lit "key=value"). split; vm_compute; reflexivity.
Qed.
(** and this is what the levels of that URI and of a relative path are. *)
Definition levels (t : str) (l : list nat) : option (list str) :=
  match URI t cSlash [] with
  | Ok u => Some (map (fun n => match u_dirname n u with Ok d => u_uri d | Raise _ => [] end) l)
  | Raise _ => None
  end.
Example C154_levels :
  levels (lit "ssh://joe:pw@host.net:2222/a b/c?key=value") [1; 2; 3; 4; 5; 6; 7; 8]%nat
  = Some [lit "ssh://joe:pw@host.net:2222/a b"; lit "ssh://joe:pw@host.net:2222"; lit "file://./ssh:/"; lit "file://./ssh:";
          lit "file://."; lit "file://./file:/"; lit "file://./file:"; lit "file://."] /\
  levels (lit "./x/y") [1; 2; 3; 4; 5]%nat
  = Some [lit "file://./x"; lit "file://."; lit "file://./file:/"; lit "file://./file:"; lit "file://."].
Proof. split; vm_compute; reflexivity. Qed.

Print Assumptions C153_exactly.
Print Assumptions C153_keys.
Print Assumptions C153_written.
Print Assumptions C153_empty.
Print Assumptions C154_top.
Print Assumptions C154_beyond.
Print Assumptions C154_never_stays.
Print Assumptions C154_relative.
