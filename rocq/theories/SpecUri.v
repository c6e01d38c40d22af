(** Specification of the URI grammar the URI properties quantify over.  Nothing here
    refers to the parser; from the model only the record types are used. *)
From Verif Require Import Str Exc Utf8 UriParse BaseUri.
Local Open Scope N_scope.

(** [s] contains none of the characters [l]. *)
Definition free_of (l : list N) (s : str) : Prop := forall c, In c l -> ~ In c s.

(** The characters with a meaning in URIs, and the backslash, which is rewritten to a slash. *)
Definition meta : list N := [cQuest; cHash; cBack].

(** Schemes: two or more of a-z, '+', '-'. *)
Definition scheme_letter (c : N) : Prop := 97 <= c <= 122 \/ c = cPlus \/ c = cMinus.
Record scheme_ok (s : str) : Prop := {
  sch_len : (2 <= length s)%nat;
  sch_chars : forall c, In c s -> scheme_letter c;
  sch_http : s <> lit "http" /\ s <> lit "https";
  sch_file : s <> lit "file" }.

(** The part between '://' and the path. *)
Inductive auth :=
| NoAuth
| Connector (v : str)
| Host (user pass : option str) (host : str) (port : option N).

Definition decimal (n : N) : str := str_of_N n.
Definition auth_text (a : auth) : str :=
  match a with
  | NoAuth => []
  | Connector v => lit "((" ++ v ++ lit "))"
  | Host user pass host port =>
      (match user with
       | Some u => u ++ (match pass with Some p => cColon :: p | None => [] end) ++ [cAt]
       | None => []
       end) ++ host ++ (match port with Some n => cColon :: decimal n | None => [] end)
  end.

Definition word (s : str) : Prop := s <> [] /\ free_of ([cSlash; cColon; cAt; cLpar] ++ meta) s.
Definition opt_word (o : option str) : Prop := match o with Some s => word s | None => True end.

(** The text by which the code marks the place of a connector internally. *)
Definition reserved : str := lit "__inner_part__".

Inductive auth_ok : auth -> Prop :=
| ok_none : auth_ok NoAuth
| ok_conn v :
    v <> [] -> free_of [cBack; cNL] v ->
    (forall x y, v ++ [cRpar] <> x ++ lit "))" ++ y) ->
    auth_ok (Connector v)
| ok_host user pass host port :
    opt_word user -> opt_word pass -> (pass <> None -> user <> None) ->
    word host -> (port <> Some 0) ->
    Host user pass host port <> Host None None [cDot] None ->
    (forall x y, auth_text (Host user pass host port) <> x ++ reserved ++ y) ->
    auth_ok (Host user pass host port).

(** Absolute paths in ordinary characters, without doubled parentheses. *)
Record path_ok (p : str) : Prop := {
  path_abs : exists r, p = cSlash :: r;
  path_free : free_of meta p;
  path_par : forall x y, p <> x ++ lit "((" ++ y }.

(** One ordinary name: a single non-empty component. *)
Record name_ok (n : str) : Prop := {
  name_ne : n <> [];
  name_free : free_of (cSlash :: meta) n;
  name_par : forall x y, n <> x ++ lit "((" ++ y }.

(** Letters, digits, '_', '.', '-', '~'. *)
Definition plain (s : str) : Prop := forallb always_safe s = true.
Definition text_ok (s : str) : Prop := forallb scalar s = true.

(** Queries: distinct plain keys, any text as value. *)
Record query_ok (q : dict str) : Prop := {
  q_keys : forall k v, In (k, v) q -> plain k;
  q_vals : forall k v, In (k, v) q -> text_ok v;
  q_dup : NoDup (map fst q);
  q_kw : forall k, In k [lit "uri"; lit "sep"; lit "self"] -> ~ In k (map fst q) }.

(** Where a URI points: scheme, authority and path.  The file scheme has no authority, and there the
    path must not itself look like a URI or like a drive. *)
Inductive loc_ok (sch : str) (a : auth) (path : str) : Prop :=
| loc_remote : scheme_ok sch -> auth_ok a -> path_ok path -> loc_ok sch a path
| loc_file : sch = lit "file" -> a = NoAuth -> path_ok path ->
    (forall x y, path <> x ++ lit "://" ++ y) -> (forall r, path <> cSlash :: cColon :: r) ->
    loc_ok sch a path.

(** The text of a URI: scheme://authority path, and the encoded query if there is one. *)
Definition query_text_of (q : dict str) (t : str) : Prop :=
  match q with
  | [] => t = []
  | _ => exists e, urlencode q = Ok e /\ t = cQuest :: e
  end.
Definition uri_text (sch : str) (a : auth) (path : str) (q : dict str) (t : str) : Prop :=
  exists qt, query_text_of q qt /\ t = sch ++ lit "://" ++ auth_text a ++ path ++ qt.

Definition no_trailing_slash (p : str) : Prop := forall r, p <> r ++ [cSlash].

(** The absolute path with the given components; the root when there are none. *)
Definition abs_path (cs : list str) : str :=
  match cs with [] => [cSlash] | _ => flat_map (fun c => cSlash :: c) cs end.

(** Keyword arguments of URI(...): distinct, and none named like a positional parameter. *)
Record kw_ok (ex : dict str) : Prop := {
  kw_dup : NoDup (map fst ex);
  kw_names : forall k, In k [lit "uri"; lit "sep"; lit "self"] -> ~ In k (map fst ex) }.

(** What a scheme admits before the path. *)
Definition site_ok (sch : str) (a : auth) : Prop :=
  sch = lit "file" /\ a = NoAuth \/ scheme_ok sch /\ auth_ok a.

(** Names that do not look like a drive in a file URI. *)
Definition no_drive (sch : str) (n : str) : Prop := sch = lit "file" -> forall r, n <> cColon :: r.

(** Path texts: no '?', and a '#' only when something other than a line break follows. *)
Inductive path_text : str -> Prop :=
| pt_plain p : free_of [cQuest; cHash] p -> path_text p
| pt_hash p f : free_of [cQuest; cHash] p -> f <> [] -> free_of [cNL] f -> path_text (p ++ cHash :: f).

Record posix_ok (p : str) : Prop := {
  px_text : path_text p;
  px_back : free_of [cBack] p;
  px_par : forall x y, p <> x ++ lit "((" ++ y;
  px_uri : forall x y, p <> x ++ lit "://" ++ y;
  px_drive : forall c r, p <> c :: cColon :: r }.

Definition same_dict (d e : dict str) : Prop := forall k, dget k d = dget k e.

(** Credentials are given inside the URI, or not at all. *)
Definition no_outside_creds (a : auth) (ex q : dict str) : Prop :=
  match a with
  | Host user pass _ _ =>
      (user = None -> ~ In (lit "username") (map fst ex) /\ ~ In (lit "username") (map fst q)) /\
      (pass = None -> ~ In (lit "password") (map fst ex) /\ ~ In (lit "password") (map fst q))
  | _ => True
  end.
Definition plain_values (q : dict str) : Prop := forall k v, In (k, v) q -> plain v.

(** A doubled-parenthesis group on one line. *)
Definition has_group (s : str) : Prop :=
  exists x y z, s = x ++ lit "((" ++ y ++ lit "))" ++ z /\ ~ In cNL y.
(** File names that survive being part of a URI. *)
Record usable_name (n : str) : Prop := {
  un_ne : n <> [];
  un_slash : free_of [cSlash; cBack] n;
  un_text : path_text n;
  un_group : ~ has_group n;
  un_dot : forall r, n <> cDot :: r }.

(** Components of a URI that respect the delimiters. *)
Record split_ok (s a path : str) (q f : option str) : Prop := {
  so_scheme : s <> [] /\ free_of [cColon; cSlash; cQuest; cHash; cLpar] s;
  so_path : (path = [] \/ exists r, path = cSlash :: r) /\ free_of [cQuest; cHash] path;
  so_query : match q with Some q => q <> [] /\ free_of [cHash] q | None => True end;
  so_fragment : match f with Some f => f <> [] /\ free_of [cNL] f | None => True end;
  so_authority :
    (exists v, a = lit "((" ++ v ++ lit "))" /\ v <> [] /\ ~ In cNL v /\ forall x y, v ++ [cRpar] <> x ++ lit "))" ++ y)
    \/ (a <> [] /\ a <> [cDot] /\ free_of [cSlash; cQuest; cHash] a
        /\ (forall x y, a <> x ++ reserved ++ y)
        /\ ~ has_group (s ++ lit "://" ++ a ++ path ++ match q with Some q => cQuest :: q | None => [] end
                        ++ match f with Some f => cHash :: f | None => [] end)) }.

(** Two connection keys are the same: equal fields, extras equal as dictionaries. *)
Definition same_key (k1 k2 : conn_key) : Prop :=
  k_scheme k1 = k_scheme k2 /\ k_host k1 = k_host k2 /\ k_port k1 = k_port k2 /\
  k_user k1 = k_user k2 /\ k_pass k1 = k_pass k2 /\ k_vpath k1 = k_vpath k2 /\
  same_dict (k_extras k1) (k_extras k2).
