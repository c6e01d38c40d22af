(** fs.py: URI construction and the pure (connection-free) methods of BaseUri. *)
From Verif Require Import Str Exc Utf8 UriParse.

(** fs.py 183-188 *)
Definition normalize_uri (uri : str) (sep : N) : str :=
  if N.eqb sep cSlash then uri
  else
    let uri := replace_char sep cSlash uri in
    match uri with
    | a :: c :: r => if N.eqb c cColon then [cSlash; a] ++ r else uri
    | _ => uri
    end.

(** fs.py 191-195 *)
Definition denormalize_path (path : str) (sep : N) : str :=
  match path with
  | a :: d :: b :: r =>
      if N.eqb a b && N.eqb b cSlash
      then [d; cColon; sep] ++ replace_char cSlash sep r
      else replace_char cSlash sep path
  | _ => replace_char cSlash sep path
  end.

(** The URI classes: BaseUri itself and the subclasses registered by the
    plugins (pyproject.toml entry points; localfs.py 31, memory.py 249, zip.py 92). *)
Inductive uclass := UBase | ULocal | UMemory | UZip.

(** A BaseUri object (fs.py 268-297).  [u_user]/[u_pass] are what the attributes
    username/password evaluate to: the instance attribute set in __init__ if any,
    else the parse result's (via __getattr__).  Extras are modelled with text values. *)
Record uri := mkUri {
  u_cls : uclass; u_uri : str; u_sep : N; u_p : parsed; u_extras : dict str;
  u_user : option str; u_pass : option str }.

(** fs.py 288-297: missing credentials are taken from the keyword arguments
    (which are consumed) or from the query. *)
Definition take_cred (name : str) (fromuri : option str) (extras : dict str) (q : dict str)
  : option str * dict str :=
  match fromuri with
  | Some v => (Some v, extras)
  | None =>
      match dget name extras with
      | Some v => (Some v, ddel name extras)
      | None => (dget name q, extras)
      end
  end.

(** fs.py 277-283: what __init__ does to the text it is given. *)
Definition clean_uri (uri : str) : str :=
  let uri := if prefixb (lit "file://") uri then skipn 7 uri else uri in
  let uri := normalize_uri uri cBack in
  let uri := if negb (contains (lit "://") uri)
                && negb (prefixb [cSlash] uri || prefixb [cDot] uri)
             then lit "./" ++ uri else uri in
  if negb (contains (lit "://") uri) then lit "file://" ++ uri else uri.

(** A keyword argument named like a positional parameter of __init__ is a TypeError. *)
Definition bad_init_kw (extras : dict str) : bool :=
  dhas (lit "uri") extras || dhas (lit "sep") extras || dhas (lit "self") extras.

(** fs.py 268-297 [BaseUri.__init__] for a text argument. *)
Definition mk_uri (cls : uclass) (text : str) (sep : N) (extras : dict str) : res uri :=
  if bad_init_kw extras then Raise TypeError
  else
    let t := clean_uri text in
    rlet p <- uri_parse t;
    let '(us, extras) := take_cred (lit "username") (p_username p) extras (p_query p) in
    let '(pw, extras) := take_cred (lit "password") (p_password p) extras (p_query p) in
    Ok (mkUri cls t sep p extras us pw).

(** fs.py 268-297 for a BaseUri argument: the text is parsed again, so changes made
    to the parse result (query, scheme) are not copied. *)
Definition clone_uri (cls : uclass) (u : uri) : res uri :=
  rlet p <- uri_parse (u_uri u);
  let '(us, extras) := take_cred (lit "username") (p_username p) (u_extras u) (p_query p) in
  let '(pw, extras) := take_cred (lit "password") (p_password p) extras (p_query p) in
  Ok (mkUri cls (u_uri u) (u_sep u) p extras us pw).

(** fs.py 235: scheme_re = "([a-z+-]+)://", matched at the start. *)
Definition scheme_char (c : N) : bool := between 97 c 122 || N.eqb c cPlus || N.eqb c cMinus.
Definition scheme_re (s : str) : option str :=
  match span scheme_char s with
  | (x :: w, r) => if prefixb (lit "://") r then Some (x :: w) else None
  | _ => None
  end.

(** fs.py 179, 1135: SCHEME_REGISTRY as filled by the three plugins. *)
Definition class_of_scheme (s : option str) : uclass :=
  match s with
  | Some s => if str_eqb s (lit "file") then ULocal
              else if str_eqb s (lit "memory") then UMemory
              else if str_eqb s (lit "zip") then UZip
              else UBase
  | None => UBase
  end.

(** fs.py 237-250 [URI(text, sep, **extras)] *)
Definition URI (text : str) (sep : N) (extras : dict str) : res uri :=
  let scheme := match scheme_re text with Some s => s | None => lit "file" end in
  mk_uri (class_of_scheme (Some scheme)) text sep extras.

(** fs.py 237-250 [URI(u)] for a URI object. *)
Definition URI_of (u : uri) : res uri := clone_uri (class_of_scheme (p_scheme (u_p u))) u.

(** fs.py 312-324: scheme getter and setter. *)
Definition u_scheme (u : uri) : option str := p_scheme (u_p u).
Definition u_set_scheme (u : uri) (s : str) : uri :=
  mkUri (u_cls u) (u_uri u) (u_sep u) (set_scheme (u_p u) s) (u_extras u) (u_user u) (u_pass u).
Definition u_set_query (u : uri) (q : dict str) : uri :=
  mkUri (u_cls u) (u_uri u) (u_sep u) (set_query (u_p u) q) (u_extras u) (u_user u) (u_pass u).

(** fs.py 304-309 [_extras] *)
Definition u_all_extras (u : uri) : dict str :=
  if is_http (u_scheme u) then u_extras u else dupdate (u_extras u) (p_query (u_p u)).

(** fs.py 335-342 [BaseUri.path] on POSIX. *)
Definition base_path (u : uri) : str :=
  let path := p_path (u_p u) in
  if prefixb (lit "/.") path then tl path else path.

(** localfs.py 35-41 overrides it. *)
Definition u_path (u : uri) : str :=
  match u_cls u with
  | ULocal => if N.eqb (u_sep u) cSlash then base_path u
              else denormalize_path (p_path (u_p u)) (u_sep u)
  | _ => base_path u
  end.

(** fs.py 345-351 *)
Definition u_unipath (u : uri) : str :=
  let p := p_path (u_p u) in
  if prefixb [cDot] p || prefixb [cSlash] p then p else lit "./" ++ p.

(** fs.py 354-362 and 300-301: the arguments of CONNECTION_REGISTRY.get_connection. *)
Record conn_key := mkKey {
  k_scheme : option str; k_host : option str; k_port : Z; k_user : option str;
  k_pass : option str; k_vpath : str; k_extras : dict str }.
Definition u_key (u : uri) : conn_key :=
  mkKey (u_scheme u) (p_hostname (u_p u)) (p_port (u_p u)) (u_user u) (u_pass u)
        (p_vpath (u_p u)) (u_all_extras u).

(** fs.py 365-366; localfs.py 32-33 *)
Definition u_str (u : uri) : res str :=
  match u_cls u with
  | ULocal => Ok (u_path u)
  | _ => parsed_str (u_p u)
  end.

(** fs.py 377-385 on two URIs. *)
Definition u_eqb (a b : uri) : bool := parsed_eqb (u_p a) (u_p b).
Definition u_neb (a b : uri) : bool := negb (u_eqb a b).

(** fs.py 396-404 [u + suffix] *)
Definition u_add (u : uri) (suffix : str) : res uri :=
  rlet r <- mk_uri (u_cls u) (u_uri u ++ suffix) (u_sep u) (u_all_extras u);
  Ok (u_set_query r (p_query (u_p u))).

(** fs.py 407-412 *)
Definition u_is_absolute (u : uri) : bool :=
  let path := p_path (u_p u) in
  let path := if prefixb (lit "/.") path then tl path else path in
  prefixb [cSlash] path.

(** fs.py 415-439 [split] *)
Definition u_split (u : uri) : res (uri * str) :=
  let '(first, second) :=
    match cut_last cSlash (u_uri u) with
    | Some fs => fs
    | None => ([], u_uri u)
    end in
  let first := if suffixb (lit "//") first then first ++ [cSlash] else first in
  let first := match first with [] => [cDot] | _ => first end in
  rlet d <- mk_uri (u_cls u) first (u_sep u) (u_all_extras u);
  Ok (d, match cut_first cQuest second with Some (a, _) => a | None => second end).

(** fs.py 442-451 [directory] (alias dirname) *)
Fixpoint u_dirname_loop (level : nat) (u : uri) : res uri :=
  match level with
  | O => Ok u
  | S l => rlet d <- u_split u; u_dirname_loop l (fst d)
  end.
Definition u_dirname (level : nat) (u : uri) : res uri :=
  match level with
  | O => Raise AssertionError
  | _ => u_dirname_loop level u
  end.

(** fs.py 457-461 *)
Definition u_basename (u : uri) : res str := rlet d <- u_split u; Ok (snd d).

(** fs.py 464-465, os.path.splitext of a name without slash: the extension starts
    at the last dot, unless only dots precede it. *)
Definition splitext (p : str) : str * str :=
  match cut_last cDot p with
  | Some (a, b) => if forallb (N.eqb cDot) a then (p, []) else (a, cDot :: b)
  | None => (p, [])
  end.
Definition u_splitext (u : uri) : res (str * str) := rlet b <- u_basename u; Ok (splitext b).

(** fs.py 468-487 [last] *)
Definition u_last (u : uri) : str :=
  match rev (split_on cSlash (u_uri u)) with
  | [] => []
  | [x] => x
  | x :: y :: _ => match x with [] => y | _ => x end
  end.

(** fs.py 490-516 [join] *)
Definition is_slash (c : N) : bool := N.eqb c cSlash.
Definition u_join (u : uri) (args : list str) : res uri :=
  let sep := u_sep u in
  let args := if N.eqb sep cSlash then args else map (replace_char sep cSlash) args in
  match rev args with
  | [] => Raise IndexError
  | lastarg :: init_rev =>
      let parts := [rstrip_p is_slash (p_path (u_p u))]
                   ++ map (strip_p is_slash) (rev init_rev) ++ [lastarg] in
      rlet text <- uri_from_parts (u_scheme u) (as_list_netloc (u_p u))
                                  (join_with [cSlash] parts) (p_query (u_p u));
      rlet r <- mk_uri (u_cls u) text sep (u_all_extras u);
      Ok (u_set_query r (p_query (u_p u)))
  end.

(** fs.py 388-393 [u / name] *)
Definition u_div (u : uri) (name : str) : res uri := u_join u [name].
