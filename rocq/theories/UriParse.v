(** uriparse.py and simpleuri.py. *)
From Verif Require Import Str Exc Utf8.

(** ** uriparse.py *)

(** uriparse.py 68-69: the regular expression for two opening parentheses, a shortest run without
    newline, two closing parentheses.  [close_inner] finds the first pair of closing parentheses
    before any newline. *)
Fixpoint close_inner (s : str) : option (str * str) :=
  match s with
  | [] => None
  | c :: s' =>
      if prefixb (lit "))") s then Some ([], tl s')
      else if N.eqb c cNL then None
      else match close_inner s' with
           | None => None
           | Some (b, r) => Some (c :: b, r)
           end
  end.

(** uriparse.py 69 [inner_part.search(uri)]: leftmost match as (before, match, after). *)
Fixpoint find_inner (s : str) : option (str * str * str) :=
  match s with
  | [] => None
  | c :: s' =>
      match (if prefixb (lit "((") s then close_inner (tl s') else None) with
      | Some (b, r) => Some ([], lit "((" ++ b ++ lit "))", r)
      | None => match find_inner s' with
                | None => None
                | Some (x, m, r) => Some (c :: x, m, r)
                end
      end
  end.

Definition inner_token : str := lit "__inner_part__".

Definition not_in (l : list N) (c : N) : bool := negb (existsb (N.eqb c) l).

(** The groups p[1], p[3], p[4], p[6], p[8] of the STD 66 regular expression
    (uriparse.py 75-77).  Every part is optional or a maximal run, so the match
    is deterministic; [re.match] ignores what follows the match. *)
Definition re_scheme (s : str) : option str * str :=
  match span (not_in [cColon; cSlash; cQuest; cHash]) s with
  | (x :: w, c :: r) => if N.eqb c cColon then (Some (x :: w), r) else (None, s)
  | _ => (None, s)
  end.
Definition re_authority (s : str) : option str * str :=
  if prefixb (lit "//") s
  then let (a, r) := span (not_in [cSlash; cQuest; cHash]) (skipn 2 s) in (Some a, r)
  else (None, s).
Definition re_path (s : str) : str * str := span (not_in [cQuest; cHash]) s.
Definition re_query (s : str) : option str * str :=
  match s with
  | c :: r => if N.eqb c cQuest
              then let (q, r') := span (not_in [cHash]) r in (Some q, r')
              else (None, s)
  | [] => (None, s)
  end.
Definition re_fragment (s : str) : option str :=
  match s with
  | c :: r => if N.eqb c cHash then Some (fst (span (not_in [cNL]) r)) else None
  | [] => None
  end.

Record split5 := mkSplit5 {
  s_scheme : option str; s_authority : option str; s_path : str;
  s_query : option str; s_fragment : option str }.

(** [scheme in ['http', 'https']] *)
Definition is_http (scheme : option str) : bool :=
  match scheme with
  | Some s => str_eqb s (lit "http") || str_eqb s (lit "https")
  | None => false
  end.

(** uriparse.py 60-89 *)
Definition urisplit (uri : str) : res split5 :=
  let '(inner_value, uri) :=
    match find_inner uri with
    | Some (b, m, a) => (m, b ++ inner_token ++ a)
    | None => ([], uri)
    end in
  let (scheme, r1) := re_scheme uri in
  let (authority, r2) := re_authority r1 in
  let (path, r3) := re_path r2 in
  let (query, r4) := re_query r3 in
  let fragment := re_fragment r4 in
  match authority with
  | None => Raise AttributeError          (* None.replace(...), line 79 *)
  | Some a =>
      let a := replace inner_token inner_value a in
      let '(authority, path) :=
        if str_eqb a [cDot] then (None, a ++ path) else (Some a, path) in
      let '(path, fragment) :=
        if negb (is_http scheme) && truthy fragment
        then (path ++ [cHash] ++ match fragment with Some f => f | None => [] end, Some [])
        else (path, fragment) in
      Ok (mkSplit5 scheme authority path query fragment)
  end.

(** [if x: result += pre + x] *)
Definition opt_add (pre : str) (o : option str) : str :=
  match o with Some (c :: w) => pre ++ c :: w | _ => [] end.

(** uriparse.py 92-111 *)
Definition uriunsplit (scheme authority path query fragment : option str) : str :=
  (match scheme with Some (c :: w) => (c :: w) ++ [cColon] | _ => [] end)
  ++ opt_add (lit "//") authority
  ++ opt_add [] path
  ++ opt_add [cQuest] query
  ++ opt_add [cHash] fragment.

(** uriparse.py 114-136 *)
Definition split_authority (authority : str)
  : option str * option str * option str * option str :=
  let '(userinfo, hostport) :=
    match cut_first cAt authority with
    | Some (u, h) => (Some u, h)
    | None => (None, authority)
    end in
  let '(user, passwd) :=
    match userinfo with
    | Some u => match cut_first cColon u with
                | Some (a, b) => (Some a, Some b)
                | None => (Some u, None)
                end
    | None => (None, None)
    end in
  let '(host, port) :=
    match cut_first cColon hostport with
    | Some (a, b) => (a, Some b)
    | None => (hostport, None)
    end in
  (user, passwd, (match host with [] => None | _ => Some host end), port).

(** uriparse.py 139-157 ([result += None] is a TypeError) *)
Definition join_authority (user passwd host port : option str) : res str :=
  let u := match user with
           | Some (c :: w) => (c :: w) ++ opt_add [cColon] passwd ++ [cAt]
           | _ => []
           end in
  match host with
  | None => Raise TypeError
  | Some h => Ok (u ++ h ++ opt_add [cColon] port)
  end.

(** uriparse.py 337-341 [_dirname] *)
Definition dirname_ (p : str) : str := rev (lstrip_p (fun c => negb (N.eqb c cSlash)) (rev p)).

(** uriparse.py 343-349 [_pathjoin] *)
Definition pathjoin_ (a b : str) : str :=
  match a, b with
  | [], _ => b
  | _, [] => a
  | _, c :: _ => if N.eqb c cSlash then b else a ++ [cSlash] ++ b
  end.

(** posixpath.normpath (library function). *)
Fixpoint norm_comps (absolute : bool) (stack : list str) (comps : list str) : list str :=
  match comps with
  | [] => rev stack
  | c :: cs =>
      if str_eqb c [] || str_eqb c [cDot] then norm_comps absolute stack cs
      else if negb (str_eqb c (lit ".."))
              || (negb absolute && match stack with [] => true | _ => false end)
              || match stack with t :: _ => str_eqb t (lit "..") | [] => false end
           then norm_comps absolute (c :: stack) cs
           else match stack with
                | _ :: st => norm_comps absolute st cs
                | [] => norm_comps absolute stack cs
                end
  end.
Definition normpath (p : str) : str :=
  match p with
  | [] => [cDot]
  | _ =>
      let initial :=
        if prefixb (lit "/") p
        then if prefixb (lit "//") p && negb (prefixb (lit "///") p) then lit "//" else lit "/"
        else [] in
      let body := join_with [cSlash]
                    (norm_comps (match initial with [] => false | _ => true end) []
                                (split_on cSlash p)) in
      match initial ++ body with [] => [cDot] | r => r end
  end.

(** [a != b] on optional texts *)
Definition ostr_eqb (a b : option str) : bool :=
  match a, b with
  | None, None => true
  | Some x, Some y => str_eqb x y
  | _, _ => false
  end.

(** uriparse.py 351-375 *)
Definition urljoin (base url : str) : res str :=
  rlet b <- urisplit base;
  rlet u <- urisplit url;
  if match s_scheme u with Some _ => negb (ostr_eqb (s_scheme b) (s_scheme u)) | None => false end
  then Ok url
  else
    match s_authority u with
    | Some _ => Ok (uriunsplit (s_scheme b) (s_authority u) (Some (s_path u)) (s_query u) (s_fragment u))
    | None =>
        match s_path u with
        | _ :: _ =>
            Ok (uriunsplit (s_scheme b) (s_authority b)
                  (Some (normpath (pathjoin_ (dirname_ (s_path b)) (s_path u))))
                  (s_query u) (s_fragment u))
        | [] =>
            match s_query u with
            | Some _ => Ok (uriunsplit (s_scheme b) (s_authority b) (Some (s_path b)) (s_query u) (s_fragment u))
            | None =>
                match s_fragment u with
                | Some _ => Ok (uriunsplit (s_scheme b) (s_authority b) (Some (s_path b)) (s_query b) (s_fragment u))
                | None => Ok (uriunsplit (s_scheme b) (s_authority b) (Some (s_path b)) (s_query b) (s_fragment b))
                end
            end
        end
    end.

(** ** simpleuri.py *)

(** simpleuri.py 17-29.  The result keeps insertion order; a repeated key overwrites. *)
Fixpoint parse_query_items (items : list str) (result : dict str) : res (dict str) :=
  match items with
  | [] => Ok result
  | item :: rest =>
      match split_on cEq item with
      | [key; value] =>
          parse_query_items rest
            (dset (strip_ws key) (unquote_plus (strip_ws value)) result)
      | _ => Raise ValueError            (* key, value = item.split('=') *)
      end
  end.
Definition parse_query_string (query : str) : res (dict str) :=
  parse_query_items (split_on cAmp query) [].

(** Python [int(s)] for text: optional sign, decimal digits with single
    underscores between them, surrounding whitespace ignored.  Simplification:
    only ASCII digits are recognised (Python accepts every Unicode digit). *)
Definition is_digit (c : N) : bool := between 48 c 57.
Fixpoint int_digits (acc : Z) (prev_digit : bool) (s : str) : option Z :=
  match s with
  | [] => if prev_digit then Some acc else None
  | c :: s' =>
      if is_digit c then int_digits (10 * acc + Z.of_N (c - 48)) true s'
      else if N.eqb c cUnder && prev_digit then int_digits acc false s'
      else None
  end.
Definition py_int (s : str) : res Z :=
  let r :=
    match strip_ws s with
    | c :: t => if N.eqb c cPlus then int_digits 0 false t
                else if N.eqb c cMinus then option_map Z.opp (int_digits 0 false t)
                else int_digits 0 false (c :: t)
    | [] => None
    end in
  match r with Some z => Ok z | None => Raise ValueError end.

(** [str(n)] *)
Definition str_of_Z (z : Z) : str :=
  if (z <? 0)%Z then cMinus :: str_of_N (Z.to_N (- z)) else str_of_N (Z.to_N z).

(** The attributes of a UriParse object (simpleuri.py 62-71). *)
Record parsed := mkParsed {
  p_scheme : option str; p_authority : option str; p_path : str; p_query : dict str;
  p_fragment : option str; p_vpath : str;
  p_username : option str; p_password : option str; p_hostname : option str; p_port : Z;
  p_netloc : str }.

Definition set_query (p : parsed) (q : dict str) : parsed :=
  mkParsed (p_scheme p) (p_authority p) (p_path p) q (p_fragment p) (p_vpath p)
           (p_username p) (p_password p) (p_hostname p) (p_port p) (p_netloc p).
Definition set_scheme (p : parsed) (s : str) : parsed :=
  mkParsed (Some s) (p_authority p) (p_path p) (p_query p) (p_fragment p) (p_vpath p)
           (p_username p) (p_password p) (p_hostname p) (p_port p) (p_netloc p).

(** [s[2:-2]] *)
Definition slice_2_m2 (s : str) : str := firstn (length s - 2 - 2) (skipn 2 s).

(** simpleuri.py 36-101 [UriParse.__init__]. [''] is [Some []] for the text attributes
    that may also be None. *)
Definition uri_parse (uri : str) : res parsed :=
  rlet s <- urisplit uri;
  let '(vpath, authority) :=
    match s_authority s with
    | Some a => if contains (lit "((") a then (slice_2_m2 a, Some []) else ([], Some a)
    | None => ([], None)
    end in
  rlet upwhp <- (match authority with
    | Some (c :: w) =>
        let '(us, pw, ho, po) := split_authority (c :: w) in
        rlet port <- (match po with
                      | Some (d :: t) => py_int (d :: t)
                      | _ => Ok 0%Z
                      end);
        Ok (us, pw, ho, port)
    | _ => Ok (Some [], Some [], Some [], 0%Z)
    end);
  let '(us, pw, ho, port) := upwhp in
  rlet query <- (match s_query s with
                 | Some (c :: w) => parse_query_string (c :: w)
                 | _ => Ok []
                 end);
  let netloc :=
    match ho with
    | Some (c :: w) => if (port =? 0)%Z then c :: w else (c :: w) ++ [cColon] ++ str_of_Z port
    | _ => []
    end in
  Ok (mkParsed (s_scheme s) authority (s_path s) query (s_fragment s) vpath us pw ho port netloc).

(** simpleuri.py 114-143 [UriParse.__str__] ([None.startswith] is an AttributeError). *)
Definition query_text (q : dict str) : str :=
  match q with
  | [] => []
  | _ => [cQuest] ++ join_with [cAmp] (map (fun kv => fst kv ++ [cEq] ++ snd kv) q)
  end.
Definition opt_text (o : option str) : str := match o with Some s => s | None => [] end.
Definition parsed_str (p : parsed) : res str :=
  match p_scheme p with
  | None => Raise AttributeError
  | Some scheme =>
      let rest := query_text (p_query p) ++ opt_add [cHash] (p_fragment p) in
      let http := prefixb (lit "http") scheme in
      let start := if (http && truthy (p_hostname p)) || negb http
                   then scheme ++ lit "://" else [] in
      let user := opt_add [] (p_username p) in
      let pass := opt_add [cColon] (p_password p) in
      let at_ := if truthy (p_username p) || truthy (p_password p) then [cAt] else [] in
      let host := if truthy (p_hostname p) then opt_text (p_hostname p)
                  else match p_vpath p with
                       | [] => []
                       | v => lit "((" ++ v ++ lit "))"
                       end in
      let port := if (p_port p =? 0)%Z then [] else [cColon] ++ str_of_Z (p_port p) in
      Ok (start ++ user ++ pass ++ at_ ++ host ++ port ++ p_path p ++ rest)
  end.

(** simpleuri.py 145-154 [UriParse.__eq__] on two UriParse objects. *)
Definition parsed_eqb (a b : parsed) : bool :=
  ostr_eqb (p_scheme a) (p_scheme b) && str_eqb (p_netloc a) (p_netloc b)
  && str_eqb (p_path a) (p_path b) && dict_eqb (p_query a) (p_query b).

(** simpleuri.py 156-171 [as_list]: the netloc entry. *)
Definition as_list_netloc (p : parsed) : str :=
  match p_vpath p with
  | (_ :: _) as v => lit "((" ++ v ++ lit "))"
  | [] => match p_authority p with
          | Some (c :: w) => c :: w
          | _ => p_netloc p
          end
  end.

(** simpleuri.py 173-179 [uri_from_parts] ([%s] of None is 'None'). *)
Definition uri_from_parts (scheme : option str) (netloc path : str) (query : dict str) : res str :=
  let base := match scheme with Some s => s | None => lit "None" end
              ++ lit "://" ++ netloc ++ path in
  match query with
  | [] => Ok base
  | _ => rlet q <- urlencode query; Ok (base ++ [cQuest] ++ q)
  end.
