(** uriparse.py 160-335: the parsers of URIs by scheme.

    Simplified: a parser class is [URLParser] with some defaults, or [MailtoURIParser]; default values are texts or
    None (the code turns all others that are not false into texts, 177-180). *)
From Verif Require Import Str Exc Utf8 UriParse.

Inductive pclass := Url (defaults : list (option str)) | Mailto.
Definition port_of (t : String.string) : option str := Some (lit t).
(** uriparse.py 171, 206-244 *)
Definition HttpURLParser : pclass := Url [None; None; None; port_of "80"; Some (lit "/"); None; None].
Definition HttpsURLParser : pclass := Url [None; None; None; port_of "443"; Some (lit "/"); None; None].
Definition ImapURLParser : pclass := Url [None; None; Some (lit "localhost"); port_of "143"; Some (lit "/"); None; None].
Definition ImapsURLParser : pclass := Url [None; None; Some (lit "localhost"); port_of "993"; Some (lit "/"); None; None].
Definition FtpURLParser : pclass :=
  Url [Some (lit "anonymous"); Some (lit "anonymous"); None; port_of "21"; Some (lit "/"); None; None].
Definition TftpURLParser : pclass := Url [None; None; None; port_of "69"; Some (lit "/"); None; None].
Definition FileURLParser : pclass := Url [None; None; None; None; Some (lit "/"); None; None].
Definition TelnetURLParser : pclass := Url [None; None; None; port_of "23"; Some (lit "/"); None; None].
Definition DefaultURIParser : pclass := Url [None; None; None; None; Some (lit "/"); None; None].
(** uriparse.py 275-284 [URIParser.Schemes] *)
Definition Schemes : dict pclass :=
  [(lit "http", HttpURLParser); (lit "https", HttpsURLParser); (lit "imap", ImapURLParser); (lit "imaps", ImapsURLParser);
   (lit "ftp", FtpURLParser); (lit "tftp", TftpURLParser); (lit "file", FileURLParser); (lit "telnet", TelnetURLParser);
   (lit "mailto", Mailto)].

(** [x if x is not None else d] *)
Definition given (x d : option str) : option str := match x with Some _ => x | None => d end.

(** uriparse.py 173-200, 256-259 [parser_class(defaults).parse(urlinfo)]; defaults that are empty do not count. *)
Definition class_parse (c : pclass) (defaults : list (option str)) (urlinfo : str) : res (list (option str)) :=
  rlet s <- urisplit urlinfo;
  match c with
  | Url own =>
      match s_authority s with
      | None => Raise TypeError                        (* '@' in None, line 121 *)
      | Some a =>
          let '(user, passwd, host, port) := split_authority a in
          match (match defaults with [] => own | _ => defaults end) with
          | [duser; dpasswd; dhost; dport; dpath; dquery; dfrag] =>
              Ok [given user duser; given passwd dpasswd; given host dhost; given port dport;
                  (match s_path s with [] => dpath | p => Some p end); given (s_query s) dquery; given (s_fragment s) dfrag]
          | _ => Raise ValueError
          end
      end
  | Mailto =>
      match cut_first cAt (s_path s) with
      | Some (user, host) => Ok [Some user; Some host; s_query s; s_fragment s]
      | None => Raise ValueError
      end
  end.

(** uriparse.py 202-204, 261-263 [parser_class(defaults).unparse(pieces)] *)
Definition class_unparse (c : pclass) (pieces : list (option str)) : res str :=
  match c with
  | Url _ =>
      match pieces with
      | user :: passwd :: host :: port :: rest =>
          rlet authority <- join_authority user passwd host port;
          match rest with
          | path :: query :: frag :: _ => Ok (uriunsplit (Some []) (Some authority) path query frag)
          | _ => Raise IndexError
          end
      | _ => Raise ValueError
      end
  | Mailto =>
      match pieces with
      | Some user :: Some host :: rest =>
          match rest with
          | query :: frag :: _ => Ok (uriunsplit (Some []) None (Some (user ++ [cAt] ++ host)) query frag)
          | _ => Raise IndexError
          end
      | _ :: _ :: _ => Raise TypeError
      | _ => Raise IndexError
      end
  end.

(** uriparse.py 321-327 [scheme_of], [info_of] *)
Definition scheme_of (uri : str) : str := match cut_first cColon uri with Some (s, _) => s | None => uri end.
Definition info_of (uri : str) : res str :=
  match split_on cColon uri with _ :: i :: _ => Ok i | _ => Raise IndexError end.

(** uriparse.py 329-335 [parser_for]; [parsers] is [self._parsers] (286-298). *)
Definition parsers_of (schemes extra : dict pclass) : dict pclass := dupdate schemes extra.
Definition parser_for (parsers : dict pclass) (uri : str) : pclass :=
  match dget (scheme_of uri) parsers with Some c => c | None => DefaultURIParser end.
(** uriparse.py 300-309 [URIParser.parse] *)
Definition urip_parse (parsers : dict pclass) (uri : str) (defaults : list (option str)) : res (list (option str)) :=
  rlet p <- class_parse (parser_for parsers uri) defaults uri; Ok (Some (scheme_of uri) :: p).
(** uriparse.py 311-318 [URIParser.unparse] ([None.split] is an AttributeError) *)
Definition urip_unparse (parsers : dict pclass) (pieces : list (option str)) : res str :=
  match pieces with
  | [] => Raise IndexError
  | None :: _ => Raise AttributeError
  | Some s :: _ => class_unparse (parser_for parsers s) pieces
  end.
