(** fs.py 268-382 and simpleuri.py 62-101: reading and assigning the attributes of a URI, as Python does it: properties
    of the class first, then what the object has itself, then the methods, and for all else [__getattr__]
    (fs.py 373-374), which asks [parse_result].

    Simplified: the scheme is not stored in [_scheme] when read (fs.py 312-316); attributes whose names start with two
    underscores are not assigned; [sep] is one character.  RecursionError is RuntimeError; [fuel] is how
    many calls may be open. *)
From Verif Require Import Str Exc UriParse BaseUri.

Inductive aval :=
| AText (s : str) | ANone | AInt (z : Z) | ABool (b : bool) | ADict (d : dict str)
| AParsed                       (* the UriParse object of the URI *)
| AMethod (name : str).
Definition aopt (o : option str) : aval := match o with Some s => AText s | None => ANone end.

(** What BaseUri defines besides its properties, and what every object has (Python 3.12) *)
Definition method_names : list str :=
  [lit "get_connection"; lit "_extras"; lit "_get_scheme"; lit "_set_scheme"; lit "_key"; lit "__init__"; lit "__str__"; lit "__repr__"; lit "__getattr__";
   lit "__eq__"; lit "__ne__"; lit "__div__"; lit "__truediv__"; lit "__add__"; lit "split"; lit "directory"; lit "dirname"; lit "basename";
   lit "splitext"; lit "last"; lit "join"; lit "copy"; lit "copystat"; lit "move"; lit "remove"; lit "open"; lit "makedirs"; lit "mkdir"; lit "exists"; lit "isfile";
   lit "isdir"; lit "isexec"; lit "set_exec"; lit "islink"; lit "readlink"; lit "symlink"; lit "mtime"; lit "walk"; lit "listdir"; lit "info";
   lit "sync"; lit "glob"; lit "md5"; lit "lock"; lit "_manipulate";
   lit "__class__"; lit "__delattr__"; lit "__dict__"; lit "__dir__"; lit "__doc__"; lit "__format__"; lit "__ge__"; lit "__getattribute__"; lit "__getstate__";
   lit "__gt__"; lit "__init_subclass__"; lit "__le__"; lit "__lt__"; lit "__module__"; lit "__new__"; lit "__reduce__";
   lit "__reduce_ex__"; lit "__setattr__"; lit "__sizeof__"; lit "__subclasshook__"; lit "__weakref__"].
Definition is_method (n : str) : bool := existsb (str_eqb n) method_names.
(** A class that defines [__eq__] (fs.py 377) and no [__hash__] has None for it. *)
Definition hash_name : str := lit "__hash__".
(** fs.py 325, 327-351, 407-412 *)
Inductive prop_name := PScheme | PPort | PPath | PUnipath | PAbsolute.
Definition prop_of (n : str) : option prop_name :=
  if str_eqb n (lit "scheme") then Some PScheme else if str_eqb n (lit "port") then Some PPort
  else if str_eqb n (lit "path") then Some PPath else if str_eqb n (lit "unipath") then Some PUnipath
  else if str_eqb n (lit "is_absolute") then Some PAbsolute else None.

(** An object: its class, its own attributes, and the UriParse object, for which [AParsed] stands *)
Record obj := mkObj { a_cls : uclass; a_own : dict aval; a_p : parsed }.

(** simpleuri.py 62-101, 156: the attributes of the UriParse object *)
Definition parsed_attr (p : parsed) (n : str) : res aval :=
  if str_eqb n (lit "hostname") then Ok (aopt (p_hostname p))
  else if str_eqb n (lit "username") then Ok (aopt (p_username p))
  else if str_eqb n (lit "password") then Ok (aopt (p_password p))
  else if str_eqb n (lit "netloc") then Ok (AText (p_netloc p))
  else if str_eqb n (lit "port") then Ok (AInt (p_port p))
  else if str_eqb n (lit "query") then Ok (ADict (p_query p))
  else if str_eqb n (lit "scheme") then Ok (aopt (p_scheme p))
  else if str_eqb n (lit "path") then Ok (AText (p_path p))
  else if str_eqb n (lit "authority") then Ok (aopt (p_authority p))
  else if str_eqb n (lit "vpath_connector") then Ok (AText (p_vpath p))
  else if str_eqb n (lit "fragment") then Ok (aopt (p_fragment p))
  else if str_eqb n (lit "as_list") then Ok (AMethod n)
  else Raise AttributeError.

Fixpoint get_attr (fuel : nat) (o : obj) (n : str) : res aval :=
  match fuel with
  | O => Raise RuntimeError
  | S f =>
      (* self.parse_result.n *)
      let parsed_one (n : str) := rlet r <- get_attr f o (lit "parse_result");
                                  match r with AParsed => parsed_attr (a_p o) n | _ => Raise AttributeError end in
      let parsed_path := rlet r <- parsed_one (lit "path"); match r with AText s => Ok s | _ => Raise AttributeError end in
      match prop_of n with
      | Some PScheme => rlet s <- get_attr f o (lit "_scheme");             (* fs.py 312-316 *)
                        match s with AText (_ :: _) => Ok s | _ => parsed_one (lit "scheme") end
      | Some PPort => parsed_one (lit "port")
      | Some PPath => rlet p <- parsed_path;                                (* fs.py 335-342, localfs.py 35-41 *)
                      let base := if prefixb (lit "/.") p then tl p else p in
                      match a_cls o with
                      | ULocal => rlet s <- get_attr f o (lit "sep");
                                  match s with
                                  | AText [c] => Ok (AText (if N.eqb c cSlash then base else denormalize_path p c))
                                  | _ => Raise OutOfFuel
                                  end
                      | _ => Ok (AText base)
                      end
      | Some PUnipath => rlet p <- parsed_path;
                         Ok (AText (if prefixb [cDot] p || prefixb [cSlash] p then p else lit "./" ++ p))
      | Some PAbsolute => rlet p <- parsed_path;
                          Ok (ABool (prefixb [cSlash] (if prefixb (lit "/.") p then tl p else p)))
      | None =>
          match dget n (a_own o) with
          | Some v => Ok v
          | None => if is_method n then Ok (AMethod n) else if str_eqb n hash_name then Ok ANone
                    else parsed_one n                              (* fs.py 373-374 *)
          end
      end
  end.

(** [o.n = v]; properties other than scheme have no setter (fs.py 319-325) *)
Definition set_attr (o : obj) (n : str) (v : aval) : res obj :=
  match prop_of n with
  | Some PScheme =>
      Ok (mkObj (a_cls o) (dset (lit "_scheme") v (a_own o))
                (match v with AText s => set_scheme (a_p o) s | _ => a_p o end))
  | Some _ => Raise AttributeError
  | None => Ok (mkObj (a_cls o) (dset n v (a_own o)) (a_p o))
  end.

(** fs.py 268-297: the object the constructor leaves.  The credentials are assigned where the text has none. *)
Definition cred (n : str) (inp : option str) (now : option str) : dict aval :=
  match inp, now with None, Some x => [(n, AText x)] | _, _ => [] end.
Definition obj_of (u : uri) : obj :=
  mkObj (u_cls u)
    ([(lit "_scheme", AText []); (lit "connection", ANone); (lit "uri", AText (u_uri u)); (lit "sep", AText [u_sep u]);
      (lit "parse_result", AParsed); (lit "extras", ADict (u_extras u))]
     ++ cred (lit "username") (p_username (u_p u)) (u_user u) ++ cred (lit "password") (p_password (u_p u)) (u_pass u))
    (u_p u).

(** fs.py 365-366, localfs.py 32-33 [str(o)] *)
Definition obj_str (fuel : nat) (o : obj) : res str :=
  match a_cls o with
  | ULocal => rlet p <- get_attr fuel o (lit "path"); match p with AText s => Ok s | _ => Raise TypeError end
  | _ => rlet r <- get_attr fuel o (lit "parse_result"); match r with AParsed => parsed_str (a_p o) | _ => Raise TypeError end
  end.
(** fs.py 304-309, 354-362: the values with which [get_connection] asks the registry *)
Definition key_names : list str :=
  [lit "scheme"; lit "hostname"; lit "port"; lit "username"; lit "password"; lit "vpath_connector"; lit "extras"; lit "query"].
Definition obj_key (fuel : nat) (o : obj) : list (res aval) := map (get_attr fuel o) key_names.

(** The library's [copy.copy(o)] (and likewise copy.deepcopy and unpickling): a new object of the class, made without calling its
    [__init__], is asked for [__setstate__]; if it has none it gets the attributes. *)
Definition library_copy (fuel : nat) (o : obj) : res obj :=
  let y := mkObj (a_cls o) [] (a_p o) in
  match get_attr fuel y (lit "__setstate__") with
  | Raise AttributeError => Ok o
  | Raise e => Raise e
  | Ok _ => Raise OutOfFuel
  end.
