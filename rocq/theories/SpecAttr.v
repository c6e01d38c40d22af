(** Specification of the attributes of a URI, in terms of what the URI is made of. *)
From Verif Require Import Str Exc UriParse BaseUri Attr.

(** The methods of the documentation; those the class keeps for itself; operators and conversions; what every object of
    Python 3.12 has. *)
Definition public_methods : list str := map lit
  ["basename"; "copy"; "copystat"; "directory"; "dirname"; "exists"; "get_connection"; "glob"; "info"; "isdir"; "isexec"; "isfile"; "islink"; "join"; "last"; "listdir"; "lock";
   "makedirs"; "md5"; "mkdir"; "move"; "mtime"; "open"; "readlink"; "remove"; "set_exec"; "split"; "splitext"; "symlink"; "sync"; "walk"]%string.
Definition private_methods : list str := map lit ["_extras"; "_get_scheme"; "_key"; "_manipulate"; "_set_scheme"]%string.
Definition operators : list str := map lit
  ["__add__"; "__div__"; "__eq__"; "__getattr__"; "__init__"; "__ne__"; "__repr__"; "__str__"; "__truediv__"]%string.
Definition of_every_object : list str := map lit
  ["__class__"; "__delattr__"; "__dict__"; "__dir__"; "__doc__"; "__format__"; "__ge__"; "__getattribute__"; "__getstate__"; "__gt__"; "__init_subclass__"; "__le__"; "__lt__";
   "__module__"; "__new__"; "__reduce__"; "__reduce_ex__"; "__setattr__"; "__sizeof__"; "__subclasshook__"; "__weakref__"]%string.
Definition methods : list str := public_methods ++ private_methods ++ operators ++ of_every_object.

Inductive has (u : uri) : str -> aval -> Prop :=
| has_uri : has u (lit "uri") (AText (u_uri u))
| has_sep : has u (lit "sep") (AText [u_sep u])
| has_extras : has u (lit "extras") (ADict (u_extras u))
| has_connection : has u (lit "connection") ANone
| has_scheme : has u (lit "scheme") (aopt (u_scheme u))
| has_port : has u (lit "port") (AInt (p_port (u_p u)))
| has_path : has u (lit "path") (AText (u_path u))
| has_unipath : has u (lit "unipath") (AText (u_unipath u))
| has_absolute : has u (lit "is_absolute") (ABool (u_is_absolute u))
| has_username : has u (lit "username") (aopt (u_user u))
| has_password : has u (lit "password") (aopt (u_pass u))
| has_hostname : has u (lit "hostname") (aopt (p_hostname (u_p u)))
| has_netloc : has u (lit "netloc") (AText (p_netloc (u_p u)))
| has_query : has u (lit "query") (ADict (p_query (u_p u)))
| has_authority : has u (lit "authority") (aopt (p_authority (u_p u)))
| has_vpath : has u (lit "vpath_connector") (AText (p_vpath (u_p u)))
| has_fragment : has u (lit "fragment") (aopt (p_fragment (u_p u)))
| has_as_list : has u (lit "as_list") (AMethod (lit "as_list"))
| has_method n : In n methods -> has u n (AMethod n)
| has_hash : has u (lit "__hash__") ANone
| has_own_scheme : has u (lit "_scheme") (AText [])
| has_parse_result : has u (lit "parse_result") AParsed.

(** Names that can be assigned without affecting others: no properties, nothing the class works with. *)
Definition plain_name (n : str) : Prop :=
  ~ In n [lit "scheme"; lit "port"; lit "path"; lit "unipath"; lit "is_absolute"; lit "_scheme"; lit "parse_result"; lit "sep"].
