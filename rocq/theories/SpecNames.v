(** Complete rules for the methods of a URI that make other URIs or names of it, for every URI. *)
From Verif Require Import Str Exc Utf8 UriParse BaseUri SpecUri SpecParse.

(** split: the text of the URI before and after the last slash *)
Inductive halves (t : str) : str -> str -> Prop :=
| hv_cut a b : t = a ++ cSlash :: b -> free_of [cSlash] b -> halves t a b
| hv_none : free_of [cSlash] t -> halves t [] t.
Inductive dir_text (a : str) : str -> Prop :=
| dt_root r : a = r ++ lit "//" -> dir_text a (a ++ [cSlash])
| dt_none : a = [] -> dir_text a [cDot]
| dt_plain : a <> [] -> (forall r, a <> r ++ lit "//") -> dir_text a a.
Inductive before_quest (b : str) : str -> Prop :=
| bq_cut x y : b = x ++ cQuest :: y -> free_of [cQuest] x -> before_quest b x
| bq_none : free_of [cQuest] b -> before_quest b b.
(** The keyword arguments handed on: those of the URI, and the query except for http and https. *)
Inductive handed_on (u : uri) : dict str -> Prop :=
| ho_web : web (u_scheme u) -> handed_on u (u_extras u)
| ho_other : ~ web (u_scheme u) -> handed_on u (dupdate (u_extras u) (p_query (u_p u))).
Inductive splits (u : uri) : res (uri * str) -> Prop :=
| spl a b t n ex r : halves (u_uri u) a b -> dir_text a t -> before_quest b n -> handed_on u ex -> built (u_cls u) t (u_sep u) ex r ->
    splits u (match r with Ok d => Ok (d, n) | Raise e => Raise e end).
(** directory(n) *)
Inductive ups : nat -> uri -> res uri -> Prop :=
| up_here u : ups 0 u (Ok u)
| up_more k u d n r : splits u (Ok (d, n)) -> ups k d r -> ups (S k) u r
| up_fails k u e : splits u (Raise e) -> ups (S k) u (Raise e).
(** splitext of a name *)
Inductive ext_of (n : str) : str -> str -> Prop :=
| ex_some a b : n = a ++ cDot :: b -> free_of [cDot] b -> (exists c, In c a /\ c <> cDot) -> ext_of n a (cDot :: b)
| ex_none : (forall a b, n = a ++ cDot :: b -> free_of [cDot] b -> forall c, In c a -> c = cDot) -> ext_of n n [].
(** last() *)
Inductive last_name (t : str) : str -> Prop :=
| ln_name a b : t = a ++ cSlash :: b -> free_of [cSlash] b -> b <> [] -> last_name t b
| ln_slash a b : t = a ++ cSlash :: b ++ [cSlash] -> free_of [cSlash] b -> last_name t b
| ln_first b : t = b ++ [cSlash] -> free_of [cSlash] b -> last_name t b
| ln_only : free_of [cSlash] t -> last_name t t.

(** join *)
Definition slashes (s : str) : Prop := forall c, In c s -> c = cSlash.
Definition tail_cut (s w : str) : Prop := exists b, s = w ++ b /\ slashes b /\ forall r, w <> r ++ [cSlash].
Definition both_cut (s w : str) : Prop := exists a b, s = a ++ w ++ b /\ slashes a /\ slashes b /\ forall r, w <> r ++ [cSlash] /\ w <> cSlash :: r.
Definition with_slashes (sep : N) : str -> str -> Prop := Forall2 (fun c d => (c = sep /\ d = cSlash) \/ (c <> sep /\ d = c)).
Inductive site_text (p : parsed) : str -> Prop :=
| st_conn : p_vpath p <> [] -> site_text p (lit "((" ++ p_vpath p ++ lit "))")
| st_auth a : p_vpath p = [] -> p_authority p = Some a -> a <> [] -> site_text p a
| st_net : p_vpath p = [] -> p_authority p = None \/ p_authority p = Some [] -> site_text p (p_netloc p).
Inductive asked (q : dict str) : res str -> Prop :=
| as_none : q = [] -> asked q (Ok [])
| as_some r : q <> [] -> urlencode q = r -> asked q (match r with Ok e => Ok (cQuest :: e) | Raise e => Raise e end).
(** The result has the query of [u], whatever its text says. *)
Definition requery (u : uri) (r : res uri) : res uri :=
  match r with
  | Ok x => Ok (mkUri (u_cls x) (u_uri x) (u_sep x)
      (mkParsed (p_scheme (u_p x)) (p_authority (u_p x)) (p_path (u_p x)) (p_query (u_p u)) (p_fragment (u_p x)) (p_vpath (u_p x))
        (p_username (u_p x)) (p_password (u_p x)) (p_hostname (u_p x)) (p_port (u_p x)) (p_netloc (u_p x))) (u_extras x) (u_user x) (u_pass x))
  | Raise e => Raise e
  end.
Inductive joins (u : uri) (args : list str) : res uri -> Prop :=
| jo_none : args = [] -> joins u args (Raise IndexError)
| jo_query init l init' l' p mids s e : args = init ++ [l] -> Forall2 (with_slashes (u_sep u)) (init ++ [l]) (init' ++ [l']) ->
    tail_cut (p_path (u_p u)) p -> Forall2 both_cut init' mids -> site_text (u_p u) s -> asked (p_query (u_p u)) (Raise e) -> joins u args (Raise e)
| jo_uri init l init' l' p mids s q ex r : args = init ++ [l] -> Forall2 (with_slashes (u_sep u)) (init ++ [l]) (init' ++ [l']) ->
    tail_cut (p_path (u_p u)) p -> Forall2 both_cut init' mids -> site_text (u_p u) s -> asked (p_query (u_p u)) (Ok q) -> handed_on u ex ->
    built (u_cls u) (match u_scheme u with Some sch => sch | None => lit "None" end ++ lit "://" ++ s ++ join_with [cSlash] (p :: mids ++ [l']) ++ q) (u_sep u) ex r ->
    joins u args (requery u r).
(** u + suffix *)
Inductive adds (u : uri) (x : str) : res uri -> Prop :=
| ad ex r : handed_on u ex -> built (u_cls u) (u_uri u ++ x) (u_sep u) ex r -> adds u x (requery u r).

(** path and str *)
Inductive plain_path (p : str) : str -> Prop :=
| pp_dot r : p = cSlash :: cDot :: r -> plain_path p (cDot :: r)
| pp_other : no_head (lit "/.") p -> plain_path p p.
Definition backs (sep : N) : str -> str -> Prop := Forall2 (fun c d => (c = cSlash /\ d = sep) \/ (c <> cSlash /\ d = c)).
Inductive paths (u : uri) : str -> Prop :=
| pa_plain x : u_cls u <> ULocal \/ u_sep u = cSlash -> plain_path (p_path (u_p u)) x -> paths u x
| pa_drive d r r' : u_cls u = ULocal -> u_sep u <> cSlash -> p_path (u_p u) = cSlash :: d :: cSlash :: r -> backs (u_sep u) r r' ->
    paths u (d :: cColon :: u_sep u :: r')
| pa_sep r' : u_cls u = ULocal -> u_sep u <> cSlash -> (forall d r, p_path (u_p u) <> cSlash :: d :: cSlash :: r) -> backs (u_sep u) (p_path (u_p u)) r' -> paths u r'.
Definition given (o : option str) (s : str) : Prop := o = Some s /\ s <> [].
Definition lacking (o : option str) : Prop := o = None \/ o = Some [].
Inductive opt_part (o : option str) (pre : str) : str -> Prop :=
| op_given s : given o s -> opt_part o pre (pre ++ s)
| op_lacking : lacking o -> opt_part o pre [].
Inductive head_part (s : str) (h : option str) : str -> Prop :=
| hp_web : ~ no_head (lit "http") s -> lacking h -> head_part s h []
| hp_host : no_head (lit "http") s \/ ~ lacking h -> head_part s h (s ++ lit "://").
Inductive at_part (us pw : option str) : str -> Prop :=
| at_some : ~ lacking us \/ ~ lacking pw -> at_part us pw [cAt]
| at_none : lacking us -> lacking pw -> at_part us pw [].
Inductive host_part (h : option str) (v : str) : str -> Prop :=
| hs_host s : given h s -> host_part h v s
| hs_conn : lacking h -> v <> [] -> host_part h v (lit "((" ++ v ++ lit "))")
| hs_none : lacking h -> v = [] -> host_part h v [].
Inductive port_part (z : Z) : str -> Prop :=
| pt_some : z <> 0%Z -> port_part z (cColon :: signed z)
| pt_none : z = 0%Z -> port_part z [].
Inductive query_shown : dict str -> str -> Prop :=
| qs_none : query_shown [] []
| qs_some q : q <> [] -> query_shown q (cQuest :: join_with [cAmp] (map (fun kv => fst kv ++ cEq :: snd kv) q)).
Inductive strs (u : uri) : res str -> Prop :=
| st_local x : u_cls u = ULocal -> paths u x -> strs u (Ok x)
| st_none : u_cls u <> ULocal -> u_scheme u = None -> strs u (Raise AttributeError)
| st_text s x1 x2 x3 x4 x5 x6 x7 x8 : u_cls u <> ULocal -> u_scheme u = Some s -> head_part s (p_hostname (u_p u)) x1 ->
    opt_part (p_username (u_p u)) [] x2 -> opt_part (p_password (u_p u)) [cColon] x3 -> at_part (p_username (u_p u)) (p_password (u_p u)) x4 ->
    host_part (p_hostname (u_p u)) (p_vpath (u_p u)) x5 -> port_part (p_port (u_p u)) x6 -> query_shown (p_query (u_p u)) x7 ->
    opt_part (p_fragment (u_p u)) [cHash] x8 -> strs u (Ok (x1 ++ x2 ++ x3 ++ x4 ++ x5 ++ x6 ++ p_path (u_p u) ++ x7 ++ x8)).
Inductive unipaths (p : str) : str -> Prop :=
| up_same r : p = cDot :: r \/ p = cSlash :: r -> unipaths p p
| up_dot : (forall r, p <> cDot :: r /\ p <> cSlash :: r) -> unipaths p (lit "./" ++ p).
(** The path /./x is relative *)
Definition absolute (p : str) : Prop := (exists r, p = cSlash :: r) /\ no_head (lit "/.") p.
