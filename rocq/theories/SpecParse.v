(** Complete rules for taking a URI apart and for making a URI from a text, for every text.  Stated by what the text is
    put together from, with none of the functions of the parser (SpecUnquote.v has the rule for values). *)
From Verif Require Import Str Exc Utf8 UriParse BaseUri SpecUri SpecUnquote.

Definition no_part (pat s : str) : Prop := forall x y, s <> x ++ pat ++ y.
Definition no_head (pat s : str) : Prop := forall r, s <> pat ++ r.
(** [w] is the longest run of characters outside [l] that [t] begins with; [r] is the rest. *)
Definition run_of (l : list N) (t w r : str) : Prop :=
  t = w ++ r /\ free_of l w /\ (r = [] \/ exists c r', r = c :: r' /\ In c l).

(** ** urisplit *)
(** The first ((...)) on one line, as short as possible. *)
Definition first_group (t b v a : str) : Prop :=
  t = b ++ lit "((" ++ v ++ lit "))" ++ a /\ ~ In cNL v /\ no_part (lit "))") (v ++ [cRpar]) /\
  forall x y z, t = x ++ lit "((" ++ y ++ lit "))" ++ z -> ~ In cNL y -> (length b <= length x)%nat.
(** It is replaced by a word. *)
Inductive marked (t : str) : str -> str -> Prop :=
| mk_group b v a : first_group t b v a -> marked t (lit "((" ++ v ++ lit "))") (b ++ reserved ++ a)
| mk_plain : ~ has_group t -> marked t [] t.
(** [new] for each [old], from the left. *)
Inductive swapped (old new : str) : str -> str -> Prop :=
| sw_none s : no_part old s -> swapped old new s s
| sw_first x y y' : (forall x' y', x ++ old ++ y = x' ++ old ++ y' -> (length x <= length x')%nat) ->
    swapped old new y y' -> swapped old new (x ++ old ++ y) (x ++ new ++ y').

(** The parts of a URI in STD 66: scheme:, //authority, path, ?query, #fragment; all but the path may be missing. *)
Inductive scheme_part (t : str) : option str -> str -> Prop :=
| sc_some w r : w <> [] -> free_of [cColon; cSlash; cQuest; cHash] w -> t = w ++ cColon :: r -> scheme_part t (Some w) r
| sc_none : (forall w r, w <> [] -> free_of [cColon; cSlash; cQuest; cHash] w -> t <> w ++ cColon :: r) -> scheme_part t None t.
Inductive auth_part (t : str) : option str -> str -> Prop :=
| au_some t' w r : t = lit "//" ++ t' -> run_of [cSlash; cQuest; cHash] t' w r -> auth_part t (Some w) r
| au_none : no_head (lit "//") t -> auth_part t None t.
Inductive query_part (t : str) : option str -> str -> Prop :=
| qu_some t' w r : t = cQuest :: t' -> run_of [cHash] t' w r -> query_part t (Some w) r
| qu_none : no_head [cQuest] t -> query_part t None t.
Inductive frag_part (t : str) : option str -> Prop :=
| fr_some t' w r : t = cHash :: t' -> run_of [cNL] t' w r -> frag_part t (Some w)
| fr_none : no_head [cHash] t -> frag_part t None.
Definition parts (t : str) (s a : option str) (p : str) (q f : option str) : Prop :=
  exists r1 r2 r3 r4, scheme_part t s r1 /\ auth_part r1 a r2 /\ run_of [cQuest; cHash] r2 p r3 /\ query_part r3 q r4 /\ frag_part r4 f.

(** A fragment belongs to the path, except for http and https. *)
Definition web (s : option str) : Prop := s = Some (lit "http") \/ s = Some (lit "https").
Inductive hashed (s : option str) (p : str) : option str -> str -> option str -> Prop :=
| ha_web f : web s -> hashed s p f p f
| ha_none : hashed s p None p None
| ha_empty : hashed s p (Some []) p (Some [])
| ha_path f : ~ web s -> f <> [] -> hashed s p (Some f) (p ++ cHash :: f) (Some []).
Inductive takes_apart (t : str) : res split5 -> Prop :=
| ta_none m t1 s p q f : marked t m t1 -> parts t1 s None p q f -> takes_apart t (Raise AttributeError)
| ta_dot m t1 s a p q f p' f' : marked t m t1 -> parts t1 s (Some a) p q f -> swapped reserved m a [cDot] -> hashed s (cDot :: p) f p' f' ->
    takes_apart t (Ok (mkSplit5 s None p' q f'))
| ta_auth m t1 s a a' p q f p' f' : marked t m t1 -> parts t1 s (Some a) p q f -> swapped reserved m a a' -> a' <> [cDot] -> hashed s p f p' f' ->
    takes_apart t (Ok (mkSplit5 s (Some a') p' q f')).

(** ** UriParse *)
(** user:password@host:port *)
Inductive creds (a : str) : option str -> option str -> str -> Prop :=
| cr_both u p h : a = u ++ cColon :: p ++ cAt :: h -> free_of [cColon; cAt] u -> free_of [cAt] p -> creds a (Some u) (Some p) h
| cr_user u h : a = u ++ cAt :: h -> free_of [cColon; cAt] u -> creds a (Some u) None h
| cr_none : free_of [cAt] a -> creds a None None a.
Inductive site (h : str) : str -> str -> Prop :=
| si_port x p : h = x ++ cColon :: p -> free_of [cColon] x -> site h x p
| si_host : free_of [cColon] h -> site h h [].
Definition or_none (h : str) : option str := match h with [] => None | _ => Some h end.
(** Numbers as int() reads them: white space around, a sign, digits, single underscores between digits. *)
Definition blank (s : str) : Prop := forall c, In c s -> is_space c = true.
Definition trimmed (s w : str) : Prop :=
  exists a b, s = a ++ w ++ b /\ blank a /\ blank b /\ forall c r, (w = c :: r \/ w = r ++ [c]) -> is_space c = false.
Inductive digits : str -> Z -> Prop :=
| di_one c : (48 <= c <= 57)%N -> digits [c] (Z.of_N c - 48)
| di_more s v c : digits s v -> (48 <= c <= 57)%N -> digits (s ++ [c]) (10 * v + (Z.of_N c - 48))
| di_under s v c : digits s v -> (48 <= c <= 57)%N -> digits (s ++ [cUnder; c]) (10 * v + (Z.of_N c - 48)).
Inductive number (s : str) : Z -> Prop :=
| nu_bare w z : trimmed s w -> digits w z -> number s z
| nu_plus w z : trimmed s (cPlus :: w) -> digits w z -> number s z
| nu_minus w z : trimmed s (cMinus :: w) -> digits w z -> number s (- z).
Definition signed (z : Z) : str := if (z <? 0)%Z then cMinus :: decimal (Z.to_N (- z)) else decimal (Z.to_N z).
Inductive port_of (p : str) : res Z -> Prop :=
| po_none : p = [] -> port_of p (Ok 0%Z)
| po_num z : p <> [] -> number p z -> port_of p (Ok z)
| po_bad : p <> [] -> (forall z, ~ number p z) -> port_of p (Raise ValueError).
(** key=value&key=value; a later key replaces an earlier one. *)
Inductive item : str -> str -> str -> Prop :=
| it k v k' v' w : free_of [cEq] k -> free_of [cEq] v -> trimmed k k' -> trimmed v v' -> unquoted v' w -> item (k ++ cEq :: v) k' w.
Inductive items : list str -> dict str -> res (dict str) -> Prop :=
| its_end d : items [] d (Ok d)
| its_item i l k v d r : item i k v -> items l (dset k v d) r -> items (i :: l) d r
| its_bad i l d : (forall k v, ~ item i k v) -> items (i :: l) d (Raise ValueError).
Definition between_amps (q : str) (l : list str) : Prop := l <> [] /\ q = join_with [cAmp] l /\ forall i, In i l -> free_of [cAmp] i.
Inductive query_of : option str -> res (dict str) -> Prop :=
| qo_none q : q = None \/ q = Some [] -> query_of q (Ok [])
| qo_text q l r : q <> [] -> between_amps q l -> items l [] r -> query_of (Some q) r.
(** What is between the first two and the last two characters. *)
Definition middle (a v : str) : Prop := (exists b c y z, a = b :: c :: v ++ [y; z]) \/ ((length a < 4)%nat /\ v = []).
Inductive connector (a : option str) : str -> option str -> Prop :=
| cn_some w v : a = Some w -> ~ no_part (lit "((") w -> middle w v -> connector a v (Some [])
| cn_none : (forall w, a = Some w -> no_part (lit "((") w) -> connector a [] a.
(** user, password, host and port; empty if there is no authority *)
Inductive persons (a : option str) : res (option str * option str * option str * Z) -> Prop :=
| pe_none : a = None \/ a = Some [] -> persons a (Ok (Some [], Some [], Some [], 0%Z))
| pe_some w u p hp h pt r : a = Some w -> w <> [] -> creds w u p hp -> site hp h pt -> port_of pt r ->
    persons a (match r with Ok z => Ok (u, p, or_none h, z) | Raise e => Raise e end).
Inductive netloc_of : option str -> Z -> str -> Prop :=
| ne_none h z : h = None \/ h = Some [] -> netloc_of h z []
| ne_host h : h <> [] -> netloc_of (Some h) 0 h
| ne_port h z : h <> [] -> z <> 0%Z -> netloc_of (Some h) z (h ++ cColon :: signed z).
Inductive understood (t : str) : res parsed -> Prop :=
| un_split e : takes_apart t (Raise e) -> understood t (Raise e)
| un_auth s v a e : takes_apart t (Ok s) -> connector (s_authority s) v a -> persons a (Raise e) -> understood t (Raise e)
| un_query s v a x e : takes_apart t (Ok s) -> connector (s_authority s) v a -> persons a (Ok x) -> query_of (s_query s) (Raise e) -> understood t (Raise e)
| un_all s v a u p h z q n : takes_apart t (Ok s) -> connector (s_authority s) v a -> persons a (Ok (u, p, h, z)) -> query_of (s_query s) (Ok q) ->
    netloc_of h z n -> understood t (Ok (mkParsed (s_scheme s) a (s_path s) q (s_fragment s) v u p h z n)).

(** ** URI(text, sep, **extras) *)
Inductive local_part (t : str) : str -> Prop :=
| lp_file r : t = lit "file://" ++ r -> local_part t r
| lp_other : no_head (lit "file://") t -> local_part t t.
Definition unslashed : str -> str -> Prop := Forall2 (fun c d => (c = cBack /\ d = cSlash) \/ (c <> cBack /\ d = c)).
Inductive driven (t : str) : str -> Prop :=
| dr_drive c r : t = c :: cColon :: r -> driven t (cSlash :: c :: r)
| dr_none : (forall c r, t <> c :: cColon :: r) -> driven t t.
Inductive anchored (t : str) : str -> Prop :=
| an_uri : ~ no_part (lit "://") t -> anchored t t
| an_path r : no_part (lit "://") t -> t = cSlash :: r \/ t = cDot :: r -> anchored t (lit "file://" ++ t)
| an_name : no_part (lit "://") t -> (forall r, t <> cSlash :: r /\ t <> cDot :: r) -> anchored t (lit "file://./" ++ t).
Definition cleaned (text t : str) : Prop := exists a b c, local_part text a /\ unslashed a b /\ driven b c /\ anchored c t.
(** user and password: of the URI, of the keyword arguments, of the query *)
Inductive cred (name : str) (v : option str) (ex q : dict str) : option str -> dict str -> Prop :=
| cd_uri x : v = Some x -> cred name v ex q (Some x) ex
| cd_kw x : v = None -> dget name ex = Some x -> cred name v ex q (Some x) (ddel name ex)
| cd_query : v = None -> dget name ex = None -> cred name v ex q (dget name q) ex.
Definition is_scheme (w : str) : Prop := w <> [] /\ forall c, In c w -> scheme_letter c.
Inductive scheme_at (t : str) : str -> Prop :=
| sa_some w r : is_scheme w -> t = w ++ lit "://" ++ r -> scheme_at t w
| sa_none : (forall w r, is_scheme w -> t <> w ++ lit "://" ++ r) -> scheme_at t (lit "file").
Inductive class_for : str -> uclass -> Prop :=
| cf_file : class_for (lit "file") ULocal
| cf_memory : class_for (lit "memory") UMemory
| cf_zip : class_for (lit "zip") UZip
| cf_other s : ~ In s [lit "file"; lit "memory"; lit "zip"] -> class_for s UBase.
(** The class called with a text *)
Inductive built (cls : uclass) (text : str) (sep : N) (ex : dict str) : res uri -> Prop :=
| bu_kw k : In k [lit "uri"; lit "sep"; lit "self"] -> dget k ex <> None -> built cls text sep ex (Raise TypeError)
| bu_bad t e : (forall k, In k [lit "uri"; lit "sep"; lit "self"] -> dget k ex = None) -> cleaned text t -> understood t (Raise e) ->
    built cls text sep ex (Raise e)
| bu_ok t p us ex1 pw ex2 : (forall k, In k [lit "uri"; lit "sep"; lit "self"] -> dget k ex = None) -> cleaned text t -> understood t (Ok p) ->
    cred (lit "username") (p_username p) ex (p_query p) us ex1 -> cred (lit "password") (p_password p) ex1 (p_query p) pw ex2 ->
    built cls text sep ex (Ok (mkUri cls t sep p ex2 us pw)).
Definition made (text : str) (sep : N) (ex : dict str) (r : res uri) : Prop :=
  exists s cls, scheme_at text s /\ class_for s cls /\ built cls text sep ex r.
