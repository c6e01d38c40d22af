(** The complete rule of urljoin, for all pairs of texts. *)
From Verif Require Import Str Exc UriParse SpecUri SpecParse SpecNames.

(** Names between slashes *)
Definition names_of (s : str) (l : list str) : Prop := l <> [] /\ s = join_with [cSlash] l /\ forall i, In i l -> free_of [cSlash] i.
Definition idle (c : str) : Prop := c = [] \/ c = lit ".".
(** One step of tidying up: an empty name or "." goes, a name goes together with the ".." after it, and ".." goes at the root. *)
Inductive tidies (rooted : bool) : list str -> list str -> Prop :=
| ti_idle a c b : idle c -> tidies rooted (a ++ c :: b) (a ++ b)
| ti_back a c b : ~ idle c -> c <> lit ".." -> tidies rooted (a ++ c :: lit ".." :: b) (a ++ b)
| ti_root b : rooted = true -> tidies rooted (lit ".." :: b) b.
Inductive tidied (rooted : bool) : list str -> list str -> Prop :=
| td_done l : (forall l', ~ tidies rooted l l') -> tidied rooted l l
| td_step l l' t : tidies rooted l l' -> tidied rooted l' t -> tidied rooted l t.
(** The slashes at the beginning: two stay two, more become one. *)
Inductive opening (s : str) : str -> Prop :=
| og_none : no_head (lit "/") s -> opening s []
| og_two r : s = lit "//" ++ r -> no_head (lit "/") r -> opening s (lit "//")
| og_one : ~ no_head (lit "/") s -> (forall r, s = lit "//" ++ r -> ~ no_head (lit "/") r) -> opening s (lit "/").
Inductive normal (s : str) : str -> Prop :=
| no_some o l t : opening s o -> names_of s l -> tidied (match o with [] => false | _ => true end) l t -> o ++ join_with [cSlash] t <> [] -> normal s (o ++ join_with [cSlash] t)
| no_dot l : opening s [] -> names_of s l -> tidied false l [] -> normal s (lit ".").

(** The path of the base up to its last slash, then the path of the reference; between the two there is always one more slash. *)
Definition up_to_slash (p d : str) : Prop := exists b, p = d ++ b /\ free_of [cSlash] b /\ (d = [] \/ exists r, d = r ++ [cSlash]).
Inductive placed (p q : str) : str -> Prop :=
| pl_whole : up_to_slash p [] -> placed p q q
| pl_under d : up_to_slash p d -> d <> [] -> placed p q (d ++ cSlash :: q).
(** scheme:, //authority, path, ?query, #fragment, those that are there and not empty *)
Inductive colon_part (s : option str) : str -> Prop :=
| cp_given w : given s w -> colon_part s (w ++ [cColon])
| cp_lacking : lacking s -> colon_part s [].
Definition together (s a : option str) (p : str) (q f : option str) (t : str) : Prop :=
  exists x1 x2 x3 x4, colon_part s x1 /\ opt_part a (lit "//") x2 /\ opt_part q [cQuest] x3 /\ opt_part f [cHash] x4 /\ t = x1 ++ x2 ++ p ++ x3 ++ x4.
(** urljoin(base, ref): a reference without an authority is one whose authority is written "."; its path begins with a dot. *)
Inductive resolves (base ref : str) : res str -> Prop :=
| rs_base e : takes_apart base (Raise e) -> resolves base ref (Raise e)
| rs_ref b e : takes_apart base (Ok b) -> takes_apart ref (Raise e) -> resolves base ref (Raise e)
| rs_other b u s : takes_apart base (Ok b) -> takes_apart ref (Ok u) -> s_scheme u = Some s -> s_scheme b <> Some s -> resolves base ref (Ok ref)
| rs_site b u a t : takes_apart base (Ok b) -> takes_apart ref (Ok u) -> s_scheme u = None \/ s_scheme u = s_scheme b -> s_authority u = Some a ->
    together (s_scheme b) (Some a) (s_path u) (s_query u) (s_fragment u) t -> resolves base ref (Ok t)
| rs_path b u p n t : takes_apart base (Ok b) -> takes_apart ref (Ok u) -> s_scheme u = None \/ s_scheme u = s_scheme b -> s_authority u = None ->
    placed (s_path b) (s_path u) p -> normal p n -> together (s_scheme b) (s_authority b) n (s_query u) (s_fragment u) t -> resolves base ref (Ok t).
