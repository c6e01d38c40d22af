(** Complete rules for the parsers of URIs by scheme (C156): a case for every text and every tuple. *)
From Verif Require Import Str Exc UriParse UriFamily SpecUri SpecParse.

(** The texts before the first colon and between the first and the second *)
Inductive before_colon (t : str) : str -> Prop :=
| bc_some s r : t = s ++ cColon :: r -> free_of [cColon] s -> before_colon t s
| bc_none : free_of [cColon] t -> before_colon t t.
Inductive after_colon (t : str) : res str -> Prop :=
| ac_none : free_of [cColon] t -> after_colon t (Raise IndexError)
| ac_last s i : t = s ++ cColon :: i -> free_of [cColon] s -> free_of [cColon] i -> after_colon t (Ok i)
| ac_more s i r : t = s ++ cColon :: i ++ cColon :: r -> free_of [cColon] s -> free_of [cColon] i -> after_colon t (Ok i).
(** The parser of a scheme; the default one for other schemes *)
Inductive chosen (parsers : dict pclass) (s : str) : pclass -> Prop :=
| ch_some c : dget s parsers = Some c -> chosen parsers s c
| ch_none : dget s parsers = None -> chosen parsers s (Url [None; None; None; None; Some (lit "/"); None; None]).

(** user:password@host:port, None for what is missing *)
Inductive host_port (h : str) : option str -> option str -> Prop :=
| hp_port x p : h = x ++ cColon :: p -> free_of [cColon] x -> host_port h (or_none x) (Some p)
| hp_host : free_of [cColon] h -> host_port h (or_none h) None.
(** the default if there is none *)
Inductive filled : option str -> option str -> option str -> Prop :=
| fi_there x d : filled (Some x) d (Some x)
| fi_missing d : filled None d d.
Inductive path_filled : str -> option str -> option str -> Prop :=
| pf_there p d : p <> [] -> path_filled p d (Some p)
| pf_empty d : path_filled [] d d.
Inductive defaults_of (own given : list (option str)) : list (option str) -> Prop :=
| df_own : given = [] -> defaults_of own given own
| df_given : given <> [] -> defaults_of own given given.

(** URIParser.parse *)
Inductive tuple_of (parsers : dict pclass) (uri : str) (given : list (option str)) : res (list (option str)) -> Prop :=
| to_apart e : takes_apart uri (Raise e) -> tuple_of parsers uri given (Raise e)
| to_noauth s own x : before_colon uri s -> chosen parsers s (Url own) -> takes_apart uri (Ok x) -> s_authority x = None -> tuple_of parsers uri given (Raise TypeError)
| to_url s own x a hp us pw ho po us' pw' ho' po' path q f du dpw dh dpo dpa dq df :
    before_colon uri s -> chosen parsers s (Url own) -> takes_apart uri (Ok x) -> s_authority x = Some a ->
    creds a us pw hp -> host_port hp ho po -> defaults_of own given [du; dpw; dh; dpo; dpa; dq; df] ->
    filled us du us' -> filled pw dpw pw' -> filled ho dh ho' -> filled po dpo po' ->
    path_filled (s_path x) dpa path -> filled (s_query x) dq q -> filled (s_fragment x) df f ->
    tuple_of parsers uri given (Ok [Some s; us'; pw'; ho'; po'; path; q; f])
| to_short s own x a ds : before_colon uri s -> chosen parsers s (Url own) -> takes_apart uri (Ok x) -> s_authority x = Some a ->
    defaults_of own given ds -> length ds <> 7%nat -> tuple_of parsers uri given (Raise ValueError)
| to_mail s x u h : before_colon uri s -> chosen parsers s Mailto -> takes_apart uri (Ok x) -> s_path x = u ++ cAt :: h -> free_of [cAt] u ->
    tuple_of parsers uri given (Ok [Some s; Some u; Some h; s_query x; s_fragment x])
| to_nomail s x : before_colon uri s -> chosen parsers s Mailto -> takes_apart uri (Ok x) -> free_of [cAt] (s_path x) -> tuple_of parsers uri given (Raise ValueError).

(** A part with something before it; nothing if it is missing or empty *)
Inductive part_text (pre : str) : option str -> str -> Prop :=
| pa_some w : w <> [] -> part_text pre (Some w) (pre ++ w)
| pa_none : part_text pre None []
| pa_empty : part_text pre (Some []) [].
(** parser.unparse(pieces): the pieces are taken from the first, which is the scheme, for user, password and so on. *)
Inductive class_text : pclass -> list (option str) -> res str -> Prop :=
| ct_few own l : (length l < 4)%nat -> class_text (Url own) l (Raise ValueError)
| ct_nohost own a b d l : class_text (Url own) (a :: b :: None :: d :: l) (Raise TypeError)
| ct_short own a b h d l : (length l < 3)%nat -> class_text (Url own) (a :: b :: Some h :: d :: l) (Raise IndexError)
| ct_nouser own a b h d p q f l d' at' p' q' f' : a = None \/ a = Some [] -> part_text [cColon] d d' ->
    part_text (lit "//") (Some (h ++ d')) at' -> part_text [] p p' -> part_text [cQuest] q q' -> part_text [cHash] f f' ->
    class_text (Url own) (a :: b :: Some h :: d :: p :: q :: f :: l) (Ok (at' ++ p' ++ q' ++ f'))
| ct_user own a b h d p q f l b' d' p' q' f' : a <> [] -> part_text [cColon] b b' -> part_text [cColon] d d' ->
    part_text [] p p' -> part_text [cQuest] q q' -> part_text [cHash] f f' ->
    class_text (Url own) (Some a :: b :: Some h :: d :: p :: q :: f :: l) (Ok (lit "//" ++ a ++ b' ++ cAt :: h ++ d' ++ p' ++ q' ++ f'))
| ct_mfew l : (length l < 2)%nat -> class_text Mailto l (Raise IndexError)
| ct_mnone a b l : a = None \/ b = None -> class_text Mailto (a :: b :: l) (Raise TypeError)
| ct_mshort a b l : (length l < 2)%nat -> class_text Mailto (Some a :: Some b :: l) (Raise IndexError)
| ct_mail a b q f l q' f' : part_text [cQuest] q q' -> part_text [cHash] f f' ->
    class_text Mailto (Some a :: Some b :: q :: f :: l) (Ok (a ++ cAt :: b ++ q' ++ f')).
Inductive text_of (parsers : dict pclass) : list (option str) -> res str -> Prop :=
| tx_empty : text_of parsers [] (Raise IndexError)
| tx_none l : text_of parsers (None :: l) (Raise AttributeError)
| tx_some t l s c r : before_colon t s -> chosen parsers s c -> class_text c (Some t :: l) r -> text_of parsers (Some t :: l) r.
