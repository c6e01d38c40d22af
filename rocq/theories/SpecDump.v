(** Specification of a dump: which entries are written, in which order, in which form. *)
From Verif Require Import Str Exc Utf8 UriParse BaseUri Mem SpecMem StrFacts.
From Coq Require Import Sorted.

(** What a handle that is used next would read of the file at a place. *)
Definition left_of (s : mst) (p : list str) : list N :=
  match phys (m_heap s) root_id p with
  | Some i => match m_heap s i with NFile f => skipn (f_pos f) (f_data f) | _ => [] end
  | None => []
  end.
(** The text for a place: memory:///n1/n2/... *)
Definition spelled (p : list str) : str := lit "memory:///" ++ join_with [cSlash] p.

Inductive piece (t : tree) (left : list str -> list N) : list str -> str -> Prop :=
| pc_file p d mt mo text :
    t p = Some (EFile d mt mo) -> utf8_encode text = Ok (left p) ->
    piece t left p (lit "--- START " ++ spelled p ++ lit " ---" ++ [cNL] ++ text ++ [cNL] ++ lit "--- END ---" ++ [cNL; cNL])
| pc_link p target mt mo x :
    t p = Some (ELink target mt mo) -> u_str target = Ok x ->
    piece t left p (lit "LINK: " ++ spelled p ++ lit " -> " ++ x ++ [cNL])
| pc_dir p mt mo o :
    t p = Some (EDir mt mo) -> listing t left p o ->
    piece t left p (lit "DIR: " ++ spelled p ++ [cNL] ++ o)
with listing (t : tree) (left : list str -> list N) : list str -> str -> Prop :=
| ls_all d names o :
    StronglySorted slt names -> (forall n, In n names <-> t (d ++ [n]) <> None) -> pieces t left d names o ->
    listing t left d o
with pieces (t : tree) (left : list str -> list N) : list str -> list str -> str -> Prop :=
| ps_nil d : pieces t left d [] []
| ps_cons d n ns o os : piece t left (d ++ [n]) o -> pieces t left d ns os -> pieces t left d (n :: ns) (o ++ os).

Scheme piece_mut := Minimality for piece Sort Prop
  with listing_mut := Minimality for listing Sort Prop
  with pieces_mut := Minimality for pieces Sort Prop.
