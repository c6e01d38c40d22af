(** Specification of the file tree the memory properties speak about: the entries as seen from
    outside, and what a path leads to.  Of the model only the node and state types are used. *)
From Verif Require Import Str Exc Utf8 UriParse BaseUri Mem SpecUri.

(** What is stored at one place.  Cursor positions of open files are not part of it. *)
Inductive entry :=
| EFile (data : list N) (mtime mode : Z)
| EDir (mtime mode : Z)
| ELink (target : uri) (mtime mode : Z).

(** A tree: places are lists of names from the root, without following any link. *)
Definition tree := list str -> option entry.

Definition is_edir (o : option entry) : Prop := exists mt mo, o = Some (EDir mt mo).
Definition is_efile (o : option entry) : Prop := exists d mt mo, o = Some (EFile d mt mo).
Definition is_elink (o : option entry) : Prop := exists t mt mo, o = Some (ELink t mt mo).

(** The tree stored in a memory file system. *)
Fixpoint phys (h : nat -> node) (i : nat) (p : list str) : option nat :=
  match p with
  | [] => Some i
  | n :: p' =>
      match h i with
      | NDir es _ _ => match dget n es with Some j => phys h j p' | None => None end
      | _ => None
      end
  end.
Definition entry_of (n : node) : entry :=
  match n with
  | NFile f => EFile (f_data f) (f_mtime f) (f_mode f)
  | NDir _ mt mo => EDir mt mo
  | NLink t mt mo => ELink t mt mo
  end.
Definition tree_of (h : nat -> node) : tree :=
  fun p => option_map (fun i => entry_of (h i)) (phys h root_id p).
Definition view (s : mst) : tree := tree_of (m_heap s).

(** The names a URI addresses: its path is absolute and reads /n1/n2/...  *)
Definition addr (u : uri) (cs : list str) : Prop :=
  u_path u = abs_path cs /\ Forall (fun c => ~ In cSlash c) cs /\ cs <> [[]].

(** What following a list of names leads to.
    - [Found q]: the place [q], which is not a link;
    - [Missing]: the last name, or the target of the last link, is missing (or an earlier name is
      missing where no link is involved);
    - [Dead]: a link with a missing target is to be entered;
    - [NotDir]: a file is to be entered;
    - [Loop]: more than the allowed number of links inside each other;
    - [BadLink]: a link whose target is not an absolute path. *)
Inductive outcome := Found (q : list str) | Missing | Dead | NotDir | Loop | BadLink.

(** [resolves t k d names o]: from directory [d], with links nested at most [k] deep. *)
Inductive resolves (t : tree) : nat -> list str -> list str -> outcome -> Prop :=
| rs_end k d :
    resolves t k d [] (Found d)
| rs_notdir k d n rest :
    ~ is_edir (t d) -> resolves t k d (n :: rest) NotDir
| rs_missing k d n rest :
    is_edir (t d) -> t (d ++ [n]) = None -> resolves t k d (n :: rest) Missing
| rs_step k d n rest o :
    is_edir (t d) -> is_efile (t (d ++ [n])) \/ is_edir (t (d ++ [n])) ->
    resolves t k (d ++ [n]) rest o -> resolves t k d (n :: rest) o
| rs_loop d n rest :
    is_edir (t d) -> is_elink (t (d ++ [n])) -> resolves t 0 d (n :: rest) Loop
| rs_badlink k d n rest target mt mo :
    is_edir (t d) -> t (d ++ [n]) = Some (ELink target mt mo) -> (forall cs, ~ addr target cs) ->
    resolves t (S k) d (n :: rest) BadLink
| rs_link k d n rest target mt mo cs q o :
    is_edir (t d) -> t (d ++ [n]) = Some (ELink target mt mo) -> addr target cs ->
    resolves t k [] cs (Found q) -> resolves t (S k) q rest o ->
    resolves t (S k) d (n :: rest) o
| rs_link_missing k d n target mt mo cs :
    is_edir (t d) -> t (d ++ [n]) = Some (ELink target mt mo) -> addr target cs ->
    resolves t k [] cs Missing -> resolves t (S k) d [n] Missing
| rs_link_dead k d n m rest target mt mo cs :
    is_edir (t d) -> t (d ++ [n]) = Some (ELink target mt mo) -> addr target cs ->
    resolves t k [] cs Missing -> resolves t (S k) d (n :: m :: rest) Dead
| rs_link_fails k d n rest target mt mo cs o :
    is_edir (t d) -> t (d ++ [n]) = Some (ELink target mt mo) -> addr target cs ->
    resolves t k [] cs o -> In o [Dead; NotDir; Loop; BadLink] ->
    resolves t (S k) d (n :: rest) o.

(** At most 32 links inside each other. *)
Definition leads (t : tree) (cs : list str) (o : outcome) : Prop := resolves t 32 [] cs o.
(** The place a URI denotes when links are followed. *)
Definition denotes (t : tree) (u : uri) (o : outcome) : Prop := exists cs, addr u cs /\ leads t cs o.

(** Changes of a tree. *)
Definition same_tree (t t' : tree) : Prop := forall q, t' q = t q.
(** Exactly the entry at [p] is new or different. *)
Definition put_at (t t' : tree) (p : list str) (e : entry) : Prop :=
  t' p = Some e /\ forall q, q <> p -> t' q = t q.
(** Exactly the entry at [p] and everything below it is gone. *)
Definition cut_at (t t' : tree) (p : list str) : Prop :=
  (forall r, t' (p ++ r) = None) /\ forall q, (forall r, q <> p ++ r) -> t' q = t q.

(** The exception an unsuccessful lookup raises.  (Entering a file is an AttributeError of the node
    object, a link to a path that is not absolute fails an assertion.) *)
Definition err_of (o : outcome) : exc :=
  match o with
  | Missing | Dead => OSError ENOENT
  | NotDir => AttributeError
  | Loop => OSError ELOOP
  | BadLink => AssertionError
  | Found _ => AttributeError
  end.

(** The place a URI names as an entry of a directory; a link at that place is not followed. *)
Inductive slot :=
| Top                      (* the root *)
| Free (p : list str)      (* nothing there, but the directory exists *)
| Taken (p : list str)     (* an entry *)
| NoPlace (e : exc).       (* the directory is not found *)
Inductive place (t : tree) (u : uri) : slot -> Prop :=
| pl_top : addr u [] -> place t u Top
| pl_free init n d : addr u (init ++ [n]) -> leads t init (Found d) -> is_edir (t d) -> t (d ++ [n]) = None ->
    place t u (Free (d ++ [n]))
| pl_taken init n d : addr u (init ++ [n]) -> leads t init (Found d) -> is_edir (t d) -> t (d ++ [n]) <> None ->
    place t u (Taken (d ++ [n]))
| pl_notdir init n d : addr u (init ++ [n]) -> leads t init (Found d) -> ~ is_edir (t d) ->
    place t u (NoPlace AttributeError)
| pl_fail init n o : addr u (init ++ [n]) -> leads t init o -> (forall d, o <> Found d) ->
    place t u (NoPlace (err_of o))
| pl_bad : (forall cs, ~ addr u cs) -> place t u (NoPlace AssertionError).

(** No link on the way has the same name as the last component.  (The code recognises the last component
    by its name, and then does not follow such a link either.) *)
Definition fresh_last (t : tree) (init : list str) (n : str) : Prop :=
  forall pre post d, init = pre ++ n :: post -> leads t pre (Found d) -> ~ is_elink (t (d ++ [n])).
(** Paths as they are normally written: no empty names, no link on the way named like the last component,
    and the last component is what last() returns. *)
Record regular (t : tree) (u : uri) (cs : list str) : Prop := {
  rg_addr : addr u cs;
  rg_names : Forall (fun c => c <> []) cs;
  rg_last : forall init n, cs = init ++ [n] -> fresh_last t init n /\ u_last u = n }.

(** The entry a URI stands for in operations that may or may not follow a link at the end. *)
Inductive entry_at (t : tree) (u : uri) : bool -> list str -> Prop :=
| ea_follow q : denotes t u (Found q) -> entry_at t u true q
| ea_self cs q : regular t u cs -> place t u (Taken q) -> entry_at t u false q
| ea_root : addr u [] -> entry_at t u false [].

(** Attributes of an entry. *)
Definition e_mtime (e : entry) : Z := match e with EFile _ mt _ => mt | EDir mt _ => mt | ELink _ mt _ => mt end.
Definition e_mode (e : entry) : Z := match e with EFile _ _ mo => mo | EDir _ mo => mo | ELink _ _ mo => mo end.
Definition e_size (e : entry) : N := match e with EFile d _ _ => N.of_nat (length d) | EDir _ _ => 0 | ELink _ _ _ => 8 end.
Definition with_attrs (e : entry) (mt mo : Z) : entry :=
  match e with EFile d _ _ => EFile d mt mo | EDir _ _ => EDir mt mo | ELink t _ _ => ELink t mt mo end.

(** Everything but the tree is unchanged. *)
Definition same_rest (s s' : mst) : Prop :=
  m_now s' = m_now s /\ m_epoch s' = m_epoch s /\ m_held s' = m_held s /\ m_cbs s' = m_cbs s.

(** A link at one place naming another place, and chains of such links. *)
Definition arrow (t : tree) (p p' : list str) : Prop :=
  exists target mt mo, t p = Some (ELink target mt mo) /\ addr target p'.
Inductive chain (t : tree) : nat -> list str -> list str -> Prop :=
| ch_end p : chain t 0 p p
| ch_step n p p' q : arrow t p p' -> chain t n p' q -> chain t (S n) p q.

(** Ordinary memory URIs, written memory:///n1/n2/...: what the caller writes.  A first name starting
    with a dot is left out, see the finding about hidden names at the top of the tree (C60). *)
Definition mem_text (cs : list str) : str := lit "memory://" ++ abs_path cs.
Record good_path (cs : list str) : Prop := {
  gp_names : Forall name_ok cs;
  gp_dot : forall c cs', cs = c :: cs' -> forall r, c <> cDot :: r }.
Definition mem_at (cs : list str) (u : uri) : Prop := good_path cs /\ URI (mem_text cs) cSlash [] = Ok u.

(** A path that can be opened for writing, with the place of the file. *)
Inductive writable (t : tree) (u : uri) : list str -> Prop :=
| wr_free p : place t u (Free p) -> writable t u p
| wr_file q : denotes t u (Found q) -> is_efile (t q) -> writable t u q.
