(** Parts of a memory file system: what lies below some of the names at the top. *)
From Verif Require Import Str Exc UriParse BaseUri Mem SpecUri SpecMem Generic UriOps Prog.

Section Part.
Variable K : str -> bool.        (* the names at the top *)

(** The URIs memory:///c/... with such a name [c], no query and no fragment *)
Definition mine (u : uri) : Prop :=
  exists c t, K c = true /\ (t = [] \/ exists r, t = cSlash :: r) /\ path_ok (cSlash :: c ++ t) /\
              URI (lit "memory://" ++ cSlash :: c ++ t) cSlash [] = Ok u.
(** A link leads into the part if what it names has such a name at the top. *)
Definition leads_in (target : uri) : Prop := forall cs, addr target cs -> exists c cs', cs = c :: cs' /\ K c = true.
(** Names that mean nothing else in a URI *)
Definition simple_name (n : str) : Prop := free_of meta n /\ forall x y, n <> x ++ lit "((" ++ y.
(** The links below lead nowhere else, and the names below are simple. *)
Record enclosed (t : tree) : Prop := {
  en_links : forall c p target mt mo, K c = true -> t (c :: p) = Some (ELink target mt mo) -> leads_in target;
  en_names : forall c p n, K c = true -> t (c :: p ++ [n]) <> None -> simple_name n }.
(** Names as they stand at the top: not empty, no slash, no dot in front (see C60) *)
Definition top_names : Prop := forall c, K c = true -> c <> [] /\ ~ In cSlash c /\ forall r, c <> cDot :: r.
(** The paths callbacks are set for: those of the part, and the root *)
Definition watched (p : str) : Prop := p = [] \/ K (hd [] (split_on cSlash p)) = true.
(** Two file systems that are the same as far as the part is concerned *)
Record same_part (s s' : mst) : Prop := {
  sm_tree : forall c p, K c = true -> view s' (c :: p) = view s (c :: p);
  sm_now : m_now s' = m_now s;
  sm_cbs : forall p, watched p -> callback_at s' p = callback_at s p }.
(** The calls that have URIs of the part only *)
Definition op_in (o : uop) : Prop :=
  match o with
  | UCopy _ _ _ u v | UCopystat u v | UMove u v | USymlink u v => mine u /\ mine v
  | _ => mine (uop_uri o)
  end.
End Part.

(** Calls: the methods of URIs (Prog.v), and
      with u.open(mode) as f:
          for d in ds: f.write(d)
    and
      with u.open(mode) as f:
          f.read()
    The handle is closed at the end, whatever the body does. *)
Definition with_open (u : uri) (mode : option str) (m : handle -> M mst answer) : M mst answer :=
  let! h <- u_open u mode;
  fun s => let (r, s1) := m h s in match h_close h s1 with (Ok _, s2) => (r, s2) | (Raise e, s2) => (Raise e, s2) end.
Inductive doing := DUri (fuel : nat) (o : uop) | DPut (u : uri) (mode : option str) (ds : list pyval) | DGet (u : uri) (mode : option str).
Definition do_it (c : doing) : M mst answer :=
  match c with
  | DUri fuel o => ask fuel o
  | DPut u m ds => with_open u m (fun h => answered (fun _ => AUnit) (mapM_ (h_write h) ds))
  | DGet u m => with_open u m (fun h => answered AVal (h_read h (-1)))
  end.
Definition doing_in (K : str -> bool) (c : doing) : Prop := match c with DUri _ o => op_in K o | DPut u _ _ | DGet u _ => mine K u end.
(** What happens to one file system that two parties use: calls of one, calls of the other, time.  The answers the
    first one gets come out. *)
Inductive event := Own (c : doing) | Other (c : doing) | Time (now : Z).
Definition event_in (K L : str -> bool) (e : event) : Prop := match e with Own c => doing_in K c | Other c => doing_in L c | Time _ => True end.
Definition at_time (t : Z) (s : mst) : mst := mkM (m_heap s) (m_next s) t (m_epoch s) (m_held s) (m_cbs s).
Fixpoint happen (es : list event) (s : mst) : list (res answer) * mst :=
  match es with
  | [] => ([], s)
  | Own c :: es => let (r, s1) := do_it c s in let (rs, s2) := happen es s1 in (r :: rs, s2)
  | Other c :: es => happen es (snd (do_it c s))
  | Time t :: es => happen es (at_time t s)
  end.
Definition own_only (es : list event) : list event := filter (fun e => match e with Other _ => false | _ => true end) es.

(** Calls of one party in the middle of a call of the other: the backend the other one's methods are built on does, before
    each of its operations, what is next in a list.  The operations themselves are not interrupted. *)
Definition all_of (cs : list doing) (s : mst) : mst := fold_left (fun s c => snd (do_it c s)) cs s.
Definition meanwhile {A} (m : M mst A) : M (mst * list (list doing)) A :=
  fun x => let (r, s) := m (all_of (hd [] (snd x)) (fst x)) in (r, (s, tl (snd x))).
Definition shared : backend (mst * list (list doing)) := {|
  b_hook := fun u n => meanwhile (mem_hook u n);
  b_exists := fun u => meanwhile (mem_exists u);
  b_isfile := fun u => meanwhile (mem_isfile u);
  b_isdir := fun u => meanwhile (mem_isdir u);
  b_islink := fun u => meanwhile (mem_islink u);
  b_listdir := fun u => meanwhile (mem_listdir u);
  b_removefile := fun u => meanwhile (mem_removefile u);
  b_removedir := fun u => meanwhile (mem_removedir u);
  b_mkdir := fun u => meanwhile (mem_mkdir u);
  b_symlink := fun t u => meanwhile (mem_symlink t u);
  b_readlink := fun u => meanwhile (mem_readlink u);
  b_copystat := fun u v => meanwhile (mem_copystat u v);
  b_copy_content := fun u v => meanwhile (mem_copy_content u v);
  b_removefile_by := fun _ u => meanwhile (mem_removefile u);
  b_symlink_by := fun _ t u => meanwhile (mem_symlink t u) |}.
