(** Programs over one file system, run on the memory backend and on local files. *)
From Verif Require Import Str Exc UriParse BaseUri SpecUri Mem SpecMem SpecGen Generic Fnmatch Posix Local SpecLocal MemFacts10.

(** One call of the public API.  Paths are lists of names; [fuel] bounds the recursion of the model. *)
Inductive call :=
| CExists (cs : list str) | CIsfile (cs : list str) | CIsdir (cs : list str) | CIslink (cs : list str)
| CListdir (cs : list str)
| CMkdir (cs : list str) | CMakedirs (fuel : nat) (cs : list str)
| CRemove (fuel : nat) (recursive : bool) (cs : list str)
| CWalk (fuel : nat) (topdown followlinks : bool) (cs : list str)
| CGlob (cs : list str) (pattern : str)
| CRead (cs : list str) | CWrite (cs : list str) (ds : list (list N)) | CAppend (cs : list str) (ds : list (list N))
| CCopy (fuel : nat) (recursive : bool) (ignore : list str) (followlinks : bool) (ca cb : list str).

(** What the caller sees.  Of a URI it is the path, which is the same for memory:///a and file:///a. *)
Inductive value :=
| Nothing | Truth (b : bool) | Names (l : list str) | Content (b : list N) | Places (l : list str)
| Listing (l : list (str * list str * list str)).

Section Calls.
Context {S : Type}.
Variable b : backend S.
Variable scheme : str.
Variable read : uri -> M S (list N).
Variables write append : uri -> list (list N) -> M S unit.
(** URI("scheme://" + path) *)
Definition at_path {A} (cs : list str) (k : uri -> M S A) : M S A := let! u <- lift (URI (scheme ++ abs_path cs) cSlash []); k u.
Definition run_call (c : call) : M S value :=
  match c with
  | CExists cs => at_path cs (fun u => let! r <- u_exists b u; ret (Truth r))
  | CIsfile cs => at_path cs (fun u => let! r <- u_isfile b u; ret (Truth r))
  | CIsdir cs => at_path cs (fun u => let! r <- u_isdir b u; ret (Truth r))
  | CIslink cs => at_path cs (fun u => let! r <- u_islink b u; ret (Truth r))
  | CListdir cs => at_path cs (fun u => let! r <- u_listdir b u; ret (Names r))
  | CMkdir cs => at_path cs (fun u => u_mkdir b u ;; ret Nothing)
  | CMakedirs fuel cs => at_path cs (fun u => u_makedirs b fuel u ;; ret Nothing)
  | CRemove fuel recursive cs => at_path cs (fun u => u_remove b fuel recursive u ;; ret Nothing)
  | CWalk fuel td fl cs => at_path cs (fun u =>
      let! l <- u_walk b fuel td fl u; ret (Listing (map (fun x => (u_path (fst (fst x)), snd (fst x), snd x)) l)))
  | CGlob cs pattern => at_path cs (fun u => let! l <- u_glob b fnmatch u pattern; ret (Places (map u_path l)))
  | CRead cs => at_path cs (fun u => let! d <- read u; ret (Content d))
  | CWrite cs ds => at_path cs (fun u => write u ds ;; ret Nothing)
  | CAppend cs ds => at_path cs (fun u => append u ds ;; ret Nothing)
  | CCopy fuel recursive ignore fl ca cb => at_path ca (fun u => at_path cb (fun v => u_copy b fuel recursive ignore fl u v ;; ret Nothing))
  end.
(** A program: the outcome of each call; an exception is caught, and the program goes on. *)
Fixpoint run (p : list call) (s : S) : list (res value) * S :=
  match p with
  | [] => ([], s)
  | c :: p' => let '(r, s') := run_call c s in let '(l, s'') := run p' s' in (r :: l, s'')
  end.
End Calls.

(** with URI.open('rb') as f: f.read() and so on, for the memory backend *)
Definition mem_read (u : uri) : M mst (list N) :=
  let! v <- read_all u (Some (lit "rb")); match v with VBytes d => ret d | VStr _ => raise ValueError end.
Definition mem_write (u : uri) (ds : list (list N)) : M mst unit := write_all u (lit "wb") (map VBytes ds) ;; ret tt.
Definition mem_append (u : uri) (ds : list (list N)) : M mst unit := write_all u (lit "ab") (map VBytes ds) ;; ret tt.

Definition mem_call : call -> M mst value := run_call mem_backend (lit "memory://") mem_read mem_write mem_append.
Definition loc_call : call -> M pst value := run_call loc_backend (lit "file://") loc_read_all loc_write_all loc_append_all.
Definition mem_run : list call -> mst -> list (res value) * mst := run mem_backend (lit "memory://") mem_read mem_write mem_append.
Definition loc_run : list call -> pst -> list (res value) * pst := run loc_backend (lit "file://") loc_read_all loc_write_all loc_append_all.

(** The calls the backends agree on, given the files [t]: ordinary paths; the root directory is not created, removed,
    or written; appending is to a file with content; copying a directory involves no name with blanks at its ends. *)
Definition fits (c : call) (t : tree) : Prop :=
  match c with
  | CExists cs | CIsfile cs | CIsdir cs | CIslink cs | CListdir cs | CMakedirs _ cs | CWalk _ _ _ cs | CGlob cs _ | CRead cs => plain_path cs
  | CMkdir cs | CRemove _ _ cs | CWrite cs _ => plain_path cs /\ cs <> []
  | CAppend cs _ => plain_path cs /\ exists d mt mo, t cs = Some (EFile d mt mo) /\ d <> []
  | CCopy _ recursive _ _ ca cb =>
      plain_path ca /\ plain_path cb /\ (forall i n, ca = i ++ [n] -> plain_path (cb ++ [n])) /\
      (recursive = true -> ca <> [] /\ (forall q, t q <> None -> Forall unpadded q) /\ Forall unpadded cb)
  end.
(** Every call of a program fits the files there are when it is made. *)
Fixpoint all_fit (p : list call) (s : mst) : Prop :=
  match p with
  | [] => True
  | c :: p' => fits c (view s) /\ all_fit p' (snd (mem_call c s))
  end.
