(** Programs on one memory file system: calls of URI methods and of file handles, each depending on the answers
    before it.  A program sees the answers (a value or an exception) and nothing else; a handle is named by the number
    of handles opened before it.  Not among the calls: taking and releasing locks (Lock.v), dump and load (Dump.v). *)
From Verif Require Import Str Exc Utf8 UriParse BaseUri Mem MemOps Generic Fnmatch UriOps.

Inductive answer :=
| AUnit | ABool (b : bool) | ANat (n : nat) | ATime (t : Z) | AInfo (b : bunch) | ANames (l : list str) | ALink (u : uri) | AUris (l : list uri)
| AWalk (l : list (uri * list str * list str)) | ABytes (l : list N) | AVal (v : pyval) | ALine (o : option pyval).
Definition answered {A} (f : A -> answer) (m : M mst A) : M mst answer := let! a <- m; ret (f a).

(** [run_uop] (UriOps.v) with the value that comes back *)
Definition ask (fuel : nat) (o : uop) : M mst answer :=
  let B := mem_backend in
  match o with
  | UCopy r ig fl u v => answered (fun _ => AUnit) (u_copy B fuel r ig fl u v)
  | UCopystat u v => answered (fun _ => AUnit) (hooked B "copystat" u (mem_copystat u v))
  | UMove u v => answered (fun _ => AUnit) (u_move B fuel u v)
  | URemove r u => answered (fun _ => AUnit) (u_remove B fuel r u)
  | UOpen u o => answered (fun _ => AUnit) (u_open u o)
  | UMakedirs u => answered (fun _ => AUnit) (u_makedirs B fuel u)
  | UMkdir u => answered (fun _ => AUnit) (u_mkdir B u)
  | UExists u => answered ABool (u_exists B u)
  | UIsfile u => answered ABool (u_isfile B u)
  | UIsdir u => answered ABool (u_isdir B u)
  | UIsexec u m => answered ABool (hooked B "isexec" u (mem_isexec u m))
  | USetExec u m => answered (fun _ => AUnit) (hooked B "set_exec" u (mem_set_exec u m))
  | UIslink u => answered ABool (u_islink B u)
  | UReadlink u => answered ALink (hooked B "readlink" u (mem_readlink u))
  | USymlink u l => answered (fun _ => AUnit) (hooked B "symlink" u (mem_symlink u l))
  | UMtime u => answered ATime (hooked B "mtime" u (mem_mtime u))
  | UWalk td fl u => answered AWalk (u_walk B fuel td fl u)
  | UListdir u => answered ANames (u_listdir B u)
  | UInfo u f => answered AInfo (hooked B "info" u (mem_info u f))
  | USetInfo u mo mt f => answered (fun _ => AUnit) (hooked B "info" u (mem_set_info u mo mt f))
  | USync u v => answered (fun _ : unit => AUnit) (hooked B "sync" u (raise NotImplementedError))
  | UGlob u p => answered AUris (u_glob B fnmatch u p)
  | UMd5 u => answered ABytes (u_md5 (fun bs => bs) u)
  | ULock u f c => answered (fun _ => AUnit) (hooked B "lock" u (ret tt))
  | UManipMtime u t => answered (fun _ => AUnit) (hooked B "_manipulate" u (mem_manip_mtime u t))
  | UManipCallback u cb => answered (fun _ => AUnit) (hooked B "_manipulate" u (mem_manip_callback u cb))
  end.

Inductive call :=
| CUri (fuel : nat) (o : uop)
| COpen (u : uri) (options : option str)              (* the handle is kept *)
| CRead (k : nat) (size : Z)
| CWrite (k : nat) (v : pyval)
| CSeek (k : nat) (to whence : Z)
| CTell (k : nat)
| CTruncate (k : nat) (pos : option Z)
| CReadline (k : nat)
| CNext (k : nat)
| CClose (k : nat)
| CTick (now : Z).                                    (* time passes *)

(** The file system and the handles the program has opened, the first one first *)
Definition session := (mst * list handle)%type.
Definition on_state (m : M mst answer) (σ : session) : res answer * session := let (r, s) := m (fst σ) in (r, (s, snd σ)).
(** There is no such handle: Python's NameError; no program with names for its handles gets it. *)
Definition on_handle (k : nat) (f : handle -> M mst answer) (σ : session) : res answer * session :=
  match nth_error (snd σ) k with Some h => on_state (f h) σ | None => (Raise OutOfFuel, σ) end.
Definition do_call (c : call) (σ : session) : res answer * session :=
  match c with
  | CUri fuel o => on_state (ask fuel o) σ
  | COpen u o => match u_open u o (fst σ) with
                 | (Ok h, s) => (Ok AUnit, (s, snd σ ++ [h]))
                 | (Raise e, s) => (Raise e, (s, snd σ))
                 end
  | CRead k z => on_handle k (fun h => answered AVal (h_read h z)) σ
  | CWrite k v => on_handle k (fun h => answered (fun _ => AUnit) (h_write h v)) σ
  | CSeek k a b => on_handle k (fun h => answered (fun _ => AUnit) (h_seek h a b)) σ
  | CTell k => on_handle k (fun h => answered ANat (h_tell h)) σ
  | CTruncate k p => on_handle k (fun h => answered ANat (h_truncate h p)) σ
  | CReadline k => on_handle k (fun h => answered AVal (h_readline h)) σ
  | CNext k => on_handle k (fun h => answered ALine (h_next h)) σ
  | CClose k => on_handle k (fun h => answered (fun _ => AUnit) (h_close h)) σ
  | CTick t => on_state (fun s => (Ok AUnit, mkM (m_heap s) (m_next s) t (m_epoch s) (m_held s) (m_cbs s))) σ
  end.

Inductive prog (X : Type) := Done (x : X) | Call (c : call) (k : res answer -> prog X).
Arguments Done {X}. Arguments Call {X}.
Fixpoint run {X} (p : prog X) (σ : session) : X * session :=
  match p with
  | Done x => (x, σ)
  | Call c k => let (r, σ') := do_call c σ in run (k r) σ'
  end.

(** The callback set for a path *)
Definition callback_at (s : mst) (p : str) : option callback := match dget p (m_cbs s) with Some o => o | None => None end.
