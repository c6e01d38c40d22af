(** Programs on local files: calls of URI methods, each depending on the answers before it.  Files are read and
    written as a whole. *)
From Verif Require Import Str Exc Utf8 UriParse BaseUri Mem Generic Fnmatch Posix Local.

Inductive lcall :=
| LCopy (fuel : nat) (recursive : bool) (ignore : list str) (follow : bool) (u v : uri)
| LCopystat (u v : uri)
| LMove (u v : uri)
| LRemove (fuel : nat) (recursive : bool) (u : uri)
| LMakedirs (fuel : nat) (u : uri)
| LMkdir (u : uri)
| LExists (u : uri) | LIsfile (u : uri) | LIsdir (u : uri) | LIslink (u : uri)
| LIsexec (u : uri) (mask : Z) | LSetExec (u : uri) (mode : Z)
| LReadlink (u : uri) | LSymlink (u link : uri)
| LMtime (u : uri) | LInfo (u : uri) (follow : bool) | LSetMode (u : uri) (mode : Z)
| LWalk (fuel : nat) (topdown follow : bool) (u : uri)
| LListdir (u : uri)
| LGlob (u : uri) (pat : str)
| LRead (u : uri) | LWrite (u : uri) (ds : list (list N)) | LAppend (u : uri) (ds : list (list N))
| LTick (now : Z).                                    (* time passes *)

Inductive lanswer :=
| LUnit | LBool (b : bool) | LTime (t : Z) | LBunch (b : bunch) | LNames (l : list str) | LUri (u : uri) | LUris (l : list uri)
| LWalked (l : list (uri * list str * list str)) | LBytes (l : list N).
Definition said {A} (f : A -> lanswer) (m : M pst A) : M pst lanswer := let! a <- m; ret (f a).
Definition lask (c : lcall) : M pst lanswer :=
  let B := loc_backend in
  match c with
  | LCopy fuel r ig fl u v => said (fun _ => LUnit) (u_copy B fuel r ig fl u v)
  | LCopystat u v => said (fun _ => LUnit) (loc_copystat u v)
  | LMove u v => said (fun _ => LUnit) (loc_move u v)
  | LRemove fuel r u => said (fun _ => LUnit) (u_remove B fuel r u)
  | LMakedirs fuel u => said (fun _ => LUnit) (u_makedirs B fuel u)
  | LMkdir u => said (fun _ => LUnit) (u_mkdir B u)
  | LExists u => said LBool (u_exists B u)
  | LIsfile u => said LBool (u_isfile B u)
  | LIsdir u => said LBool (u_isdir B u)
  | LIslink u => said LBool (u_islink B u)
  | LIsexec u m => said LBool (loc_isexec u m)
  | LSetExec u m => said (fun _ => LUnit) (loc_set_exec u m)
  | LReadlink u => said LUri (loc_readlink u)
  | LSymlink u l => said (fun _ => LUnit) (loc_symlink u l)
  | LMtime u => said LTime (loc_mtime u)
  | LInfo u f => said LBunch (loc_info u f)
  | LSetMode u m => said (fun _ => LUnit) (loc_set_mode u m)
  | LWalk fuel td fl u => said LWalked (u_walk B fuel td fl u)
  | LListdir u => said LNames (u_listdir B u)
  | LGlob u p => said LUris (u_glob B fnmatch u p)
  | LRead u => said LBytes (loc_read_all u)
  | LWrite u ds => said (fun _ => LUnit) (loc_write_all u ds)
  | LAppend u ds => said (fun _ => LUnit) (loc_append_all u ds)
  | LTick t => fun x => (Ok LUnit, mkP (p_tree x) (p_cwd x) t (p_umask x))
  end.

Inductive lprog (X : Type) := LDone (x : X) | LCall (c : lcall) (k : res lanswer -> lprog X).
Arguments LDone {X}. Arguments LCall {X}.
Fixpoint lrun {X} (p : lprog X) (x : pst) : X * pst :=
  match p with
  | LDone a => (a, x)
  | LCall c k => let (r, x') := lask c x in lrun (k r) x'
  end.
