(** misc.py 40-52 [WorkingDirectory] above the operating system of Posix.v: trees with links, the working directory of the
    process, and the programs of LocProg.v as the body of the with-block.

    Simplified: the working directory is its path, so that one cannot rename it and stay in it. *)
From Verif Require Import Str Exc UriParse BaseUri SpecUri Mem Misc Generic Posix Local LocProg.

Definition set_cwd (x : pst) (d : list str) : pst := mkP (p_tree x) d (p_now x) (p_umask x).
(** os.getcwd, os.chdir *)
Definition sys_getcwd : M pst str := fun x =>
  (match pget (p_cwd x) (p_tree x) with Some (PDir _ _) => Ok (abs_path (p_cwd x)) | _ => Raise (OSError ENOENT) end, x).
Definition sys_chdir (p : str) : M pst unit := fun x =>
  match plook x true p with
  | Ok (At d (PDir _ _)) => (Ok tt, set_cwd x d)
  | Ok (At _ _) => (Raise (OSError ENOTDIR), x)
  | Ok (Gap _ _) => (Raise (OSError ENOENT), x)
  | Raise e => (Raise e, x)
  end.
(** misc.py 42-51: [with WorkingDirectory(u): body] *)
Definition in_dir {A} (u : uri) (body : M pst A) : M pst A :=
  let! old <- sys_getcwd; with_ (sys_chdir (u_path u)) (sys_chdir old) body.
