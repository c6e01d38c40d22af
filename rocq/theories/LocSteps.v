(** The methods for local files (Local.v, Generic.v, LocProg.v) once more, system call by system call: [step] says what
    happens where a system call is made. *)
From Verif Require Import Str Exc UriParse BaseUri Mem Generic Fnmatch Posix Local LocProg.

Section Steps.
Context {W : Type}.
Variable step : forall A, M pst A -> M W A.
(** localfs.py 84-85 *)
Definition st_listdir (u : uri) : M W (list str) := step _ (loc_listdir u).
(** localfs.py 95-98 *)
Definition st_removedir (u : uri) : M W unit :=
  let! l <- step _ (path_islink (u_path u));
  if l then raise AssertionError else step _ (os_rmdir (u_path u)).
(** localfs.py 101-104 *)
Definition st_mkdir (u : uri) : M W unit := match u_path u with [] => ret tt | p => step _ (os_mkdir p) end.
(** localfs.py 52-76, 119-126, 157-158 *)
Definition st_info (u : uri) (followlinks : bool) : M W bunch :=
  let! l <- step _ (path_islink (u_path u));
  let! e <- step _ (os_stat (negb (l && negb followlinks)) (u_path u));
  ret (mkBunch (st_mtime e) (st_mode e) (st_size e)).
Definition st_set_mode (u : uri) (mode : Z) : M W unit :=
  let! _ <- step _ (path_islink (u_path u)); step _ (os_chmod (u_path u) mode).
Definition st_set_exec (u : uri) (mode : Z) : M W unit :=
  let! i <- st_info u true; st_set_mode u (Z.lor (Z.land (i_mode i) (Z.lnot exec_mask)) mode).
(** localfs.py 173-182 *)
Definition st_readlink (u : uri) : M W uri := let! t <- step _ (os_readlink (u_path u)); lift (URI t cSlash []).
Definition st_symlink (target link_name : uri) : M W unit := step _ (os_symlink (u_path target) (u_path link_name)).
(** localfs.py 78-82, opening and reading or writing being two system calls *)
Definition st_read_all (u : uri) : M W (list N) := let! q <- step _ (os_open_r (u_path u)); step _ (fd_data q).
Definition st_write_all (u : uri) (ds : list (list N)) : M W unit := let! q <- step _ (os_open_w (u_path u)); step _ (fd_append q (concat ds)).
Definition st_append_all (u : uri) (ds : list (list N)) : M W unit := let! q <- step _ (os_open_a (u_path u)); step _ (fd_append q (concat ds)).
(** fs.py 926-927, 966-967 on two local files *)
Definition st_copy_content (source dest : uri) : M W unit :=
  let! p <- step _ (os_open_r (u_path source));
  let! q <- step _ (os_open_w (u_path dest));
  let! d <- step _ (fd_data p);
  step _ (fd_append q d).
Definition st_backend : backend W := {|
  b_hook := fun _ _ => ret tt;
  b_exists := fun u => step _ (path_exists (u_path u));
  b_isfile := fun u => step _ (path_isfile (u_path u));
  b_isdir := fun u => step _ (path_isdir (u_path u));
  b_islink := fun u => step _ (path_islink (u_path u));
  b_listdir := st_listdir;
  b_removefile := fun u => step _ (os_unlink (u_path u));
  b_removedir := st_removedir;
  b_mkdir := st_mkdir;
  b_symlink := st_symlink;
  b_readlink := st_readlink;
  b_copystat := fun u v => step _ (sh_copystat (u_path u) (u_path v));
  b_copy_content := st_copy_content;
  b_removefile_by := fun _ u => step _ (os_unlink (u_path u));
  b_symlink_by := fun _ => st_symlink |}.

(** shutil.move (Posix.v).  Copying and removing a whole directory is one step here. *)
Definition st_move_file (src dst : str) : M W unit :=
  let! same <- step _ (samefile src dst);
  if same then raise ShutilError
  else
    let! p <- step _ (os_open_r src);
    let! q <- step _ (os_open_w dst);
    let! d <- step _ (fd_data p);
    step _ (fd_append q d) ;; step _ (sh_copystat src dst) ;; step _ (os_unlink src).
Definition st_move_fallback (src dst real_dst : str) : M W unit :=
  let! l <- step _ (path_islink src);
  if l then let! tg <- step _ (os_readlink src); step _ (os_symlink tg real_dst) ;; step _ (os_unlink src)
  else
    let! d <- step _ (path_isdir src);
    if d then
      if negb (clean_path src && clean_path real_dst) || unnamed src then raise OutOfFuel
      else if destinsrc src dst then raise ShutilError
      else step _ (fun x => match plook x true src with
                             | Ok (At p _) => copy_and_remove_tree p real_dst x
                             | _ => (Raise OutOfFuel, x)
                             end)
    else st_move_file src real_dst.
Definition st_shmove (src dst : str) : M W unit :=
  let! dd <- step _ (path_isdir dst);
  let! same <- (if dd then step _ (samefile src dst) else ret false);
  let! sl <- (if same then step _ (path_islink src) else ret false);
  if same && negb sl then step _ (os_rename src dst)
  else
    let real_dst := if dd then path_join dst (sh_basename src) else dst in
    let! there <- (if dd then step _ (path_exists real_dst) else ret false);
    if there then raise ShutilError
    else fun z =>
      match step _ (os_rename src real_dst) z with
      | (Raise (OSError _), z') => st_move_fallback src dst real_dst z'
      | r => r
      end.
(** localfs.py 129-150 *)
Definition st_move (source dest : uri) : M W unit :=
  let! sd <- step _ (path_isdir (u_path source));
  let! dd <- (if sd then step _ (path_isdir (u_path dest)) else ret false);
  let! dest' <- (if dd then lift (rlet b <- u_basename source; u_div dest b) else ret dest);
  st_shmove (u_path source) (u_path dest').

Definition told {A} (f : A -> lanswer) (m : M W A) : M W lanswer := let! a <- m; ret (f a).
Definition stask (c : lcall) : M W lanswer :=
  let B := st_backend in
  match c with
  | LCopy fuel r ig fl u v => told (fun _ => LUnit) (u_copy B fuel r ig fl u v)
  | LCopystat u v => told (fun _ => LUnit) (step _ (sh_copystat (u_path u) (u_path v)))
  | LMove u v => told (fun _ => LUnit) (st_move u v)
  | LRemove fuel r u => told (fun _ => LUnit) (u_remove B fuel r u)
  | LMakedirs fuel u => told (fun _ => LUnit) (u_makedirs B fuel u)
  | LMkdir u => told (fun _ => LUnit) (u_mkdir B u)
  | LExists u => told LBool (u_exists B u)
  | LIsfile u => told LBool (u_isfile B u)
  | LIsdir u => told LBool (u_isdir B u)
  | LIslink u => told LBool (u_islink B u)
  | LIsexec u m => told LBool (let! i <- st_info u true; ret (negb (Z.land (i_mode i) m =? 0)%Z))
  | LSetExec u m => told (fun _ => LUnit) (st_set_exec u m)
  | LReadlink u => told LUri (st_readlink u)
  | LSymlink u l => told (fun _ => LUnit) (st_symlink u l)
  | LMtime u => told LTime (let! i <- st_info u true; ret (i_mtime i))
  | LInfo u f => told LBunch (st_info u f)
  | LSetMode u m => told (fun _ => LUnit) (st_set_mode u m)
  | LWalk fuel td fl u => told LWalked (u_walk B fuel td fl u)
  | LListdir u => told LNames (u_listdir B u)
  | LGlob u p => told LUris (u_glob B fnmatch u p)
  | LRead u => told LBytes (st_read_all u)
  | LWrite u ds => told (fun _ => LUnit) (st_write_all u ds)
  | LAppend u ds => told (fun _ => LUnit) (st_append_all u ds)
  | LTick t => step _ (fun x => (Ok LUnit, mkP (p_tree x) (p_cwd x) t (p_umask x)))
  end.
End Steps.

(** Other processes: before each system call the file system may have changed.  What the others do before the next system
    calls is a list of functions, one for each. *)
Definition among : Type := (pst * list (pst -> pst))%type.
Definition between {A} (m : M pst A) : M among A :=
  fun z => let (r, x) := m (hd (fun x => x) (snd z) (fst z)) in (r, (x, tl (snd z))).
Definition sask : lcall -> M among lanswer := stask (@between).
(** Programs (LocProg.v) *)
Fixpoint srun {X} (p : lprog X) (z : among) : X * among :=
  match p with LDone a => (a, z) | LCall c k => let (r, z') := sask c z in srun (k r) z' end.

(** A signal: after some number of system calls the handler raises an exception where the next one would be made. *)
Definition mortal : Type := (pst * nat)%type.
Definition unless_stopped (e : exc) {A} (m : M pst A) : M mortal A :=
  fun z => match snd z with O => (Raise e, z) | S k => let (r, x) := m (fst z) in (r, (x, k)) end.
Definition kask (e : exc) : lcall -> M mortal lanswer := stask (@unless_stopped e).
