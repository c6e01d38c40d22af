(** localfs.py: the backend for local files, on top of Posix.v.

    Not modelled: info's ctime and atime, lchmod, platforms without links (win32), lock files of abl.util. *)
From Verif Require Import Str Exc UriParse BaseUri Mem Generic Posix.

(** fs.py 881-885 [_path] *)
Definition loc_exists (u : uri) : M pst bool := path_exists (u_path u).        (* localfs.py 107-108 *)
Definition loc_isfile (u : uri) : M pst bool := path_isfile (u_path u).        (* localfs.py 111-112 *)
Definition loc_isdir (u : uri) : M pst bool := path_isdir (u_path u).          (* localfs.py 115-116 *)
Definition loc_islink (u : uri) : M pst bool := path_islink (u_path u).        (* localfs.py 169-170 *)

(** localfs.py 84-85 *)
Definition loc_listdir (u : uri) : M pst (list str) :=
  let! l <- os_listdir (u_path u); ret (sort_strs l).
(** localfs.py 88-92 *)
Definition loc_removefile (u : uri) : M pst unit := os_unlink (u_path u).
(** localfs.py 95-98: [unc.islink()] goes through the connection; the hook does nothing here. *)
Definition loc_removedir (u : uri) : M pst unit :=
  let! l <- loc_islink u;
  if l then raise AssertionError else os_rmdir (u_path u).
(** localfs.py 101-104 *)
Definition loc_mkdir (u : uri) : M pst unit :=
  match u_path u with [] => ret tt | p => os_mkdir p end.

(** localfs.py 52-76 *)
Definition loc_info (u : uri) (followlinks : bool) : M pst bunch :=
  let p := u_path u in
  let! l <- loc_islink u;
  let! e <- os_stat (negb (l && negb followlinks)) p;
  ret (mkBunch (st_mtime e) (st_mode e) (st_size e)).
(** localfs.py 55-62 with a link followed *)
Definition loc_set_mode (u : uri) (mode : Z) : M pst unit :=
  let! _ <- loc_islink u; os_chmod (u_path u) mode.
(** localfs.py 119-120 *)
Definition loc_isexec (u : uri) (mask : Z) : M pst bool :=
  let! i <- loc_info u true; ret (negb (Z.land (i_mode i) mask =? 0)%Z).
(** localfs.py 123-126 *)
Definition loc_set_exec (u : uri) (mode : Z) : M pst unit :=
  let! i <- loc_info u true;
  loc_set_mode u (Z.lor (Z.land (i_mode i) (Z.lnot exec_mask)) mode).
(** localfs.py 157-158 *)
Definition loc_mtime (u : uri) : M pst Z := let! i <- loc_info u true; ret (i_mtime i).
(** localfs.py 161-162 *)
Definition loc_copystat (source dest : uri) : M pst unit := sh_copystat (u_path source) (u_path dest).
(** localfs.py 173-176 *)
Definition loc_readlink (u : uri) : M pst uri :=
  let! t <- os_readlink (u_path u); lift (URI t cSlash []).
(** localfs.py 179-182 *)
Definition loc_symlink (target link_name : uri) : M pst unit := os_symlink (u_path target) (u_path link_name).

(** localfs.py 78-82 with the mode the callers use.
    [with u.open('rb') as f: f.read()], [with u.open('wb') as f: for d in ds: f.write(d)], the same with 'ab'. *)
Definition loc_read_all (u : uri) : M pst (list N) :=
  let! q <- os_open_r (u_path u); fd_data q.
Definition loc_write_all (u : uri) (ds : list (list N)) : M pst unit :=
  let! q <- os_open_w (u_path u); fd_append q (concat ds).
Definition loc_append_all (u : uri) (ds : list (list N)) : M pst unit :=
  let! q <- os_open_a (u_path u); fd_append q (concat ds).
(** fs.py 926-927, 966-967 on two local files *)
Definition loc_copy_content (source dest : uri) : M pst unit :=
  let! p <- os_open_r (u_path source);
  let! q <- os_open_w (u_path dest);
  let! d <- fd_data p;
  fd_append q d.

Definition loc_backend : backend pst := {|
  b_hook := fun _ _ => ret tt;                          (* fs.py 888-893 *)
  b_exists := loc_exists;
  b_isfile := loc_isfile;
  b_isdir := loc_isdir;
  b_islink := loc_islink;
  b_listdir := loc_listdir;
  b_removefile := loc_removefile;
  b_removedir := loc_removedir;
  b_mkdir := loc_mkdir;
  b_symlink := loc_symlink;
  b_readlink := loc_readlink;
  b_copystat := loc_copystat;
  b_copy_content := loc_copy_content;
  b_removefile_by := fun _ => loc_removefile;
  b_symlink_by := fun _ => loc_symlink |}.

(** localfs.py 129-150 [move] between two local URIs (both connections are this backend). *)
Definition loc_move (source dest : uri) : M pst unit :=
  let! sd <- loc_isdir source;
  let! dd <- (if sd then loc_isdir dest else ret false);
  let! dest' <- (if dd then lift (rlet b <- u_basename source; u_div dest b) else ret dest);
  sh_move (u_path source) (u_path dest').
