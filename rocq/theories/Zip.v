(** zip.py: the zip backend.

    The archive format and Python's [zipfile] (3.12) are library code: an archive is the list of its members,
    name and contents, in the order of its directory, and [ZipFile] is modelled by what it does to that list.
    Simplified: the file that contains the archive ([_zip_file_path], zip.py 101-102) is either missing or a
    file, and is changed by this one connection only ([ZipUse.v] lets others change it); contents are uncompressed bytes; names have fewer than
    65536 bytes; a member is read at once when opened. *)
From Verif Require Import Str Exc Utf8 UriParse BaseUri Mem Generic.

Definition member := (str * list N)%type.
(** The containing file: missing, a file that is no archive, or an archive. *)
Inductive disk := DNone | DJunk | DZip (ms : list member).
(** A [ZipFile] object: mode 'r' or one of 'a', 'w'; [zh_dirty] is its [_didModify]. *)
Record zhandle := mkZH { zh_write : bool; zh_members : list member; zh_dirty : bool; zh_open : bool }.
(** zip.py 105-107 [_initialize]: [_ziphandle] is None at first.  ([_file_handle] is opened and closed with it.) *)
Record zst := mkZ { z_disk : disk; z_handle : option zhandle }.
Definition zip_init (d : disk) : zst := mkZ d None.

Definition m_names (ms : list member) : list str := map fst ms.
(** zipfile: [NameToInfo[name]], the last member of that name *)
Fixpoint lookup_last (n : str) (ms : list member) : option (list N) :=
  match ms with
  | [] => None
  | (k, v) :: ms' => match lookup_last n ms' with
                     | Some x => Some x
                     | None => if str_eqb n k then Some v else None
                     end
  end.
(** zipfile: ZipInfo.__init__ cuts names at the first NUL *)
Fixpoint cut_nul (s : str) : str :=
  match s with
  | [] => []
  | c :: s' => if N.eqb c 0 then [] else c :: cut_nul s'
  end.

(** zip.py 110-114 [close_zip]; ZipFile.close writes the directory if anything was modified *)
Definition close_zip : M zst unit := fun s =>
  match z_handle s with
  | Some h =>
      if zh_open h
      then (Ok tt, mkZ (if zh_write h && zh_dirty h then DZip (zh_members h) else z_disk s)
                       (Some (mkZH (zh_write h) (zh_members h) (zh_dirty h) false)))
      else (Ok tt, s)
  | None => (Ok tt, s)
  end.

(** ZipFile(file, 'r') *)
Definition zipfile_r : M zst unit := fun s =>
  match z_disk s with
  | DNone => (Raise (OSError ENOENT), s)             (* the containing file cannot be opened *)
  | DJunk => (Raise BadZipFile, s)
  | DZip ms => (Ok tt, mkZ (DZip ms) (Some (mkZH false ms false true)))
  end.
(** ZipFile(file, 'a') on an existing file: a file that is no archive gets one appended when closed *)
Definition zipfile_a : M zst unit := fun s =>
  match z_disk s with
  | DZip ms => (Ok tt, mkZ (DZip ms) (Some (mkZH true ms false true)))
  | d => (Ok tt, mkZ d (Some (mkZH true [] true true)))
  end.
(** open(..., 'wb'); ZipFile(file, 'w'): the file is empty until closed *)
Definition zipfile_w : M zst unit := fun s => (Ok tt, mkZ DJunk (Some (mkZH true [] true true))).

(** zip.py 117-131 [open_zip].  With other options than those with 'r' or 'w' the file is opened in that mode
    (which creates it for 'a'), and then zip_options has no value. *)
Definition open_zip (options : option str) : M zst unit :=
  close_zip ;;
  match options with
  | None => zipfile_r
  | Some o =>
      if has_char 114 o then zipfile_r                                          (* r *)
      else if has_char 119 o then                                               (* w *)
        fun s => match z_disk s with DNone => zipfile_w s | _ => zipfile_a s end
      else if has_char 97 o then                                                (* a *)
        fun s => (Raise UnboundLocalError, match z_disk s with DNone => mkZ DJunk (z_handle s) | _ => s end)
      else raise (OSError EINVAL)
  end.

(** What open() returns: a reader with the contents of the member, or a [WriteStatement] (zip.py 13-17). *)
Inductive zfile := ZReader (d : list N) | ZWriter (path : str).
(** zip.py 144-150 [_open_for_reading] *)
Definition zip_open_for_reading (u : uri) : M zst zfile := fun s =>
  match z_handle s with
  | Some h => match lookup_last (u_path u) (zh_members h) with
              | Some d => (Ok (ZReader d), s)
              | None => (Raise FileDoesNotExistError, s)
              end
  | None => (Raise AttributeError, s)
  end.
(** zip.py 134-141 [open] and 153-155 [_open_for_writing] *)
Definition zip_open (u : uri) (options : option str) : M zst zfile :=
  open_zip options ;;
  let o := match options with None => lit "r" | Some o => o end in
  if has_char 114 o then zip_open_for_reading u else ret (ZWriter (u_path u)).

(** ZipFile.writestr(name, data) *)
Definition writestr (name : str) (d : list N) : M zst unit := fun s =>
  match z_handle s with
  | None => (Raise AttributeError, s)
  | Some h =>
      if zh_open h && zh_write h
      then let n := cut_nul name in
           if forallb scalar n
           then (Ok tt, mkZ (z_disk s) (Some (mkZH true (zh_members h ++ [(n, d)]) true true)))
           else (Raise UnicodeEncodeError, mkZ (z_disk s) (Some (mkZH true (zh_members h) true true)))
      else (Raise ValueError, s)
  end.
(** zip.py 24-29 [WriteStatement.__exit__], whether the body has raised or not; [d] is what was written *)
Definition zip_exit (path : str) (d : list N) : M zst unit :=
  writestr path d ;; close_zip ;; open_zip None.

(** [with u.open(options) as fd: fd.write(d)] *)
Definition zip_write (u : uri) (options : str) (d : list N) : M zst unit :=
  let! f <- zip_open u (Some options);
  match f with
  | ZWriter p => zip_exit p d
  | ZReader _ => raise AttributeError     (* not used: readers cannot write *)
  end.
(** [with u.open(options) as fd: fd.read()] *)
Definition zip_read (u : uri) (options : option str) : M zst (list N) :=
  let! f <- zip_open u options;
  match f with
  | ZReader d => ret d
  | ZWriter p => zip_exit p [] ;; ret []
  end.

(** ** Names *)
(** zip.py 39-58 [content_item]; the loop of lines 55-57 *)
Fixpoint is_start (l1 l2 : list str) : bool :=
  match l1, l2 with
  | [], _ => true
  | x :: l1', y :: l2' => str_eqb x y && is_start l1' l2'
  | _, [] => false
  end.
Definition content_item (path1 path2 : str) : str :=
  let p1 := split_on cSlash path1 in
  let p2 := split_on cSlash path2 in
  if str_eqb path1 [cSlash] && Nat.leb 2 (length p2) then nth 1 p2 []
  else if Nat.leb (length p2) (length p1) then []
  else if is_start p1 p2 then nth (length p1) p2 []
  else [].

(** zip.py 36-37, 61-75, 78-89 *)
Inductive kind := KNone | KDir | KFile.
Definition compare_parts (l1 l2 : list str) : kind :=
  if is_start l1 l2 then (if Nat.ltb (length l1) (length l2) then KDir else KFile) else KNone.
Definition compare_path_strings (path1 path2 : str) : kind :=
  if Nat.ltb (length path2) (length path1) then KNone
  else if str_eqb path1 path2 then KFile
  else
    let p1 := split_on cSlash path1 in
    let p2 := split_on cSlash path2 in
    if Nat.ltb (length p2) (length p1) then KNone else compare_parts p1 p2.

(** zip.py 203-211 [_ispart] *)
Definition zip_ispart (u : uri) (expected : kind -> bool) : M zst bool := fun s =>
  if str_eqb (u_path u) [cSlash] then (Ok true, s)
  else match z_handle s with
       | None => (Raise AttributeError, s)
       | Some h => (Ok (existsb (fun n => expected (compare_path_strings (u_path u) n)) (m_names (zh_members h))), s)
       end.
(** zip.py 158-167 *)
Definition zip_exists (u : uri) : M zst bool :=
  zip_ispart u (fun k => match k with KNone => false | _ => true end).
Definition zip_isdir (u : uri) : M zst bool := zip_ispart u (fun k => match k with KDir => true | _ => false end).
Definition zip_isfile (u : uri) : M zst bool := zip_ispart u (fun k => match k with KFile => true | _ => false end).
(** zip.py 184-200 [listdir] *)
Definition zip_listdir (u : uri) : M zst (list str) := fun s =>
  match z_disk s with
  | DNone => (Ok [], s)
  | _ =>
      ((match z_handle s with None => open_zip None | Some _ => ret tt end) ;;
       let! d <- zip_isdir u;
       if negb d then raise FileDoesNotExistError
       else fun s => match z_handle s with
                     | None => (Ok [], s)
                     | Some h =>
                         (Ok (sort_strs (dedup (filter (fun x => negb (str_eqb x []))
                                (map (content_item (u_path u)) (m_names (zh_members h)))))), s)
                     end) s
  end.

(** The rest of what fs.py needs.  Links: fs.py 1070-1086 with supports_symlinks() False (zip.py 180-181);
    what is not implemented raises (fs.py 1038-1098, zip.py 170-177, 214-216).  Copying from one member to
    another of one archive opens the destination while the source is open: this closes the file the source
    is read from, so that reading fails (an archive in a local file), unless the source is empty; the
    destination is written nevertheless. *)
Definition zip_copy_content (source dest : uri) : M zst unit :=
  let! f <- zip_open source (Some (lit "rb"));
  let! g <- zip_open dest (Some (lit "wb"));
  match f, g with
  | ZReader [], ZWriter p => zip_exit p []
  | _, ZWriter p => zip_exit p [] ;; raise ValueError
  | _, _ => raise AttributeError
  end.
Definition zip_backend : backend zst :=
  mkBackend zst (fun _ _ => ret tt) zip_exists zip_isfile zip_isdir (fun _ => ret false) zip_listdir
    (fun _ => raise NotImplementedError) (fun _ => raise NotImplementedError) (fun _ => raise NotImplementedError)
    (fun _ _ => raise OperationIsNotSupportedOnPlatform) (fun _ => raise OperationIsNotSupportedOnPlatform)
    (fun _ _ => raise NotImplementedError) zip_copy_content
    (fun _ _ => raise NotImplementedError) (fun _ _ _ => raise OperationIsNotSupportedOnPlatform).

(** ** Any use of one connection; a with-block that writes is two steps *)
Inductive zop :=
| ZOpen (u : uri) (options : option str)
| ZExit (path : str) (d : list N)
| ZExists (u : uri) | ZIsdir (u : uri) | ZIsfile (u : uri) | ZListdir (u : uri).
Definition zrun (o : zop) (s : zst) : zst :=
  match o with
  | ZOpen u opts => snd (zip_open u opts s)
  | ZExit p d => snd (zip_exit p d s)
  | ZExists u => snd (zip_exists u s)
  | ZIsdir u => snd (zip_isdir u s)
  | ZIsfile u => snd (zip_isfile u s)
  | ZListdir u => snd (zip_listdir u s)
  end.
Definition zruns (l : list zop) (s : zst) : zst := fold_left (fun s o => zrun o s) l s.
Definition zreachable (s : zst) : Prop := exists d l, s = zruns l (zip_init d).
