(** fs.py: the operations FileSystem implements once for every backend, and the dispatch from a URI to
    its connection. *)
From Verif Require Import Str Exc Utf8 UriParse BaseUri Mem.

(** What a backend supplies (fs.py 1029-1098), and its [pre_call_hook] (fs.py 888-893).
    [S] is the state of the connection, or of all connections a program uses (World.v).
    [b_copy_content source dest] is fs.py 926-927, 966-967:
    [with source.open('rb') as infs, dest.open('wb') as outfs: shutil.copyfileobj(infs, outfs, 8192)].
    [b_removefile_by u] and [b_symlink_by u] are [removefile] and [symlink] of the connection of [u], whatever
    connection their arguments belong to. *)
Record backend (S : Type) := mkBackend {
  b_hook : uri -> str -> M S unit;
  b_exists : uri -> M S bool;
  b_isfile : uri -> M S bool;
  b_isdir : uri -> M S bool;
  b_islink : uri -> M S bool;
  b_listdir : uri -> M S (list str);
  b_removefile : uri -> M S unit;
  b_removedir : uri -> M S unit;
  b_mkdir : uri -> M S unit;
  b_symlink : uri -> uri -> M S unit;
  b_readlink : uri -> M S uri;
  b_copystat : uri -> uri -> M S unit;
  b_copy_content : uri -> uri -> M S unit;
  b_removefile_by : uri -> uri -> M S unit;
  b_symlink_by : uri -> uri -> uri -> M S unit }.
Arguments b_hook {S}. Arguments b_exists {S}. Arguments b_isfile {S}. Arguments b_isdir {S}.
Arguments b_islink {S}. Arguments b_listdir {S}. Arguments b_removefile {S}. Arguments b_removedir {S}.
Arguments b_mkdir {S}. Arguments b_symlink {S}. Arguments b_readlink {S}. Arguments b_copystat {S}.
Arguments b_copy_content {S}. Arguments b_removefile_by {S}. Arguments b_symlink_by {S}.

(** [==] on optional texts *)
Definition opt_eqb (a b : option str) : bool :=
  match a, b with
  | Some x, Some y => str_eqb x y
  | None, None => true
  | _, _ => false
  end.

(** [for x in l: a = f(a, x)] *)
Definition foldM {S A X} (f : A -> X -> M S A) : A -> list X -> M S A :=
  fix go (a : A) (l : list X) : M S A :=
    match l with
    | [] => ret a
    | x :: l' => let! a' <- f a x; go a' l'
    end.

Section Ops.
Context {S : Type}.
Variable b : backend S.

(** fs.py 222-232 [with_connection]: every URI method first calls the hook of the connection.
    (Choosing the connection and setting last_used is in Registry.v.) *)
Definition hooked {A} (name : String.string) (u : uri) (m : M S A) : M S A := b_hook b u (lit name) ;; m.

Definition u_exists (u : uri) : M S bool := hooked "exists" u (b_exists b u).
Definition u_isfile (u : uri) : M S bool := hooked "isfile" u (b_isfile b u).
Definition u_isdir (u : uri) : M S bool := hooked "isdir" u (b_isdir b u).
Definition u_islink (u : uri) : M S bool := hooked "islink" u (b_islink b u).
Definition u_listdir (u : uri) : M S (list str) := hooked "listdir" u (b_listdir b u).
Definition u_mkdir (u : uri) : M S unit := hooked "mkdir" u (b_mkdir b u).

(** fs.py 974-983 [FileSystem.makedirs] *)
Fixpoint fs_makedirs (fuel : nat) (path : uri) : M S unit :=
  match fuel with
  | O => raise OutOfFuel
  | Datatypes.S f =>
      let! d <- u_isdir path;
      if d then ret tt
      else
        let! pt <- lift (u_split path);
        let! pd <- u_isdir (fst pt);
        (if pd then ret tt else fs_makedirs f (fst pt)) ;;
        match snd pt with
        | [] => ret tt
        | _ => u_mkdir path
        end
  end.
(** fs.py 603-607 *)
Definition u_makedirs (fuel : nat) (u : uri) : M S unit := hooked "makedirs" u (fs_makedirs fuel u).

(** fs.py 1001-1007: the names of a directory, split into directories and others. *)
Fixpoint kinds (top : uri) (names : list str) : M S (list str * list str) :=
  match names with
  | [] => ret ([], [])
  | n :: ns =>
      let! path <- lift (u_div top n);
      let! d <- b_isdir b path;
      let! r <- kinds top ns;
      ret (if d then (n :: fst r, snd r) else (fst r, n :: snd r))
  end.

(** fs.py 998-1017 [FileSystem.walk] together with the loop that consumes the generator: [body] is the
    loop body; it gets the root, the directories and the files, and returns the list of directories as
    it left it (a top-down walk descends into those).  The budget bounds the depth. *)
Fixpoint walk_gen {Acc} (fuel : nat) (topdown followlinks : bool)
         (body : Acc -> uri -> list str -> list str -> M S (Acc * list str)) (acc : Acc) (top : uri) : M S Acc :=
  match fuel with
  | O => raise OutOfFuel
  | Datatypes.S f =>
      let! names <- b_listdir b top;
      let! dn <- kinds top (sort_strs names);
      let! ad <- (if topdown then body acc top (fst dn) (snd dn) else ret (acc, fst dn));
      let! acc' <- foldM (fun a name =>
                            let! path <- lift (u_div top name);
                            let! l <- u_islink path;
                            if negb l || followlinks
                            then walk_gen f topdown followlinks body a path
                            else ret a)
                         (fst ad) (snd ad);
      if topdown then ret acc'
      else let! ad' <- body acc' top (fst dn) (snd dn); ret (fst ad')
  end.

(** fs.py 739-751: [list(u.walk(topdown, followlinks))] *)
Definition u_walk (fuel : nat) (topdown followlinks : bool) (u : uri) : M S (list (uri * list str * list str)) :=
  hooked "walk" u
    (walk_gen fuel topdown followlinks
              (fun acc root dirs files => ret (acc ++ [(root, dirs, files)], dirs)) [] u).

(** fs.py 198-217 [remove_dir_recursively] *)
Definition remove_dir_recursively (fuel : nat) (path : uri) : M S unit :=
  walk_gen fuel false false
    (fun (_ : unit) root dirs files =>
       mapM_ (fun n => let! p <- lift (u_div root n); b_removefile b p) files ;;
       mapM_ (fun n => let! d <- lift (u_div root n);
                       let! l <- b_islink b d;
                       if l then b_removefile b d else b_removedir b d) dirs ;;
       ret (tt, dirs)) tt path ;;
  let! l <- b_islink b path;
  if l then b_removefile b path else b_removedir b path.

(** fs.py 570-591 [BaseUri.remove].  The message of the exception needs [str(self)]. *)
Definition u_remove (fuel : nat) (recursive : bool) (u : uri) : M S unit :=
  hooked "remove" u
    (let! l <- b_islink b u;
     if l then b_removefile b u
     else
       let! e <- b_exists b u;
       if negb e then let! _ <- lift (u_str u); raise FileDoesNotExistError
       else
         let! d <- b_isdir b u;
         if d then (if recursive then remove_dir_recursively fuel u else b_removedir b u)
         else
           let! f <- b_isfile b u;
           if f then b_removefile b u else ret tt).

(** fs.py 896-900 [_copy_link] *)
Definition copy_link (source dest : uri) : M S unit :=
  let! l <- b_islink b source;
  if negb l then raise AssertionError
  else
    let! f <- u_isfile dest;
    (if f then b_removefile_by b source dest else ret tt) ;;
    let! t <- b_readlink b source;
    b_symlink_by b source t dest.

(** fs.py 923-929 and 963-969: copying one entry. *)
Definition copy_entry (followlinks same : bool) (source dest : uri) : M S unit :=
  let! l <- u_islink source;
  if l && negb followlinks then copy_link source dest
  else b_copy_content b source dest ;; (if same then b_copystat b source dest else ret tt).

(** [x in ignore] removes the first occurrence from [dirs]. *)
Fixpoint remove_first (x : str) (l : list str) : list str :=
  match l with
  | [] => []
  | y :: l' => if str_eqb x y then l' else y :: remove_first x l'
  end.

(** fs.py 943-969: the loop body of the recursive copy. *)
Definition copy_step (fuel : nat) (ignore : list str) (followlinks same : bool) (spth_len : nat) (droot : uri)
           (root : uri) (dirs files : list str) : M S (list str) :=
  let tojoin := strip_p is_space (skipn spth_len (u_path root)) in
  let! dbase <- (match tojoin with [] => ret droot | _ => lift (u_div droot tojoin) end);
  let! dirs' <- foldM (fun ds folder =>
                         if str_in folder ignore then ret (remove_first folder ds)
                         else
                           let! ddir <- lift (u_div dbase folder);
                           let! srcp <- lift (u_div root folder);
                           let! l <- u_islink srcp;
                           (if l && negb followlinks then copy_link srcp ddir else u_makedirs fuel ddir) ;;
                           ret ds) dirs dirs;
  mapM_ (fun fname =>
           let! srcf <- lift (u_div root fname);
           let! destf <- lift (u_div dbase fname);
           copy_entry followlinks same srcf destf) files ;;
  ret dirs'.

(** fs.py 903-971 [FileSystem.copy].  No backend defines [internal_copy] (lines 905-906). *)
Definition fs_copy (fuel : nat) (recursive : bool) (ignore : list str) (followlinks : bool) (source dest : uri)
  : M S unit :=
  let same := opt_eqb (u_scheme source) (u_scheme dest) in
  let! e <- u_exists source;
  if negb e then let! _ <- lift (u_str source); raise FileDoesNotExistError
  else if negb recursive then
    let! f <- u_isfile source;
    if negb f then raise AssertionError
    else
      let! dd <- u_isdir dest;
      let! dest <- (if dd then lift (u_div dest (u_last source)) else ret dest);
      copy_entry followlinks same source dest
  else
    let! d <- u_isdir source;
    if negb d then raise AssertionError
    else
      let! dd <- u_isdir dest;
      let! droot <- (if dd then lift (u_div dest (u_last source)) else ret dest);
      let! l <- u_islink source;
      if l && negb followlinks then copy_link source droot
      else
        u_makedirs fuel droot ;;
        let spth_len := (length (u_path source) + 1)%nat in
        b_hook b source (lit "walk") ;;
        walk_gen fuel true followlinks
          (fun (_ : unit) root dirs files =>
             let! ds <- copy_step fuel ignore followlinks same spth_len droot root dirs files;
             ret (tt, ds)) tt source.

(** fs.py 519-537 *)
Definition u_copy (fuel : nat) (recursive : bool) (ignore : list str) (followlinks : bool) (u other : uri) : M S unit :=
  hooked "copy" u (fs_copy fuel recursive ignore followlinks u other).

(** fs.py 986-995 [FileSystem.move] *)
Definition fs_move (fuel : nat) (source dest : uri) : M S unit :=
  let! f <- u_isfile source;
  if f then u_copy fuel false [] true source dest ;; u_remove fuel false source
  else u_copy fuel true [] true source dest ;; u_remove fuel true source.
(** fs.py 556-566 *)
Definition u_move (fuel : nat) (u other : uri) : M S unit := hooked "move" u (fs_move fuel u other).

(** fs.py 1020-1026 [FileSystem.glob]; [fnmatch] is Python's fnmatch.fnmatch, see Fnmatch.v. *)
Definition fs_glob (fnmatch : str -> str -> bool) (path : uri) (pattern : str) : M S (list uri) :=
  let! names <- u_listdir path;
  foldM (fun res f => if fnmatch f pattern then let! p <- lift (u_div path f); ret (res ++ [p]) else ret res)
        [] names.
(** fs.py 783-785 *)
Definition u_glob (fnmatch : str -> str -> bool) (path : uri) (pattern : str) : M S (list uri) :=
  hooked "glob" path (fs_glob fnmatch path pattern).
End Ops.

(** ** The memory backend *)

(** fs.py 593-599 [open] on a memory URI *)
Definition u_open (u : uri) (options : option str) : M mst handle :=
  mem_hook u (lit "open") ;; mem_open u options.

(** fs.py 926-927, 966-967 on two memory URIs.  The budget is the length of the source when the
    copying starts, plus one. *)
Definition mem_copy_content (source dest : uri) : M mst unit :=
  let! infs <- u_open source (Some (lit "rb"));
  let! outfs <- u_open dest (Some (lit "wb"));
  let! f <- get_file (h_node infs);
  copyfileobj (S (length (f_data f))) infs outfs 8192.

Definition mem_backend : backend mst := {|
  b_hook := mem_hook;
  b_exists := mem_exists;
  b_isfile := mem_isfile;
  b_isdir := mem_isdir;
  b_islink := mem_islink;
  b_listdir := mem_listdir;
  b_removefile := mem_removefile;
  b_removedir := mem_removedir;
  b_mkdir := mem_mkdir;
  b_symlink := mem_symlink;
  b_readlink := mem_readlink;
  b_copystat := mem_copystat;
  b_copy_content := mem_copy_content;
  b_removefile_by := fun _ => mem_removefile;
  b_symlink_by := fun _ => mem_symlink |}.

(** fs.py 788-801 [md5]: the blocks are fed to the hash object one after the other, so the digest is that
    of their concatenation (hashlib); [H] is the hash function. *)
Fixpoint hash_blocks (fuel : nat) (hd : handle) (fed : list N) : M mst (list N) :=
  match fuel with
  | O => raise OutOfFuel
  | S f =>
      let! v <- h_read hd 4096;
      match v with
      | VBytes [] => ret fed
      | VBytes bs => hash_blocks f hd (fed ++ bs)
      | VStr _ => raise TypeError
      end
  end.
Definition u_md5 {D} (H : list N -> D) (u : uri) : M mst D :=
  mem_hook u (lit "md5") ;;
  let! inf <- u_open u (Some (lit "rb"));
  let! f <- get_file (h_node inf);
  let! bs <- hash_blocks (S (length (f_data f))) inf [];
  ret (H bs).
