(** The operating system below localfs.py: a tree of files, directories and symbolic links, path lookup, and the
    functions of os, os.path and shutil that localfs.py calls.

    This file is not a model of /repo but of what /repo calls (Linux, CPython 3.12); it is part of what is trusted.
    Simplified: one file system, one process with all permissions, no hard links and devices, names of any length
    and content; removing, adding and renaming entries does not change the modification time of a directory; a file opened
    to write through a link whose text ends in '/' is looked up like any other. *)
From Verif Require Import Str Exc UriParse Mem Misc.

Inductive pent :=
| PFile (data : list N) (mode mtime : Z)
| PDir (mode mtime : Z)
| PLink (target : str).
Definition ptree := list (list str * pent).
Record pst := mkP { p_tree : ptree; p_cwd : list str; p_now : Z; p_umask : Z }.

Definition set_tree (x : pst) (t : ptree) : pst := mkP t (p_cwd x) (p_now x) (p_umask x).

Fixpoint pget (p : list str) (t : ptree) : option pent :=
  match t with
  | [] => None
  | (q, e) :: t' => if path_eqb p q then Some e else pget p t'
  end.
Fixpoint pset (p : list str) (e : pent) (t : ptree) : ptree :=
  match t with
  | [] => [(p, e)]
  | (q, f) :: t' => if path_eqb p q then (p, e) :: t' else (q, f) :: pset p e t'
  end.
Definition pdel (p : list str) (t : ptree) : ptree := filter (fun qe => negb (path_eqb p (fst qe))) t.

(** The names in a directory, in the order of the tree. *)
Fixpoint child_name (p q : list str) : option str :=
  match p, q with
  | [], [n] => Some n
  | x :: p', y :: q' => if str_eqb x y then child_name p' q' else None
  | _, _ => None
  end.
Definition pchildren (p : list str) (t : ptree) : list str :=
  flat_map (fun qe => match child_name p (fst qe) with Some n => [n] | None => [] end) t.

(** ** Path lookup *)

(** An entry, or a name missing in an existing directory. *)
Inductive spot := At (p : list str) (e : pent) | Gap (d : list str) (n : str).

(** path_resolution(7): from directory [cur]; [follow] says whether a link at the end is followed; at most
    [budget] links. *)
Fixpoint pwalk (t : ptree) (follow : bool) (budget : nat) : list str -> list str -> res spot :=
  fix go (cur comps : list str) : res spot :=
    match pget cur t with
    | None => Raise (OSError ENOENT)
    | Some (PDir mo mt) =>
        match comps with
        | [] => Ok (At cur (PDir mo mt))
        | c :: rest =>
            if str_eqb c [] || str_eqb c dot then go cur rest
            else if str_eqb c dotdot then go (removelast cur) rest
            else
              match pget (cur ++ [c]) t with
              | None => match rest with [] => Ok (Gap cur c) | _ => Raise (OSError ENOENT) end
              | Some (PLink tg) =>
                  if match rest with [] => negb follow | _ => false end then Ok (At (cur ++ [c]) (PLink tg))
                  else
                    match budget, tg with
                    | O, _ => Raise (OSError ELOOP)
                    | _, [] => Raise (OSError ENOENT)
                    | S b, _ => pwalk t follow b (if prefixb [cSlash] tg then [] else cur) (split_on cSlash tg ++ rest)
                    end
              | Some _ => go (cur ++ [c]) rest
              end
        end
    | Some e =>
        match comps with
        | [] => Ok (At cur e)
        | _ => Raise (OSError ENOTDIR)
        end
    end.

Definition pbudget : nat := 40.
(** A path given to a system call; Python refuses NUL characters. *)
Definition plook (x : pst) (follow : bool) (p : str) : res spot :=
  if has_char 0 p then Raise ValueError
  else match p with
       | [] => Raise (OSError ENOENT)
       | _ => pwalk (p_tree x) follow pbudget (if prefixb [cSlash] p then [] else p_cwd x) (split_on cSlash p)
       end.

(** ** os *)
Definition os_stat (follow : bool) (p : str) : M pst pent := fun x =>
  (match plook x follow p with
   | Ok (At _ e) => Ok e
   | Ok (Gap _ _) => Raise (OSError ENOENT)
   | Raise e => Raise e
   end, x).

(** os.path.exists, isfile, isdir, islink: OSError and ValueError mean False. *)
Definition os_test (follow : bool) (f : pent -> bool) (p : str) : M pst bool := fun x =>
  match os_stat follow p x with
  | (Ok e, x') => (Ok (f e), x')
  | (Raise (OSError _), x') | (Raise ValueError, x') => (Ok false, x')
  | (Raise e, x') => (Raise e, x')
  end.
Definition is_pdir (e : pent) : bool := match e with PDir _ _ => true | _ => false end.
Definition is_pfile (e : pent) : bool := match e with PFile _ _ _ => true | _ => false end.
Definition is_plink (e : pent) : bool := match e with PLink _ => true | _ => false end.
Definition path_exists (p : str) : M pst bool := os_test true (fun _ => true) p.
Definition path_isfile (p : str) : M pst bool := os_test true is_pfile p.
Definition path_isdir (p : str) : M pst bool := os_test true is_pdir p.
Definition path_islink (p : str) : M pst bool := os_test false is_plink p.

Definition os_listdir (p : str) : M pst (list str) := fun x =>
  (match plook x true p with
   | Ok (At d (PDir _ _)) => Ok (pchildren d (p_tree x))
   | Ok (At _ _) => Raise (OSError ENOTDIR)
   | Ok (Gap _ _) => Raise (OSError ENOENT)
   | Raise e => Raise e
   end, x).

(** A path without the slashes at its end; whether there are any after a name; the last piece. *)
Fixpoint drop_slashes (r : str) : str :=
  match r with c :: r' => if N.eqb c cSlash then drop_slashes r' else r | [] => [] end.
Definition chop (p : str) : str := match rev (drop_slashes (rev p)) with [] => p | q => q end.
Definition slashed (p : str) : bool := negb (str_eqb (chop p) p).
Definition last_piece (p : str) : str := last (split_on cSlash (chop p)) [].

(** unlink(2); "f/" is never removed. *)
Definition sys_unlink (p : str) : M pst unit := fun x =>
  match plook x false p with
  | Ok (At _ (PDir _ _)) => (Raise (OSError EISDIR), x)
  | Ok (At q _) => (Ok tt, set_tree x (pdel q (p_tree x)))
  | Ok (Gap _ _) => (Raise (OSError ENOENT), x)
  | Raise e => (Raise e, x)
  end.

Definition os_unlink (p : str) : M pst unit := fun x =>
  if slashed p then
    (match plook x false (chop p) with
     | Ok (At _ (PDir _ _)) => Raise (OSError EISDIR)
     | Ok (At _ _) => Raise (OSError ENOTDIR)
     | Ok (Gap _ _) => Raise (OSError ENOENT)
     | Raise e => Raise e
     end, x)
  else sys_unlink p x.

(** rmdir(2): "d/" is "d", also when d is a link; "." and ".." are refused. *)
Definition sys_rmdir (p : str) : M pst unit := fun x =>
  match plook x false p with
  | Ok (At [] _) => (Raise (OSError EBUSY), x)
  | Ok (At q (PDir _ _)) =>
      match pchildren q (p_tree x) with
      | [] => (Ok tt, set_tree x (pdel q (p_tree x)))
      | _ => (Raise (OSError ENOTEMPTY), x)
      end
  | Ok (At _ _) => (Raise (OSError ENOTDIR), x)
  | Ok (Gap _ _) => (Raise (OSError ENOENT), x)
  | Raise e => (Raise e, x)
  end.

Definition os_rmdir (p : str) : M pst unit := fun x =>
  match plook x false (chop p) with
  | Ok (At _ _) =>
      if str_eqb (last_piece p) dot then (Raise (OSError EINVAL), x)
      else if str_eqb (last_piece p) dotdot then (Raise (OSError ENOTEMPTY), x)
      else sys_rmdir (chop p) x
  | _ => sys_rmdir (chop p) x
  end.

(** mkdir(2): "d/" is "d". *)
Definition sys_mkdir (p : str) : M pst unit := fun x =>
  match plook x false p with
  | Ok (At _ _) => (Raise (OSError EEXIST), x)
  | Ok (Gap d n) => (Ok tt, set_tree x (pset (d ++ [n]) (PDir (Z.land 511 (Z.lnot (p_umask x))) (p_now x)) (p_tree x)))
  | Raise e => (Raise e, x)
  end.

Definition os_mkdir (p : str) : M pst unit := sys_mkdir (chop p).

(** symlink(2); "l/" is never made. *)
Definition sys_symlink (target p : str) : M pst unit := fun x =>
  if has_char 0 target then (Raise ValueError, x)
  else match target, plook x false p with
       | _, Raise ValueError => (Raise ValueError, x)
       | [], _ => (Raise (OSError ENOENT), x)
       | _, Ok (At _ _) => (Raise (OSError EEXIST), x)
       | _, Ok (Gap d n) => (Ok tt, set_tree x (pset (d ++ [n]) (PLink target) (p_tree x)))
       | _, Raise e => (Raise e, x)
       end.

Definition os_symlink (target p : str) : M pst unit := fun x =>
  if slashed p then
    (if has_char 0 target then Raise ValueError
     else match target, plook x false (chop p) with
          | _, Raise ValueError => Raise ValueError
          | [], _ => Raise (OSError ENOENT)
          | _, Ok (At _ _) => Raise (OSError EEXIST)
          | _, Ok (Gap _ _) => Raise (OSError ENOENT)
          | _, Raise e => Raise e
          end, x)
  else sys_symlink target p x.

Definition os_readlink (p : str) : M pst str := fun x =>
  (match plook x false p with
   | Ok (At _ (PLink tg)) => Ok tg
   | Ok (At _ _) => Raise (OSError EINVAL)
   | Ok (Gap _ _) => Raise (OSError ENOENT)
   | Raise e => Raise e
   end, x).

(** Permission bits; the kind of the entry is in the other bits of st_mode. *)
Definition perm (mode : Z) : Z := Z.land mode 4095.
Definition with_stat (e : pent) (mode mtime : Z) : pent :=
  match e with PFile d _ _ => PFile d mode mtime | PDir _ _ => PDir mode mtime | PLink t => PLink t end.
Definition os_chmod (p : str) (mode : Z) : M pst unit := fun x =>
  match plook x true p with
  | Ok (At q e) =>
      (Ok tt, set_tree x (pset q (with_stat e (perm mode) (match e with PFile _ _ mt => mt | PDir _ mt => mt | PLink _ => 0 end))
                                 (p_tree x)))
  | Ok (Gap _ _) => (Raise (OSError ENOENT), x)
  | Raise e => (Raise e, x)
  end.
(** st_mode, st_mtime and st_size; the size of a directory depends on the file system. *)
Definition st_mode (e : pent) : Z :=
  match e with PFile _ mo _ => Z.lor 32768 mo | PDir mo _ => Z.lor 16384 mo | PLink _ => Z.lor 40960 511 end.
Definition st_mtime (e : pent) : Z := match e with PFile _ _ mt => mt | PDir _ mt => mt | PLink _ => 0 end.
Definition st_size (e : pent) : N :=
  match e with PFile d _ _ => N.of_nat (length d) | PDir _ _ => 4096 | PLink t => N.of_nat (length t) end.

(** shutil.copystat(src, dst) *)
Definition sh_copystat (src dst : str) : M pst unit := fun x =>
  match plook x true src, plook x true dst with
  | Ok (At _ e), Ok (At q f) => (Ok tt, set_tree x (pset q (with_stat f (perm (st_mode e)) (st_mtime e)) (p_tree x)))
  | Raise e, _ => (Raise e, x)
  | Ok (Gap _ _), _ => (Raise (OSError ENOENT), x)
  | _, Raise e => (Raise e, x)
  | _, Ok (Gap _ _) => (Raise (OSError ENOENT), x)
  end.

(** ** Files.  An open file is its place in the tree. *)
Definition os_open_r (p : str) : M pst (list str) := fun x =>
  (match plook x true p with
   | Ok (At q (PFile _ _ _)) => Ok q
   | Ok (At _ _) => Raise (OSError EISDIR)
   | Ok (Gap _ _) => Raise (OSError ENOENT)
   | Raise e => Raise e
   end, x).
Definition new_pfile (x : pst) : pent := PFile [] (Z.land 438 (Z.lnot (p_umask x))) (p_now x).
(** open(2) with O_CREAT refuses "f/" before it looks at f. *)
Definition refuse_slashed (p : str) (m : M pst (list str)) : M pst (list str) := fun x =>
  if slashed p then (match plook x false (chop p) with Raise e => Raise e | Ok _ => Raise (OSError EISDIR) end, x)
  else m x.
Definition sys_open_w (p : str) : M pst (list str) := fun x =>
  match plook x true p with
  | Ok (At q (PFile _ mo _)) => (Ok q, set_tree x (pset q (PFile [] mo (p_now x)) (p_tree x)))
  | Ok (At _ _) => (Raise (OSError EISDIR), x)
  | Ok (Gap d n) => (Ok (d ++ [n]), set_tree x (pset (d ++ [n]) (new_pfile x) (p_tree x)))
  | Raise e => (Raise e, x)
  end.
Definition sys_open_a (p : str) : M pst (list str) := fun x =>
  match plook x true p with
  | Ok (At q (PFile _ _ _)) => (Ok q, x)
  | Ok (At _ _) => (Raise (OSError EISDIR), x)
  | Ok (Gap d n) => (Ok (d ++ [n]), set_tree x (pset (d ++ [n]) (new_pfile x) (p_tree x)))
  | Raise e => (Raise e, x)
  end.
Definition os_open_w (p : str) : M pst (list str) := refuse_slashed p (sys_open_w p).
Definition os_open_a (p : str) : M pst (list str) := refuse_slashed p (sys_open_a p).
(** Everything in the file; adding at the end. *)
Definition fd_data (q : list str) : M pst (list N) := fun x =>
  (Ok (match pget q (p_tree x) with Some (PFile d _ _) => d | _ => [] end), x).
Definition fd_append (q : list str) (b : list N) : M pst unit := fun x =>
  (Ok tt, match pget q (p_tree x), b with
          | Some (PFile d mo _), _ :: _ => set_tree x (pset q (PFile (d ++ b) mo (p_now x)) (p_tree x))
          | _, _ => x
          end).

(** ** rename(2) *)
Fixpoint strip_path (p q : list str) : option (list str) :=
  match p, q with
  | [], _ => Some q
  | x :: p', y :: q' => if str_eqb x y then strip_path p' q' else None
  | _, [] => None
  end.
(** Everything at and below [p] is now at and below [q]. *)
Definition prename (p q : list str) (t : ptree) : ptree :=
  map (fun re => match strip_path p (fst re) with Some r => (q ++ r, snd re) | None => re end) (pdel q t).
Definition is_below (p q : list str) : bool := match strip_path p q with Some _ => true | None => false end.

(** The source found at [p], and what was found for the destination *)
Definition sys_rename (p : list str) (e : pent) (b : spot) : M pst unit := fun x =>
  let t := p_tree x in
  let go q := (Ok tt, set_tree x (prename p q t)) in
  match p with
  | [] => (Raise (OSError EBUSY), x)
  | _ =>
      match b with
      | Gap d n => if is_pdir e && is_below p (d ++ [n]) then (Raise (OSError EINVAL), x) else go (d ++ [n])
      | At [] _ => (Raise (OSError EBUSY), x)
      | At q f =>
          if path_eqb p q then (Ok tt, x)
          else if is_pdir e && is_below p q then (Raise (OSError EINVAL), x)
          else if is_below q p then (Raise (OSError ENOTEMPTY), x)
          else match is_pdir e, is_pdir f with
               | true, true => match pchildren q t with [] => go q | _ => (Raise (OSError ENOTEMPTY), x) end
               | true, false => (Raise (OSError ENOTDIR), x)
               | false, true => (Raise (OSError EISDIR), x)
               | false, false => go q
               end
      end
  end.
(** Paths that end in "." or "..", and "/"; slashes at the end are for directories. *)
Definition unnamed (p : str) : bool := let l := last_piece p in str_eqb l [] || str_eqb l dot || str_eqb l dotdot.
Definition os_rename (src dst : str) : M pst unit := fun x =>
  if has_char 0 src || has_char 0 dst then (Raise ValueError, x)
  else match plook x false (chop src), plook x false (chop dst) with
  | Raise e, _ => (Raise e, x)
  | Ok _, Raise e => (Raise e, x)
  | Ok a, Ok b =>
      if unnamed src || unnamed dst then (Raise (OSError EBUSY), x)
      else match a with
      | Gap _ _ => (Raise (OSError ENOENT), x)
      | At p e => if negb (is_pdir e) && (slashed src || slashed dst) then (Raise (OSError ENOTDIR), x) else sys_rename p e b x
      end
  end.

(** ** shutil.move *)

(** shutil._basename; os.path.join(d, n) for a name without '/' *)
Definition sh_basename (p : str) : str := last (split_on cSlash (rev (drop_slashes (rev p)))) [].
Definition path_join (d n : str) : str :=
  match d with
  | [] => n
  | _ => if N.eqb (last d 0%N) cSlash then d ++ n else d ++ cSlash :: n
  end.
(** shutil._samefile *)
Definition samefile (p q : str) : M pst bool := fun x =>
  (if has_char 0 p || has_char 0 q then Raise ValueError
   else match plook x true p, plook x true q with
   | Ok (At a _), Ok (At b _) => Ok (path_eqb a b)
   | _, _ => Ok false
   end, x).
(** shutil._destinsrc, on the texts as given (the library first makes them absolute and removes dots). *)
Definition with_slash (p : str) : str := if N.eqb (last p 0%N) cSlash then p else p ++ [cSlash].
Definition destinsrc (src dst : str) : bool := prefixb (with_slash src) (with_slash dst).

(** os.makedirs of the directory a path is in: the missing directories of the lookup. *)
Fixpoint make_parents (cur comps : list str) (x : pst) : res (list str) * pst :=
  match comps with
  | [] => (Raise (OSError EEXIST), x)
  | [c] => match pget (cur ++ [c]) (p_tree x) with
           | None => (Ok (cur ++ [c]), x)
           | Some _ => (Raise (OSError EEXIST), x)
           end
  | c :: rest =>
      match pget (cur ++ [c]) (p_tree x) with
      | None => make_parents (cur ++ [c]) rest
                  (set_tree x (pset (cur ++ [c]) (PDir (Z.land 511 (Z.lnot (p_umask x))) (p_now x)) (p_tree x)))
      | Some (PDir _ _) => make_parents (cur ++ [c]) rest x
      | Some (PFile _ _ _) => (Raise (OSError ENOTDIR), x)
      | Some (PLink _) => (Raise OutOfFuel, x)
      end
  end.
(** shutil.copytree(src, dst, symlinks=True); shutil.rmtree(src), reached when os.rename failed.  Together they
    move the tree.  Not modelled, [OutOfFuel] stands for it: destinations with links on the way, and
    those inside the source. *)
Definition copy_and_remove_tree (p : list str) (dst : str) : M pst unit := fun x =>
  match make_parents [] (filter (fun c => negb (str_eqb c [])) (split_on cSlash dst)) x with
  | (Ok q, x') => if is_below p q then (Raise OutOfFuel, x) else (Ok tt, set_tree x' (prename p q (p_tree x')))
  | (Raise e, x') => (Raise e, x')
  end.
(** Absolute, without '.', '..' and more slashes than needed *)
Definition clean_path (p : str) : bool :=
  str_eqb p [cSlash] || match split_on cSlash p with
                        | [] :: l => forallb (fun c => negb (str_eqb c [] || str_eqb c dot || str_eqb c dotdot)) l
                        | _ => false
                        end.

(** shutil.copy2(src, dst); os.unlink(src) of a file, [dst] not a directory *)
Definition copy_and_remove_file (src dst : str) : M pst unit :=
  let! same <- samefile src dst;
  if same then raise ShutilError
  else
    let! p <- os_open_r src;
    let! q <- os_open_w dst;
    let! d <- fd_data p;
    fd_append q d ;; sh_copystat src dst ;; os_unlink src.
(** What shutil.move does after os.rename raised an OSError.
    Directories: only clean paths are modelled, [OutOfFuel] stands for the others. *)
Definition sh_move_fallback (src dst real_dst : str) : M pst unit :=
  let! l <- path_islink src;
  if l then let! tg <- os_readlink src; os_symlink tg real_dst ;; os_unlink src
  else
    let! d <- path_isdir src;
    if d then
      if negb (clean_path src && clean_path real_dst) || unnamed src then raise OutOfFuel
      else if destinsrc src dst then raise ShutilError
      else fun x => match plook x true src with
                    | Ok (At p _) => copy_and_remove_tree p real_dst x
                    | _ => (Raise OutOfFuel, x)
                    end
    else copy_and_remove_file src real_dst.

Definition sh_move (src dst : str) : M pst unit :=
  let! dd <- path_isdir dst;
  let! same <- (if dd then samefile src dst else ret false);
  let! sl <- (if same then path_islink src else ret false);
  if same && negb sl then os_rename src dst
  else
    let real_dst := if dd then path_join dst (sh_basename src) else dst in
    let! there <- (if dd then path_exists real_dst else ret false);
    if there then raise ShutilError
    else fun x =>
      match os_rename src real_dst x with
      | (Raise (OSError _), x') => sh_move_fallback src dst real_dst x'
      | r => r
      end.
