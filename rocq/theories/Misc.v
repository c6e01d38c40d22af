(** misc.py (TempFileHandle, WorkingDirectory) and memory.py 284-296 (LookupExceptionClass): the context managers.

    The operating system is modelled by the set of its directories and files and the working directory.
    Simplified: no links and permissions; every failure of a path is ENOENT; what a temporary file contains is
    left out. *)
From Verif Require Import Str Exc UriParse BaseUri SpecUri.

Record ost := mkO { o_cwd : list str; o_dirs : list (list str); o_files : list (list str) }.
Fixpoint path_eqb (a b : list str) : bool :=
  match a, b with
  | [], [] => true
  | x :: a', y :: b' => str_eqb x y && path_eqb a' b'
  | _, _ => false
  end.
Definition has_path (p : list str) (l : list (list str)) : bool := existsb (path_eqb p) l.

(** The kernel's path lookup. *)
Definition dot : str := [cDot].
Definition dotdot : str := [cDot; cDot].
Fixpoint walk_steps (dirs : list (list str)) (at_ : list str) (steps : list str) : option (list str) :=
  if has_path at_ dirs then
    match steps with
    | [] => Some at_
    | x :: xs => walk_steps dirs (if str_eqb x [] || str_eqb x dot then at_
                                  else if str_eqb x dotdot then removelast at_ else at_ ++ [x]) xs
    end
  else None.
Definition start_of (s : ost) (p : str) : list str := if prefixb [cSlash] p then [] else o_cwd s.
Definition find_dir (s : ost) (p : str) : option (list str) :=
  match p with [] => None | _ => walk_steps (o_dirs s) (start_of s p) (split_on cSlash p) end.
(** A file: a name in a directory. *)
Definition find_entry (s : ost) (p : str) : option (list str) :=
  let n := last (split_on cSlash p) [] in
  if str_eqb n [] || str_eqb n dot || str_eqb n dotdot then None
  else match walk_steps (o_dirs s) (start_of s p) (removelast (split_on cSlash p)) with
       | Some d => Some (d ++ [n])
       | None => None
       end.

Definition os_getcwd : M ost str := fun s =>
  if has_path (o_cwd s) (o_dirs s) then (Ok (abs_path (o_cwd s)), s) else (Raise (OSError ENOENT), s).
Definition os_chdir (p : str) : M ost unit := fun s =>
  match find_dir s p with
  | Some d => (Ok tt, mkO d (o_dirs s) (o_files s))
  | None => (Raise (OSError ENOENT), s)
  end.
Definition os_unlink (p : str) : M ost unit := fun s =>
  match find_entry s p with
  | Some f => if has_path f (o_files s)
              then (Ok tt, mkO (o_cwd s) (o_dirs s) (filter (fun x => negb (path_eqb f x)) (o_files s)))
              else (Raise (OSError ENOENT), s)
  | None => (Raise (OSError ENOENT), s)
  end.
Definition os_open (p : str) : M ost unit := fun s =>
  match find_entry s p with
  | Some f => if has_path f (o_files s) then (Ok tt, s) else (Raise (OSError ENOENT), s)
  | None => (Raise (OSError ENOENT), s)
  end.

(** [with cm: body] of Python, for an __exit__ that returns something false *)
Definition with_ {S A} (enter : M S unit) (exit : M S unit) (body : M S A) : M S A := fun s =>
  match enter s with
  | (Raise e, s1) => (Raise e, s1)
  | (Ok _, s1) => let (r, s2) := body s1 in
                  match exit s2 with
                  | (Raise e, s3) => (Raise e, s3)
                  | (Ok _, s3) => (r, s3)
                  end
  end.

(** misc.py 43-45 [WorkingDirectory.__init__]: the object is the directory at that time, and the path *)
Definition wd_new (u : uri) : M ost (str * str) := let! c <- os_getcwd; ret (c, u_path u).
(** misc.py 47-51 *)
Definition wd_enter (o : str * str) : M ost unit := os_chdir (snd o).
Definition wd_exit (o : str * str) : M ost unit := os_chdir (fst o).
(** [with WorkingDirectory(u): body] *)
Definition with_wd {A} (u : uri) (body : M ost A) : M ost A :=
  let! o <- wd_new u; with_ (wd_enter o) (wd_exit o) body.

(** misc.py 22-37: [with TempFileHandle(name) as h: body] *)
Definition temp_close (name : str) : M ost unit := os_unlink name.
Definition with_temp {A} (name : str) (body : M ost A) : M ost A :=
  os_open name ;; with_ (ret tt) (temp_close name) body.

(** memory.py 284-296.  [l_cls] is lookup_exc_class of the file system, [l_prev o] is prev_exc_class of the
    object [o], [l_next] the next object. *)
Record lst := mkL { l_cls : option nat; l_prev : nat -> option nat; l_next : nat }.
Definition lec_enter (o x : nat) : M lst unit := fun s =>
  (Ok tt, mkL (Some x) (fun i => if Nat.eqb i o then l_cls s else l_prev s i) (l_next s)).
Definition lec_exit (o : nat) : M lst unit := fun s => (Ok tt, mkL (l_prev s o) (l_prev s) (l_next s)).
Definition lec_new : M lst nat := fun s =>
  (Ok (l_next s), mkL (l_cls s) (fun i => if Nat.eqb i (l_next s) then None else l_prev s i) (Datatypes.S (l_next s))).
(** [with LookupExceptionClass(fs, x) as o: body(o)] *)
Definition with_lec {A} (x : nat) (body : nat -> M lst A) : M lst A :=
  let! o <- lec_new; with_ (lec_enter o x) (lec_exit o) (body o).

(** Programs that use the class with nested with-statements; every one makes its own object. *)
Inductive prog :=
| PDo (m : option nat -> res unit)      (* anything that looks at the class, and perhaps raises *)
| PSeq (p q : prog)
| PTry (p q : prog)                     (* try: p  except: q *)
| PWith (x : nat) (p : prog).
Fixpoint exec (p : prog) : M lst unit :=
  match p with
  | PDo m => fun s => (m (l_cls s), s)
  | PSeq p q => exec p ;; exec q
  | PTry p q => fun s => match exec p s with (Raise _, s') => exec q s' | r => r end
  | PWith x p => with_lec x (fun _ => exec p)
  end.
