(** Words for C137-C142: methods a class derived from FileSystem may define, and those the methods of URIs need. *)
From Verif Require Import Str Exc UriParse BaseUri Mem Generic Plug Zip.

Inductive meth :=
| MHook | MOpen | MRead | MWrite | MExit | MListdir | MRemovefile | MRemovedir | MMkdir | MExists | MIsfile | MIsdir | MIsexec
| MSetExec | MSupports | MIslink | MReadlink | MSymlink | MInfo | MSync | MMtime | MCopystat | MLock | MManipulate | MInternal
| MSwitch | MUpdate | MLog | MLogByTime.

Section Words.
Context {S F V : Type}.

(** [defines c m]: the class has a method [m] of its own.  (File objects have [read], [write] and [__exit__].) *)
Definition given {A} (o : option A) : bool := match o with Some _ => true | None => false end.
Definition defines (c : own S F V) (m : meth) : bool :=
  match m with
  | MHook => given (o_hook c) | MOpen => given (o_open c) | MRead | MWrite | MExit => true
  | MListdir => given (o_listdir c) | MRemovefile => given (o_removefile c) | MRemovedir => given (o_removedir c)
  | MMkdir => given (o_mkdir c) | MExists => given (o_exists c) | MIsfile => given (o_isfile c) | MIsdir => given (o_isdir c)
  | MIsexec => given (o_isexec c) | MSetExec => given (o_set_exec c) | MSupports => given (o_supports c)
  | MIslink => given (o_islink c) | MReadlink => given (o_readlink c) | MSymlink => given (o_symlink c)
  | MInfo => given (o_info c) | MSync => given (o_sync c) | MMtime => given (o_mtime c) | MCopystat => given (o_copystat c)
  | MLock => given (o_lock c) | MManipulate => given (o_manipulate c) | MInternal => given (o_internal_copy c)
  | MSwitch => given (o_switch c) | MUpdate => given (o_update c) | MLog => given (o_log c) | MLogByTime => given (o_log_by_time c)
  end.

(** Two classes have the same method [m]: neither defines it, or both do and the methods do the same. *)
Definition same0 {A} (f g : option (M S A)) : Prop :=
  match f, g with Some f, Some g => forall s, f s = g s | None, None => True | _, _ => False end.
Definition same1 {X A} (f g : option (X -> M S A)) : Prop :=
  match f, g with Some f, Some g => forall x s, f x s = g x s | None, None => True | _, _ => False end.
Definition same2 {X Y A} (f g : option (X -> Y -> M S A)) : Prop :=
  match f, g with Some f, Some g => forall x y s, f x y s = g x y s | None, None => True | _, _ => False end.
Definition same3 {X Y Z A} (f g : option (X -> Y -> Z -> M S A)) : Prop :=
  match f, g with Some f, Some g => forall x y z s, f x y z s = g x y z s | None, None => True | _, _ => False end.
Definition same4 {X Y Z W A} (f g : option (X -> Y -> Z -> W -> M S A)) : Prop :=
  match f, g with Some f, Some g => forall x y z w s, f x y z w s = g x y z w s | None, None => True | _, _ => False end.
Definition same_method (c c' : own S F V) (m : meth) : Prop :=
  match m with
  | MHook => same2 (o_hook c) (o_hook c')
  | MOpen => same2 (o_open c) (o_open c')
  | MRead => forall f n s, o_read c f n s = o_read c' f n s
  | MWrite => forall f v s, o_write c f v s = o_write c' f v s
  | MExit => forall f s, o_exit c f s = o_exit c' f s
  | MListdir => same1 (o_listdir c) (o_listdir c')
  | MRemovefile => same1 (o_removefile c) (o_removefile c')
  | MRemovedir => same1 (o_removedir c) (o_removedir c')
  | MMkdir => same1 (o_mkdir c) (o_mkdir c')
  | MExists => same1 (o_exists c) (o_exists c')
  | MIsfile => same1 (o_isfile c) (o_isfile c')
  | MIsdir => same1 (o_isdir c) (o_isdir c')
  | MIsexec => same2 (o_isexec c) (o_isexec c')
  | MSetExec => same2 (o_set_exec c) (o_set_exec c')
  | MSupports => same0 (o_supports c) (o_supports c')
  | MIslink => same1 (o_islink c) (o_islink c')
  | MReadlink => same1 (o_readlink c) (o_readlink c')
  | MSymlink => same2 (o_symlink c) (o_symlink c')
  | MInfo => same3 (o_info c) (o_info c')
  | MSync => same3 (o_sync c) (o_sync c')
  | MMtime => same1 (o_mtime c) (o_mtime c')
  | MCopystat => same2 (o_copystat c) (o_copystat c')
  | MLock => same3 (o_lock c) (o_lock c')
  | MManipulate => same2 (o_manipulate c) (o_manipulate c')
  | MInternal => same4 (o_internal_copy c) (o_internal_copy c')
  | MSwitch => same2 (o_switch c) (o_switch c') /\ o_revisioned c = o_revisioned c'
  | MUpdate => same3 (o_update c) (o_update c') /\ o_revisioned c = o_revisioned c'
  | MLog => same3 (o_log c) (o_log c') /\ o_revisioned c = o_revisioned c'
  | MLogByTime => same3 (o_log_by_time c) (o_log_by_time c') /\ o_revisioned c = o_revisioned c'
  end.

(** Every call of the class's own [m], if it has one, keeps [I] and raises only what [E] allows. *)
Section Sound.
Variable I : S -> Prop.
Variable E : exc -> Prop.
Definition sound {A} (m : M S A) : Prop := forall s, I s -> I (snd (m s)) /\ forall e, fst (m s) = Raise e -> E e.
Definition if_given {A} (o : option A) (P : A -> Prop) : Prop := match o with Some a => P a | None => True end.
Definition sound_method (c : own S F V) (m : meth) : Prop :=
  match m with
  | MHook => if_given (o_hook c) (fun f => forall u n, sound (f u n))
  | MOpen => if_given (o_open c) (fun f => forall u o, sound (f u o))
  | MRead => forall f n, sound (o_read c f n)
  | MWrite => forall f v, sound (o_write c f v)
  | MExit => forall f, sound (o_exit c f)
  | MListdir => if_given (o_listdir c) (fun f => forall u, sound (f u))
  | MRemovefile => if_given (o_removefile c) (fun f => forall u, sound (f u))
  | MRemovedir => if_given (o_removedir c) (fun f => forall u, sound (f u))
  | MMkdir => if_given (o_mkdir c) (fun f => forall u, sound (f u))
  | MExists => if_given (o_exists c) (fun f => forall u, sound (f u))
  | MIsfile => if_given (o_isfile c) (fun f => forall u, sound (f u))
  | MIsdir => if_given (o_isdir c) (fun f => forall u, sound (f u))
  | MIsexec => if_given (o_isexec c) (fun f => forall u m, sound (f u m))
  | MSetExec => if_given (o_set_exec c) (fun f => forall u m, sound (f u m))
  | MSupports => if_given (o_supports c) (fun f => sound f)
  | MIslink => if_given (o_islink c) (fun f => forall u, sound (f u))
  | MReadlink => if_given (o_readlink c) (fun f => forall u, sound (f u))
  | MSymlink => if_given (o_symlink c) (fun f => forall u v, sound (f u v))
  | MInfo => if_given (o_info c) (fun f => forall u i fl, sound (f u i fl))
  | MSync => if_given (o_sync c) (fun f => forall u v o, sound (f u v o))
  | MMtime => if_given (o_mtime c) (fun f => forall u, sound (f u))
  | MCopystat => if_given (o_copystat c) (fun f => forall u v, sound (f u v))
  | MLock => if_given (o_lock c) (fun f => forall u a b, sound (f u a b))
  | MManipulate => if_given (o_manipulate c) (fun f => forall u k, sound (f u k))
  | MInternal => if_given (o_internal_copy c) (fun f => forall u v r i, sound (f u v r i))
  | MSwitch => if_given (o_switch c) (fun f => forall u b, sound (f u b))
  | MUpdate => if_given (o_update c) (fun f => forall u a b, sound (f u a b))
  | MLog => if_given (o_log c) (fun f => forall u n k, sound (f u n k))
  | MLogByTime => if_given (o_log_by_time c) (fun f => forall u a b, sound (f u a b))
  end.
End Sound.
Definition keeps_inv (I : S -> Prop) : own S F V -> meth -> Prop := sound_method I (fun _ => True).
Definition never_missing : own S F V -> meth -> Prop := sound_method (fun _ => True) (fun e => e <> NotImplementedError).

(** [supports_symlinks] is defined and never answers True. *)
Definition linkless (c : own S F V) : Prop :=
  match o_supports c with Some f => forall s, fst (f s) <> Ok true | None => False end.
(** Methods that have a default, or whose default is as good as one *)
Definition provides (c : own S F V) (m : meth) : Prop :=
  match m with
  | MHook | MInternal | MSupports | MLock | MManipulate => True
  | MIslink | MReadlink | MSymlink => defines c m = true \/ linkless c
  | MSwitch | MUpdate | MLog | MLogByTime => defines c m = true \/ o_revisioned c = false
  | _ => defines c m = true
  end.

(** The methods of the backend each method of a URI uses *)
Definition of_links : list meth := [MSupports; MIslink].
Definition of_copied_link : list meth := [MIsfile; MRemovefile; MReadlink; MSymlink].
Definition of_content : list meth := [MOpen; MRead; MWrite; MExit; MCopystat].
Definition of_copy (known recursive follow : bool) : list meth :=
  MHook :: MExists :: MIsdir :: of_links ++ of_content ++ (if known then [MInternal] else [])
    ++ (if recursive then [MMkdir; MListdir] else [MIsfile]) ++ (if follow then [] else of_copied_link).
Definition of_remove (recursive : bool) : list meth :=
  MHook :: of_links ++ [MExists; MIsdir; MIsfile; MRemovefile; MRemovedir] ++ (if recursive then [MListdir] else []).
Definition needs (o : pop V) : list meth :=
  match o with
  | PCopy kn r _ fl _ _ => of_copy kn r fl
  | PCopystat _ _ => [MHook; MCopystat]
  | PMove kn _ _ => of_copy kn false true ++ of_copy kn true true ++ of_remove true
  | PRemove r _ => of_remove r
  | POpen _ _ => [MHook; MOpen]
  | PMakedirs _ => [MHook; MIsdir; MMkdir]
  | PMkdir _ => [MHook; MMkdir]
  | PExists _ => [MHook; MExists]
  | PIsfile _ => [MHook; MIsfile]
  | PIsdir _ => [MHook; MIsdir]
  | PIsexec _ _ => [MHook; MIsexec]
  | PSetExec _ _ => [MHook; MSetExec]
  | PIslink _ => MHook :: of_links
  | PReadlink _ => [MHook; MSupports; MReadlink]
  | PSymlink _ _ => [MHook; MSupports; MSymlink]
  | PMtime _ => [MHook; MMtime]
  | PWalk _ _ _ => MHook :: MListdir :: MIsdir :: of_links
  | PListdir _ => [MHook; MListdir]
  | PInfo _ _ _ => [MHook; MInfo]
  | PSync _ _ _ => [MHook; MSync]
  | PGlob _ _ => [MHook; MListdir]
  | PMd5 _ => [MHook; MOpen; MRead; MExit]
  | PLock _ _ _ => [MHook; MLock]
  | PManipulate _ _ => [MHook; MManipulate]
  | PSwitch rev _ _ => if rev then [MHook; MSwitch] else []
  | PUpdate rev _ _ _ => if rev then [MHook; MUpdate] else []
  | PLog rev _ _ _ => if rev then [MHook; MLog] else []
  | PLogByTime rev _ _ _ => if rev then [MHook; MLogByTime] else []
  end.
End Words.

(** A method of a URI that is answered by one method of the backend, which the class does not define: the name the hook
    gets, and the exception *)
Section Missing.
Context {S F V : Type}.
Variable c : own S F V.
Inductive missing : pop V -> uri -> str -> exc -> Prop :=
| mi_open u o : defines c MOpen = false -> missing (POpen u o) u (lit "open") NotImplementedError
| mi_listdir u : defines c MListdir = false -> missing (PListdir u) u (lit "listdir") NotImplementedError
| mi_mkdir u : defines c MMkdir = false -> missing (PMkdir u) u (lit "mkdir") NotImplementedError
| mi_exists u : defines c MExists = false -> missing (PExists u) u (lit "exists") NotImplementedError
| mi_isfile u : defines c MIsfile = false -> missing (PIsfile u) u (lit "isfile") NotImplementedError
| mi_isdir u : defines c MIsdir = false -> missing (PIsdir u) u (lit "isdir") NotImplementedError
| mi_isexec u m : defines c MIsexec = false -> missing (PIsexec u m) u (lit "isexec") NotImplementedError
| mi_set_exec u m : defines c MSetExec = false -> missing (PSetExec u m) u (lit "set_exec") NotImplementedError
| mi_islink u : defines c MIslink = false -> defines c MSupports = false -> missing (PIslink u) u (lit "islink") NotImplementedError
| mi_readlink u : defines c MReadlink = false -> defines c MSupports = false -> missing (PReadlink u) u (lit "readlink") NotImplementedError
| mi_symlink u v : defines c MSymlink = false -> defines c MSupports = false -> missing (PSymlink u v) u (lit "symlink") NotImplementedError
| mi_info u i fl : defines c MInfo = false -> missing (PInfo u i fl) u (lit "info") NotImplementedError
| mi_sync u v o : defines c MSync = false -> missing (PSync u v o) u (lit "sync") NotImplementedError
| mi_mtime u : defines c MMtime = false -> missing (PMtime u) u (lit "mtime") NotImplementedError
| mi_copystat u v : defines c MCopystat = false -> missing (PCopystat u v) u (lit "copystat") NotImplementedError
| mi_lock u a b : defines c MLock = false -> missing (PLock u a b) u (lit "lock") AttributeError
| mi_manipulate u k : defines c MManipulate = false -> missing (PManipulate u k) u (lit "_manipulate") AttributeError.
(** The hook is called, then [e] is raised. *)
Definition hook_then (u : uri) (n : str) (e : exc) (s : S) : exc * S :=
  match o_hook c with
  | None => (e, s)
  | Some h => match h u n s with (Ok _, s') => (e, s') | (Raise e', s') => (e', s') end
  end.
End Missing.

(** A class that defines none of the methods (only [_initialize], without which it has no connections) *)
Definition bare {S F V} (c : own S F V) : Prop := forall m, m <> MRead -> m <> MWrite -> m <> MExit -> defines c m = false.
(** What it raises *)
Definition bare_exc {V} (revisioned : bool) (o : pop V) : exc :=
  match o with
  | PLock _ _ _ | PManipulate _ _ => AttributeError
  | PSwitch rev _ _ => if rev && revisioned then TypeError else AttributeError
  | PLog rev _ _ k => if rev && revisioned then match k with [] => NotImplementedError | _ => TypeError end else AttributeError
  | PUpdate rev _ _ _ | PLogByTime rev _ _ _ => if rev && revisioned then NotImplementedError else AttributeError
  | _ => NotImplementedError
  end.

(** *** The zip backend as such a class: zip.py 95-216, with any file objects *)
Section ZipClass.
Context {F V : Type}.
Variables (op : uri -> option str -> M zst F) (rd : F -> N -> M zst V) (wr : F -> V -> M zst unit) (ex : F -> M zst unit).
Definition zip_class : own zst F V :=
  mkOwn zst F V None (Some op) rd wr ex (Some zip_listdir) None None None (Some zip_exists) (Some zip_isfile) (Some zip_isdir)
    (Some (fun _ _ => raise NotImplementedError)) (Some (fun _ _ => raise NotImplementedError)) (Some (ret false))   (* zip.py 170-181 *)
    None None None None None None (Some (fun _ _ => raise NotImplementedError))                                      (* zip.py 214-216 *)
    None None None false None None None None.
End ZipClass.
(** Nothing waits to be written to the archive. *)
Definition flushed (s : zst) : Prop := match z_handle s with Some h => zh_open h && zh_write h && zh_dirty h = false | None => True end.
(** Methods that do not open members *)
Definition no_members {V} (o : pop V) : Prop :=
  match o with PCopy _ _ _ _ _ _ | PMove _ _ _ | POpen _ _ | PMd5 _ => False | _ => True end.
