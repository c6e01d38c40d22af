(** fs.py 827-1115: the classes [FileSystem] and [RevisionedFileSystem], classes derived from them (backends of other
    packages among them), and the methods of URIs on a connection of such a class.

    Simplified: one connection; the class leaves [copy], [_copy_link], [makedirs], [move], [walk] and [glob] as they are; the
    [__exit__] of its file objects does not swallow exceptions. *)
From Verif Require Import Str Exc UriParse BaseUri Mem Generic.

(** What a class defines itself.  [S] is the state of the connection (and of all it acts on), [F] the file objects, [V] any
    other values: times, infos, what is read. *)
Record own (S F V : Type) := mkOwn {
  o_hook : option (uri -> str -> M S unit);                     (* pre_call_hook *)
  o_open : option (uri -> option str -> M S F);
  o_read : F -> N -> M S V;                                     (* read(n) of the file objects *)
  o_write : F -> V -> M S unit;
  o_exit : F -> M S unit;
  o_listdir : option (uri -> M S (list str));
  o_removefile : option (uri -> M S unit);
  o_removedir : option (uri -> M S unit);
  o_mkdir : option (uri -> M S unit);
  o_exists : option (uri -> M S bool);
  o_isfile : option (uri -> M S bool);
  o_isdir : option (uri -> M S bool);
  o_isexec : option (uri -> Z -> M S bool);
  o_set_exec : option (uri -> Z -> M S unit);
  o_supports : option (M S bool);                               (* supports_symlinks *)
  o_islink : option (uri -> M S bool);
  o_readlink : option (uri -> M S uri);
  o_symlink : option (uri -> uri -> M S unit);
  o_info : option (uri -> option V -> bool -> M S V);
  o_sync : option (uri -> uri -> str -> M S unit);
  o_mtime : option (uri -> M S V);
  o_copystat : option (uri -> uri -> M S unit);
  o_lock : option (uri -> bool -> bool -> M S V);
  o_manipulate : option (uri -> list (str * V) -> M S unit);
  o_internal_copy : option (uri -> uri -> bool -> list str -> M S unit);
  o_revisioned : bool;                                          (* derived from RevisionedFileSystem *)
  o_switch : option (uri -> str -> M S V);                      (* with the two arguments it is called with *)
  o_update : option (uri -> bool -> bool -> M S V);
  o_log : option (uri -> Z -> list (str * V) -> M S V);
  o_log_by_time : option (uri -> option V -> option V -> M S V) }.
Arguments o_hook {S F V}. Arguments o_open {S F V}. Arguments o_read {S F V}. Arguments o_write {S F V}.
Arguments o_exit {S F V}. Arguments o_listdir {S F V}. Arguments o_removefile {S F V}. Arguments o_removedir {S F V}.
Arguments o_mkdir {S F V}. Arguments o_exists {S F V}. Arguments o_isfile {S F V}. Arguments o_isdir {S F V}.
Arguments o_isexec {S F V}. Arguments o_set_exec {S F V}. Arguments o_supports {S F V}. Arguments o_islink {S F V}.
Arguments o_readlink {S F V}. Arguments o_symlink {S F V}. Arguments o_info {S F V}. Arguments o_sync {S F V}.
Arguments o_mtime {S F V}. Arguments o_copystat {S F V}. Arguments o_lock {S F V}. Arguments o_manipulate {S F V}.
Arguments o_internal_copy {S F V}. Arguments o_revisioned {S F V}. Arguments o_switch {S F V}. Arguments o_update {S F V}.
Arguments o_log {S F V}. Arguments o_log_by_time {S F V}.

Section Class.
Context {S F V : Type}.
Variable truthy : V -> bool.                     (* bool(block) *)
Variable bytes_of : V -> option (list N).        (* what hashlib takes *)
Variable fnmatch : str -> str -> bool.
Variable c : own S F V.

(** *** Methods of the connection: those of the class, or the inherited ones *)
(** fs.py 888-893 *)
Definition c_hook (u : uri) (n : str) : M S unit := match o_hook c with Some f => f u n | None => ret tt end.
(** fs.py 1032-1060 *)
Definition c_open (u : uri) (o : option str) : M S F := match o_open c with Some f => f u o | None => raise NotImplementedError end.
Definition c_listdir (u : uri) : M S (list str) := match o_listdir c with Some f => f u | None => raise NotImplementedError end.
Definition c_removefile (u : uri) : M S unit := match o_removefile c with Some f => f u | None => raise NotImplementedError end.
Definition c_removedir (u : uri) : M S unit := match o_removedir c with Some f => f u | None => raise NotImplementedError end.
Definition c_mkdir (u : uri) : M S unit := match o_mkdir c with Some f => f u | None => raise NotImplementedError end.
Definition c_exists (u : uri) : M S bool := match o_exists c with Some f => f u | None => raise NotImplementedError end.
Definition c_isfile (u : uri) : M S bool := match o_isfile c with Some f => f u | None => raise NotImplementedError end.
Definition c_isdir (u : uri) : M S bool := match o_isdir c with Some f => f u | None => raise NotImplementedError end.
Definition c_isexec (u : uri) (m : Z) : M S bool := match o_isexec c with Some f => f u m | None => raise NotImplementedError end.
Definition c_set_exec (u : uri) (m : Z) : M S unit := match o_set_exec c with Some f => f u m | None => raise NotImplementedError end.
(** fs.py 1063-1064 *)
Definition c_supports : M S bool := match o_supports c with Some f => f | None => raise NotImplementedError end.
(** fs.py 1067-1070 *)
Definition c_islink (u : uri) : M S bool :=
  match o_islink c with
  | Some f => f u
  | None => let! y <- c_supports; if negb y then ret false else raise NotImplementedError
  end.
(** fs.py 1073-1076 *)
Definition c_readlink (u : uri) : M S uri :=
  match o_readlink c with
  | Some f => f u
  | None => let! y <- c_supports; if negb y then raise OperationIsNotSupportedOnPlatform else raise NotImplementedError
  end.
(** fs.py 1079-1082 *)
Definition c_symlink (t l : uri) : M S unit :=
  match o_symlink c with
  | Some f => f t l
  | None => let! y <- c_supports; if negb y then raise OperationIsNotSupportedOnPlatform else raise NotImplementedError
  end.
(** fs.py 1085-1098 *)
Definition c_info (u : uri) (i : option V) (fl : bool) : M S V := match o_info c with Some f => f u i fl | None => raise NotImplementedError end.
Definition c_sync (u v : uri) (o : str) : M S unit := match o_sync c with Some f => f u v o | None => raise NotImplementedError end.
Definition c_mtime (u : uri) : M S V := match o_mtime c with Some f => f u | None => raise NotImplementedError end.
Definition c_copystat (u v : uri) : M S unit := match o_copystat c with Some f => f u v | None => raise NotImplementedError end.
(** [FileSystem] has no [lock] and no [_manipulate] *)
Definition c_lock (u : uri) (f cl : bool) : M S V := match o_lock c with Some g => g u f cl | None => raise AttributeError end.
Definition c_manipulate (u : uri) (k : list (str * V)) : M S unit := match o_manipulate c with Some g => g u k | None => raise AttributeError end.
(** fs.py 1101-1115.  [switch] is declared with one argument and called with two (fs.py 830), [log] has no keywords. *)
Definition c_switch (u : uri) (b : str) : M S V :=
  match o_switch c with Some f => f u b | None => raise (if o_revisioned c then TypeError else AttributeError) end.
Definition c_update (u : uri) (r cl : bool) : M S V :=
  match o_update c with Some f => f u r cl | None => raise (if o_revisioned c then NotImplementedError else AttributeError) end.
Definition c_log (u : uri) (n : Z) (k : list (str * V)) : M S V :=
  match o_log c with
  | Some f => f u n k
  | None => raise (if o_revisioned c then match k with [] => NotImplementedError | _ => TypeError end else AttributeError)
  end.
Definition c_log_by_time (u : uri) (a b : option V) : M S V :=
  match o_log_by_time c with Some f => f u a b | None => raise (if o_revisioned c then NotImplementedError else AttributeError) end.

(** [with … as f: body] *)
Definition with_file {A} (m : M S F) (body : F -> M S A) : M S A :=
  let! f <- m;
  fun s => match body f s with
           | (r, s') => match o_exit c f s' with
                        | (Ok _, s'') => (r, s'')
                        | (Raise e, s'') => (Raise e, s'')
                        end
           end.
(** fs.py 594-599 [open] *)
Definition p_open (u : uri) (o : option str) : M S F := c_hook u (lit "open") ;; c_open u o.
(** shutil.copyfileobj *)
Fixpoint p_copyfileobj (fuel : nat) (infs outfs : F) : M S unit :=
  match fuel with
  | O => raise OutOfFuel
  | Datatypes.S f =>
      let! v <- o_read c infs 8192;
      if truthy v then o_write c outfs v ;; p_copyfileobj f infs outfs else ret tt
  end.
(** fs.py 926-927, 966-967 *)
Definition p_content (fuel : nat) (source dest : uri) : M S unit :=
  with_file (p_open source (Some (lit "rb"))) (fun infs =>
    with_file (p_open dest (Some (lit "wb"))) (fun outfs => p_copyfileobj fuel infs outfs)).

Definition class_backend (fuel : nat) : backend S :=
  mkBackend S c_hook c_exists c_isfile c_isdir c_islink c_listdir c_removefile c_removedir c_mkdir c_symlink c_readlink
    c_copystat (p_content fuel) (fun _ => c_removefile) (fun _ => c_symlink).

(** fs.py 789-801 [md5]: what is fed to the hash *)
Fixpoint p_blocks (fuel : nat) (f : F) (fed : list N) : M S (list N) :=
  match fuel with
  | O => raise OutOfFuel
  | Datatypes.S n =>
      let! v <- o_read c f 4096;
      if truthy v
      then match bytes_of v with
           | Some bs => p_blocks n f (fed ++ bs)
           | None => raise TypeError
           end
      else ret fed
  end.
Definition p_md5 (fuel : nat) (u : uri) : M S (list N) :=
  c_hook u (lit "md5") ;; with_file (p_open u (Some (lit "rb"))) (fun f => p_blocks fuel f []).

(** fs.py 519-537, 903-971 [copy].  [known]: the object [dest] has been used before, so that
    [source.connection is dest.connection] (the attribute of a new object is None, fs.py 270). *)
Definition p_copy (fuel : nat) (known recursive : bool) (ignore : list str) (followlinks : bool) (source dest : uri) : M S unit :=
  c_hook source (lit "copy") ;;
  match o_internal_copy c, known with
  | Some f, true => f source dest recursive ignore
  | _, _ => fs_copy (class_backend fuel) fuel recursive ignore followlinks source dest
  end.
(** fs.py 556-566, 986-995 [move] *)
Definition p_move (fuel : nat) (known : bool) (source dest : uri) : M S unit :=
  let b := class_backend fuel in
  c_hook source (lit "move") ;;
  let! f <- u_isfile b source;
  if f then p_copy fuel known false [] true source dest ;; u_remove b fuel false source
  else p_copy fuel known true [] true source dest ;; u_remove b fuel true source.

(** *** The methods of a URI as data (fs.py 519-846).  [rev]: the URI is a [RevisionedUri]; of another one [switch],
    [update], [log], [log_by_time] are no attributes (fs.py 373-374, no connection is asked for). *)
Inductive pop :=
| PCopy (known recursive : bool) (ignore : list str) (follow : bool) (u v : uri)
| PCopystat (u v : uri)
| PMove (known : bool) (u v : uri)
| PRemove (recursive : bool) (u : uri)
| POpen (u : uri) (options : option str)
| PMakedirs (u : uri)
| PMkdir (u : uri)
| PExists (u : uri)
| PIsfile (u : uri)
| PIsdir (u : uri)
| PIsexec (u : uri) (mask : Z)
| PSetExec (u : uri) (mode : Z)
| PIslink (u : uri)
| PReadlink (u : uri)
| PSymlink (u link : uri)
| PMtime (u : uri)
| PWalk (topdown follow : bool) (u : uri)
| PListdir (u : uri)
| PInfo (u : uri) (set : option V) (follow : bool)
| PSync (u v : uri) (options : str)
| PGlob (u : uri) (pat : str)
| PMd5 (u : uri)
| PLock (u : uri) (fail cleanup : bool)
| PManipulate (u : uri) (k : list (str * V))
| PSwitch (rev : bool) (u : uri) (branch : str)
| PUpdate (rev : bool) (u : uri) (recursive clean : bool)
| PLog (rev : bool) (u : uri) (limit : Z) (k : list (str * V))
| PLogByTime (rev : bool) (u : uri) (start stop : option V).

Inductive pans :=
| RUnit | RBool (b : bool) | RNames (l : list str) | RUri (u : uri) | RUris (l : list uri) | RFile (f : F) | RVal (v : V)
| RWalk (l : list (uri * list str * list str)) | RBytes (l : list N).

Definition ans {A} (k : A -> pans) (m : M S A) : M S pans := let! a <- m; ret (k a).
Definition asks {A} (n : String.string) (u : uri) (k : A -> pans) (m : M S A) : M S pans := c_hook u (lit n) ;; ans k m.
Definition only_rev {A} (rev : bool) (m : M S A) : M S A := if rev then m else raise AttributeError.
Definition run_pop (fuel : nat) (o : pop) : M S pans :=
  let b := class_backend fuel in
  match o with
  | PCopy kn r ig fl u v => ans (fun _ => RUnit) (p_copy fuel kn r ig fl u v)
  | PCopystat u v => asks "copystat" u (fun _ => RUnit) (c_copystat u v)
  | PMove kn u v => ans (fun _ => RUnit) (p_move fuel kn u v)
  | PRemove r u => ans (fun _ => RUnit) (u_remove b fuel r u)
  | POpen u o => ans RFile (p_open u o)
  | PMakedirs u => ans (fun _ => RUnit) (u_makedirs b fuel u)
  | PMkdir u => asks "mkdir" u (fun _ => RUnit) (c_mkdir u)
  | PExists u => asks "exists" u RBool (c_exists u)
  | PIsfile u => asks "isfile" u RBool (c_isfile u)
  | PIsdir u => asks "isdir" u RBool (c_isdir u)
  | PIsexec u m => asks "isexec" u RBool (c_isexec u m)
  | PSetExec u m => asks "set_exec" u (fun _ => RUnit) (c_set_exec u m)
  | PIslink u => asks "islink" u RBool (c_islink u)
  | PReadlink u => asks "readlink" u RUri (c_readlink u)
  | PSymlink u l => asks "symlink" u (fun _ => RUnit) (c_symlink u l)
  | PMtime u => asks "mtime" u RVal (c_mtime u)
  | PWalk td fl u => ans RWalk (u_walk b fuel td fl u)
  | PListdir u => asks "listdir" u RNames (c_listdir u)
  | PInfo u i fl => asks "info" u RVal (c_info u i fl)
  | PSync u v o => asks "sync" u (fun _ => RUnit) (c_sync u v o)
  | PGlob u p => ans RUris (u_glob b fnmatch u p)
  | PMd5 u => ans RBytes (p_md5 fuel u)
  | PLock u f cl => asks "lock" u RVal (c_lock u f cl)
  | PManipulate u k => asks "_manipulate" u (fun _ => RUnit) (c_manipulate u k)
  | PSwitch rev u br => only_rev rev (asks "switch" u RVal (c_switch u br))
  | PUpdate rev u r cl => only_rev rev (asks "update" u RVal (c_update u r cl))
  | PLog rev u n k => only_rev rev (asks "log" u RVal (c_log u n k))
  | PLogByTime rev u a b => only_rev rev (asks "log_by_time" u RVal (c_log_by_time u a b))
  end.
End Class.
Arguments pop V : clear implicits.
Arguments pans F V : clear implicits.
