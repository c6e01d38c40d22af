(** The methods of a URI of the memory backend as data: every one goes through [with_connection]
    (fs.py 219-232), and the states programs using them can reach. *)
From Verif Require Import Str Exc Utf8 UriParse BaseUri Mem MemOps Generic Fnmatch.

Inductive uop :=
| UCopy (recursive : bool) (ignore : list str) (follow : bool) (u v : uri)   (* fs.py 519-537 *)
| UCopystat (u v : uri)                                                      (* 540-553 *)
| UMove (u v : uri)                                                          (* 556-566 *)
| URemove (recursive : bool) (u : uri)                                       (* 569-590 *)
| UOpen (u : uri) (options : option str)                                     (* 593-599 *)
| UMakedirs (u : uri)                                                        (* 602-607 *)
| UMkdir (u : uri)                                                           (* 610-616 *)
| UExists (u : uri)                                                          (* 619-627 *)
| UIsfile (u : uri)                                                          (* 630-638 *)
| UIsdir (u : uri)                                                           (* 641-649 *)
| UIsexec (u : uri) (mask : Z)                                               (* 652-665 *)
| USetExec (u : uri) (mode : Z)                                              (* 668-680 *)
| UIslink (u : uri)                                                          (* 683-694 *)
| UReadlink (u : uri)                                                        (* 697-709 *)
| USymlink (u link : uri)                                                    (* 712-724 *)
| UMtime (u : uri)                                                           (* 727-735 *)
| UWalk (topdown follow : bool) (u : uri)                                    (* 738-750, the generator used up *)
| UListdir (u : uri)                                                         (* 753-759 *)
| UInfo (u : uri) (follow : bool)                                            (* 762-775 *)
| USetInfo (u : uri) (mode mtime : option Z) (follow : bool)                 (* 762-775 *)
| USync (u v : uri)                                                          (* 778-780, 1089-1090 *)
| UGlob (u : uri) (pat : str)                                                (* 783-785 *)
| UMd5 (u : uri)                                                             (* 788-801 *)
| ULock (u : uri) (fail cleanup : bool)                                      (* 804-812, memory.py 572-573: only
                                                                               makes the lock object *)
| UManipMtime (u : uri) (t : Z)                                              (* 815-823 *)
| UManipCallback (u : uri) (cb : option callback).                           (* 815-823 *)

Definition run_uop (fuel : nat) (o : uop) : M mst unit :=
  let B := mem_backend in
  match o with
  | UCopy r ig fl u v => u_copy B fuel r ig fl u v
  | UCopystat u v => hooked B "copystat" u (mem_copystat u v)
  | UMove u v => u_move B fuel u v
  | URemove r u => u_remove B fuel r u
  | UOpen u o => drop (u_open u o)
  | UMakedirs u => u_makedirs B fuel u
  | UMkdir u => u_mkdir B u
  | UExists u => drop (u_exists B u)
  | UIsfile u => drop (u_isfile B u)
  | UIsdir u => drop (u_isdir B u)
  | UIsexec u m => drop (hooked B "isexec" u (mem_isexec u m))
  | USetExec u m => hooked B "set_exec" u (mem_set_exec u m)
  | UIslink u => drop (u_islink B u)
  | UReadlink u => drop (hooked B "readlink" u (mem_readlink u))
  | USymlink u l => hooked B "symlink" u (mem_symlink u l)
  | UMtime u => drop (hooked B "mtime" u (mem_mtime u))
  | UWalk td fl u => drop (u_walk B fuel td fl u)
  | UListdir u => drop (u_listdir B u)
  | UInfo u f => drop (hooked B "info" u (mem_info u f))
  | USetInfo u mo mt f => hooked B "info" u (mem_set_info u mo mt f)
  | USync u v => hooked B "sync" u (raise NotImplementedError)
  | UGlob u p => drop (u_glob B fnmatch u p)
  | UMd5 u => drop (u_md5 (fun bs => bs) u)
  | ULock u f c => hooked B "lock" u (ret tt)
  | UManipMtime u t => hooked B "_manipulate" u (mem_manip_mtime u t)
  | UManipCallback u cb => hooked B "_manipulate" u (mem_manip_callback u cb)
  end.

(** The URI the method is called on, and the name of the method. *)
Definition uop_uri (o : uop) : uri :=
  match o with
  | UCopy _ _ _ u _ | UCopystat u _ | UMove u _ | URemove _ u | UOpen u _ | UMakedirs u | UMkdir u | UExists u
  | UIsfile u | UIsdir u | UIsexec u _ | USetExec u _ | UIslink u | UReadlink u | USymlink u _ | UMtime u
  | UWalk _ _ u | UListdir u | UInfo u _ | USetInfo u _ _ _ | USync u _ | UGlob u _ | UMd5 u | ULock u _ _
  | UManipMtime u _ | UManipCallback u _ => u
  end.
Definition uop_name (o : uop) : str :=
  lit (match o with
       | UCopy _ _ _ _ _ => "copy" | UCopystat _ _ => "copystat" | UMove _ _ => "move" | URemove _ _ => "remove"
       | UOpen _ _ => "open" | UMakedirs _ => "makedirs" | UMkdir _ => "mkdir" | UExists _ => "exists"
       | UIsfile _ => "isfile" | UIsdir _ => "isdir" | UIsexec _ _ => "isexec" | USetExec _ _ => "set_exec"
       | UIslink _ => "islink" | UReadlink _ => "readlink" | USymlink _ _ => "symlink" | UMtime _ => "mtime"
       | UWalk _ _ _ => "walk" | UListdir _ => "listdir" | UInfo _ _ => "info" | USetInfo _ _ _ _ => "info"
       | USync _ _ => "sync" | UGlob _ _ => "glob" | UMd5 _ => "md5" | ULock _ _ _ => "lock"
       | UManipMtime _ _ => "_manipulate" | UManipCallback _ _ => "_manipulate"
       end)%string.

(** Programs: URI methods, and what MemOps.v has besides (reading and writing through handles, time). *)
Inductive act := AUri (fuel : nat) (o : uop) | AOp (o : op).
Definition run_act (a : act) : M mst unit := match a with AUri f o => run_uop f o | AOp o => run_op o end.
Definition run_acts (l : list act) (s : mst) : mst := fold_left (fun s a => snd (run_act a s)) l s.
Definition u_reachable (s : mst) : Prop := exists now epoch l, s = run_acts l (init_mem now epoch).
