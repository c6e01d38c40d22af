(** fs.py 805-812 [BaseUri.lock] and memory.py 257-281 [MemoryLock] where there are several memory connections: the table of
    locks, MemoryFile.FILE_LOCKS (memory.py 28), is one for all of them.

    Simplified as in LockBlock.v: one thread, waiting for ever is OutOfFuel. *)
From Verif Require Import Str Exc Utf8 UriParse BaseUri Mem MemOps Generic UriOps Locks Registry Net.

(** memory.py 267-275, after fs.py 219-230 *)
Definition net_lock_enter (u : uri) (fail : bool) : M net (nat * handle * lock_id) :=
  let! c <- enter u;
  at_conn c (mem_hook u (lit "lock")) ;;
  let! hl <- at_conn c (lock_open u);
  let! ok <- at_conn c (try_acquire (snd hl));
  if ok then ret (c, fst hl, snd hl) else raise (if fail then LockFileObtainException else OutOfFuel).
(** memory.py 278-281 *)
Definition net_lock_exit (u : uri) (c : nat) (l : lock_id) (cleanup : bool) : M net unit :=
  at_conn c (release l) ;; if cleanup then u_remove net_backend 0 false u else ret tt.
(** [with u.lock(fail, cleanup) as f: body] *)
Definition net_lock {A} (u : uri) (fail cleanup : bool) (body : nat -> handle -> M net A) : M net A := fun N =>
  match net_lock_enter u fail N with
  | (Raise e, N1) => (Raise e, N1)
  | (Ok (c, h, l), N1) => let (r, N2) := body c h N1 in
                          match net_lock_exit u c l cleanup N2 with
                          | (Raise e, N3) => (Raise e, N3)
                          | (Ok _, N3) => (r, N3)
                          end
  end.
