(** fs.py 805-812 [BaseUri.lock] and memory.py 257-281 [MemoryLock], used as [with u.lock(...) as f: body] by one thread.

    Simplified: the lock is not reentrant and there is one thread, so that waiting for a lock that is held
    never ends; this is OutOfFuel. *)
From Verif Require Import Str Exc Utf8 UriParse BaseUri Mem MemOps Generic UriOps Locks.

(** fs.py 804-812 ([with_connection] calls the hook), memory.py 267-281; the with statement of Python calls [__exit__] however the body ends, and an exception of
    [__exit__] replaces that of the body *)
Definition with_lock {A} (u : uri) (fail cleanup : bool) (body : handle -> M mst A) : M mst A :=
  hooked mem_backend "lock" u (fun s =>
  match lock_open u s with
  | (Raise e, s1) => (Raise e, s1)
  | (Ok (h, l), s1) =>
      match try_acquire l s1 with
      | (Ok true, s2) => let (r, s3) := body h s2 in
                         match lock_exit u l cleanup s3 with
                         | (Raise e, s4) => (Raise e, s4)
                         | (Ok _, s4) => (r, s4)
                         end
      | (_, s2) => (Raise (if fail then LockFileObtainException else OutOfFuel), s2)
      end
  end).
