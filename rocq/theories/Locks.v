(** memory.py 257-281 [MemoryLock] and 580-589 [_manipulate(lock=..., unlock=...)], used by several threads.

    A thread stops between opening the file, taking the lock, leaving the block, and removing the file.
    Simplified: every other operation of the file system is one step; a thread uses one lock; what it does
    inside the with-block are steps of the environment. *)
From Verif Require Import Str Exc Utf8 UriParse BaseUri Mem MemOps Generic UriOps.

Definition lock_eqb (a b : lock_id) : bool := Nat.eqb (fst a) (fst b) && str_eqb (snd a) (snd b).
Definition is_held (l : lock_id) (s : mst) : bool := existsb (lock_eqb l) (m_held s).
Definition set_held (s : mst) (l : list lock_id) : mst :=
  mkM (m_heap s) (m_next s) (m_now s) (m_epoch s) l (m_cbs s).
Fixpoint drop_lock (l : lock_id) (ls : list lock_id) : list lock_id :=
  match ls with [] => [] | x :: ls' => if lock_eqb l x then ls' else x :: drop_lock l ls' end.
(** threading.Lock.acquire(False) *)
Definition try_acquire (l : lock_id) : M mst bool :=
  fun s => if is_held l s then (Ok false, s) else (Ok true, set_held s (l :: m_held s)).
(** threading.Lock.release *)
Definition release (l : lock_id) : M mst unit :=
  fun s => if is_held l s then (Ok tt, set_held s (drop_lock l (m_held s))) else (Raise RuntimeError, s).

(** memory.py 268-269: the file is opened for writing first *)
Definition lock_open (u : uri) : M mst (handle * lock_id) :=
  let! h <- mem_open u (Some (lit "w"));
  let! f <- get_file (h_node h);
  ret (h, f_lock f).
(** memory.py 267-275 [__enter__] with fail_on_lock *)
Definition lock_enter (u : uri) : M mst handle :=
  let! hl <- lock_open u;
  let! ok <- try_acquire (snd hl);
  if ok then ret (fst hl) else raise LockFileObtainException.
(** memory.py 278-281 [__exit__] *)
Definition lock_exit (u : uri) (l : lock_id) (cleanup : bool) : M mst unit :=
  release l ;; if cleanup then u_remove mem_backend 0 false u else ret tt.

(** [with u.lock(fail, cleanup): ...] *)
Inductive locker :=
| KStart (u : uri) (fail cleanup : bool)                     (* line 268 *)
| KOpen (u : uri) (fail cleanup : bool) (n : nat) (l : lock_id)  (* lines 270-274 *)
| KIn (u : uri) (cleanup : bool) (n : nat) (l : lock_id)     (* inside the block, to line 279 *)
| KClean (u : uri)                                           (* line 281 *)
| KDone (r : res unit).
(** [None]: waits for the lock, or has finished. *)
Definition lstep (t : locker) (s : mst) : option (locker * mst) :=
  match t with
  | KStart u fail cl => Some (match lock_open u s with
                              | (Ok hl, s') => (KOpen u fail cl (h_node (fst hl)) (snd hl), s')
                              | (Raise e, s') => (KDone (Raise e), s')
                              end)
  | KOpen u fail cl n l => match try_acquire l s with
                           | (Ok true, s') => Some (KIn u cl n l, s')
                           | (_, s') => if fail then Some (KDone (Raise LockFileObtainException), s') else None
                           end
  | KIn u cl n l => Some (match release l s with
                          | (Ok _, s') => (if cl then KClean u else KDone (Ok tt), s')
                          | (Raise e, s') => (KDone (Raise e), s')
                          end)
  | KClean u => Some (let (r, s') := u_remove mem_backend 0 false u s in (KDone r, s'))
  | KDone _ => None
  end.

Record kconfig := mkK { k_mem : mst; k_threads : list locker }.
Inductive kevent :=
| KRun (i : nat)          (* the next step of a thread *)
| KAct (a : act)          (* any operation by anybody *)
| KTakes (u : uri)        (* _manipulate(lock=True), 580-584; nothing when it has to wait *)
| KFrees (u : uri).       (* _manipulate(unlock=True), 586-589 *)
Fixpoint kreplace (i : nat) (t : locker) (l : list locker) : list locker :=
  match l, i with
  | [], _ => []
  | _ :: l', O => t :: l'
  | x :: l', S i' => x :: kreplace i' t l'
  end.
Definition kapply (e : kevent) (c : kconfig) : kconfig :=
  let s := k_mem c in
  match e with
  | KRun i => match nth_error (k_threads c) i with
              | None => c
              | Some t => match lstep t s with
                          | None => c
                          | Some (t', s') => mkK s' (kreplace i t' (k_threads c))
                          end
              end
  | KAct a => mkK (snd (run_act a s)) (k_threads c)
  | KTakes u => mkK (match mem_path u with Ok p => snd (try_acquire (m_epoch s, p) s) | Raise _ => s end) (k_threads c)
  | KFrees u => mkK (match mem_path u with Ok p => snd (release (m_epoch s, p) s) | Raise _ => s end) (k_threads c)
  end.
Definition kruns (l : list kevent) (c : kconfig) : kconfig := fold_left (fun c e => kapply e c) l c.
Definition k_starting (t : locker) : Prop := match t with KStart _ _ _ => True | _ => False end.
(** Nobody opens another memory connection ([OpEpoch], memory.py 311) or interferes with the locks. *)
Definition peaceful (e : kevent) : Prop :=
  match e with KAct (AOp OpEpoch) | KAct (AOp (OpHeld _)) | KFrees _ => False | _ => True end.
