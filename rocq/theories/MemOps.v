(** The operations of the memory file system as data, and the states a program can reach. *)
From Verif Require Import Str Exc Utf8 UriParse BaseUri Mem.

Inductive op :=
| OpTick (now : Z)                      (* time passes *)
| OpEpoch                               (* another memory connection is opened: memory.py 311 *)
| OpHeld (l : list lock_id)             (* locks are taken or released *)
| OpExists (u : uri) | OpIsfile (u : uri) | OpIsdir (u : uri) | OpIslink (u : uri)
| OpMkdir (u : uri)
| OpSymlink (target link : uri)
| OpReadlink (u : uri)
| OpListdir (u : uri)
| OpRemovefile (u : uri)
| OpRemovedir (u : uri)
| OpInfo (u : uri) (follow : bool)
| OpSetInfo (u : uri) (mode mtime : option Z) (follow : bool)
| OpMtime (u : uri)
| OpCopystat (src dest : uri)
| OpIsexec (u : uri) (mask : Z)
| OpSetExec (u : uri) (mode : Z)
| OpManipMtime (u : uri) (t : Z)
| OpManipCallback (u : uri) (cb : option callback)
| OpOpen (u : uri) (options : option str)
| OpRead (h : handle) (size : Z)
| OpWrite (h : handle) (v : pyval)
| OpSeek (h : handle) (to whence : Z)
| OpTell (h : handle)
| OpTruncate (h : handle) (pos : option Z)
| OpReadline (h : handle)
| OpNext (h : handle)
| OpClose (h : handle).

(** The result is dropped. *)
Definition drop {A} (m : M mst A) : M mst unit := m ;; ret tt.

Definition run_op (o : op) : M mst unit :=
  match o with
  | OpTick t => fun s => (Ok tt, mkM (m_heap s) (m_next s) t (m_epoch s) (m_held s) (m_cbs s))
  | OpEpoch => fun s => (Ok tt, mkM (m_heap s) (m_next s) (m_now s) (S (m_epoch s)) (m_held s) (m_cbs s))
  | OpHeld l => fun s => (Ok tt, mkM (m_heap s) (m_next s) (m_now s) (m_epoch s) l (m_cbs s))
  | OpExists u => drop (mem_exists u)
  | OpIsfile u => drop (mem_isfile u)
  | OpIsdir u => drop (mem_isdir u)
  | OpIslink u => drop (mem_islink u)
  | OpMkdir u => mem_mkdir u
  | OpSymlink t l => mem_symlink t l
  | OpReadlink u => drop (mem_readlink u)
  | OpListdir u => drop (mem_listdir u)
  | OpRemovefile u => mem_removefile u
  | OpRemovedir u => mem_removedir u
  | OpInfo u f => drop (mem_info u f)
  | OpSetInfo u mo mt f => mem_set_info u mo mt f
  | OpMtime u => drop (mem_mtime u)
  | OpCopystat a b => mem_copystat a b
  | OpIsexec u m => drop (mem_isexec u m)
  | OpSetExec u m => mem_set_exec u m
  | OpManipMtime u t => mem_manip_mtime u t
  | OpManipCallback u cb => mem_manip_callback u cb
  | OpOpen u o => drop (mem_open u o)
  | OpRead h z => drop (h_read h z)
  | OpWrite h v => h_write h v
  | OpSeek h a b => h_seek h a b
  | OpTell h => drop (h_tell h)
  | OpTruncate h p => drop (h_truncate h p)
  | OpReadline h => drop (h_readline h)
  | OpNext h => drop (h_next h)
  | OpClose h => h_close h
  end.

(** A program: operations one after the other; it goes on after an exception (the caller may have
    caught it). *)
Definition run_ops (l : list op) (s : mst) : mst := fold_left (fun s o => snd (run_op o s)) l s.

(** memory.py 306-311: every file system starts empty. *)
Definition reachable (s : mst) : Prop := exists now epoch l, s = run_ops l (init_mem now epoch).
