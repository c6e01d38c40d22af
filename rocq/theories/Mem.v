(** memory.py: the in-memory backend. *)
From Verif Require Import Str Exc Utf8 UriParse BaseUri.

(** ** Nodes and state *)

(** A lock object is identified by the generation of the FILE_LOCKS table it was
    taken from (the table is emptied by every [_initialize], line 311) and its key. *)
Definition lock_id := (nat * str)%type.

(** memory.py 24-44 [MemoryFile].  [f_data], [f_pos] are the content and position of the
    BytesIO object.  [ctime] and [_line_reader] are not observable and left out. *)
Record file := mkFile {
  f_path : str; f_data : list N; f_pos : nat; f_mtime : Z; f_mode : Z; f_lock : lock_id }.

(** memory.py 24, 195, 237: the three node classes; [kind] is the constructor.  Directory
    entries refer to nodes by allocation number (Python object identity). *)
Inductive node :=
| NFile (f : file)
| NDir (entries : dict nat) (mtime mode : Z)
| NLink (target : uri) (mtime mode : Z).

(** A registered callback (memory.py 445-448): what it does to the caller, given the
    URI and the name of the operation: nothing, or raise.  Simplification: callbacks do not
    themselves change the file system. *)
Definition callback := uri -> str -> option exc.

(** The MemoryFileSystem object (memory.py 306-311) together with the clock and the
    FILE_LOCKS table.  [m_heap] holds the node objects; numbers from [m_next] on are unused;
    node 0 is [self._fs].  [lookup_exc_class] is left out: OSError and IOError are the same
    class in Python 3. *)
Record mst := mkM {
  m_heap : nat -> node; m_next : nat; m_now : Z; m_epoch : nat;
  m_held : list lock_id; m_cbs : dict (option callback) }.

Definition root_id : nat := 0.

(** memory.py 199-202, 306-311 *)
Definition init_mem (now : Z) (epoch : nat) : mst :=
  mkM (fun _ => NDir [] now 0) 1 now epoch [] [].

Definition heap_set (h : nat -> node) (i : nat) (n : node) : nat -> node :=
  fun j => if Nat.eqb j i then n else h j.

Definition set_heap (s : mst) (h : nat -> node) : mst :=
  mkM h (m_next s) (m_now s) (m_epoch s) (m_held s) (m_cbs s).
Definition upd (i : nat) (n : node) : M mst unit :=
  fun s => (Ok tt, set_heap s (heap_set (m_heap s) i n)).
(** Creation of a node object. *)
Definition alloc (n : node) : M mst nat :=
  fun s => (Ok (m_next s),
            mkM (heap_set (m_heap s) (m_next s) n) (S (m_next s)) (m_now s) (m_epoch s)
                (m_held s) (m_cbs s)).
Definition get_node_obj (i : nat) : M mst node := fun s => (Ok (m_heap s i), s).

Definition is_link (n : node) : bool := match n with NLink _ _ _ => true | _ => false end.
Definition is_dir (n : node) : bool := match n with NDir _ _ _ => true | _ => false end.
Definition is_file (n : node) : bool := match n with NFile _ => true | _ => false end.

(** ** Path lookup *)

(** memory.py 376-381 [_path] *)
Definition mem_path (u : uri) : res str :=
  match u_path u with
  | c :: p => if N.eqb c cSlash then Ok p else Raise AssertionError
  | [] => Raise AssertionError
  end.

(** [p.split("/")] *)
Definition steps_of (p : str) : list str := split_on cSlash p.

Section Lookup.
Variable h : nat -> node.
Variable throw : bool.

(** memory.py 338-357 [_get_node_prev]: the loop over the path components, given the
    [_child] method.  [lastp] is [steps[-1]]; the code compares by value, not by position.
    Nodes other than directories have no attribute [has]; neither has None. *)
Fixpoint steps_loop (child : nat -> str -> bool -> res (option nat)) (follow : bool) (lastp : str)
         (prev current : option nat) (steps : list str) : res (option nat * option nat) :=
  match steps with
  | [] => Ok (prev, current)
  | part :: rest =>
      match current with
      | None => Raise AttributeError
      | Some c =>
          match h c with
          | NDir es _ _ =>
              if dhas part es then
                rlet nd <- child c part (if str_eqb part lastp then follow else true);
                steps_loop child follow lastp (Some c) nd rest
              else if throw then Raise (OSError ENOENT)
              else Ok (None, None)
          | _ => Raise AttributeError
          end
      end
  end.

(** memory.py 314-329 [_child]; [budget] is 32 - linklevel. *)
Fixpoint child (budget : nat) (parent : nat) (name : str) (resolve : bool) : res (option nat) :=
  match h parent with
  | NDir es _ _ =>
      match dget name es with
      | None => Ok None
      | Some i =>
          match h i with
          | NLink target _ _ =>
              if resolve then
                match budget with
                | O => Raise (OSError ELOOP)
                | S b =>
                    rlet p <- mem_path target;
                    rlet nd <- (match p with
                                | [] => Ok (Some root_id)
                                | _ => let steps := steps_of p in
                                       rlet pc <- steps_loop (child b) true (last steps [])
                                                             None (Some root_id) steps;
                                       Ok (snd pc)
                                end);
                    match nd with
                    | None => Ok None
                    | Some j => if is_link (h j) then Raise AssertionError else Ok (Some j)
                    end
                end
              else Ok (Some i)
          | _ => Ok (Some i)
          end
      end
  | _ => Raise AttributeError
  end.

(** linklevel starts at 0 and 32 is the limit (line 320). *)
Definition max_links : nat := 32.

(** memory.py 338-357 [_get_node_prev(self._fs, steps, follow_link, throw)] *)
Definition get_node_prev (steps : list str) (follow : bool) : res (option nat * option nat) :=
  steps_loop (child max_links) follow (last steps []) None (Some root_id) steps.

(** memory.py 360-363 [_get_node] *)
Definition get_node (steps : list str) (follow : bool) : res (option nat) :=
  rlet pc <- get_node_prev steps follow; Ok (snd pc).

(** memory.py 366-373 [_get_node_for_path] *)
Definition get_node_for_path (u : uri) (follow : bool) : res (option nat) :=
  rlet p <- mem_path u;
  match p with
  | [] => Ok (Some root_id)
  | _ => get_node (steps_of p) follow
  end.
End Lookup.

(** Using None where a node object is needed is an AttributeError. *)
Definition need {A} (o : option A) : res A :=
  match o with Some a => Ok a | None => Raise AttributeError end.

Definition lookup (u : uri) (follow throw : bool) : M mst (option nat) :=
  fun s => (get_node_for_path (m_heap s) throw u follow, s).
(** Lookup with [throw=True], as the callers use it. *)
Definition lookup_node (u : uri) (follow : bool) : M mst nat :=
  let! o <- lookup u follow true; lift (need o).

(** ** Predicates *)

(** memory.py 384-396 *)
Definition mem_isdir (u : uri) : M mst bool :=
  let! p <- lift (mem_path u);
  match p with
  | [] => ret true
  | _ => fun s =>
      match get_node_for_path (m_heap s) false u true with
      | Ok None => (Ok false, s)
      | Ok (Some i) => (Ok (is_dir (m_heap s i)), s)
      | Raise (OSError ELOOP) => (Ok false, s)
      | Raise (OSError _) => (Ok true, s)
      | Raise e => (Raise e, s)
      end
  end.

(** memory.py 399-409 *)
Definition mem_isfile (u : uri) : M mst bool :=
  let! p <- lift (mem_path u);
  match p with
  | [] => ret false
  | _ => fun s =>
      match get_node_for_path (m_heap s) false u true with
      | Ok None => (Ok false, s)
      | Ok (Some i) => (Ok (is_file (m_heap s i)), s)
      | Raise (OSError ELOOP) => (Ok false, s)
      | Raise (OSError _) => (Ok false, s)
      | Raise e => (Raise e, s)
      end
  end.

(** memory.py 432-442 *)
Definition mem_exists (u : uri) : M mst bool :=
  let! p <- lift (mem_path u);
  match p with
  | [] => ret true
  | _ => fun s =>
      match get_node_for_path (m_heap s) false u true with
      | Ok None => (Ok false, s)
      | Ok (Some _) => (Ok true, s)
      | Raise (OSError ELOOP) => (Ok false, s)
      | Raise (OSError _) => (Ok true, s)
      | Raise e => (Raise e, s)
      end
  end.

(** memory.py 604-611 *)
Definition mem_islink (u : uri) : M mst bool :=
  let! p <- lift (mem_path u);
  match p with
  | [] => ret false
  | _ =>
      let! o <- lookup u false false;
      match o with
      | None => ret false
      | Some i => let! n <- get_node_obj i; ret (is_link n)
      end
  end.

(** ** Structure changes *)

(** [nd.has(name)] *)
Definition node_has (i : nat) (name : str) : M mst bool :=
  let! n <- get_node_obj i;
  match n with
  | NDir es _ _ => ret (dhas name es)
  | _ => raise AttributeError
  end.

(** memory.py 331-332, 225-226 [_create_child] *)
Definition create_child (parent : nat) (name : str) (i : nat) : M mst unit :=
  let! n <- get_node_obj parent;
  match n with
  | NDir es mt mo => upd parent (NDir (dset name i es) mt mo)
  | _ => raise AttributeError
  end.

(** memory.py 334-335, 229-230 [_del_child] *)
Definition del_child (parent : nat) (name : str) : M mst unit :=
  let! n <- get_node_obj parent;
  match n with
  | NDir es mt mo => if dhas name es then upd parent (NDir (ddel name es) mt mo) else raise KeyError
  | _ => raise AttributeError
  end.

(** [self._get_node(self._fs, p.split("/")[:-1])] *)
Definition parent_node (p : str) : M mst nat :=
  let! o <- (fun s => (get_node (m_heap s) true (removelast (steps_of p)) true, s));
  lift (need o).

(** memory.py 422-429 *)
Definition mem_mkdir (u : uri) : M mst unit :=
  let! p <- lift (mem_path u);
  match p with
  | [] => ret tt
  | _ =>
      let! nd <- parent_node p;
      let dir_to_create := last (steps_of p) [] in
      let! present <- node_has nd dir_to_create;
      if present then raise (OSError EEXIST)
      else
        let! s <- get;
        let! i <- alloc (NDir [] (m_now s) 0);
        create_child nd dir_to_create i
  end.

(** memory.py 614-621 *)
Definition mem_symlink (target link_name : uri) : M mst unit :=
  let! p <- lift (mem_path link_name);
  match p with
  | [] => ret tt
  | _ =>
      let! nd <- parent_node p;
      let file_to_create := last (steps_of p) [] in
      let! present <- node_has nd file_to_create;
      if present then raise (OSError EEXIST)
      else
        let! s <- get;
        let! i <- alloc (NLink target (m_now s) 0);
        create_child nd file_to_create i
  end.

(** memory.py 624-629 *)
Definition mem_readlink (u : uri) : M mst uri :=
  let! p <- lift (mem_path u);
  match p with
  | [] => raise (OSError EINVAL)
  | _ =>
      let! i <- lookup_node u false;
      let! n <- get_node_obj i;
      match n with
      | NLink target _ _ => ret target
      | _ => raise (OSError EINVAL)
      end
  end.

(** [[x for x in self._path(path).split("/") if x]] *)
Definition nonempty_steps (p : str) : list str :=
  filter (fun x => match x with [] => false | _ => true end) (steps_of p).

(** memory.py 543-546 *)
Definition mem_listdir (u : uri) : M mst (list str) :=
  let! p <- lift (mem_path u);
  let! o <- (fun s => (get_node (m_heap s) true (nonempty_steps p) true, s));
  let! i <- lift (need o);
  let! n <- get_node_obj i;
  match n with
  | NDir es _ _ => ret (sort_strs (map fst es))
  | _ => raise AttributeError
  end.

(** memory.py 553-558 *)
Definition mem_removefile (u : uri) : M mst unit :=
  let! p <- lift (mem_path u);
  let! pc <- (fun s => (get_node_prev (m_heap s) true (nonempty_steps p) false, s));
  match fst pc with
  | None => ret tt
  | Some parent => del_child parent (u_last u)
  end.

(** memory.py 561-569 *)
Definition mem_removedir (u : uri) : M mst unit :=
  let! p <- lift (mem_path u);
  let! pc <- (fun s => (get_node_prev (m_heap s) true (nonempty_steps p) true, s));
  match fst pc with
  | None => ret tt
  | Some prev =>
      let part := u_last u in
      let! o <- (fun s => (child (m_heap s) true max_links prev part true, s));
      let! i <- lift (need o);
      let! n <- get_node_obj i;
      match n with
      | NDir [] _ _ => del_child prev part
      | NDir _ _ _ => raise (OSError ENOTEMPTY)
      | _ => raise AttributeError
      end
  end.

(** ** Attributes *)

Definition node_mtime (n : node) : Z :=
  match n with NFile f => f_mtime f | NDir _ mt _ => mt | NLink _ mt _ => mt end.
Definition node_mode (n : node) : Z :=
  match n with NFile f => f_mode f | NDir _ _ mo => mo | NLink _ _ mo => mo end.
(** memory.py 55-56, 205-206, 245-246 [size] *)
Definition node_size (n : node) : N :=
  match n with NFile f => N.of_nat (length (f_data f)) | NDir _ _ _ => 0 | NLink _ _ _ => 8 end.
Definition set_attrs (n : node) (mt mo : Z) : node :=
  match n with
  | NFile f => NFile (mkFile (f_path f) (f_data f) (f_pos f) mt mo (f_lock f))
  | NDir es _ _ => NDir es mt mo
  | NLink t _ _ => NLink t mt mo
  end.

Record bunch := mkBunch { i_mtime : Z; i_mode : Z; i_size : N }.

(** memory.py 522-533, [set_info=None] *)
Definition mem_info (u : uri) (follow : bool) : M mst bunch :=
  let! i <- lookup_node u follow;
  let! n <- get_node_obj i;
  ret (mkBunch (node_mtime n) (node_mode n) (node_size n)).

(** memory.py 522-529, [set_info] with optional keys mode and mtime *)
Definition mem_set_info (u : uri) (mode mtime : option Z) (follow : bool) : M mst unit :=
  let! i <- lookup_node u follow;
  let! n <- get_node_obj i;
  upd i (set_attrs n (match mtime with Some t => t | None => node_mtime n end)
                     (match mode with Some m => m | None => node_mode n end)).

(** memory.py 549-550 *)
Definition mem_mtime (u : uri) : M mst Z :=
  let! i <- lookup_node u true;
  let! n <- get_node_obj i;
  ret (node_mtime n).

(** memory.py 536-540 *)
Definition mem_copystat (src dest : uri) : M mst unit :=
  let! i <- lookup_node src true;
  let! j <- lookup_node dest true;
  let! n <- get_node_obj i;
  let! d <- get_node_obj j;
  upd j (set_attrs d (node_mtime n) (node_mode n)).

(** memory.py 412-413 *)
Definition mem_isexec (u : uri) (mask : Z) : M mst bool :=
  let! b <- mem_info u true;
  ret (negb (Z.land (i_mode b) mask =? 0)%Z).

(** stat.S_IXUSR | stat.S_IXGRP | stat.S_IXOTH = 0o111 *)
Definition exec_mask : Z := 73.

(** memory.py 416-419 *)
Definition mem_set_exec (u : uri) (mode : Z) : M mst unit :=
  let! b <- mem_info u true;
  mem_set_info u (Some (Z.lor (Z.land (i_mode b) (Z.lnot exec_mask)) mode)) None true.

(** memory.py 591-597 [_manipulate(mtime=...)], [_manipulate(next_op_callback=...)] *)
Definition mem_manip_mtime (u : uri) (t : Z) : M mst unit :=
  let! i <- lookup_node u true;
  let! n <- get_node_obj i;
  upd i (set_attrs n t (node_mode n)).
Definition mem_manip_callback (u : uri) (cb : option callback) : M mst unit :=
  let! p <- lift (mem_path u);
  fun s => (Ok tt, mkM (m_heap s) (m_next s) (m_now s) (m_epoch s) (m_held s)
                       (dset p cb (m_cbs s))).

(** memory.py 445-448 [pre_call_hook] *)
Definition mem_hook (u : uri) (func : str) : M mst unit :=
  let! p <- lift (mem_path u);
  fun s =>
    match dget p (m_cbs s) with
    | Some (Some cb) => match cb u func with
                        | Some e => (Raise e, s)
                        | None => (Ok tt, s)
                        end
    | _ => (Ok tt, s)
    end.

(** ** Files and handles *)

(** MemoryFileProxy (memory.py 137-142); the node is named by its number. *)
Record handle := mkHandle { h_node : nat; h_readable : bool; h_binary : bool }.

(** Values read and written: text or bytes. *)
Inductive pyval := VStr (s : str) | VBytes (b : list N).

(** The file object behind a handle. *)
Definition get_file (i : nat) : M mst file :=
  let! n <- get_node_obj i;
  match n with NFile f => ret f | _ => raise AttributeError end.
Definition set_file (i : nat) (data : list N) (pos : nat) (mtime : Z) (f : file) : M mst unit :=
  upd i (NFile (mkFile (f_path f) data pos mtime (f_mode f) (f_lock f))).

(** BytesIO.read(size): negative size reads to the end. *)
Definition bio_read (data : list N) (pos : nat) (size : Z) : list N * nat :=
  let rest := skipn pos data in
  let out := if (size <? 0)%Z then rest else firstn (Z.to_nat size) rest in
  (out, pos + length out).

(** BytesIO.write(d): a position beyond the end is filled with zero bytes. *)
Definition bio_write (data : list N) (pos : nat) (d : list N) : list N * nat :=
  match d with
  | [] => (data, pos)
  | _ =>
      let padded := data ++ repeat 0%N (pos - length data) in
      (firstn pos padded ++ d ++ skipn (pos + length d) padded, pos + length d)
  end.

(** BytesIO.seek(to, whence) *)
Definition bio_seek (data : list N) (pos : nat) (to : Z) (whence : Z) : res nat :=
  if (whence =? 0)%Z then (if (to <? 0)%Z then Raise ValueError else Ok (Z.to_nat to))
  else if (whence =? 1)%Z then Ok (Z.to_nat (Z.max 0 (Z.of_nat pos + to)))
  else if (whence =? 2)%Z then Ok (Z.to_nat (Z.max 0 (Z.of_nat (length data) + to)))
  else Raise ValueError.

(** BytesIO.readline(): up to and including the next newline. *)
Fixpoint line_of (b : list N) : list N :=
  match b with
  | [] => []
  | c :: b' => if N.eqb c cNL then [c] else c :: line_of b'
  end.

(** memory.py 64-65 *)
Definition file_read (i : nat) (size : Z) : M mst (list N) :=
  let! f <- get_file i;
  let (out, pos) := bio_read (f_data f) (f_pos f) size in
  set_file i (f_data f) pos (f_mtime f) f ;; ret out.

(** memory.py 59-61 *)
Definition file_write (i : nat) (d : list N) : M mst unit :=
  let! f <- get_file i;
  let (data, pos) := bio_write (f_data f) (f_pos f) d in
  let! s <- get;
  set_file i data pos (m_now s) f.

(** memory.py 68-69 *)
Definition file_seek (i : nat) (to whence : Z) : M mst unit :=
  let! f <- get_file i;
  let! pos <- lift (bio_seek (f_data f) (f_pos f) to whence);
  set_file i (f_data f) pos (f_mtime f) f.

(** memory.py 76-77 *)
Definition file_tell (i : nat) : M mst nat := let! f <- get_file i; ret (f_pos f).

(** memory.py 84-85: BytesIO.truncate(pos) never extends, leaves the position, and the
    code does not touch mtime. *)
Definition file_truncate (i : nat) (pos : option Z) : M mst nat :=
  let! f <- get_file i;
  let size := match pos with Some z => z | None => Z.of_nat (f_pos f) end in
  if (size <? 0)%Z then raise ValueError
  else set_file i (firstn (Z.to_nat size) (f_data f)) (f_pos f) (f_mtime f) f ;;
       ret (Z.to_nat size).

(** memory.py 47-52 [__len__]: seek(-1, 2) stops at 0 on an empty file. *)
Definition file_len (data : list N) : nat := Nat.pred (length data) + 1.

(** memory.py 104-106 *)
Definition file_close (i : nat) : M mst unit :=
  let! f <- get_file i;
  set_file i (f_data f) 0 (f_mtime f) f.

(** memory.py 109-110 *)
Definition file_readline (i : nat) : M mst (list N) :=
  let! f <- get_file i;
  let out := line_of (skipn (f_pos f) (f_data f)) in
  set_file i (f_data f) (f_pos f + length out) (f_mtime f) f ;; ret out.

(** memory.py 145-150 *)
Definition proxy_encode (h : handle) (v : pyval) : res pyval :=
  match v with
  | VBytes _ => Ok v
  | VStr t => if h_binary h then Ok v else rlet b <- utf8_encode t; Ok (VBytes b)
  end.
Definition proxy_decode (h : handle) (b : list N) : res pyval :=
  if h_binary h then Ok (VBytes b) else rlet t <- utf8_decode b; Ok (VStr t).

(** memory.py 153-156 *)
Definition h_read (h : handle) (size : Z) : M mst pyval :=
  if negb (h_readable h) then raise (OSError EBADF)
  else let! b <- file_read (h_node h) size; lift (proxy_decode h b).

(** memory.py 159-160; BytesIO.write of text is a TypeError. *)
Definition h_write (h : handle) (v : pyval) : M mst unit :=
  let! e <- lift (proxy_encode h v);
  match e with
  | VBytes b => file_write (h_node h) b
  | VStr _ => raise TypeError
  end.

(** memory.py 163-164: the other methods are passed through. *)
Definition h_seek (h : handle) (to whence : Z) : M mst unit := file_seek (h_node h) to whence.
Definition h_tell (h : handle) : M mst nat := file_tell (h_node h).
Definition h_truncate (h : handle) (pos : option Z) : M mst nat := file_truncate (h_node h) pos.
Definition h_close (h : handle) : M mst unit := file_close (h_node h).

(** memory.py 186-187; no check of [readable]. *)
Definition h_readline (h : handle) : M mst pyval :=
  let! b <- file_readline (h_node h); lift (proxy_decode h b).

(** memory.py 118-123, 179-180 [__next__]: None is StopIteration. *)
Definition h_next (h : handle) : M mst (option pyval) :=
  let! b <- file_readline (h_node h);
  match b with
  | [] => ret None
  | _ => let! v <- lift (proxy_decode h b); ret (Some v)
  end.

(** [list(handle)]: iteration to StopIteration, with a bound on the number of lines. *)
Fixpoint h_lines (fuel : nat) (h : handle) : M mst (list pyval) :=
  match fuel with
  | O => raise OutOfFuel
  | S f => let! o <- h_next h;
           match o with
           | None => ret []
           | Some v => let! l <- h_lines f h; ret (v :: l)
           end
  end.

(** memory.py 39-44 [reset] *)
Definition file_reset (i : nat) : M mst unit :=
  let! f <- get_file i;
  let! s <- get;
  upd i (NFile (mkFile (f_path f) [] 0 (m_now s) 0 (m_epoch s, f_path f))).

(** memory.py 30-36 *)
Definition new_file (p : str) (now : Z) (epoch : nat) : node :=
  NFile (mkFile p [] 0 now 0 (epoch, p)).

(** memory.py 451-454 *)
Definition open_for_read (u : uri) (binary : bool) : M mst handle :=
  let! i <- lookup_node u true;
  file_seek i 0 0 ;;
  ret (mkHandle i true binary).

(** memory.py 457-471 *)
Definition open_for_write (u : uri) (binary : bool) : M mst handle :=
  let! p <- lift (mem_path u);
  let! nd <- parent_node p;
  let file_to_create := last (steps_of p) [] in
  let! present <- node_has nd file_to_create;
  if present then
    let! o <- (fun s => (child (m_heap s) true max_links nd file_to_create true, s));
    let! isd <- (fun s => (Ok (match o with Some c => is_dir (m_heap s c) | None => false end), s));
    if isd then raise (OSError EISDIR)
    else
      let! cnd <- lift (need o);
      file_reset cnd ;;
      ret (mkHandle cnd false binary)
  else
    let! s <- get;
    let! i <- alloc (new_file p (m_now s) (m_epoch s));
    create_child nd file_to_create i ;;
    ret (mkHandle i false binary).

(** memory.py 474-477 *)
Definition open_for_append (u : uri) (binary : bool) : M mst handle :=
  let! i <- lookup_node u true;
  let! f <- get_file i;
  file_seek i (Z.of_nat (file_len (f_data f))) 0 ;;
  ret (mkHandle i false binary).

(** memory.py 480-490 *)
Definition mem_open (u : uri) (options : option str) : M mst handle :=
  let binary := match options with Some o => has_char 98 o | None => false end in  (* b *)
  if match options with None => true | Some o => has_char 114 o end                (* r *)
  then open_for_read u binary
  else match options with
       | None => raise (OSError EINVAL)
       | Some o => if has_char 119 o then open_for_write u binary                  (* w *)
                   else if has_char 97 o then open_for_append u binary             (* a *)
                   else raise (OSError EINVAL)
       end.

(** shutil.copyfileobj(infs, outfs, length) on two binary handles: read blocks until
    an empty one.  The budget is a bound on the number of blocks. *)
Fixpoint copyfileobj (fuel : nat) (infs outfs : handle) (block : Z) : M mst unit :=
  match fuel with
  | O => raise OutOfFuel
  | S f =>
      let! v <- h_read infs block;
      match v with
      | VBytes [] => ret tt
      | VStr [] => ret tt
      | _ => h_write outfs v ;; copyfileobj f infs outfs block
      end
  end.
