(** Any number of memory connections at once: the registry (Registry.v), the file systems of the connections it has
    handed out, and the URI methods, which look for the connection of their URI first (fs.py 219-230, 300-301). *)
From Verif Require Import Str Exc Utf8 UriParse BaseUri Mem MemOps Generic Fnmatch UriOps Prog Registry.

(** memory.py 306-307: there are no hosts. *)
Definition mem_factory : factory := fun k => match k_host k with Some (_ :: _) => Some AssertionError | _ => None end.

(** [n_fs c] is the file system of connection [c]; it stays after the registry has dropped the connection, since open
    files refer to it.  FILE_LOCKS (memory.py 28) and the clock are the same for all. *)
Record net := mkNet { n_reg : rst; n_fs : nat -> mst; n_epoch : nat; n_held : list lock_id }.
Definition fs_of (N : net) (c : nat) : mst :=
  let s := n_fs N c in mkM (m_heap s) (m_next s) (r_now (n_reg N)) (n_epoch N) (n_held N) (m_cbs s).
(** Something done to the file system of [c] *)
Definition at_conn {A} (c : nat) (m : M mst A) : M net A :=
  fun N => let (r, s) := m (fs_of N c) in
           (r, mkNet (n_reg N) (fun i => if Nat.eqb i c then s else n_fs N i) (n_epoch N) (m_held s)).

(** fs.py 300-301; a new connection has an empty file system, and FILE_LOCKS is emptied (memory.py 309-311). *)
Definition connect (u : uri) : M net nat :=
  fun N =>
    let g := n_reg N in
    let (r, g') := uri_connection u g in
    if Nat.eqb (r_next g') (r_next g) then (r, mkNet g' (n_fs N) (n_epoch N) (n_held N))
    else (r, mkNet g' (fun i => if Nat.eqb i (r_next g) then init_mem (r_now g) 0 else n_fs N i) (S (n_epoch N)) (n_held N)).
(** fs.py 227-228 *)
Definition enter (u : uri) : M net nat :=
  let! c <- connect u;
  fun N => (Ok c, mkNet (set_used (n_reg N) c (r_now (n_reg N))) (n_fs N) (n_epoch N) (n_held N)).
(** [self.connection] inside a method of [u].  Simplified: found by the key of [u]; where the code calls a method of a
    connection with another URI (fs.py 1003, 206-214), that URI is taken to belong to the same connection. *)
Definition current (u : uri) : M net nat :=
  fun N => match kget (u_key u) (r_conns (n_reg N)) with Some c => (Ok c, N) | None => (Raise KeyError, N) end.
Definition within {A} (u : uri) (m : M mst A) : M net A := let! c <- current u; at_conn c m.
(** A method that does nothing but work on the connection of its URI; [m] starts with the hook (fs.py 229). *)
Definition method {A} (u : uri) (m : M mst A) : M net A := let! c <- enter u; at_conn c m.

(** fs.py 926-927, 966-967.  Simplified between two connections: one block, see World.v. *)
Definition net_content (source dest : uri) : M net unit :=
  if key_eqb (u_key source) (u_key dest)
  then let! c <- enter source; enter dest ;; at_conn c (mem_copy_content source dest)
  else
    let! d <- method source (let! h <- u_open source (Some (lit "rb"));
                             let! v <- h_read h (-1);
                             match v with VBytes d => ret d | VStr _ => raise TypeError end);
    method dest (let! h <- u_open dest (Some (lit "wb"));
                 match d with [] => ret tt | _ => h_write h (VBytes d) end).

Definition net_backend : backend net := {|
  b_hook := fun u n => method u (mem_hook u n);
  b_exists := fun u => within u (mem_exists u);
  b_isfile := fun u => within u (mem_isfile u);
  b_isdir := fun u => within u (mem_isdir u);
  b_islink := fun u => within u (mem_islink u);
  b_listdir := fun u => within u (mem_listdir u);
  b_removefile := fun u => within u (mem_removefile u);
  b_removedir := fun u => within u (mem_removedir u);
  b_mkdir := fun u => within u (mem_mkdir u);
  b_symlink := fun t u => within t (mem_symlink t u);
  b_readlink := fun u => within u (mem_readlink u);
  b_copystat := fun u v => within u (mem_copystat u v);
  b_copy_content := net_content;
  b_removefile_by := fun u v => within u (mem_removefile v);
  b_symlink_by := fun u t v => within u (mem_symlink t v) |}.

Definition nanswered {A} (f : A -> answer) (m : M net A) : M net answer := let! a <- m; ret (f a).
(** The URI methods, as [ask] in Prog.v *)
Definition net_ask (fuel : nat) (o : uop) : M net answer :=
  let B := net_backend in
  match o with
  | UCopy r ig fl u v => nanswered (fun _ => AUnit) (u_copy B fuel r ig fl u v)
  | UMove u v => nanswered (fun _ => AUnit) (u_move B fuel u v)
  | URemove r u => nanswered (fun _ => AUnit) (u_remove B fuel r u)
  | UMakedirs u => nanswered (fun _ => AUnit) (u_makedirs B fuel u)
  | UMkdir u => nanswered (fun _ => AUnit) (u_mkdir B u)
  | UExists u => nanswered ABool (u_exists B u)
  | UIsfile u => nanswered ABool (u_isfile B u)
  | UIsdir u => nanswered ABool (u_isdir B u)
  | UIslink u => nanswered ABool (u_islink B u)
  | UWalk td fl u => nanswered AWalk (u_walk B fuel td fl u)
  | UListdir u => nanswered ANames (u_listdir B u)
  | UGlob u p => nanswered AUris (u_glob B fnmatch u p)
  | UCopystat u v => method u (ask fuel o)
  | UOpen u _ | UIsexec u _ | USetExec u _ | UReadlink u | USymlink u _ | UMtime u | UInfo u _ | USetInfo u _ _ _
  | USync u _ | UMd5 u | ULock u _ _ | UManipMtime u _ | UManipCallback u _ => method u (ask fuel o)
  end.

(** *** Programs *)
(** An open file belongs to a connection. *)
Definition nsession := (net * list (nat * handle))%type.
Definition on_net (m : M net answer) (σ : nsession) : res answer * nsession := let (r, N) := m (fst σ) in (r, (N, snd σ)).
Definition on_nhandle (k : nat) (f : handle -> M mst answer) (σ : nsession) : res answer * nsession :=
  match nth_error (snd σ) k with Some (c, h) => on_net (at_conn c (f h)) σ | None => (Raise OutOfFuel, σ) end.
(** [CTick] sets the clock. *)
Definition net_clock (t : Z) : M net answer :=
  fun N => let g := n_reg N in
           (Ok AUnit, mkNet (mkR (r_conns g) (r_schemes g) (r_next g) (r_used g) (r_closed g) (r_timeout g) t) (n_fs N) (n_epoch N) (n_held N)).
Definition net_call (k : call) (σ : nsession) : res answer * nsession :=
  match k with
  | CUri fuel o => on_net (net_ask fuel o) σ
  | COpen u o => match enter u (fst σ) with
                 | (Ok c, N) => match at_conn c (u_open u o) N with
                                | (Ok h, N') => (Ok AUnit, (N', snd σ ++ [(c, h)]))
                                | (Raise e, N') => (Raise e, (N', snd σ))
                                end
                 | (Raise e, N) => (Raise e, (N, snd σ))
                 end
  | CRead k z => on_nhandle k (fun h => answered AVal (h_read h z)) σ
  | CWrite k v => on_nhandle k (fun h => answered (fun _ => AUnit) (h_write h v)) σ
  | CSeek k a b => on_nhandle k (fun h => answered (fun _ => AUnit) (h_seek h a b)) σ
  | CTell k => on_nhandle k (fun h => answered ANat (h_tell h)) σ
  | CTruncate k p => on_nhandle k (fun h => answered ANat (h_truncate h p)) σ
  | CReadline k => on_nhandle k (fun h => answered AVal (h_readline h)) σ
  | CNext k => on_nhandle k (fun h => answered ALine (h_next h)) σ
  | CClose k => on_nhandle k (fun h => answered (fun _ => AUnit) (h_close h)) σ
  | CTick t => on_net (net_clock t) σ
  end.

(** fs.py 134-143 [cleanup]; closing a memory connection does nothing (fs.py 877-878). *)
Definition net_cleanup (force : bool) : M net unit :=
  fun N => let (r, g) := cleanup force (fun _ => false) (n_reg N) in (r, mkNet g (n_fs N) (n_epoch N) (n_held N)).
(** What happens in a process: calls of one program after the other, and clean-ups. *)
Inductive nevent := NCall (k : call) | NClean (force : bool).
Definition net_event (e : nevent) (σ : nsession) : nsession :=
  match e with NCall k => snd (net_call k σ) | NClean f => (snd (net_cleanup f (fst σ)), snd σ) end.
(** The registry of a new process (fs.py 64-73), with the memory backend registered *)
Definition init_net (timeout now : Z) : net :=
  mkNet (snd (register (Some (lit "memory")) mem_factory (init_reg timeout now))) (fun _ => init_mem now 0) 0 [].
Definition net_reach (σ : nsession) : Prop := exists timeout now l, σ = fold_left (fun σ e => net_event e σ) l (init_net timeout now, []).
