(** fs.py 21-181: [ConnectionRegistry], run by one thread; and fs.py 218-230 [with_connection].

    Connection objects are numbered in the order in which they are made.  Simplified: extras are texts
    (other values are only compared and hashed); a factory makes a new object or raises an exception that
    depends on its arguments; the printing in [cleanup] (lines 141-142) does not raise. *)
From Verif Require Import Str Exc UriParse BaseUri.

(** *** Keys, fs.py 119-127: tuples with a frozenset of the extras *)
Definition item_eqb (a b : str * str) : bool := str_eqb (fst a) (fst b) && str_eqb (snd a) (snd b).
Definition frozen_eqb (a b : dict str) : bool :=
  forallb (fun x => existsb (item_eqb x) b) a && forallb (fun x => existsb (item_eqb x) a) b.
Definition opt_str_eqb (a b : option str) : bool :=
  match a, b with Some x, Some y => str_eqb x y | None, None => true | _, _ => false end.
Definition key_eqb (a b : conn_key) : bool :=
  opt_str_eqb (k_scheme a) (k_scheme b) && opt_str_eqb (k_host a) (k_host b) && Z.eqb (k_port a) (k_port b)
  && opt_str_eqb (k_user a) (k_user b) && opt_str_eqb (k_pass a) (k_pass b) && str_eqb (k_vpath a) (k_vpath b)
  && frozen_eqb (k_extras a) (k_extras b).

(** The dictionary [connections]. *)
Definition conns := list (conn_key * nat).
Fixpoint kget (k : conn_key) (l : conns) : option nat :=
  match l with [] => None | (k', c) :: l' => if key_eqb k k' then Some c else kget k l' end.
(** Assigning keeps the position and the old key. *)
Fixpoint kset (k : conn_key) (c : nat) (l : conns) : conns :=
  match l with
  | [] => [(k, c)]
  | (k', c') :: l' => if key_eqb k k' then (k', c) :: l' else (k', c') :: kset k c l'
  end.
Fixpoint kdel (k : conn_key) (l : conns) : conns :=
  match l with [] => [] | (k', c') :: l' => if key_eqb k k' then l' else (k', c') :: kdel k l' end.

(** What a backend class does with the arguments: make an object, or raise. *)
Definition factory := conn_key -> option exc.

Record rst := mkR {
  r_conns : conns;                (* connections *)
  r_schemes : list (option str * factory);  (* schemes *)
  r_next : nat;                   (* number of connection objects made so far *)
  r_used : nat -> Z;              (* their last_used *)
  r_closed : list nat;            (* the objects close() was called on, latest first *)
  r_timeout : Z;                  (* clean_timeout *)
  r_now : Z }.                    (* time.time() *)

Fixpoint sget (k : option str) (l : list (option str * factory)) : option factory :=
  match l with [] => None | (k', f) :: l' => if opt_str_eqb k k' then Some f else sget k l' end.
Fixpoint sset (k : option str) (f : factory) (l : list (option str * factory)) : list (option str * factory) :=
  match l with [] => [(k, f)] | (k', f') :: l' => if opt_str_eqb k k' then (k', f) :: l' else (k', f') :: sset k f l' end.

Definition set_conns (s : rst) (l : conns) : rst :=
  mkR l (r_schemes s) (r_next s) (r_used s) (r_closed s) (r_timeout s) (r_now s).
Definition set_used (s : rst) (c : nat) (t : Z) : rst :=
  mkR (r_conns s) (r_schemes s) (r_next s) (fun i => if Nat.eqb i c then t else r_used s i) (r_closed s) (r_timeout s) (r_now s).

(** A new object; [FileSystem.__init__] (fs.py 859-872) sets last_used. *)
Definition new_conn (f : factory) (k : conn_key) : M rst nat :=
  fun s => match f k with
           | Some e => (Raise e, s)
           | None => (Ok (r_next s),
                      mkR (r_conns s) (r_schemes s) (S (r_next s))
                          (fun i => if Nat.eqb i (r_next s) then r_now s else r_used s i) (r_closed s) (r_timeout s) (r_now s))
           end.

(** fs.py 76-79 [create]; the lock plays no role here, see RegistryConc.v *)
Definition create (f : factory) (k : conn_key) : M rst unit :=
  let! conn <- new_conn f k;
  let! s <- get;
  put (set_conns s (kset k conn (r_conns s))).

(** fs.py 82-131 [get_connection] *)
Definition get_connection (k : conn_key) : M rst nat :=
  let! s <- get;
  match sget (k_scheme k) (r_schemes s) with
  | None => raise NoSchemeError
  | Some f =>
      (match kget k (r_conns s) with None => create f k | Some _ => ret tt end) ;;
      let! s' <- get;
      match kget k (r_conns s') with Some c => ret c | None => raise KeyError end
  end.

(** fs.py 134-143 [cleanup]; [fails] says which connections raise in close(). *)
Definition close_conn (fails : nat -> bool) (c : nat) : M rst unit :=
  fun s => (if fails c then Raise (UserError c) else Ok tt,
            mkR (r_conns s) (r_schemes s) (r_next s) (r_used s) (c :: r_closed s) (r_timeout s) (r_now s)).
(** [try: m except: print(...)] *)
Definition swallow (m : M rst unit) : M rst unit := fun s => (Ok tt, snd (m s)).
Definition del_conn (k : conn_key) : M rst unit :=
  let! s <- get;
  match kget k (r_conns s) with None => raise KeyError | Some _ => put (set_conns s (kdel k (r_conns s))) end.
Definition cleanup_one (force : bool) (fails : nat -> bool) (now : Z) (e : conn_key * nat) : M rst unit :=
  let! s <- get;
  if ((r_timeout s <? now - r_used s (snd e))%Z || force)%bool
  then swallow (close_conn fails (snd e)) ;; del_conn (fst e)
  else ret tt.
Definition cleanup (force : bool) (fails : nat -> bool) : M rst unit :=
  let! s <- get;
  mapM_ (cleanup_one force fails (r_now s)) (r_conns s).

(** fs.py 162-165 [register] *)
Definition register (scheme : option str) (f : factory) : M rst unit :=
  fun s => (Ok tt, mkR (r_conns s) (sset scheme f (r_schemes s)) (r_next s) (r_used s) (r_closed s) (r_timeout s) (r_now s)).
(** fs.py 168-175 [shutdown], without waiting for the cleaner thread *)
Definition shutdown (fails : nat -> bool) : M rst unit := cleanup true fails.

(** fs.py 300-301 [BaseUri.get_connection]: extras with the name of a parameter are a second value for it. *)
Definition reserved : list str :=
  map lit ["self"; "scheme"; "hostname"; "port"; "username"; "password"; "vpath_connector"]%string.
Definition uri_connection (u : uri) : M rst nat :=
  if existsb (fun kv => str_in (fst kv) reserved) (u_all_extras u) then raise TypeError
  else get_connection (u_key u).
(** fs.py 219-230 [with_connection], up to the hook *)
Definition use_connection (k : conn_key) : M rst nat :=
  let! c <- get_connection k;
  let! s <- get;
  put (set_used s c (r_now s)) ;; ret c.

(** *** Histories *)
Inductive revent :=
| RRegister (scheme : option str) (f : factory)
| RGet (k : conn_key)
| RUse (k : conn_key)
| RCleanup (force : bool) (fails : nat -> bool)
| RTick (d : N).
Definition tick (d : N) : M rst unit :=
  fun s => (Ok tt, mkR (r_conns s) (r_schemes s) (r_next s) (r_used s) (r_closed s) (r_timeout s) (r_now s + Z.of_N d)).
Definition run_event (e : revent) : M rst unit :=
  match e with
  | RRegister sc f => register sc f
  | RGet k => get_connection k ;; ret tt
  | RUse k => use_connection k ;; ret tt
  | RCleanup force fails => cleanup force fails
  | RTick d => tick d
  end.
Definition run_events (l : list revent) (s : rst) : rst := fold_left (fun s e => snd (run_event e s)) l s.
(** fs.py 64-73 [__init__] *)
Definition init_reg (timeout now : Z) : rst := mkR [] [] 0 (fun _ => 0%Z) [] timeout now.
Definition r_reachable (s : rst) : Prop := exists timeout now l, s = run_events l (init_reg timeout now).
