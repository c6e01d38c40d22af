(** fs.py 76-143 run by several threads: the same registry operations as in Registry.v, cut at the points
    where another thread can run.

    A step is one access to shared data: a dictionary lookup, assignment or deletion, taking or dropping a
    creation lock, making or closing a connection, copying the table for the clean-up.  CPython runs each of
    these without switching threads.  [creation_locks] is a [defaultdict]: every scheme has one lock.
    Simplified: threads do nothing before or after their one call; time passes only between steps. *)
From Verif Require Import Str Exc UriParse BaseUri Registry.

Inductive thread :=
| LStart (k : conn_key)            (* line 115: scheme not in self.schemes *)
| LCheck (k : conn_key)            (* line 129: not key in self.connections *)
| LWait (k : conn_key)             (* line 77: with self.creation_locks[scheme] *)
| LMake (k : conn_key)             (* line 78: the lock is held *)
| LStore (k : conn_key) (c : nat)  (* line 79 *)
| LLeave (k : conn_key) (r : res unit)  (* the end of the with block *)
| LRead (k : conn_key)             (* line 131: return self.connections[key] *)
| LDone (k : conn_key) (r : res nat)
| CStart (force : bool) (fails : nat -> bool)            (* lines 135-136: list(self.connections.items()) *)
| CScan (force : bool) (fails : nat -> bool) (now : Z) (l : conns)  (* line 137, for the first of l *)
| CClose (force : bool) (fails : nat -> bool) (now : Z) (e : conn_key * nat) (l : conns)  (* lines 138-142 *)
| CDel (force : bool) (fails : nat -> bool) (now : Z) (e : conn_key * nat) (l : conns)    (* line 143 *)
| CDone (r : res unit).

Record shared := mkSh { sh_reg : rst; sh_locks : list (option str) }.

Definition held (sc : option str) (l : list (option str)) : bool := existsb (opt_str_eqb sc) l.
Fixpoint unhold (sc : option str) (l : list (option str)) : list (option str) :=
  match l with [] => [] | x :: l' => if opt_str_eqb sc x then l' else x :: unhold sc l' end.

(** One step of one thread; [None]: it waits or has finished. *)
Definition tstep (t : thread) (sh : shared) : option (thread * shared) :=
  let s := sh_reg sh in
  match t with
  | LStart k => Some (match sget (k_scheme k) (r_schemes s) with None => LDone k (Raise NoSchemeError) | Some _ => LCheck k end, sh)
  | LCheck k => Some (match kget k (r_conns s) with None => LWait k | Some _ => LRead k end, sh)
  | LWait k => if held (k_scheme k) (sh_locks sh) then None
               else Some (LMake k, mkSh s (k_scheme k :: sh_locks sh))
  | LMake k => Some (match sget (k_scheme k) (r_schemes s) with
                     | None => (LLeave k (Raise KeyError), sh)
                     | Some f => match new_conn f k s with
                                 | (Ok c, s') => (LStore k c, mkSh s' (sh_locks sh))
                                 | (Raise e, s') => (LLeave k (Raise e), mkSh s' (sh_locks sh))
                                 end
                     end)
  | LStore k c => Some (LLeave k (Ok tt), mkSh (set_conns s (kset k c (r_conns s))) (sh_locks sh))
  | LLeave k r => Some (match r with Ok _ => LRead k | Raise e => LDone k (Raise e) end, mkSh s (unhold (k_scheme k) (sh_locks sh)))
  | LRead k => Some (LDone k (match kget k (r_conns s) with Some c => Ok c | None => Raise KeyError end), sh)
  | LDone _ _ => None
  | CStart force fails => Some (CScan force fails (r_now s) (r_conns s), sh)
  | CScan _ _ _ [] => Some (CDone (Ok tt), sh)
  | CScan force fails now (e :: l) =>
      Some (if ((r_timeout s <? now - r_used s (snd e))%Z || force)%bool then CClose force fails now e l else CScan force fails now l, sh)
  | CClose force fails now e l => Some (CDel force fails now e l, mkSh (snd (close_conn fails (snd e) s)) (sh_locks sh))
  | CDel force fails now e l => Some (match del_conn (fst e) s with
                                      | (Ok _, s') => (CScan force fails now l, mkSh s' (sh_locks sh))
                                      | (Raise x, s') => (CDone (Raise x), mkSh s' (sh_locks sh))
                                      end)
  | CDone _ => None
  end.

Record config := mkCfg { c_sh : shared; c_threads : list thread }.

Fixpoint replace (i : nat) (t : thread) (l : list thread) : list thread :=
  match l, i with
  | [], _ => []
  | _ :: l', O => t :: l'
  | x :: l', S i' => x :: replace i' t l'
  end.
Inductive cstep : config -> config -> Prop :=
| cs_run : forall i t t' sh sh' ts, nth_error ts i = Some t -> tstep t sh = Some (t', sh') ->
    cstep (mkCfg sh ts) (mkCfg sh' (replace i t' ts))
| cs_tick : forall d sh ts, cstep (mkCfg sh ts) (mkCfg (mkSh (snd (tick d (sh_reg sh))) (sh_locks sh)) ts).
Inductive csteps : config -> config -> Prop :=
| css_refl : forall c, csteps c c
| css_step : forall a b c, csteps a b -> cstep b c -> csteps a c.

(** A schedule names the thread to run next. *)
Definition sched_step (i : nat) (c : config) : config :=
  match nth_error (c_threads c) i with
  | None => c
  | Some t => match tstep t (c_sh c) with None => c | Some (t', sh') => mkCfg sh' (replace i t' (c_threads c)) end
  end.
Definition run_sched (l : list nat) (c : config) : config := fold_left (fun c i => sched_step i c) l c.

(** A thread about to call one of the two operations. *)
Definition starting (t : thread) : Prop :=
  match t with LStart _ | CStart _ _ => True | _ => False end.
Definition is_lookup (t : thread) : Prop := match t with LStart _ => True | _ => False end.
Definition begin (s : rst) (ts : list thread) : config := mkCfg (mkSh s []) ts.
