(** fs.py 64-73, 146-159, 168-175: the cleaner thread of the registry, and stopping it.

    Simplified: the operations of the registry are not interrupted (RegistryConc.v has that); time.time() never goes
    back, and the time between two of its readings is a number of units, [sec] of which are a second; time.sleep raises
    nothing. *)
From Verif Require Import Str Exc UriParse BaseUri Registry.

(** Where the thread is *)
Inductive point :=
| PClean                        (* line 151 *)
| PTime                         (* line 152 *)
| PTest (now : Z)               (* line 154 *)
| PFlag (now : Z)               (* line 155 *)
| PSleep (now wake : Z)         (* line 157, asleep until [wake] *)
| PGone.                        (* it has returned, or died of an exception *)
Record proc := mkProc { x_reg : rst; x_run : bool; x_at : point }.
Definition move_to (x : proc) (p : point) : proc := mkProc (x_reg x) (x_run x) p.

(** The next step of the thread; [None]: it sleeps, or is gone. *)
Definition cleaner_step (interval sec : Z) (fails : nat -> bool) (x : proc) : option proc :=
  let t := r_now (x_reg x) in
  match x_at x with
  | PClean => Some (let (r, s) := cleanup false fails (x_reg x) in
                    mkProc s (x_run x) (match r with Ok _ => PTime | Raise _ => PGone end))
  | PTime => Some (move_to x (PTest t))
  | PTest now => Some (move_to x (if (t - now <? interval)%Z then PFlag now else PClean))
  | PFlag now => Some (move_to x (if x_run x then PSleep now (t + sec) else PGone))
  | PSleep now wake => if (wake <=? t)%Z then Some (move_to x (PTest now)) else None
  | PGone => None
  end.
(** What others do meanwhile *)
Definition meanwhile (e : revent) (x : proc) : proc := mkProc (snd (run_event e (x_reg x))) (x_run x) (x_at x).
(** Line 172, the start of [shutdown].  Line 173 is [meanwhile (RCleanup true _)]; lines 174-175 wait for [PGone]. *)
Definition stop (x : proc) : proc := mkProc (x_reg x) false (x_at x).
(** fs.py 64-72 *)
Definition new_proc (timeout now : Z) : proc := mkProc (init_reg timeout now) true PClean.
