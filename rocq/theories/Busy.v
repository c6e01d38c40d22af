(** fs.py 76-159, 219-230: any number of threads that call methods of URIs while the cleaner thread works, cut at the
    points where another thread can run (as in RegistryConc.v; there every thread makes one call).

    Simplified: time.time() never goes back; the method itself (fs.py 229-230) is one state that lasts as long as the
    thread likes; a lookup that raises ends the call, and the thread goes on with others. *)
From Verif Require Import Str Exc UriParse BaseUri Registry RegistryConc.

(** Where a thread of the program is *)
Inductive actor :=
| AFree                              (* outside of the library *)
| AIn (t : thread)                   (* in get_connection (fs.py 227), or in a clean-up of its own *)
| AHas (k : conn_key) (c : nat)      (* fs.py 228: self.connection.last_used = time.time() comes next *)
| ABusy (k : conn_key) (c : nat).    (* fs.py 229-230: the hook and the method *)

(** Where the cleaner thread is (fs.py 146-159) *)
Inductive kpoint :=
| KClean (t : thread)                (* line 151, somewhere in [cleanup] *)
| KTime                              (* line 152 *)
| KTest (now : Z)                    (* line 154 *)
| KFlag (now : Z)                    (* line 155 *)
| KSleep (now wake : Z)              (* line 157, asleep until [wake] *)
| KGone.                             (* it has returned, or died of an exception *)
Record bproc := mkB { y_sh : shared; y_users : list actor; y_clean : kpoint; y_run : bool }.

(** The next step of the cleaner thread; [fails] says which connections raise in close(). *)
Definition kstep (interval sec : Z) (fails : nat -> bool) (run : bool) (p : kpoint) (sh : shared) : option (kpoint * shared) :=
  let t := r_now (sh_reg sh) in
  match p with
  | KClean (CDone (Ok _)) => Some (KTime, sh)
  | KClean (CDone (Raise _)) => Some (KGone, sh)
  | KClean th => match tstep th sh with Some (th', sh') => Some (KClean th', sh') | None => None end
  | KTime => Some (KTest t, sh)
  | KTest now => Some (if (t - now <? interval)%Z then KFlag now else KClean (CStart false fails), sh)
  | KFlag now => Some (if run then KSleep now (t + sec) else KGone, sh)
  | KSleep now wake => if (wake <=? t)%Z then Some (KTest now, sh) else None
  | KGone => None
  end.

(** The steps of another thread.  [alone]: nobody but the cleaner thread cleans up. *)
Inductive astep (alone : bool) : actor -> shared -> actor -> shared -> Prop :=
| as_call : forall k sh, astep alone AFree sh (AIn (LStart k)) sh
| as_in : forall t sh t' sh', tstep t sh = Some (t', sh') -> astep alone (AIn t) sh (AIn t') sh'
| as_found : forall k c sh, astep alone (AIn (LDone k (Ok c))) sh (AHas k c) sh
| as_error : forall k e sh, astep alone (AIn (LDone k (Raise e))) sh AFree sh
| as_used : forall k c sh, astep alone (AHas k c) sh (ABusy k c) (mkSh (set_used (sh_reg sh) c (r_now (sh_reg sh))) (sh_locks sh))
| as_end : forall k c sh, astep alone (ABusy k c) sh AFree sh
| as_register : forall sc f sh, astep alone AFree sh AFree (mkSh (snd (register sc f (sh_reg sh))) (sh_locks sh))
| as_cleanup : forall force fails sh, alone = false -> astep alone AFree sh (AIn (CStart force fails)) sh
| as_cleaned : forall r sh, astep alone (AIn (CDone r)) sh AFree sh.

Fixpoint set_actor (i : nat) (a : actor) (l : list actor) : list actor :=
  match l, i with
  | [], _ => []
  | _ :: l', O => a :: l'
  | x :: l', S i' => x :: set_actor i' a l'
  end.

Inductive bstep (interval sec : Z) (alone : bool) : bproc -> bproc -> Prop :=
| by_clean : forall fails sh us p p' sh' run, kstep interval sec fails run p sh = Some (p', sh') ->
    bstep interval sec alone (mkB sh us p run) (mkB sh' us p' run)
| by_user : forall i a a' sh sh' us p run, nth_error us i = Some a -> astep alone a sh a' sh' ->
    bstep interval sec alone (mkB sh us p run) (mkB sh' (set_actor i a' us) p run)
| by_tick : forall d sh us p run, bstep interval sec alone (mkB sh us p run) (mkB (mkSh (snd (tick d (sh_reg sh))) (sh_locks sh)) us p run)
| by_stop : forall sh us p run, alone = false -> bstep interval sec alone (mkB sh us p run) (mkB sh us p false). (* fs.py 172 *)

(** fs.py 64-73, with [n] threads *)
Definition new_bproc (timeout now : Z) (fails : nat -> bool) (n : nat) : bproc :=
  mkB (mkSh (init_reg timeout now) []) (repeat AFree n) (KClean (CStart false fails)) true.
