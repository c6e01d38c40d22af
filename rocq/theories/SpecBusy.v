(** Specification vocabulary for programs with several threads and the cleaner thread. *)
From Verif Require Import Str Exc UriParse BaseUri Registry RegistryConc Busy SpecReg.

(** From [a] to [b], through states that all satisfy [P]. *)
Inductive bsteps (interval sec : Z) (alone : bool) (P : bproc -> Prop) (a : bproc) : bproc -> Prop :=
| bs_none : P a -> bsteps interval sec alone P a a
| bs_step : forall b c, bsteps interval sec alone P a b -> bstep interval sec alone b c -> P c -> bsteps interval sec alone P a c.
Definition y_reg (y : bproc) : rst := sh_reg (y_sh y).
(** A registry with its cleaner thread and any number of threads, after any time; nobody else cleaned up. *)
Definition up (interval sec : Z) (y : bproc) : Prop :=
  exists timeout now fails n, bsteps interval sec true (fun _ => True) (new_bproc timeout now fails n) y.

(** The key a thread is concerned with *)
Definition about (a : actor) : option conn_key :=
  match a with
  | AFree => None
  | AIn (LStart k | LCheck k | LWait k | LMake k | LStore k _ | LLeave k _ | LRead k | LDone k _) => Some k
  | AIn _ => None
  | AHas k _ | ABusy k _ => Some k
  end.
(** Nobody is in the middle of a call with the key [k], and the cleaner thread is between two clean-ups. *)
Definition quiet (k : conn_key) (y : bproc) : Prop :=
  (forall a k', In a (y_users y) -> about a = Some k' -> ~ same_key k' k) /\ forall t, y_clean y <> KClean t.
