(** Python exceptions as values, and the state-and-exception monad. *)
From Verif Require Import Str.

(** errno values used by memory.py, and those the operating system adds for local files. *)
Inductive errno := ENOENT | EEXIST | EISDIR | ENOTEMPTY | ELOOP | EBADF | EINVAL | ENOTDIR | EBUSY.

(** The exception classes the modelled code can raise.  [IOError] is an alias of
    [OSError] in Python 3.  [UserError n] is an exception raised by code the
    user supplied (callbacks, factories, with-bodies).  [OutOfFuel] marks an
    exhausted recursion budget (Python: RecursionError or no termination). *)
Inductive exc :=
| OSError (e : errno)
| AttributeError | AssertionError | KeyError | ValueError | TypeError | IndexError
| UnboundLocalError | UnicodeDecodeError | UnicodeEncodeError | NotImplementedError
| FileDoesNotExistError | NoSchemeError | OperationIsNotSupportedOnPlatform
| LockFileObtainException | RuntimeError | BadZipFile | ShutilError
| UserError (n : nat)
| OutOfFuel.

Inductive res (A : Type) :=
| Ok (a : A)
| Raise (e : exc).
Arguments Ok {A} a.
Arguments Raise {A} e.

Definition rbind {A B} (m : res A) (f : A -> res B) : res B :=
  match m with Ok a => f a | Raise e => Raise e end.
Notation "'rlet' x <- m ; k" := (rbind m (fun x => k))
  (at level 200, x pattern, m at level 100, k at level 200, right associativity).

(** Computations over a state [S]; effects made before an exception persist. *)
Definition M (S A : Type) := S -> res A * S.
Definition ret {S A} (a : A) : M S A := fun s => (Ok a, s).
Definition raise {S A} (e : exc) : M S A := fun s => (Raise e, s).
Definition bind {S A B} (m : M S A) (f : A -> M S B) : M S B :=
  fun s => match m s with
           | (Ok a, s') => f a s'
           | (Raise e, s') => (Raise e, s')
           end.
Definition get {S} : M S S := fun s => (Ok s, s).
Definition put {S} (s : S) : M S unit := fun _ => (Ok tt, s).
(** A pure computation that may raise. *)
Definition lift {S A} (r : res A) : M S A := fun s => (r, s).

Notation "'let!' x <- m ; k" := (bind m (fun x => k))
  (at level 200, x pattern, m at level 100, k at level 200, right associativity).
Notation "m ;; k" := (bind m (fun _ => k)) (at level 199, right associativity).

(** [for x in l: body(x)] *)
Fixpoint mapM_ {S A} (f : A -> M S unit) (l : list A) : M S unit :=
  match l with
  | [] => ret tt
  | x :: l' => f x ;; mapM_ f l'
  end.
