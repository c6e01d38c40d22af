(** Specification vocabulary for the cleaner thread: runs in which the thread is never late. *)
From Verif Require Import Str Exc UriParse BaseUri Registry Cleaner.

(** From when on the thread can go on *)
Definition ready_from (x : proc) : Z := match x_at x with PSleep _ wake => wake | _ => r_now (x_reg x) end.
(** [move delay (x, t) (y, u)]: the thread can go on from [t] on, and does so before [t + delay] has passed. *)
Inductive move (interval sec delay : Z) : proc * Z -> proc * Z -> Prop :=
| mv_step : forall fails x t y, cleaner_step interval sec fails x = Some y -> move interval sec delay (x, t) (y, ready_from y)
| mv_other : forall e x t, (forall d, e <> RTick d) -> move interval sec delay (x, t) (meanwhile e x, t)
| mv_wait : forall d x t, (r_now (x_reg x) + Z.of_N d <= t + delay)%Z \/ x_at x = PGone -> move interval sec delay (x, t) (meanwhile (RTick d) x, t)
| mv_stop : forall x t, move interval sec delay (x, t) (stop x, t).
Inductive moves (interval sec delay : Z) : proc * Z -> proc * Z -> Prop :=
| ms_none : forall a, moves interval sec delay a a
| ms_move : forall a b c, moves interval sec delay a b -> move interval sec delay b c -> moves interval sec delay a c.
(** Nobody calls shutdown. *)
Inductive up (interval sec delay : Z) (a : proc * Z) : proc * Z -> Prop :=
| up_none : up interval sec delay a a
| up_step : forall fails x t y, up interval sec delay a (x, t) -> cleaner_step interval sec fails x = Some y -> up interval sec delay a (y, ready_from y)
| up_other : forall e x t, up interval sec delay a (x, t) -> (forall d, e <> RTick d) -> up interval sec delay a (meanwhile e x, t)
| up_wait : forall d x t, up interval sec delay a (x, t) -> (r_now (x_reg x) + Z.of_N d <= t + delay)%Z -> up interval sec delay a (meanwhile (RTick d) x, t).
(** How long a connection has not been used *)
Definition idle (x : proc) (c : nat) : Z := (r_now (x_reg x) - r_used (x_reg x) c)%Z.
