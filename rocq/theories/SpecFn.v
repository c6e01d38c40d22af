(** What shell patterns mean (C47), read off the documentation of Python's fnmatch. *)
From Verif Require Import Str.

(** The members of a bracket expression: single characters and ranges a-z, from left to right. *)
Inductive reads : str -> list (N * N) -> Prop :=
| rd_nil : reads [] []
| rd_range a z l rs : reads l rs -> reads (a :: 45%N :: z :: l) ((a, z) :: rs)
| rd_one a l rs : (forall z l', l <> 45%N :: z :: l') -> reads l rs -> reads (a :: l) ((a, a) :: rs).
Definition member (c : N) (rs : list (N * N)) : Prop := exists a z, In (a, z) rs /\ (a <= c <= z)%N.

(** [shell p n]: the pattern [p] matches the whole name [n]. *)
Inductive shell : str -> str -> Prop :=
| sh_end : shell [] []
| sh_star p a n : shell p n -> shell (42%N :: p) (a ++ n)                       (* * *)
| sh_any p c n : shell p n -> shell (63%N :: p) (c :: n)                        (* ? *)
| sh_set body rs p c n :                                                        (* [body] *)
    reads body rs -> body <> [] -> hd 0%N body <> 33%N -> ~ In 93%N (tl body) -> member c rs -> shell p n ->
    shell (91%N :: body ++ 93%N :: p) (c :: n)
| sh_not_set body rs p c n :                                                    (* [!body] *)
    reads body rs -> body <> [] -> ~ In 93%N (tl body) -> ~ member c rs -> shell p n ->
    shell (91%N :: 33%N :: body ++ 93%N :: p) (c :: n)
| sh_open p n :                                                                 (* [ without closing bracket *)
    (forall body q, p = body ++ 93%N :: q -> body = [] \/ body = [33%N]) -> shell p n -> shell (91%N :: p) (91%N :: n)
| sh_char p c n : ~ In c [42; 63; 91]%N -> shell p n -> shell (c :: p) (c :: n).
