(** Specification of reading: slices and lines.  Independent of the model. *)
From Verif Require Import Str Exc.

(** [slices rest sizes]: what successive reads of the given sizes return, negative meaning all;
    and what is left. *)
Fixpoint slices (rest : list N) (sizes : list Z) : list (list N) * list N :=
  match sizes with
  | [] => ([], rest)
  | z :: zs =>
      let n := if (z <? 0)%Z then length rest else Z.to_nat z in
      let (out, left) := slices (skipn n rest) zs in
      (firstn n rest :: out, left)
  end.

(** A line: characters other than newline, then one newline. *)
Definition is_line (l : list N) : Prop := exists b, l = b ++ [10%N] /\ ~ In 10%N b.
(** The end of a file without final newline. *)
Definition is_tail (l : list N) : Prop := l <> [] /\ ~ In 10%N l.
Definition is_lines (content : list N) (ls : list (list N)) : Prop :=
  concat ls = content /\
  exists full tail, ls = full ++ tail /\ Forall is_line full /\ (tail = [] \/ exists l, tail = [l] /\ is_tail l).
