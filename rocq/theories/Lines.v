(** memory.py 113-115, 190-192: the other two ways to read the lines of a file (Mem.v has iteration). *)
From Verif Require Import Str Exc Utf8 Mem.

(** [list(handle.readlines())]: a generator over a generator, so that a line is decoded before the next one is read; with a
    bound on the number of lines. *)
Fixpoint h_readlines (fuel : nat) (h : handle) : M mst (list pyval) :=
  match fuel with
  | O => raise OutOfFuel
  | S f => let! b <- file_readline (h_node h);
           match b with
           | [] => ret []                       (* 118-123 *)
           | _ => let! v <- lift (proxy_decode h b);
                  let! l <- h_readlines f h; ret (v :: l)
           end
  end.
(** [readline()] until it returns nothing *)
Fixpoint h_readline_all (fuel : nat) (h : handle) : M mst (list pyval) :=
  match fuel with
  | O => raise OutOfFuel
  | S f => let! v <- h_readline h;
           match v with
           | VBytes [] | VStr [] => ret []
           | _ => let! l <- h_readline_all f h; ret (v :: l)
           end
  end.
