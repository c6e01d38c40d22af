(** Where dirname() leads beyond the top of a path. *)
From Verif Require Import Str.
Local Open Scope string_scope.

(** The three local paths that follow one another for ever *)
Definition round (k : nat) : str :=
  match Nat.modulo k 3 with 0%nat => lit "." | 1%nat => lit "./file:/" | _ => lit "./file:" end.
(** Above a host of the scheme [sch]: two local paths made of the scheme, then the three *)
Definition beyond (sch : str) (k : nat) : str :=
  match k with
  | 0%nat => (lit "./" ++ sch ++ lit ":/")%list
  | 1%nat => (lit "./" ++ sch ++ lit ":")%list
  | S (S k') => round k'
  end.
(** Relative paths below the current directory *)
Definition here_path (cs : list str) : str := cDot :: flat_map (fun c => cSlash :: c) cs.
