(** Vocabulary for C145: reading a text in pieces, and removing a name. *)
From Verif Require Import Str Exc UriParse Mem Posix SpecNames SpecUri SpecLocal SpecPosix TempFile.

(** [served t limits pieces]: what reading with these limits gives one after the other; a negative limit stands for all the rest. *)
Inductive served : str -> list Z -> list str -> Prop :=
| sv_none t : served t [] []
| sv_rest t l ls ps : (l < 0)%Z -> served [] ls ps -> served t (l :: ls) (t :: ps)
| sv_part a b l ls ps : Z.of_nat (length a) = l -> served b ls ps -> served (a ++ b) (l :: ls) (a :: ps)
| sv_short t l ls ps : (Z.of_nat (length t) < l)%Z -> served [] ls ps -> served t (l :: ls) (t :: ps).
(** The program that reads so, with something else done before each reading, and returns the pieces *)
Fixpoint reader (acc : list str) (l : list (M pst str * Z)) : tprog (list str) :=
  match l with
  | [] => TDone (Ok acc)
  | (m, n) :: l' => TOther m (fun _ => TRead n (fun r => match r with Ok p => reader (acc ++ [p]) l' | Raise e => TDone (Raise e) end))
  end.
(** Programs that only read *)
Inductive only_reads {A} : tprog A -> Prop :=
| or_done r : only_reads (TDone r)
| or_read n k : (forall r, only_reads (k r)) -> only_reads (TRead n k).
(** Removing the entry of a name: a link is removed, not what it leads to. *)
Inductive unlinked (x : pst) (s : str) : res unit -> pst -> Prop :=
| ul_entry p e x' : chopped s s -> looked x false s (Is p e) -> (forall mo mt, e <> PDir mo mt) -> only x x' p None -> unlinked x s (Ok tt) x'
| ul_dir p mo mt : chopped s s -> looked x false s (Is p (PDir mo mt)) -> unlinked x s (Raise (OSError EISDIR)) x
| ul_absent o e : chopped s s -> looked x false s o -> absent o e -> unlinked x s (Raise e) x
| ul_slash_dir t p mo mt : chopped s t -> s <> t -> looked x false t (Is p (PDir mo mt)) -> unlinked x s (Raise (OSError EISDIR)) x
| ul_slash t p e : chopped s t -> s <> t -> looked x false t (Is p e) -> (forall mo mt, e <> PDir mo mt) -> unlinked x s (Raise (OSError ENOTDIR)) x
| ul_slash_absent t o e : chopped s t -> s <> t -> looked x false t o -> absent o e -> unlinked x s (Raise e) x.
