(** misc.py 12-37 [TempFileHandle] above the operating system of Posix.v: trees with links, and any program as the body of the with-block.

    Simplified: the handle holds the content the file had when it was opened (writing to the file meanwhile is not seen; removing and
    renaming it makes no difference on Linux); [text_of] stands for decoding and for the translation of line ends, and the whole
    content is decoded at once. *)
From Verif Require Import Str Exc UriParse Mem Misc Posix.

Section Temp.
(** What open() in text mode makes of bytes, or UnicodeDecodeError *)
Variable text_of : list N -> res str.

(** misc.py 22-24: tmpfilename and handle *)
Record thandle := mkT { t_name : str; t_data : list N; t_pos : nat; t_open : bool }.
Definition t_new (name : str) : M pst thandle :=
  let! q <- os_open_r name; let! d <- fd_data q; ret (mkT name d 0 true).
(** misc.py 32-33 *)
Definition t_read (limit : Z) : M (pst * thandle) str := fun '(x, h) =>
  if t_open h then
    match text_of (t_data h) with
    | Raise e => (Raise e, (x, h))
    | Ok t => let rest := skipn (t_pos h) t in
              let piece := if (limit <? 0)%Z then rest else firstn (Z.to_nat limit) rest in
              (Ok piece, (x, mkT (t_name h) (t_data h) (t_pos h + length piece) true))
    end
  else (Raise ValueError, (x, h)).
(** misc.py 35-38 *)
Definition t_close : M (pst * thandle) unit := fun '(x, h) =>
  let h' := mkT (t_name h) (t_data h) (t_pos h) false in
  let (r, x') := os_unlink (t_name h) x in (r, (x', h')).

(** Bodies: they read, close, do anything else with the file system, look at what comes, and return or raise. *)
Inductive tprog (A : Type) :=
| TDone (r : res A)
| TRead (limit : Z) (k : res str -> tprog A)
| TClose (k : res unit -> tprog A)
| TOther (m : M pst str) (k : res str -> tprog A).
Arguments TDone {A}. Arguments TRead {A}. Arguments TClose {A}. Arguments TOther {A}.
Fixpoint t_run {A} (p : tprog A) (s : pst * thandle) : res A * (pst * thandle) :=
  match p with
  | TDone r => (r, s)
  | TRead l k => let (r, s') := t_read l s in t_run (k r) s'
  | TClose k => let (r, s') := t_close s in t_run (k r) s'
  | TOther m k => let (r, x') := m (fst s) in t_run (k r) (x', snd s)
  end.
(** misc.py 26-30: [with TempFileHandle(name) as h: body] *)
Definition with_handle {A} (name : str) (p : tprog A) : M pst A := fun x =>
  match t_new name x with
  | (Raise e, x1) => (Raise e, x1)
  | (Ok h, x1) => let (r, s2) := t_run p (x1, h) in
                  match t_close s2 with
                  | (Raise e, (x3, _)) => (Raise e, x3)
                  | (Ok _, (x3, _)) => (r, x3)
                  end
  end.
End Temp.
Arguments TDone {A}. Arguments TRead {A}. Arguments TClose {A}. Arguments TOther {A}.
