(** Uses of one zip connection while others change the containing file.

    Others may replace, create, damage or remove the file between two uses; a with-block counts as one use. *)
From Verif Require Import Str Exc UriParse BaseUri Generic Zip.

Inductive use :=
| UWith (u : uri) (options : option str) (d : list N)   (* with u.open(options) as fd: fd.read() or fd.write(d) *)
| UExists (u : uri) | UIsdir (u : uri) | UIsfile (u : uri) | UListdir (u : uri)
| UOther (d : disk).                                    (* others leave the containing file like this *)
Inductive answer := ABool (b : bool) | ANames (l : list str) | ABytes (d : list N) | ADone | AFails (e : exc).

Definition answered {A} (f : A -> answer) (x : res A * zst) : answer * zst :=
  (match fst x with Ok a => f a | Raise e => AFails e end, snd x).
(** zip.py 134-141 and 13-29: what is opened decides whether the block reads or writes *)
Definition zip_with (u : uri) (options : option str) (d : list N) : M zst answer :=
  let! f <- zip_open u options;
  match f with
  | ZReader x => ret (ABytes x)
  | ZWriter p => zip_exit p d ;; ret ADone
  end.
Definition do_use (x : use) (s : zst) : answer * zst :=
  match x with
  | UWith u o d => answered (fun a => a) (zip_with u o d s)
  | UExists u => answered ABool (zip_exists u s)
  | UIsdir u => answered ABool (zip_isdir u s)
  | UIsfile u => answered ABool (zip_isfile u s)
  | UListdir u => answered ANames (zip_listdir u s)
  | UOther d => (ADone, mkZ d (z_handle s))
  end.
Fixpoint do_uses (l : list use) (s : zst) : list answer * zst :=
  match l with
  | [] => ([], s)
  | x :: l' => let (a, s1) := do_use x s in let (al, s2) := do_uses l' s1 in (a :: al, s2)
  end.
