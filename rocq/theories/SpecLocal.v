(** What the theorems about local files are stated with. *)
From Verif Require Import Str Exc UriParse BaseUri SpecUri Mem SpecMem Posix.

(** Ordinary names of files: those of [name_ok], and none that the kernel or a file URI treats specially. *)
Record plain_name (n : str) : Prop := {
  pn_name : name_ok n;
  pn_nul : ~ In 0%N n;
  pn_dot : n <> lit ".";
  pn_dotdot : n <> lit "..";
  pn_colon : forall r, n <> cColon :: r }.
Record plain_path (cs : list str) : Prop := {
  pp_names : Forall plain_name cs;
  pp_first : forall c cs', cs = c :: cs' -> forall r, c <> cDot :: r }.

(** Ordinary file URIs, written file:///n1/n2/... *)
Definition file_text (cs : list str) : str := lit "file://" ++ abs_path cs.
Definition file_at (cs : list str) (u : uri) : Prop := plain_path cs /\ URI (file_text cs) cSlash [] = Ok u.

(** The same kind of entry, and for files the same content. *)
Definition same_entry (a : option entry) (b : option pent) : Prop :=
  match a, b with
  | None, None => True
  | Some (EFile d _ _), Some (PFile d' _ _) => d = d'
  | Some (EDir _ _), Some (PDir _ _) => True
  | _, _ => False
  end.
(** A memory file system and the local one hold the same files and directories under the same names, and there are
    no links. *)
Record mirrors (s : mst) (x : pst) : Prop := {
  mi_same : forall p, same_entry (view s p) (pget p (p_tree x));
  mi_names : forall p, view s p <> None -> plain_path p;
  mi_nodup : NoDup (map fst (p_tree x)) }.

(** The outcomes of one call on both sides: the same result, or the same exception, and again the same files;
    or else the memory backend raised AttributeError. *)
Definition agree {A B} (R : A -> B -> Prop) (m : res A * mst) (l : res B * pst) : Prop :=
  match m with
  | (Ok a, s') => exists b x', l = (Ok b, x') /\ R a b /\ mirrors s' x'
  | (Raise AttributeError, _) => True
  | (Raise e, s') => exists x', l = (Raise e, x') /\ mirrors s' x'
  end.

(** The local tree: every entry is in a directory, nothing is listed twice. *)
Record sound (x : pst) : Prop := {
  so_root : exists mo mt, pget [] (p_tree x) = Some (PDir mo mt);
  so_up : forall p n, pget (p ++ [n]) (p_tree x) <> None -> exists mo mt, pget p (p_tree x) = Some (PDir mo mt);
  so_nodup : NoDup (map fst (p_tree x)) }.

(** What was at [p], with everything below, is now at [q]; everything else is as before. *)
Definition relocated (x x' : pst) (p q : list str) : Prop :=
  (forall r, pget (q ++ r) (p_tree x') = pget (p ++ r) (p_tree x)) /\
  (forall r, pget (p ++ r) (p_tree x') = None) /\
  (forall y, (forall r, y <> p ++ r) -> (forall r, y <> q ++ r) -> pget y (p_tree x') = pget y (p_tree x)).
Definition below (p q : list str) : Prop := exists r, q = p ++ r.
(** Entries of the local tree *)
Definition is_dir_at (x : pst) (p : list str) : Prop := exists mo mt, pget p (p_tree x) = Some (PDir mo mt).
Definition is_file_at (x : pst) (p : list str) : Prop := exists d mo mt, pget p (p_tree x) = Some (PFile d mo mt).
(** A name that is not in use, in an existing directory *)
Definition free_at (x : pst) (p : list str) : Prop :=
  pget p (p_tree x) = None /\ exists i n, p = i ++ [n] /\ is_dir_at x i.

(** What is at a path, seen from outside: [Some (Some d)] is a file with content [d], [Some None] a directory. *)
Definition content (x : pst) (p : list str) : option (option (list N)) :=
  match pget p (p_tree x) with
  | Some (PFile d _ _) => Some (Some d)
  | Some (PDir _ _) => Some None
  | Some (PLink _) | None => None
  end.
(** A tree with ordinary names and without links *)
Record ordinary (x : pst) : Prop := {
  or_sound : sound x;
  or_unlinked : forall p tg, pget p (p_tree x) <> Some (PLink tg);
  or_names : forall p, pget p (p_tree x) <> None -> plain_path p }.
(** Where a copy of something named [n] to [q] goes. *)
Definition goes_to (x : pst) (n : str) (q q' : list str) : Prop :=
  (is_dir_at x q /\ q' = q ++ [n]) \/ (~ is_dir_at x q /\ q' = q).

(** An entry that is no link, or a name free to use *)
Definition known (x : pst) (q : list str) : Prop := (exists f, pget q (p_tree x) = Some f /\ is_plink f = false) \/ free_at x q.
(** Exactly one entry changed. *)
Definition only (x x' : pst) (p : list str) (e : option pent) : Prop :=
  pget p (p_tree x') = e /\ (forall q, q <> p -> pget q (p_tree x') = pget q (p_tree x)) /\
  p_cwd x' = p_cwd x /\ p_now x' = p_now x /\ p_umask x' = p_umask x.
(** The permissions of new files *)
Definition new_mode (y : pst) : Z := Z.land 438 (Z.lnot (p_umask y)).

(** A link with the absolute path of [q] at [p]; a chain of [n] links from [p] to [q] *)
Definition points (x : pst) (p q : list str) : Prop := pget p (p_tree x) = Some (PLink (abs_path q)).
Inductive chain (x : pst) : nat -> list str -> list str -> Prop :=
| chain_end q : chain x 0 q q
| chain_link n p p' q : plain_path p -> points x p p' -> chain x n p' q -> chain x (S n) p q.
