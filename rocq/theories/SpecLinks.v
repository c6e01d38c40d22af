(** What the theorems about local trees with links are stated with.  [plook] (Posix.v) is the lookup of a path by the
    operating system. *)
From Verif Require Import Str Exc UriParse BaseUri SpecUri Mem SpecMem Posix SpecLocal StrFacts SpecGen.
From Coq Require Import Sorted.

(** The path [cs] is an existing directory, reached perhaps through links: the directory [q]. *)
Definition dir_through (x : pst) (cs q : list str) : Prop := exists mo mt, plook x true (abs_path cs) = Ok (At q (PDir mo mt)).
Definition leads_to_dir (x : pst) (cs : list str) : Prop := exists q, dir_through x cs q.
Definition is_link_at (x : pst) (p : list str) : Prop := exists tg, pget p (p_tree x) = Some (PLink tg).
(** The directories a walk from [cs] enters, when those named in [ignore] are left out: [r] is the path below the
    start, [q] the directory. *)
Inductive enters (x : pst) (follow : bool) (ignore cs : list str) : list str -> list str -> Prop :=
| en_top q : dir_through x cs q -> enters x follow ignore cs [] q
| en_down r q n q' : enters x follow ignore cs r q -> pget (q ++ [n]) (p_tree x) <> None -> ~ In n ignore ->
    dir_through x ((cs ++ r) ++ [n]) q' -> (follow = true \/ ~ is_link_at x (q ++ [n])) ->
    enters x follow ignore cs (r ++ [n]) q'.
(** [dirs] and [files] are the sorted names in the directory [q], addressed by [cs]; links count as what they lead to. *)
Definition lists (x : pst) (cs q dirs files : list str) : Prop :=
  StronglySorted slt dirs /\ StronglySorted slt files /\
  (forall n, In n dirs <-> pget (q ++ [n]) (p_tree x) <> None /\ leads_to_dir x (cs ++ [n])) /\
  (forall n, In n files <-> pget (q ++ [n]) (p_tree x) <> None /\ ~ leads_to_dir x (cs ++ [n])).

(** What was at [p] and below is gone; nothing else changed. *)
Definition all_gone (x x' : pst) (p : list str) : Prop :=
  (forall q, below p q -> pget q (p_tree x') = None) /\ (forall q, ~ below p q -> pget q (p_tree x') = pget q (p_tree x)) /\
  p_cwd x' = p_cwd x /\ p_now x' = p_now x /\ p_umask x' = p_umask x.
(** A new directory, and the copy of an entry: a file has the same content, permissions and modification time, a
    directory is a new one, a link says the same. *)
Definition made_dir (x : pst) : pent := PDir (Z.land 511 (Z.lnot (p_umask x))) (p_now x).
Definition copy_of (x : pst) (e : pent) : pent :=
  match e with PFile d mo mt => PFile d (Z.land mo 4095) mt | PDir _ _ => made_dir x | PLink tg => PLink tg end.
(** The path [cs] is the file [q], reached perhaps through links. *)
Definition file_through (x : pst) (cs q : list str) (d : list N) (mo mt : Z) : Prop := plook x true (abs_path cs) = Ok (At q (PFile d mo mt)).

(** What the names [z], one after the other, lead to from the path [cs]. *)
Fixpoint seen (x : pst) (cs z : list str) : option pent :=
  match plook x true (abs_path cs) with
  | Ok (At q e) =>
      match z with
      | [] => Some e
      | n :: z' => match pget (q ++ [n]) (p_tree x) with Some _ => seen x (cs ++ [n]) z' | None => None end
      end
  | _ => None
  end.
