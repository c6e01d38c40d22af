(** Specification of copies between connections, independent of fs.py. *)
From Verif Require Import Str Exc UriParse BaseUri SpecUri Mem SpecMem SpecGen Posix SpecLocal Zip SpecZip.

(** What an archive has at a place: a member with its content, or, as a directory, what members are below. *)
Definition archived (ms : list member) (L : list (list str)) (p : list str) (x : option (list N)) : Prop :=
  match x with
  | Some d => In p L /\ stored ms (abs_path p) d
  | None => exists b, b <> [] /\ In (p ++ b) L
  end.

(** Trees of files and directories as seen from outside: [Some (Some d)] is a file with content [d], [Some None] a
    directory.  For a memory file system: *)
Definition mem_content (s : mst) (p : list str) : option (option (list N)) :=
  match view s p with
  | Some (EFile d _ _) => Some (Some d)
  | Some (EDir _ _) => Some None
  | Some (ELink _ _ _) | None => None
  end.

Section Destination.
(** [D] is what is in the file system the copy goes to. *)
Context {E : Type}.
Variables (isd isl : E -> bool) (D D' : list str -> option E).
Definition dir_at (p : list str) : Prop := exists e, D p = Some e /\ isd e = true.
(** A copy of something named [name] to [ct] goes to [cd].  [ct] is a directory; or neither a directory nor a link; or
    missing, and so are perhaps the last of the directories it is in. *)
Inductive lands (name : str) (ct : list str) : list str -> Prop :=
| lands_in : dir_at ct -> lands name ct (ct ++ [name])
| lands_on e : D ct = Some e -> isd e = false -> isl e = false -> lands name ct ct
| lands_new d n b : ct = d ++ n :: b -> dir_at d -> D (d ++ [n]) = None -> lands name ct ct.
(** Nothing is left out but the directories named in [ignore], with all that is in them. *)
Definition kept (T : list str -> option (option (list N))) (ignore r : list str) : Prop :=
  forall a n b, r = a ++ n :: b -> T (a ++ [n]) = Some None -> ~ In n ignore.
(** [D'] is [D] with new directories d/b1, d/b1/b2, ..., the last of which is a copy of [T]. *)
Definition transferred (new : option (list N) -> E) (T : list str -> option (option (list N))) (ignore d b : list str) : Prop :=
  (forall r c, T r = Some c -> kept T ignore r -> D' ((d ++ b) ++ r) = Some (new c)) /\
  (forall r, T r = None \/ ~ kept T ignore r -> D' ((d ++ b) ++ r) = None) /\
  (forall b1 b2, b = b1 ++ b2 -> b1 <> [] -> b2 <> [] -> D' (d ++ b1) = Some (new None)) /\
  (forall q, (forall b1 b2, b = b1 ++ b2 -> b1 <> [] -> q <> d ++ b1) -> (forall r, q <> (d ++ b) ++ r) -> D' q = D q).
(** A file can be written to p/m: it is in a directory, and no directory or link itself. *)
Definition fits (p : list str) (m : str) : Prop := dir_at p /\ forall e, D (p ++ [m]) = Some e -> isd e = false /\ isl e = false.
End Destination.

(** Destinations: the memory file system [s], the local files [x] *)
Definition mem_tree (s : mst) : list str -> option entry := view s.
Definition mem_dir (e : entry) : bool := match e with EDir _ _ => true | _ => false end.
Definition mem_link (e : entry) : bool := match e with ELink _ _ _ => true | _ => false end.
Definition mem_new (s : mst) (c : option (list N)) : entry :=
  match c with Some d => EFile d (m_now s) 0 | None => EDir (m_now s) 0 end.
Definition loc_tree (x : pst) (p : list str) : option pent := pget p (p_tree x).
Definition loc_new (x : pst) (c : option (list N)) : pent :=
  match c with Some d => PFile d (new_mode x) (p_now x) | None => PDir (Z.land 511 (Z.lnot (p_umask x))) (p_now x) end.
(** A file that is written over keeps its permissions. *)
Definition loc_over (x : pst) (cd : list str) (d : list N) : pent :=
  PFile d (match pget cd (p_tree x) with Some (PFile _ mo _) => mo | _ => new_mode x end) (p_now x).
(** Nothing but the tree may differ. *)
Definition same_host (x x' : pst) : Prop := p_cwd x' = p_cwd x /\ p_now x' = p_now x /\ p_umask x' = p_umask x.
(** Nothing differs; exactly what was at [cs] is gone. *)
Definition loc_same (x x' : pst) : Prop := (forall q, pget q (p_tree x') = pget q (p_tree x)) /\ same_host x x'.
Definition loc_cut (x x' : pst) (cs : list str) : Prop :=
  (forall r, pget (cs ++ r) (p_tree x') = None) /\ (forall q, (forall r, q <> cs ++ r) -> pget q (p_tree x') = pget q (p_tree x)) /\ same_host x x'.

(** What is at and below [cs] *)
Definition mem_below (s : mst) (cs r : list str) : option (option (list N)) := mem_content s (cs ++ r).
Definition loc_below (x : pst) (cs r : list str) : option (option (list N)) := content x (cs ++ r).
(** The names are ordinary in both file systems, there are no links, and the directories' names do not begin or end
    with white space; nothing is more than [fuel] levels deep. *)
Record portable (T : list str -> option (option (list N))) (good : list str -> Prop) (cd : list str) (fuel : nat) : Prop := {
  po_dir : T [] = Some None;
  po_good : forall r, T r <> None -> good (cd ++ r);
  po_unpadded : forall r, T r = Some None -> Forall unpadded r;
  po_depth : forall r, T r <> None -> length r < fuel }.
(** Below [cs] there are only ordinary names and no links. *)
Definition mem_plain (s : mst) (cs : list str) : Prop :=
  (forall r, ~ is_elink (view s (cs ++ r))) /\ (forall r, view s (cs ++ r) <> None -> good_path (cs ++ r)).
Definition loc_plain (x : pst) (cs : list str) : Prop :=
  (forall r tg, pget (cs ++ r) (p_tree x) <> Some (PLink tg)) /\ (forall r, pget (cs ++ r) (p_tree x) <> None -> plain_path (cs ++ r)).
