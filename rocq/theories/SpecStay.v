(** What removing a local tree may touch.  Stated on the entries of the tree and on path lookup. *)
From Verif Require Import Str Exc UriParse BaseUri SpecUri Mem Posix SpecLocal SpecPosix.

Definition part_of (w s : str) : Prop := exists a b, s = a ++ w ++ b.
(** An absolute or relative path, written without signs that a URI reads in another way *)
Record path_text (s : str) : Prop := {
  px_signs : free_of [cBack; cQuest; cHash] s;
  px_group : ~ part_of (lit "((") s;
  px_scheme : ~ part_of (lit "://") s;
  px_start : (exists c r, s = cSlash :: c :: r /\ ~ In c [cSlash; cDot; cColon]) \/ exists r, s = lit "./" ++ r }.
(** A URI written as that path, with or without the scheme *)
Definition written (s : str) (u : uri) : Prop := path_text s /\ exists t ex, (t = s \/ t = lit "file://" ++ s) /\ URI t cSlash ex = Ok u.
(** Names of files that a URI does not read as a way out of the directory *)
Record tame_name (n : str) : Prop := {
  tn_signs : free_of [cSlash; cBack; cHash] n;
  tn_group : ~ part_of (lit "((") n;
  tn_up : n <> lit "..";
  tn_query : forall r, n <> lit "..?" ++ r }.
Definition tame_below (x : pst) (d : list str) : Prop := forall p n, below d p -> entry_at x (p ++ [n]) None \/ tame_name n.

(** The same process, and every entry as before or gone *)
Definition thinned (x x' : pst) : Prop :=
  p_cwd x' = p_cwd x /\ p_now x' = p_now x /\ p_umask x' = p_umask x /\ forall p, pget p (p_tree x') = pget p (p_tree x) \/ entry_at x' p None.
(** Nothing but what is at and below [d] is gone. *)
Definition stays_in (x x' : pst) (d : list str) : Prop := thinned x x' /\ forall p, ~ below d p -> pget p (p_tree x') = pget p (p_tree x).
