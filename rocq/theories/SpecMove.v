(** The complete rule for moving a local file or link, for any two URIs and every local tree. *)
From Verif Require Import Str Exc UriParse BaseUri StrFacts SpecUri SpecParse SpecNames Mem Generic Posix SpecLocal SpecPosix.

(** The place named by a path, and slashes at its end *)
Definition put_at (x : pst) (s : str) (o : place) : Prop := exists t, chopped s t /\ looked x false t o.
Definition slash_end (s : str) : Prop := exists t, chopped s t /\ s <> t.
(** The entry [e] went from [p] to [q], nothing else changed. *)
Definition carried (x x' : pst) (p q : list str) (e : pent) : Prop :=
  entry_at x' q (Some e) /\ entry_at x' p None /\ (forall r, r <> p -> r <> q -> entry_at x' r (pget r (p_tree x))) /\
  p_cwd x' = p_cwd x /\ p_now x' = p_now x /\ p_umask x' = p_umask x.

(** A link to a directory goes to the name it has below a directory. *)
Definition dir_seen (x : pst) (u : uri) : Prop := exists p mo mt, sees x true u (Is p (PDir mo mt)).
Inductive headed (x : pst) (u v : uri) : res uri -> Prop :=
| hd_in d n r : dir_seen x u -> dir_seen x v -> splits u (Ok (d, n)) -> joins v [n] r -> headed x u v r
| hd_fails e : dir_seen x u -> dir_seen x v -> splits u (Raise e) -> headed x u v (Raise e)
| hd_as : ~ (dir_seen x u /\ dir_seen x v) -> headed x u v (Ok v).
(** Anything goes into a directory ([true]), with the last name in its path. *)
Inductive within (s n : str) : str -> Prop :=
| wi_slash r : s = r ++ [cSlash] -> within s n (s ++ n)
| wi_plain : (forall r, s <> r ++ [cSlash]) -> within s n (s ++ cSlash :: n).
Inductive target (x : pst) (u w : uri) : bool -> str -> Prop :=
| tg_in s n t : dir_seen x w -> paths w s -> ends_in u n -> within s n t -> target x u w true t
| tg_at s : ~ dir_seen x w -> paths w s -> target x u w false s.
Definition taken (x : pst) (i : bool) (t : str) : Prop := i = true /\ exists p e, looked x true t (Is p e).
(** The path to which [u] goes *)
Inductive goes (x : pst) (u v : uri) : str -> Prop :=
| go_to w i t : headed x u v (Ok w) -> target x u w i t -> ~ has_nul u -> ~ In 0%N t -> ~ taken x i t -> goes x u v t.
Definition is_link (e : pent) : Prop := exists t, e = PLink t.
Inductive moves (x : pst) (u v : uri) : res unit -> pst -> Prop :=
| mo_new t p e d n x' : goes x u v t -> sees x false u (Is p e) -> put_at x t (Free d n) -> ~ slash_end t -> carried x x' p (d ++ [n]) e -> moves x u v (Ok tt) x'
| mo_over t p e q f x' : goes x u v t -> sees x false u (Is p e) -> put_at x t (Is q f) -> ~ slash_end t -> p <> q -> carried x x' p q e -> moves x u v (Ok tt) x'
| mo_same t p e f : goes x u v t -> sees x false u (Is p e) -> put_at x t (Is p f) -> ~ slash_end t -> moves x u v (Ok tt) x
| mo_absent t o e : goes x u v t -> sees x false u o -> absent o e -> moves x u v (Raise e) x
| mo_wrong t p e e' : goes x u v t -> sees x false u (Is p e) -> put_at x t (Wrong e') -> moves x u v (Raise e') x
| mo_slash_file t p e o : goes x u v t -> sees x false u (Is p e) -> ~ is_link e -> slash_end t -> put_at x t o -> (forall e', o <> Wrong e') -> moves x u v (Raise (OSError EISDIR)) x
| mo_slash_link t p e q f : goes x u v t -> sees x false u (Is p e) -> is_link e -> slash_end t -> put_at x t (Is q f) -> moves x u v (Raise (OSError EEXIST)) x
| mo_slash_free t p e d n : goes x u v t -> sees x false u (Is p e) -> is_link e -> slash_end t -> put_at x t (Free d n) -> moves x u v (Raise (OSError ENOENT)) x
| mo_taken w i t : headed x u v (Ok w) -> target x u w i t -> ~ has_nul u -> taken x i t -> moves x u v (Raise ShutilError) x
| mo_nul w i t : headed x u v (Ok w) -> target x u w i t -> has_nul u \/ In 0%N t -> moves x u v (Raise ValueError) x
| mo_not e : headed x u v (Raise e) -> moves x u v (Raise e) x.
