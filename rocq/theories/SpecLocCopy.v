(** The complete rule for copying a single local file or link, between any two URIs and for every local tree. *)
From Verif Require Import Str Exc UriParse BaseUri StrFacts SpecUri SpecParse SpecNames Mem Generic Posix SpecLocal SpecPosix SpecMove.

(** Where the copy goes: into [v] if that leads to a directory, with the last name of the text of [u], otherwise to [v]. *)
Inductive lands (x : pst) (u v : uri) : res uri -> Prop :=
| ld_in n r : dir_seen x v -> last_name (u_uri u) n -> joins v [n] r -> lands x u v r
| ld_at : ~ dir_seen x v -> lands x u v (Ok v).
(** A link is made anew; a file at its new place, or a link there that leads to a file, is removed first, and is gone even if the rest fails. *)
Inductive cleared (x : pst) (w : uri) : pst -> Prop :=
| cl_file p d mo mt q e x1 : sees x true w (Is p (PFile d mo mt)) -> sees x false w (Is q e) -> only x x1 q None -> cleared x w x1
| cl_none : (forall p d mo mt, ~ sees x true w (Is p (PFile d mo mt))) -> cleared x w x.
Inductive relinks (x : pst) (u w : uri) : res unit -> pst -> Prop :=
| rl_lost x1 e : cleared x w x1 -> leads x1 u (Raise e) -> relinks x u w (Raise e) x1
| rl_made x1 t r x' : cleared x w x1 -> leads x1 u (Ok t) -> links x1 t w r x' -> relinks x u w r x'.
(** The content goes where opening to write leads; with [same] schemes mode and time follow.  A file copied onto itself is emptied. *)
Definition stat_perms (mo : Z) : Z := Z.land (Z.lor 32768 mo) 4095.
Inductive copied (x : pst) (u w : uri) (same : bool) : res unit -> pst -> Prop :=
| co_over p d mo mt q d' mo' mt' x' : sees x true u (Is p (PFile d mo mt)) -> opens x w q (Some (PFile d' mo' mt')) -> p <> q ->
    only x x' q (Some (if same then PFile d (stat_perms mo) mt else PFile d mo' (p_now x))) -> copied x u w same (Ok tt) x'
| co_new p d mo mt q x' : sees x true u (Is p (PFile d mo mt)) -> opens x w q None ->
    only x x' q (Some (if same then PFile d (stat_perms mo) mt else PFile d (new_mode x) (p_now x))) -> copied x u w same (Ok tt) x'
| co_self p d mo mt x' : sees x true u (Is p (PFile d mo mt)) -> opens x w p (Some (PFile d mo mt)) ->
    only x x' p (Some (PFile [] (if same then stat_perms mo else mo) (p_now x))) -> copied x u w same (Ok tt) x'
| co_not e : refused x w e -> copied x u w same (Raise e) x.
(** u.copy(v, followlinks=follow) *)
Inductive copies (x : pst) (follow : bool) (u v : uri) : res unit -> pst -> Prop :=
| cp_none o e : sees x true u o -> absent o e -> copies x follow u v (Raise FileDoesNotExistError) x
| cp_dir : dir_seen x u -> copies x follow u v (Raise AssertionError) x
| cp_lost p d mo mt e : sees x true u (Is p (PFile d mo mt)) -> lands x u v (Raise e) -> copies x follow u v (Raise e) x
| cp_link p d mo mt q t w r x' : sees x true u (Is p (PFile d mo mt)) -> follow = false -> sees x false u (Is q (PLink t)) -> lands x u v (Ok w) ->
    relinks x u w r x' -> copies x follow u v r x'
| cp_file p d mo mt w same r x' : sees x true u (Is p (PFile d mo mt)) -> follow = true \/ (forall q t, ~ sees x false u (Is q (PLink t))) -> lands x u v (Ok w) ->
    (same = true <-> u_scheme u = u_scheme v) -> copied x u w same r x' -> copies x follow u v r x'.
