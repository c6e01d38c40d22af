(** Which plugin serves a scheme. *)
From Verif Require Import Str Exc BaseUri Registry Plugins.

(** A plugin as it should be: it says its scheme and its URI class. *)
Definition says (p : plugin) (sc : option str) (c : uclass) : Prop := pl_scheme p = Ok sc /\ pl_uri p = Ok c.
(** Nothing among the entry points stops the import: those that load are as they should be, none raises more than an
    Exception. *)
Definition orderly (l : list entry_point) : Prop :=
  forall e, In e l -> match e with Loads p => exists sc c, says p sc c | Fails => True | Ends _ => False end.
(** [p] is the last of the entry points with this scheme. *)
Definition serves (l : list entry_point) (sc : option str) (p : plugin) : Prop :=
  exists a b, l = a ++ Loads p :: b /\ pl_scheme p = Ok sc /\ forall q, In (Loads q) b -> pl_scheme q <> Ok sc.
Definition unserved (l : list entry_point) (sc : option str) : Prop := forall p, In (Loads p) l -> pl_scheme p <> Ok sc.
