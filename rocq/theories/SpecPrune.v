(** The tree a walk goes through. *)
From Verif Require Import Str Exc UriParse BaseUri Generic.

(** A directory, the directories and the other entries in it, and those directories the walk goes into *)
Inductive wtree := WNode (top : uri) (dirs files : list str) (subs : list (str * wtree)).
Definition wtop (t : wtree) : uri := let (u, _, _, _) := t in u.
Definition item := (uri * list str * list str)%type.
Fixpoint parents_first (t : wtree) : list item :=
  let (u, ds, fs, subs) := t in (u, ds, fs) :: concat (map (fun c => parents_first (snd c)) subs).
Fixpoint children_first (t : wtree) : list item :=
  let (u, ds, fs, subs) := t in concat (map (fun c => children_first (snd c)) subs) ++ [(u, ds, fs)].
(** Without the subtrees of the names that are not kept *)
Fixpoint thinned (keep : uri -> str -> bool) (t : wtree) : wtree :=
  let (u, ds, fs, subs) := t in
  WNode u ds fs (flat_map (fun c => if keep u (fst c) then [(fst c, thinned keep (snd c))] else []) subs).
(** The names gone into are those directories that are no links, or all with followlinks; each leads to the directory joined
    with the name. *)
Inductive gone_into (link : uri -> Prop) (follow : bool) (u : uri) : list str -> list (str * wtree) -> Prop :=
| gone_nil : gone_into link follow u [] []
| gone_in : forall n ds t subs, u_div u n = Ok (wtop t) -> (link (wtop t) -> follow = true) -> gone_into link follow u ds subs ->
    gone_into link follow u (n :: ds) ((n, t) :: subs)
| gone_by : forall n ds p subs, u_div u n = Ok p -> link p -> follow = false -> gone_into link follow u ds subs ->
    gone_into link follow u (n :: ds) subs.
Inductive coherent (link : uri -> Prop) (follow : bool) : wtree -> Prop :=
| coherent_node : forall u ds fs subs, gone_into link follow u ds subs -> (forall n t, In (n, t) subs -> coherent link follow t) ->
    coherent link follow (WNode u ds fs subs).

(** What a walk asks does not change anything. *)
Definition unchanged_by {S A} (m : M S A) (s : S) : Prop := snd (m s) = s.
Definition harmless {S} (b : backend S) (s : S) : Prop := forall u,
  unchanged_by (b_listdir b u) s /\ unchanged_by (b_isdir b u) s /\ unchanged_by (b_islink b u) s /\ forall n, unchanged_by (b_hook b u n) s.
