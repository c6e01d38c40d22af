(** Specification vocabulary for the connection registry, independent of the model's helpers. *)
From Verif Require Import Str Exc UriParse BaseUri Registry.

(** Two lookups ask for the same connection when all fields agree and the extras have the same items, in
    whatever order. *)
Definition same_key (a b : conn_key) : Prop :=
  k_scheme a = k_scheme b /\ k_host a = k_host b /\ k_port a = k_port b /\ k_user a = k_user b
  /\ k_pass a = k_pass b /\ k_vpath a = k_vpath b /\ (forall kv, In kv (k_extras a) <-> In kv (k_extras b)).

(** The backend registered last for a scheme, in a history. *)
Inductive registered (sc : option str) : factory -> list revent -> Prop :=
| reg_here : forall f l, registered sc f (l ++ [RRegister sc f])
| reg_later : forall f l e, registered sc f l -> (forall g, e <> RRegister sc g) -> registered sc f (l ++ [e]).
Definition unregistered (sc : option str) (l : list revent) : Prop := forall f, ~ In (RRegister sc f) l.

(** A connection is stale when it has not been used for longer than the timeout. *)
Definition stale (s : rst) (c : nat) : Prop := (r_now s - r_used s c > r_timeout s)%Z.

(** The entry [k -> c] is in the table. *)
Definition open_as (s : rst) (k : conn_key) (c : nat) : Prop := exists k', same_key k k' /\ In (k', c) (r_conns s).

(** A clean-up takes the entry away when it is forced or the entry is stale. *)
Definition due (force : bool) (s : rst) (c : nat) : Prop := force = true \/ stale s c.
Inductive swept (P : nat -> Prop) : list (conn_key * nat) -> list (conn_key * nat) -> list nat -> Prop :=
| sw_nil : swept P [] [] []
| sw_close : forall k c l l' cs, P c -> swept P l l' cs -> swept P ((k, c) :: l) l' (c :: cs)
| sw_keep : forall k c l l' cs, ~ P c -> swept P l l' cs -> swept P ((k, c) :: l) ((k, c) :: l') cs.

(** *** From URIs *)
(** The extra parameters of the connection: the keyword arguments, and the query unless it is a web address; the query
    comes first. *)
Definition web (u : uri) : Prop := u_scheme u = Some (lit "http") \/ u_scheme u = Some (lit "https").
Inductive extra_of (u : uri) (k v : str) : Prop :=
| ex_keyword : dget k (u_extras u) = Some v -> web u \/ dget k (p_query (u_p u)) = None -> extra_of u k v
| ex_query : ~ web u -> dget k (p_query (u_p u)) = Some v -> extra_of u k v.
(** Everything the connection is chosen by *)
Definition same_place (u v : uri) : Prop :=
  u_scheme u = u_scheme v /\ p_hostname (u_p u) = p_hostname (u_p v) /\ p_port (u_p u) = p_port (u_p v) /\ u_user u = u_user v /\ u_pass u = u_pass v
  /\ p_vpath (u_p u) = p_vpath (u_p v) /\ forall k x, extra_of u k x <-> extra_of v k x.
(** Names are given once in the query and once among the keywords. *)
Definition no_name_twice (u : uri) : Prop := NoDup (map fst (u_extras u)) /\ NoDup (map fst (p_query (u_p u))).
