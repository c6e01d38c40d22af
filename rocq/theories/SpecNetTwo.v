(** Specification vocabulary for calls whose URIs belong to two memory connections. *)
From Verif Require Import Str Exc UriParse BaseUri Mem Registry Net.

(** Nothing but the file systems of [c] and [d] and the times of their last use differ. *)
Record framed2 (c d : nat) (N N' : net) : Prop := {
  ft_conns : r_conns (n_reg N') = r_conns (n_reg N);
  ft_schemes : r_schemes (n_reg N') = r_schemes (n_reg N);
  ft_next : r_next (n_reg N') = r_next (n_reg N);
  ft_closed : r_closed (n_reg N') = r_closed (n_reg N);
  ft_timeout : r_timeout (n_reg N') = r_timeout (n_reg N);
  ft_now : r_now (n_reg N') = r_now (n_reg N);
  ft_used : forall i, i <> c -> i <> d -> r_used (n_reg N') i = r_used (n_reg N) i;
  ft_fs : forall i, i <> c -> i <> d -> fs_of N' i = fs_of N i;
  ft_epoch : n_epoch N' = n_epoch N;
  ft_held : n_held N' = n_held N }.
