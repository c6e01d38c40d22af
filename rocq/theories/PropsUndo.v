(** C158: what split() gives for a joined URI, whatever its query, its trailing slashes and its authority. *)
From Verif Require Import Str Exc StrFacts Utf8 UriParse BaseUri SpecUri UriFacts UriFacts2 UriFacts3 UriFacts4 UriFacts5 UndoFacts PropsUri.

(** The directory of a name joined to [p0] followed by any number of slashes: [p0]; where nothing is left, the root
    without an authority, and no path at all with one. *)
Definition under_path (a : auth) (p0 : str) : str :=
  match p0 with [] => match a with NoAuth => lit "/" | _ => [] end | _ => p0 end.

Theorem C158_split sch a p0 k q t qt ex n : loc_ok sch a (p0 ++ repeat cSlash k) -> no_trailing_slash p0 -> query_ok q ->
  query_text_of q qt -> t = sch ++ lit "://" ++ auth_text a ++ (p0 ++ repeat cSlash k) ++ qt -> kw_ok ex -> name_ok n -> no_drive sch n ->
  exists u r d, URI t cSlash ex = Ok u /\ u_div u n = Ok r /\ u_split r = Ok (d, n) /\ u_dirname 1 r = Ok d /\ u_basename r = Ok n /\
    u_last r = n ++ qt /\
    u_uri d = sch ++ lit "://" ++ auth_text a ++ under_path a p0 /\ p_path (u_p d) = under_path a p0 /\ p_query (u_p d) = [] /\
    u_cls d = u_cls u /\ u_scheme d = u_scheme u /\ p_hostname (u_p d) = p_hostname (u_p u) /\ p_port (u_p d) = p_port (u_p u) /\
    p_username (u_p d) = p_username (u_p u) /\ p_password (u_p d) = p_password (u_p u) /\ p_vpath (u_p d) = p_vpath (u_p u).
Proof.
  intros HL Ht Hq Hqt -> Hk Hn Hd. apply query_enc in Hqt as (e & -> & He).
  assert (G : forall x, sch ++ lit "://" ++ auth_text a ++ x ++ qtext e = gtext sch a x e None) by (intros x; unfold gtext; cbn [ftext]; now rewrite app_nil_r).
  assert (Du : dir_path a p0 = under_path a p0) by (destruct p0, a; reflexivity).
  rewrite G. destruct (split_join sch a p0 k q e ex n HL Ht Hq He Hk Hn Hd) as (u & r & d & E1 & E2 & E3 & E4 & E5 & E6 & E7 & E8 & E9 & E10).
  exists u, r, d. split; [exact E1|]. split; [exact E2|]. split; [exact E3|].
  split; [unfold u_dirname, u_dirname_loop; now rewrite E3|]. split; [unfold u_basename; now rewrite E3|].
  split; [apply (last_joined r (sch ++ lit "://" ++ auth_text a ++ p0) n e q); auto; rewrite E6; unfold gtext; cbn [ftext]; rewrite app_nil_r, <- !app_assoc; reflexivity|].
  unfold u_scheme. rewrite E5, E7, E8, E9, <- Du. unfold gtext. cbn [qtext ftext]. rewrite !app_nil_r. repeat split; reflexivity.
Qed.

(** So split() undoes the join just if there is no query and no trailing slash, or the path is the root and there is no
    authority. *)
Theorem C158_exactly sch a p0 k q t qt ex n : loc_ok sch a (p0 ++ repeat cSlash k) -> no_trailing_slash p0 -> query_ok q ->
  query_text_of q qt -> t = sch ++ lit "://" ++ auth_text a ++ (p0 ++ repeat cSlash k) ++ qt -> kw_ok ex -> name_ok n -> no_drive sch n ->
  exists u r d, URI t cSlash ex = Ok u /\ u_div u n = Ok r /\ u_split r = Ok (d, n) /\
    (u_eqb d u = true <-> q = [] /\ (k = 0%nat \/ p0 = [] /\ k = 1%nat /\ a = NoAuth)).
Proof.
  intros HL Ht Hq Hqt -> Hk Hn Hd. apply query_enc in Hqt as (e & -> & He).
  assert (G : forall x, sch ++ lit "://" ++ auth_text a ++ x ++ qtext e = gtext sch a x e None) by (intros x; unfold gtext; cbn [ftext]; now rewrite app_nil_r).
  rewrite G. destruct (split_join sch a p0 k q e ex n HL Ht Hq He Hk Hn Hd) as (u & r & d & E1 & E2 & E3 & _ & E5 & _ & _ & E8 & _).
  exists u, r, d. split; [exact E1|]. split; [exact E2|]. split; [exact E3|]. now apply (split_same sch a p0 k q).
Qed.
Print Assumptions C158_split.
Print Assumptions C158_exactly.

(** The hypotheses are met by a URI with a host, a query and two trailing slashes, *)
Example C158_witness :
  loc_ok (lit "ssh") ex_auth (lit "/a b" ++ repeat cSlash 2) /\ no_trailing_slash (lit "/a b") /\ query_ok [(lit "key", lit "value")] /\
  query_text_of [(lit "key", lit "value")] (lit "?key=value") /\ kw_ok [] /\ name_ok (lit "c") /\ no_drive (lit "ssh") (lit "c").
Proof.
  split; [apply loc_remote; [apply scheme_ssh|apply ex_auth_ok|]; constructor; [now eexists|free|now apply not_contains]|].
  split; [intros r E; apply (f_equal (@rev N)) in E; rewrite rev_app_distr in E; discriminate|]. split; [apply ex_query|].
  split; [exists (lit "key=value"); split; vm_compute; reflexivity|]. split; [constructor; [constructor|intros k _ []]|].
  split; [constructor; [discriminate|free|now apply not_contains]|]. intros E. discriminate.
Qed.
(** and this is what is left of it, of the root of a host, of a connector and of the root without a host. *)
Definition undone (t n : str) : option (str * bool) :=
  match URI t cSlash [] with
  | Ok u => match u_div u n with
            | Ok r => match u_split r with Ok (d, _) => Some (u_uri d, u_eqb d u) | Raise _ => None end
            | Raise _ => None
            end
  | Raise _ => None
  end.
Example C158_left :
  undone (lit "ssh://joe:pw@host.net:2222/a b//?key=value") (lit "c") = Some (lit "ssh://joe:pw@host.net:2222/a b", false) /\
  undone (lit "ssh://host/") (lit "c") = Some (lit "ssh://host", false) /\
  undone (lit "zip://((file:///x.zip))/") (lit "c") = Some (lit "zip://((file:///x.zip))", false) /\
  undone (lit "memory:///") (lit "c") = Some (lit "memory:///", true) /\
  undone (lit "ssh://host/a") (lit "c") = Some (lit "ssh://host/a", true).
Proof. repeat split; vm_compute; reflexivity. Qed.
