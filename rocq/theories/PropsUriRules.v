(** Properties C102 to C104: complete rules for the methods of a URI that need no connection, for every URI.
    SpecNames.v has the rules; of the functions of the code they use urlencode only. *)
From Verif Require Import Str Exc Utf8 UriParse BaseUri StrFacts SpecUri SpecParse ParseFacts4 SpecNames NamesFacts.
Local Open Scope string_scope.
Local Open Scope list_scope.

(** ** C102: names *)
Theorem C102_split u r : splits u r <-> u_split u = r.
Proof. apply splits_iff. Qed.
Theorem C102_basename u r : (exists x, splits u x /\ r = match x with Ok (_, n) => Ok n | Raise e => Raise e end) <-> u_basename u = r.
Proof.
  unfold u_basename. split.
  - intros (x & S & ->). apply splits_iff in S. rewrite S. now destruct x as [[d n]|e].
  - intros <-. exists (u_split u). split; [now apply splits_iff|]. now destruct (u_split u) as [[d n]|e].
Qed.
Theorem C102_directory u n r : ups (S n) u r <-> u_dirname (S n) u = r.
Proof. apply ups_iff. Qed.
Theorem C102_level u : u_dirname 0 u = Raise AssertionError.
Proof. reflexivity. Qed.
Theorem C102_splitext u n a b : u_basename u = Ok n -> (ext_of n a b <-> u_splitext u = Ok (a, b)).
Proof. intros E. unfold u_splitext. rewrite E. cbn [rbind]. rewrite ext_iff. split; [now intros ->|intros H; now injection H]. Qed.
Theorem C102_splitext_fails u e : u_basename u = Raise e <-> u_splitext u = Raise e.
Proof. unfold u_splitext. destruct (u_basename u); cbn [rbind]; split; congruence. Qed.
Theorem C102_last u n : last_name (u_uri u) n <-> u_last u = n.
Proof. apply last_iff. Qed.

Definition uri_of (t : str) : uri := match URI t cSlash [] with Ok u => u | Raise _ => mkUri UBase [] 0 (mkParsed None None [] [] None [] None None None 0 []) [] None None end.
(** The query goes to the keyword arguments of the directory and is cut from the name; the parent of a name at the top of a
    host is the host, and the one above that is a relative local path. *)
Example C102_witness :
  (exists d, splits (uri_of (lit "ssh://h/a/b.tar.gz?k=v")) (Ok (d, lit "b.tar.gz")) /\ u_uri d = lit "ssh://h/a" /\ u_extras d = [(lit "k", lit "v")]) /\
  (exists d, splits (uri_of (lit "memory:///a")) (Ok (d, lit "a")) /\ u_uri d = lit "memory:///") /\
  (exists d, ups 2 (uri_of (lit "ssh://h/a/b")) (Ok d) /\ u_uri d = lit "ssh://h") /\
  (exists d, ups 3 (uri_of (lit "ssh://h/a/b")) (Ok d) /\ u_uri d = lit "file://./ssh:/") /\
  splits (uri_of (lit "ssh://h/x?sep=1")) (Raise TypeError) /\
  ext_of (lit "b.tar.gz") (lit "b.tar") (lit ".gz") /\ ext_of (lit "..a") (lit "..a") [] /\
  last_name (lit "ssh://h/a/b/") (lit "b") /\ last_name (lit "ssh://h/a?k=x/y") (lit "y").
Proof.
  repeat apply conj.
  - eexists; split; [apply splits_iff; vm_compute; reflexivity|split; vm_compute; reflexivity].
  - eexists; split; [apply splits_iff; vm_compute; reflexivity|vm_compute; reflexivity].
  - eexists; split; [apply ups_iff; vm_compute; reflexivity|vm_compute; reflexivity].
  - eexists; split; [apply ups_iff; vm_compute; reflexivity|vm_compute; reflexivity].
  - apply splits_iff; vm_compute; reflexivity.
  - apply ext_iff; vm_compute; reflexivity.
  - apply ext_iff; vm_compute; reflexivity.
  - apply (last_iff (uri_of (lit "ssh://h/a/b/"))); vm_compute; reflexivity.
  - apply (last_iff (uri_of (lit "ssh://h/a?k=x/y"))); vm_compute; reflexivity.
Qed.

(** ** C103: join, / and + *)
Theorem C103_join u args r : joins u args r <-> u_join u args = r.
Proof. apply joins_iff. Qed.
Theorem C103_div u n r : joins u [n] r <-> u_div u n = r.
Proof. apply joins_iff. Qed.
Theorem C103_add u x r : adds u x r <-> u_add u x = r.
Proof. apply adds_iff. Qed.

(** All arguments but the last are stripped of slashes; the authority with user and port is kept; the query is quoted in the
    text and put on the result. *)
Example C103_witness :
  (exists v, joins (uri_of (lit "ssh://u:p@h:22/a/?k=%20v")) [lit "/b/"; lit "/c/"] (Ok v) /\
     u_uri v = lit "ssh://u:p@h:22/a/b//c/?k=+v" /\ p_path (u_p v) = lit "/a/b//c/" /\ p_query (u_p v) = [(lit "k", lit " v")]) /\
  (exists v, joins (uri_of (lit "zip://((/a.zip))/x")) [lit "y"] (Ok v) /\ u_uri v = lit "zip://((/a.zip))/x/y") /\
  (exists v, adds (uri_of (lit "ssh://h/a?k=v")) (lit "w") (Ok v) /\ u_uri v = lit "ssh://h/a?k=vw" /\ p_query (u_p v) = [(lit "k", lit "v")]) /\
  joins (uri_of (lit "ssh://h/a")) [] (Raise IndexError).
Proof.
  repeat apply conj.
  - eexists; split; [apply joins_iff; vm_compute; reflexivity|repeat split; vm_compute; reflexivity].
  - eexists; split; [apply joins_iff; vm_compute; reflexivity|vm_compute; reflexivity].
  - eexists; split; [apply adds_iff; vm_compute; reflexivity|split; vm_compute; reflexivity].
  - apply joins_iff; vm_compute; reflexivity.
Qed.

(** ** C104: str, path, unipath, is_absolute, and what the connection is asked for *)
Theorem C104_path u x : paths u x <-> u_path u = x.
Proof. apply paths_iff. Qed.
Theorem C104_str u r : strs u r <-> u_str u = r.
Proof. apply strs_iff. Qed.
Theorem C104_unipath u x : unipaths (p_path (u_p u)) x <-> u_unipath u = x.
Proof. apply unipaths_iff. Qed.
Theorem C104_absolute u : absolute (p_path (u_p u)) <-> u_is_absolute u = true.
Proof. apply absolute_iff. Qed.
Theorem C104_extras u ex : handed_on u ex <-> k_extras (u_key u) = ex.
Proof. apply handed_iff. Qed.

(** Assigning the scheme changes the scheme alone; the query counts among the extras unless the new scheme is http or https. *)
Theorem C104_set_scheme u s : let v := u_set_scheme u s in
  u_scheme v = Some s /\ u_uri v = u_uri u /\ u_path v = u_path u /\ u_unipath v = u_unipath u /\ u_is_absolute v = u_is_absolute u /\
  (k_host (u_key v), k_port (u_key v), k_user (u_key v), k_pass (u_key v), k_vpath (u_key v)) =
    (k_host (u_key u), k_port (u_key u), k_user (u_key u), k_pass (u_key u), k_vpath (u_key u)) /\
  (web (Some s) -> k_extras (u_key v) = u_extras u) /\ (~ web (Some s) -> ~ web (u_scheme u) -> k_extras (u_key v) = k_extras (u_key u)).
Proof.
  cbn [u_set_scheme]. repeat apply conj; try reflexivity.
  - intros W. exact (proj1 (handed_iff (u_set_scheme u s) _) (ho_web (u_set_scheme u s) W)).
  - intros W W'. transitivity (dupdate (u_extras u) (p_query (u_p u))); [exact (proj1 (handed_iff (u_set_scheme u s) _) (ho_other (u_set_scheme u s) W))|].
    symmetry. exact (proj1 (handed_iff u _) (ho_other u W')).
Qed.
Example C104_scheme_witness : let v := u_set_scheme (uri_of (lit "ssh://h/p?k=v")) (lit "https") in
  u_str v = Ok (lit "https://h/p?k=v") /\ k_extras (u_key v) = [] /\ k_extras (u_key (uri_of (lit "ssh://h/p?k=v"))) = [(lit "k", lit "v")].
Proof. repeat split; vm_compute; reflexivity. Qed.

Example C104_witness :
  strs (uri_of (lit "ssh://u:p@h:22/a?k=%20v")) (Ok (lit "ssh://u:p@h:22/a?k= v")) /\
  strs (uri_of (lit "zip://((/a.zip))/x")) (Ok (lit "zip://((/a.zip))/x")) /\
  paths (uri_of (lit "a/b")) (lit "./a/b") /\
  (exists u, URI (lit "c:\a\b") cBack [] = Ok u /\ paths u (lit "c:\a\b")) /\
  ~ absolute (lit "/./a") /\ absolute (lit "/a").
Proof.
  repeat apply conj.
  - apply strs_iff; vm_compute; reflexivity.
  - apply strs_iff; vm_compute; reflexivity.
  - apply paths_iff; vm_compute; reflexivity.
  - eexists; split; [vm_compute; reflexivity|apply paths_iff; vm_compute; reflexivity].
  - intros [_ N]. now apply (N (lit "/a")).
  - now exists (lit "a").
  - intros r E. discriminate E.
Qed.

Print Assumptions C102_split.
Print Assumptions C102_basename.
Print Assumptions C102_directory.
Print Assumptions C102_level.
Print Assumptions C102_splitext.
Print Assumptions C102_splitext_fails.
Print Assumptions C102_last.
Print Assumptions C103_join.
Print Assumptions C103_div.
Print Assumptions C103_add.
Print Assumptions C104_path.
Print Assumptions C104_str.
Print Assumptions C104_unipath.
Print Assumptions C104_absolute.
Print Assumptions C104_extras.
Print Assumptions C104_set_scheme.
