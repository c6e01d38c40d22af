(** Complete rules for copies and moves of single files of a memory file system, for any two URIs.  Built from the
    rules of SpecExact.v; [t] is the tree before, the last argument the tree afterwards. *)
From Verif Require Import Str Exc Utf8 UriParse BaseUri Mem SpecMem SpecHandle SpecExact.

(** The rules of SpecExact.v, with a case for URIs that are not absolute paths. *)
Definition nowhere (u : uri) : Prop := forall cs, ~ addr u cs.
Inductive tests (t : tree) (f : entry -> bool) (u : uri) : res bool -> Prop :=
| te_path cs o : addr u cs -> leads t cs o -> tests t f u (test_rule t f o)
| te_other : nowhere u -> tests t f u (Raise AssertionError).
Inductive links (t : tree) (u : uri) : res bool -> Prop :=
| lk_path cs sp : addr u cs -> spots t cs sp -> links t u (link_rule t sp)
| lk_other : nowhere u -> links t u (Raise AssertionError).
Inductive unlinks (t : tree) (u : uri) : effect -> Prop :=          (* removefile *)
| ul_path cs sp : addr u cs -> spots t (proper cs) sp -> unlinks t u (removefile_rule t (u_last u) sp)
| ul_other : nowhere u -> unlinks t u (Fails AssertionError).
Inductive goes (t : tree) (u : uri) (follow : bool) : reach -> Prop :=
| go_path cs r : addr u cs -> reaches t cs follow r -> goes t u follow r
| go_other : nowhere u -> goes t u follow (Fail AssertionError).
Inductive opening (t : tree) (now : Z) (m : option str) (u : uri) : opens -> Prop :=
| op_path cs r : addr u cs -> open_rule t now m cs r -> opening t now m u r
| op_other : nowhere u -> opening t now m u (Refused AssertionError).

(** One effect, as a change of the tree *)
Inductive changes (t : tree) : effect -> res unit -> tree -> Prop :=
| ch_fails e t' : same_tree t t' -> changes t (Fails e) (Raise e) t'
| ch_nothing t' : same_tree t t' -> changes t Nothing (Ok tt) t'
| ch_puts p e t' : put_at t t' p e -> changes t (Puts p e) (Ok tt) t'
| ch_cuts p t' : cut_at t t' p -> changes t (Cuts p) (Ok tt) t'.

Definition any_entry (e : entry) : bool := true.
(** The exception for a missing source; its message has str(u). *)
Definition missing_exc (u : uri) : exc := match u_str u with Ok _ => FileDoesNotExistError | Raise e => e end.

(** Where the copy goes: into [v] if that is a directory, otherwise to [v]. *)
Inductive aim (t : tree) (u v : uri) : res uri -> Prop :=
| aim_lost e : tests t is_dir_e v (Raise e) -> aim t u v (Raise e)
| aim_into : tests t is_dir_e v (Ok true) -> aim t u v (u_div v (u_last u))
| aim_at : tests t is_dir_e v (Ok false) -> aim t u v (Ok v).

(** A link [u] is made anew at [w]: a file at [w] is removed first, and is gone even if the rest fails. *)
Inductive makes_room (t : tree) (w : uri) : res unit -> tree -> Prop :=
| mr_lost e t' : tests t is_file_e w (Raise e) -> same_tree t t' -> makes_room t w (Raise e) t'
| mr_free t' : tests t is_file_e w (Ok false) -> same_tree t t' -> makes_room t w (Ok tt) t'
| mr_file f r t' : tests t is_file_e w (Ok true) -> unlinks t w f -> changes t f r t' -> makes_room t w r t'.
Inductive relinks (t : tree) (now : Z) (u w : uri) : res unit -> tree -> Prop :=
| rl_full e t' : makes_room t w (Raise e) t' -> relinks t now u w (Raise e) t'
| rl_gone t1 x e t' : makes_room t w (Ok tt) t1 -> goes t1 u false x -> target_rule t1 x = Raise e -> same_tree t1 t' -> relinks t now u w (Raise e) t'
| rl_make t1 x a sl r t' : makes_room t w (Ok tt) t1 -> goes t1 u false x -> target_rule t1 x = Ok a -> place t1 w sl ->
    changes t1 (make_rule (ELink a now 0) sl) r t' -> relinks t now u w r t'.

(** The file at [q] is copied to [w]: first [w] is opened, which may empty the file at [q] itself; then the data are written;
    then, if the schemes are the same, times and mode are copied. *)
Inductive writes (t : tree) (now : Z) (q : list str) (same : bool) (w : uri) : res unit -> tree -> Prop :=
| wr_refused e t' : opening t now (Some (lit "wb")) w (Refused e) -> same_tree t t' -> writes t now q same w (Raise e) t'
| wr_data p start mode d t' : opening t now (Some (lit "wb")) w (Opens p start mode) -> same = false ->
    (exists d0 mt mo, t q = Some (EFile d0 mt mo) /\ (p <> q -> d = d0) /\ (p = q -> d = [])) ->
    put_at t t' p (EFile d now 0) -> writes t now q same w (Ok tt) t'
| wr_stat p start mode d t1 x e r t' : opening t now (Some (lit "wb")) w (Opens p start mode) -> same = true ->
    (exists d0 mt mo, t q = Some (EFile d0 mt mo) /\ (p <> q -> d = d0) /\ (p = q -> d = [])) ->
    put_at t t1 p (EFile d now 0) -> t1 q = Some e -> goes t1 w true x ->
    changes t1 (attr_rule t1 (fun e' => with_attrs e' (e_mtime e) (e_mode e)) x) r t' -> writes t now q same w r t'.

(** copy, not recursive *)
Inductive copies (t : tree) (now : Z) (follow : bool) (u v : uri) : res unit -> tree -> Prop :=
| co_lost e t' : tests t any_entry u (Raise e) -> same_tree t t' -> copies t now follow u v (Raise e) t'
| co_missing t' : tests t any_entry u (Ok false) -> same_tree t t' -> copies t now follow u v (Raise (missing_exc u)) t'
| co_dir t' : tests t any_entry u (Ok true) -> tests t is_file_e u (Ok false) -> same_tree t t' -> copies t now follow u v (Raise AssertionError) t'
| co_aim e t' : tests t is_file_e u (Ok true) -> aim t u v (Raise e) -> same_tree t t' -> copies t now follow u v (Raise e) t'
| co_unknown w e t' : tests t is_file_e u (Ok true) -> aim t u v (Ok w) -> links t u (Raise e) -> same_tree t t' -> copies t now follow u v (Raise e) t'
| co_link w r t' : tests t is_file_e u (Ok true) -> aim t u v (Ok w) -> links t u (Ok true) -> follow = false -> relinks t now u w r t' -> copies t now follow u v r t'
| co_data w l q same r t' : tests t is_file_e u (Ok true) -> aim t u v (Ok w) -> links t u (Ok l) -> l = false \/ follow = true ->
    goes t u true (At q) -> (same = true <-> u_scheme u = u_scheme v) -> writes t now q same w r t' -> copies t now follow u v r t'.

(** move, of anything but a directory: the copy, and then, in the tree it left, the removal. *)
Inductive removes (t : tree) (u : uri) : effect -> Prop :=
| rm_path cs f : addr u cs -> remove_rule t u cs f -> removes t u f
| rm_other : nowhere u -> removes t u (Fails AssertionError).
Inductive moves (t : tree) (now : Z) (u v : uri) : res unit -> tree -> Prop :=
| mv_lost e t' : tests t is_file_e u (Raise e) -> same_tree t t' -> moves t now u v (Raise e) t'
| mv_missing t' : tests t any_entry u (Ok false) -> same_tree t t' -> moves t now u v (Raise (missing_exc u)) t'
| mv_nocopy e t' : tests t is_file_e u (Ok true) -> copies t now true u v (Raise e) t' -> moves t now u v (Raise e) t'
| mv_file t1 f r t' : tests t is_file_e u (Ok true) -> copies t now true u v (Ok tt) t1 -> removes t1 u f -> changes t1 f r t' -> moves t now u v r t'.

(** The results of [f], in order, or the first exception: glob puts the names under the URI with "/". *)
Fixpoint all_ok {A C} (f : A -> res C) (l : list A) : res (list C) :=
  match l with
  | [] => Ok []
  | x :: l' => match f x with Ok y => match all_ok f l' with Ok ys => Ok (y :: ys) | Raise e => Raise e end | Raise e => Raise e end
  end.
(** makedirs where it cannot make the directories *)
Definition mk_exc (o : outcome) : exc := match o with Found _ | Missing | Loop => OSError EEXIST | Dead | NotDir => AttributeError | BadLink => AssertionError end.
