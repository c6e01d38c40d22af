(** Complete rules for the operations on local files, for every URI and every local tree, links included.
    Stated on the entries of the tree and on path lookup as path_resolution(7) describes it. *)
From Coq Require Import Sorted.
From Verif Require Import Str Exc UriParse BaseUri StrFacts SpecUri SpecParse SpecNames Mem Generic Posix SpecLocal.

(** ** Path lookup *)
(** What a path leads to: an entry, a name that is free in an existing directory, or an error. *)
Inductive place := Is (p : list str) (e : pent) | Free (d : list str) (n : str) | Wrong (e : exc).
(** The pieces between the slashes *)
Definition pieces (s : str) (l : list str) : Prop := l <> [] /\ s = join_with [cSlash] l /\ forall i, In i l -> free_of [cSlash] i.
Definition special (c : str) : Prop := c = [] \/ c = lit "." \/ c = lit "..".
Definition entry_at (x : pst) (p : list str) (o : option pent) : Prop := pget p (p_tree x) = o.
(** Where a path starts *)
Inductive starts (cur : list str) (s : str) : list str -> Prop :=
| sr_root r : s = cSlash :: r -> starts cur s []
| sr_here : (forall r, s <> cSlash :: r) -> starts cur s cur.
(** [walks x follow n cur l o]: from [cur] by the pieces [l], through [n] links. *)
Inductive walks (x : pst) (follow : bool) : nat -> list str -> list str -> place -> Prop :=
| wk_end cur e : entry_at x cur (Some e) -> walks x follow 0 cur [] (Is cur e)
| wk_same n cur c l o : is_dir_at x cur -> c = [] \/ c = lit "." -> walks x follow n cur l o -> walks x follow n cur (c :: l) o
| wk_up n cur l o : is_dir_at x cur -> walks x follow n (removelast cur) l o -> walks x follow n cur (lit ".." :: l) o
| wk_free cur c : is_dir_at x cur -> ~ special c -> entry_at x (cur ++ [c]) None -> walks x follow 0 cur [c] (Free cur c)
| wk_lost cur c l : is_dir_at x cur -> ~ special c -> entry_at x (cur ++ [c]) None -> l <> [] -> walks x follow 0 cur (c :: l) (Wrong (OSError ENOENT))
| wk_in n cur c e l o : is_dir_at x cur -> ~ special c -> entry_at x (cur ++ [c]) (Some e) -> (forall t, e <> PLink t) ->
    walks x follow n (cur ++ [c]) l o -> walks x follow n cur (c :: l) o
| wk_last cur c t : is_dir_at x cur -> ~ special c -> entry_at x (cur ++ [c]) (Some (PLink t)) -> follow = false ->
    walks x follow 0 cur [c] (Is (cur ++ [c]) (PLink t))
| wk_blank cur c l : is_dir_at x cur -> ~ special c -> entry_at x (cur ++ [c]) (Some (PLink [])) -> l <> [] \/ follow = true ->
    walks x follow 1 cur (c :: l) (Wrong (OSError ENOENT))
| wk_link n cur c t st ps l o : is_dir_at x cur -> ~ special c -> entry_at x (cur ++ [c]) (Some (PLink t)) -> l <> [] \/ follow = true ->
    t <> [] -> starts cur t st -> pieces t ps -> walks x follow n st (ps ++ l) o -> walks x follow (S n) cur (c :: l) o
| wk_file cur e l : entry_at x cur (Some e) -> ~ is_dir_at x cur -> l <> [] -> walks x follow 0 cur l (Wrong (OSError ENOTDIR))
| wk_gone cur l : entry_at x cur None -> walks x follow 0 cur l (Wrong (OSError ENOENT)).
(** A path given to the operating system; at most 40 links. *)
Inductive looked (x : pst) (follow : bool) (s : str) : place -> Prop :=
| lo_nul : In 0%N s -> looked x follow s (Wrong ValueError)
| lo_empty : s = [] -> looked x follow s (Wrong (OSError ENOENT))
| lo_found n st ps o : ~ In 0%N s -> s <> [] -> starts (p_cwd x) s st -> pieces s ps -> (n <= 40)%nat -> walks x follow n st ps o -> looked x follow s o
| lo_loop st ps : ~ In 0%N s -> s <> [] -> starts (p_cwd x) s st -> pieces s ps -> (forall n o, walks x follow n st ps o -> (40 < n)%nat) ->
    looked x follow s (Wrong (OSError ELOOP)).
(** What the path of a URI leads to *)
Definition sees (x : pst) (follow : bool) (u : uri) (o : place) : Prop := exists s, paths u s /\ looked x follow s o.

(** ** Ends of paths *)
(** The path without the slashes after its last name *)
Inductive chopped (s : str) : str -> Prop :=
| ch_all : slashes s -> chopped s s
| ch_some t : t <> [] -> tail_cut s t -> chopped s t.
(** A path that ends in a slash after a name, or whose last name is [c] *)
Definition trailing (u : uri) : Prop := exists s t, paths u s /\ chopped s t /\ s <> t.
Definition ends_in (u : uri) (c : str) : Prop := exists s t l, paths u s /\ chopped s t /\ pieces t (l ++ [c]).
(** The place named by a path: neither its last link nor slashes at its end lead further. *)
Definition aims (x : pst) (u : uri) (o : place) : Prop := exists s t, paths u s /\ chopped s t /\ looked x false t o.

(** ** Operations that change something *)
Definition empty_dir (x : pst) (p : list str) : Prop := is_dir_at x p /\ forall n, entry_at x (p ++ [n]) None.
Definition full_dir (x : pst) (p : list str) : Prop := is_dir_at x p /\ exists n e, entry_at x (p ++ [n]) (Some e).
(** Errors of looking for something that must be there *)
Inductive absent (o : place) : exc -> Prop :=
| ab_free d n : o = Free d n -> absent o (OSError ENOENT)
| ab_wrong e : o = Wrong e -> absent o e.

(** remove(): a link or file, or an empty directory; "link/" is the directory that the link leads to, which cannot be removed so. *)
Inductive removes (x : pst) (u : uri) : res unit -> pst -> Prop :=
| rv_entry p e x' : sees x false u (Is p e) -> (forall mo mt, e <> PDir mo mt) -> only x x' p None -> removes x u (Ok tt) x'
| rv_dot p mo mt : sees x false u (Is p (PDir mo mt)) -> ends_in u (lit ".") -> removes x u (Raise (OSError EINVAL)) x
| rv_dots p mo mt : sees x false u (Is p (PDir mo mt)) -> ends_in u (lit "..") -> removes x u (Raise (OSError ENOTEMPTY)) x
| rv_link p mo mt q t : sees x false u (Is p (PDir mo mt)) -> aims x u (Is q (PLink t)) -> removes x u (Raise (OSError ENOTDIR)) x
| rv_dir p mo mt x' : ~ ends_in u (lit ".") -> ~ ends_in u (lit "..") -> aims x u (Is p (PDir mo mt)) -> empty_dir x p -> p <> [] -> only x x' p None -> removes x u (Ok tt) x'
| rv_full p mo mt : ~ ends_in u (lit ".") -> ~ ends_in u (lit "..") -> aims x u (Is p (PDir mo mt)) -> full_dir x p -> p <> [] -> removes x u (Raise (OSError ENOTEMPTY)) x
| rv_root mo mt : ~ ends_in u (lit ".") -> ~ ends_in u (lit "..") -> aims x u (Is [] (PDir mo mt)) -> removes x u (Raise (OSError EBUSY)) x
| rv_none o e : sees x false u o -> absent o e -> removes x u (Raise FileDoesNotExistError) x.
(** mkdir() *)
Definition dir_mode (x : pst) : Z := Z.land 511 (Z.lnot (p_umask x)).
Inductive mkdirs (x : pst) (u : uri) : res unit -> pst -> Prop :=
| mi_blank : paths u [] -> mkdirs x u (Ok tt) x
| mi_new d n x' : ~ paths u [] -> aims x u (Free d n) -> only x x' (d ++ [n]) (Some (PDir (dir_mode x) (p_now x))) -> mkdirs x u (Ok tt) x'
| mi_taken p e : ~ paths u [] -> aims x u (Is p e) -> mkdirs x u (Raise (OSError EEXIST)) x
| mi_wrong e : ~ paths u [] -> aims x u (Wrong e) -> mkdirs x u (Raise e) x.
(** u.symlink(v): v becomes a link with the path of u *)
Definition has_nul (u : uri) : Prop := exists s, paths u s /\ In 0%N s.
Inductive links (x : pst) (u v : uri) : res unit -> pst -> Prop :=
| li_nul : has_nul u \/ has_nul v -> links x u v (Raise ValueError) x
| li_blank : paths u [] -> ~ has_nul v -> links x u v (Raise (OSError ENOENT)) x
| li_new t d n x' : paths u t -> t <> [] -> ~ has_nul u -> aims x v (Free d n) -> ~ trailing v -> only x x' (d ++ [n]) (Some (PLink t)) -> links x u v (Ok tt) x'
| li_slash d n : ~ paths u [] -> ~ has_nul u -> aims x v (Free d n) -> trailing v -> links x u v (Raise (OSError ENOENT)) x
| li_taken p e : ~ paths u [] -> ~ has_nul u -> aims x v (Is p e) -> links x u v (Raise (OSError EEXIST)) x
| li_wrong e : ~ paths u [] -> ~ has_nul u -> aims x v (Wrong e) -> links x u v (Raise e) x.
(** Opening to write or to append: a file, a free name, or an error *)
Inductive opens (x : pst) (u : uri) : list str -> option pent -> Prop :=
| op_file p d mo mt : ~ trailing u -> sees x true u (Is p (PFile d mo mt)) -> opens x u p (Some (PFile d mo mt))
| op_new d n : ~ trailing u -> sees x true u (Free d n) -> opens x u (d ++ [n]) None.
Inductive refused (x : pst) (u : uri) : exc -> Prop :=
| rf_dir p mo mt : ~ trailing u -> sees x true u (Is p (PDir mo mt)) -> refused x u (OSError EISDIR)
| rf_wrong e : ~ trailing u -> sees x true u (Wrong e) -> refused x u e
| rf_slash o : trailing u -> aims x u o -> (forall e, o <> Wrong e) -> refused x u (OSError EISDIR)
| rf_lost e : trailing u -> aims x u (Wrong e) -> refused x u e.
(** open('wb') or open('ab'), and the pieces written.  Appending nothing leaves the time. *)
Inductive writes (x : pst) (u : uri) (ds : list (list N)) : res unit -> pst -> Prop :=
| wr_over p d mo mt x' : opens x u p (Some (PFile d mo mt)) -> only x x' p (Some (PFile (concat ds) mo (p_now x))) -> writes x u ds (Ok tt) x'
| wr_new p x' : opens x u p None -> only x x' p (Some (PFile (concat ds) (new_mode x) (p_now x))) -> writes x u ds (Ok tt) x'
| wr_not e : refused x u e -> writes x u ds (Raise e) x.
Inductive appends (x : pst) (u : uri) (ds : list (list N)) : res unit -> pst -> Prop :=
| ap_more p d mo mt x' : opens x u p (Some (PFile d mo mt)) -> concat ds <> [] -> only x x' p (Some (PFile (d ++ concat ds) mo (p_now x))) ->
    appends x u ds (Ok tt) x'
| ap_none p d mo mt : opens x u p (Some (PFile d mo mt)) -> concat ds = [] -> appends x u ds (Ok tt) x
| ap_new p x' : opens x u p None -> only x x' p (Some (PFile (concat ds) (new_mode x) (p_now x))) -> appends x u ds (Ok tt) x'
| ap_not e : refused x u e -> appends x u ds (Raise e) x.
(** set_exec(mode): the execute bits are replaced by [mode], the times stay *)
Definition kind_bits (e : pent) : Z := match e with PFile _ _ _ => 32768 | PDir _ _ => 16384 | PLink _ => 40960 end.
Definition perms (e : pent) : Z := match e with PFile _ mo _ => mo | PDir mo _ => mo | PLink _ => 511 end.
Definition with_perms (e : pent) (mo : Z) : pent := match e with PFile d _ mt => PFile d mo mt | PDir _ mt => PDir mo mt | PLink t => PLink t end.
Inductive reexecs (x : pst) (u : uri) (mode : Z) : res unit -> pst -> Prop :=
| re_entry p e x' : sees x true u (Is p e) ->
    only x x' p (Some (with_perms e (Z.land (Z.lor (Z.land (Z.lor (kind_bits e) (perms e)) (Z.lnot exec_mask)) mode) 4095))) -> reexecs x u mode (Ok tt) x'
| re_absent o e : sees x true u o -> absent o e -> reexecs x u mode (Raise e) x.
(** The same entries, working directory, time and umask *)
Definition alike (x y : pst) : Prop := (forall p, pget p (p_tree x) = pget p (p_tree y)) /\ p_cwd x = p_cwd y /\ p_now x = p_now y /\ p_umask x = p_umask y.

(** ** Operations that only look *)
Inductive reads (x : pst) (u : uri) : res (list N) -> Prop :=
| rd_file p d mo mt : sees x true u (Is p (PFile d mo mt)) -> reads x u (Ok d)
| rd_dir p mo mt : sees x true u (Is p (PDir mo mt)) -> reads x u (Raise (OSError EISDIR))
| rd_absent o e : sees x true u o -> absent o e -> reads x u (Raise e).
Inductive lists (x : pst) (u : uri) : res (list str) -> Prop :=
| ls_dir p mo mt l : sees x true u (Is p (PDir mo mt)) -> StronglySorted slt l -> (forall n, In n l <-> exists e, entry_at x (p ++ [n]) (Some e)) -> lists x u (Ok l)
| ls_file p e : sees x true u (Is p e) -> (forall mo mt, e <> PDir mo mt) -> lists x u (Raise (OSError ENOTDIR))
| ls_absent o e : sees x true u o -> absent o e -> lists x u (Raise e).
Inductive leads (x : pst) (u : uri) : res uri -> Prop :=
| le_link p t r : sees x false u (Is p (PLink t)) -> made t cSlash [] r -> leads x u r
| le_other p e : sees x false u (Is p e) -> (forall t, e <> PLink t) -> leads x u (Raise (OSError EINVAL))
| le_absent o e : sees x false u o -> absent o e -> leads x u (Raise e).
(** info(followlinks), with the size that the file system gives to directories and the time 0 for links *)
Definition entry_time (e : pent) : Z := match e with PFile _ _ mt => mt | PDir _ mt => mt | PLink _ => 0 end.
Definition entry_size (e : pent) : N := match e with PFile d _ _ => N.of_nat (length d) | PDir _ _ => 4096 | PLink t => N.of_nat (length t) end.
Inductive informs (x : pst) (f : bool) (u : uri) : res bunch -> Prop :=
| if_entry p e : sees x f u (Is p e) -> informs x f u (Ok (mkBunch (entry_time e) (Z.lor (kind_bits e) (perms e)) (entry_size e)))
| if_absent o e : sees x f u o -> absent o e -> informs x f u (Raise e).
