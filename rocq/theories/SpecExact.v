(** Complete rules for the operations of the memory file system: for every absolute path, written in whatever way
    (empty names, links on the way, paths that lead nowhere), what the operation answers, which exception it raises,
    and which entry of the tree changes.  Told in terms of the tree (SpecMem.v) and of open files (SpecHandle.v). *)
From Verif Require Import Str Exc Utf8 UriParse BaseUri Mem SpecMem SpecHandle.

(** What a list of names stands for when a link at the end is not followed: an entry, a free place of a directory,
    or nothing, because the way there is lost.  A link on the way that has the name of the last component is not
    followed either, and cannot be entered. *)
Inductive spot := Entry (p : list str) | Absent (p : list str) | Stuck (o : outcome).
Inductive spots (t : tree) : list str -> spot -> Prop :=
| sp_root : spots t [] (Entry [])
| sp_entry init n d : fresh_last t init n -> leads t init (Found d) -> is_edir (t d) -> t (d ++ [n]) <> None ->
    spots t (init ++ [n]) (Entry (d ++ [n]))
| sp_absent init n d : fresh_last t init n -> leads t init (Found d) -> is_edir (t d) -> t (d ++ [n]) = None ->
    spots t (init ++ [n]) (Absent (d ++ [n]))
| sp_notdir init n d : fresh_last t init n -> leads t init (Found d) -> ~ is_edir (t d) -> spots t (init ++ [n]) (Stuck NotDir)
| sp_lost init n o o' : fresh_last t init n -> leads t init o -> (forall d, o <> Found d) -> leads t (init ++ [n]) o' ->
    spots t (init ++ [n]) (Stuck o')
| sp_same_name pre n post d : leads t pre (Found d) -> is_elink (t (d ++ [n])) ->
    spots t (pre ++ n :: post ++ [n]) (Stuck NotDir).

(** The entry an operation on attributes works on, or its exception. *)
Inductive reach := At (q : list str) | Fail (e : exc).
Inductive reaches (t : tree) (cs : list str) : bool -> reach -> Prop :=
| re_found q : leads t cs (Found q) -> reaches t cs true (At q)
| re_fail o : leads t cs o -> (forall q, o <> Found q) -> reaches t cs true (Fail (err_of o))
| re_entry p : spots t cs (Entry p) -> reaches t cs false (At p)
| re_absent p : spots t cs (Absent p) -> reaches t cs false (Fail (OSError ENOENT))
| re_stuck o : spots t cs (Stuck o) -> reaches t cs false (Fail (err_of o)).

(** exists, isfile, isdir *)
Definition is_dir_e (e : entry) : bool := match e with EDir _ _ => true | _ => false end.
Definition is_file_e (e : entry) : bool := match e with EFile _ _ _ => true | _ => false end.
Definition is_link_e (e : entry) : bool := match e with ELink _ _ _ => true | _ => false end.
Definition test_rule (t : tree) (f : entry -> bool) (o : outcome) : res bool :=
  match o with
  | Found q => Ok (match t q with Some e => f e | None => false end)
  | Missing | Loop => Ok false
  | Dead | NotDir => Raise AttributeError
  | BadLink => Raise AssertionError
  end.
(** islink *)
Definition link_rule (t : tree) (sp : spot) : res bool :=
  match sp with
  | Entry p => Ok (match t p with Some e => is_link_e e | None => false end)
  | Absent _ | Stuck Missing => Ok false
  | Stuck Dead => Raise AttributeError
  | Stuck o => Raise (err_of o)
  end.
(** readlink *)
Definition target_rule (t : tree) (r : reach) : res uri :=
  match r with
  | At p => match t p with Some (ELink u _ _) => Ok u | _ => Raise (OSError EINVAL) end
  | Fail e => Raise e
  end.
(** info, mtime, isexec: a value computed from the entry *)
Definition value_rule {A} (t : tree) (f : entry -> A) (r : reach) : res A :=
  match r with
  | At p => match t p with Some e => Ok (f e) | None => Raise AttributeError end
  | Fail e => Raise e
  end.

(** What an operation without an answer does. *)
Inductive effect :=
| Fails (e : exc)                        (* raises, and changes nothing *)
| Nothing                                (* returns, and changes nothing *)
| Puts (p : list str) (e : entry)        (* returns; exactly the entry at [p] is new or changed *)
| Cuts (p : list str).                   (* returns; exactly the entry at [p] and what is below it is gone *)
Definition has_effect (s : mst) (r : res unit * mst) (f : effect) : Prop :=
  match f with
  | Fails e => r = (Raise e, s)
  | Nothing => r = (Ok tt, s)
  | Puts p e => exists s', r = (Ok tt, s') /\ put_at (view s) (view s') p e /\ same_rest s s'
  | Cuts p => exists s', r = (Ok tt, s') /\ cut_at (view s) (view s') p /\ same_rest s s'
  end.

(** mkdir, symlink: [e] is the new entry. *)
Definition make_rule (e : entry) (sl : slot) : effect :=
  match sl with
  | Top => Nothing
  | Free p => Puts p e
  | Taken _ => Fails (OSError EEXIST)
  | NoPlace x => Fails x
  end.
(** Operations on attributes: [f] is the entry with its new attributes. *)
Definition attr_rule (t : tree) (f : entry -> entry) (r : reach) : effect :=
  match r with
  | At p => match t p with Some e => Puts p (f e) | None => Fails AttributeError end
  | Fail e => Fails e
  end.

(** The names of a path in listdir, removefile, removedir: empty names are left out. *)
Definition proper (cs : list str) : list str := filter (fun c => match c with [] => false | _ => true end) cs.
(** removefile (of the connection): [l] is last() of the URI.  The directory is found by the path, the entry in it by
    last(), which is the last name of the path for ordinary URIs. *)
Definition removefile_rule (t : tree) (l : str) (sp : spot) : effect :=
  match sp with
  | Entry [] => Nothing
  | Entry p => match t (removelast p ++ [l]) with Some _ => Cuts (removelast p ++ [l]) | None => Fails KeyError end
  | Absent _ => Fails (OSError ENOENT)
  | Stuck o => Fails (err_of o)
  end.
(** removedir (of the connection) *)
Inductive removedir_rule (t : tree) (l : str) : list str -> effect -> Prop :=
| rd_root : removedir_rule t l [] Nothing
| rd_lost init n o : leads t (init ++ [n]) o -> (forall q, o <> Found q) -> removedir_rule t l (init ++ [n]) (Fails (err_of o))
| rd_absent init n q d : leads t (init ++ [n]) (Found q) -> leads t init (Found d) -> t (d ++ [l]) = None ->
    removedir_rule t l (init ++ [n]) (Fails AttributeError)
| rd_stuck init n q d o : leads t (init ++ [n]) (Found q) -> leads t init (Found d) -> t (d ++ [l]) <> None ->
    leads t (init ++ [l]) o -> (forall r, o <> Found r) -> removedir_rule t l (init ++ [n]) (Fails (err_of o))
| rd_file init n q d r : leads t (init ++ [n]) (Found q) -> leads t init (Found d) ->
    leads t (init ++ [l]) (Found r) -> is_efile (t r) -> removedir_rule t l (init ++ [n]) (Fails AttributeError)
| rd_full init n q d r m : leads t (init ++ [n]) (Found q) -> leads t init (Found d) ->
    leads t (init ++ [l]) (Found r) -> is_edir (t r) -> t (r ++ [m]) <> None -> removedir_rule t l (init ++ [n]) (Fails (OSError ENOTEMPTY))
| rd_empty init n q d r : leads t (init ++ [n]) (Found q) -> leads t init (Found d) ->
    leads t (init ++ [l]) (Found r) -> is_edir (t r) -> (forall m, t (r ++ [m]) = None) -> removedir_rule t l (init ++ [n]) (Cuts (d ++ [l])).

(** open: the exception, or the place of the file, how it starts (SpecHandle.v) and its mode bits.  The options are
    looked at in the order r, w, a; no options means r. *)
Definition opt_r (m : option str) : bool := match m with None => true | Some o => has_char 114 o end.
Definition opt_w (m : option str) : bool := match m with None => false | Some o => has_char 119 o end.
Definition opt_a (m : option str) : bool := match m with None => false | Some o => has_char 97 o end.
Definition opt_b (m : option str) : bool := match m with None => false | Some o => has_char 98 o end.
(** Writing to the root is writing to an entry of the root with an empty name. *)
Definition to_write (cs : list str) : list str := match cs with [] => [[]] | _ => cs end.
Inductive opens := Refused (e : exc) | Opens (q : list str) (start : ofile) (mode : Z).
Inductive open_rule (t : tree) (now : Z) (m : option str) (cs : list str) : opens -> Prop :=
| or_read q d mt mo : opt_r m = true -> leads t cs (Found q) -> t q = Some (EFile d mt mo) -> open_rule t now m cs (Opens q (mkO d 0 mt) mo)
| or_append q d mt mo : opt_r m = false -> opt_w m = false -> opt_a m = true -> leads t cs (Found q) -> t q = Some (EFile d mt mo) ->
    open_rule t now m cs (Opens q (mkO d (Nat.max 1 (length d)) mt) mo)
| or_dir q : opt_r m = true \/ opt_w m = false /\ opt_a m = true -> leads t cs (Found q) -> is_edir (t q) ->
    open_rule t now m cs (Refused AttributeError)
| or_lost o : opt_r m = true \/ opt_w m = false /\ opt_a m = true -> leads t cs o -> (forall q, o <> Found q) ->
    open_rule t now m cs (Refused (err_of o))
| or_new init n d : opt_r m = false -> opt_w m = true -> to_write cs = init ++ [n] -> leads t init (Found d) -> is_edir (t d) ->
    t (d ++ [n]) = None -> open_rule t now m cs (Opens (d ++ [n]) (mkO [] 0 now) 0)
| or_file q : opt_r m = false -> opt_w m = true -> leads t (to_write cs) (Found q) -> is_efile (t q) ->
    open_rule t now m cs (Opens q (mkO [] 0 now) 0)
| or_isdir q : opt_r m = false -> opt_w m = true -> leads t (to_write cs) (Found q) -> is_edir (t q) ->
    open_rule t now m cs (Refused (OSError EISDIR))
| or_dead init n d o : opt_r m = false -> opt_w m = true -> to_write cs = init ++ [n] -> leads t init (Found d) -> is_edir (t d) ->
    t (d ++ [n]) <> None -> leads t (init ++ [n]) o -> (forall q, o <> Found q) -> open_rule t now m cs (Refused (err_of o))
| or_nodir init n d : opt_r m = false -> opt_w m = true -> to_write cs = init ++ [n] -> leads t init (Found d) -> ~ is_edir (t d) ->
    open_rule t now m cs (Refused AttributeError)
| or_noway init n o : opt_r m = false -> opt_w m = true -> to_write cs = init ++ [n] -> leads t init o -> (forall d, o <> Found d) ->
    open_rule t now m cs (Refused (err_of o))
| or_mode : opt_r m = false -> opt_w m = false -> opt_a m = false -> open_rule t now m cs (Refused (OSError EINVAL)).

(** A callback registered for the path of the URI that stops the operation, with its exception. *)
Definition vetoes (s : mst) (u : uri) (name : str) : option exc :=
  match u_path u with
  | _ :: p => match dget p (m_cbs s) with Some (Some cb) => cb u name | _ => None end
  | [] => None
  end.

(** remove (of the URI, not recursive): what it does is decided by islink, exists and isdir, in this order. *)
Inductive remove_rule (t : tree) (u : uri) (cs : list str) : effect -> Prop :=
| rm_unknown sp e : spots t cs sp -> link_rule t sp = Raise e -> remove_rule t u cs (Fails e)
| rm_link sp sp' : spots t cs sp -> link_rule t sp = Ok true -> spots t (proper cs) sp' -> remove_rule t u cs (removefile_rule t (u_last u) sp')
| rm_lost sp o e : spots t cs sp -> link_rule t sp = Ok false -> leads t cs o -> test_rule t (fun _ => true) o = Raise e ->
    remove_rule t u cs (Fails e)
| rm_missing sp o : spots t cs sp -> link_rule t sp = Ok false -> leads t cs o -> o = Missing \/ o = Loop ->
    remove_rule t u cs (Fails match u_str u with Ok _ => FileDoesNotExistError | Raise e => e end)   (* the message has str(u) *)
| rm_dir sp q f : spots t cs sp -> link_rule t sp = Ok false -> leads t cs (Found q) -> is_edir (t q) ->
    removedir_rule t (u_last u) (proper cs) f -> remove_rule t u cs f
| rm_file sp q sp' : spots t cs sp -> link_rule t sp = Ok false -> leads t cs (Found q) -> is_efile (t q) ->
    spots t (proper cs) sp' -> remove_rule t u cs (removefile_rule t (u_last u) sp').
