(** Words for C149: the calls a method of a URI makes of its connection, in their order, with their arguments and answers. *)
From Coq Require Import Sorting.Permutation Sorting.Sorted String.
From Verif Require Import Str Exc UriParse BaseUri Mem Generic Plug SpecPlug.
Local Open Scope string_scope.
Local Open Scope list_scope.

Section Words.
Context {S F V : Type}.

(** A call that returned, with its answer (none is written where it is None). *)
Inductive ev :=
| EHook (u : uri) (n : str)
| EOpen (u : uri) (o : option str) (f : F)
| ERead (f : F) (n : N) (v : V)
| EWrite (f : F) (v : V)
| EExit (f : F)
| EListdir (u : uri) (l : list str)
| ERemovefile (u : uri)
| ERemovedir (u : uri)
| EMkdir (u : uri)
| EExists (u : uri) (b : bool)
| EIsfile (u : uri) (b : bool)
| EIsdir (u : uri) (b : bool)
| EIsexec (u : uri) (m : Z) (b : bool)
| ESetExec (u : uri) (m : Z)
| EIslink (u : uri) (b : bool)
| EReadlink (u : uri) (t : uri)
| ESymlink (t l : uri)
| EInfo (u : uri) (i : option V) (fl : bool) (v : V)
| ESync (u v : uri) (o : str)
| EMtime (u : uri) (v : V)
| ECopystat (u v : uri)
| ELock (u : uri) (fail cleanup : bool) (v : V)
| EManipulate (u : uri) (k : list (str * V))
| EInternal (u v : uri) (r : bool) (ig : list str)
| ESwitch (u : uri) (br : str) (v : V)
| EUpdate (u : uri) (r cl : bool) (v : V)
| ELog (u : uri) (n : Z) (k : list (str * V)) (v : V)
| ELogByTime (u : uri) (a b : option V) (v : V).

(** What a call does: that of the class's own method.  Inherited are a hook that does nothing, and an [islink] that
    answers False where [supports_symlinks] does; no other inherited method returns. *)
Definition does {A} (o : option (M S A)) (s : S) (a : A) (s' : S) : Prop :=
  match o with Some m => m s = (Ok a, s') | None => False end.
Definition ap1 {X A} (o : option (X -> A)) (x : X) : option A := match o with Some f => Some (f x) | None => None end.
Definition step (c : own S F V) (s : S) (e : ev) (s' : S) : Prop :=
  match e with
  | EHook u n => match o_hook c with Some f => f u n s = (Ok tt, s') | None => s' = s end
  | EOpen u o f => does (ap1 (ap1 (o_open c) u) o) s f s'
  | ERead f n v => o_read c f n s = (Ok v, s')
  | EWrite f v => o_write c f v s = (Ok tt, s')
  | EExit f => o_exit c f s = (Ok tt, s')
  | EListdir u l => does (ap1 (o_listdir c) u) s l s'
  | ERemovefile u => does (ap1 (o_removefile c) u) s tt s'
  | ERemovedir u => does (ap1 (o_removedir c) u) s tt s'
  | EMkdir u => does (ap1 (o_mkdir c) u) s tt s'
  | EExists u b => does (ap1 (o_exists c) u) s b s'
  | EIsfile u b => does (ap1 (o_isfile c) u) s b s'
  | EIsdir u b => does (ap1 (o_isdir c) u) s b s'
  | EIsexec u m b => does (ap1 (ap1 (o_isexec c) u) m) s b s'
  | ESetExec u m => does (ap1 (ap1 (o_set_exec c) u) m) s tt s'
  | EIslink u b =>
      match o_islink c with Some f => f u s = (Ok b, s') | None => does (o_supports c) s false s' /\ b = false end
  | EReadlink u t => does (ap1 (o_readlink c) u) s t s'
  | ESymlink t l => does (ap1 (ap1 (o_symlink c) t) l) s tt s'
  | EInfo u i fl v => does (ap1 (ap1 (ap1 (o_info c) u) i) fl) s v s'
  | ESync u v o => does (ap1 (ap1 (ap1 (o_sync c) u) v) o) s tt s'
  | EMtime u v => does (ap1 (o_mtime c) u) s v s'
  | ECopystat u v => does (ap1 (ap1 (o_copystat c) u) v) s tt s'
  | ELock u f cl v => does (ap1 (ap1 (ap1 (o_lock c) u) f) cl) s v s'
  | EManipulate u k => does (ap1 (ap1 (o_manipulate c) u) k) s tt s'
  | EInternal u v r ig => does (ap1 (ap1 (ap1 (ap1 (o_internal_copy c) u) v) r) ig) s tt s'
  | ESwitch u br v => does (ap1 (ap1 (o_switch c) u) br) s v s'
  | EUpdate u r cl v => does (ap1 (ap1 (ap1 (o_update c) u) r) cl) s v s'
  | ELog u n k v => does (ap1 (ap1 (ap1 (o_log c) u) n) k) s v s'
  | ELogByTime u a b v => does (ap1 (ap1 (ap1 (o_log_by_time c) u) a) b) s v s'
  end.
Inductive steps (c : own S F V) : S -> list ev -> S -> Prop :=
| st_nil s : steps c s [] s
| st_cons s e s' t s'' : step c s e s' -> steps c s' t s'' -> steps c s (e :: t) s''.

(** *** What the methods ask *)
Variable truthy : V -> bool.
Variable bytes_of : V -> option (list N).
Variable fnm : str -> str -> bool.

(** The hook of a method, and the questions asked through it *)
Definition hook (n : string) (u : uri) : ev := EHook u (lit n).
Definition q_isdir u b := [hook "isdir" u; EIsdir u b].
Definition q_isfile u b := [hook "isfile" u; EIsfile u b].
Definition q_islink u b := [hook "islink" u; EIslink u b].

(** makedirs: the directories that are missing, the outer ones first *)
Inductive makes : uri -> list ev -> Prop :=
| mk_there u : makes u (q_isdir u true)
| mk_here u d n : u_split u = Ok (d, n) -> n <> [] ->
    makes u (q_isdir u false ++ q_isdir d true ++ [hook "mkdir" u; EMkdir u])
| mk_deep u d n t : u_split u = Ok (d, n) -> n <> [] -> makes d t ->
    makes u (q_isdir u false ++ q_isdir d false ++ t ++ [hook "mkdir" u; EMkdir u])
| mk_slash u d : u_split u = Ok (d, []) -> makes u (q_isdir u false ++ q_isdir d true)
| mk_slash_deep u d t : u_split u = Ok (d, []) -> makes d t -> makes u (q_isdir u false ++ q_isdir d false ++ t).

(** The names of a directory, in order; each is asked whether it is a directory. *)
Definition ordered (names ns : list str) : Prop := Permutation names ns /\ StronglySorted (fun a b => str_ltb b a = false) ns.
Inductive told (u : uri) : list str -> list str -> list str -> list ev -> Prop :=
| tl_nil : told u [] [] [] []
| tl_dir n ns p ds fs t : u_div u n = Ok p -> told u ns ds fs t -> told u (n :: ns) (n :: ds) fs (EIsdir p true :: t)
| tl_file n ns p ds fs t : u_div u n = Ok p -> told u ns ds fs t -> told u (n :: ns) ds (n :: fs) (EIsdir p false :: t).

(** A walk.  [visit u ds fs ds' rows t]: at the directory [u] with directories [ds] and files [fs] the calls [t] are made, rows
    are given out, and [ds'] are left to descend into. *)
Definition row : Type := uri * list str * list str.
Section Tour.
Variables (topdown follow : bool) (visit : uri -> list str -> list str -> list str -> list row -> list ev -> Prop).
Inductive tour : uri -> list row -> list ev -> Prop :=
| to_down u names ns ds fs ds' r1 r2 t1 t2 t3 : topdown = true -> ordered names ns -> told u ns ds fs t1 ->
    visit u ds fs ds' r1 t2 -> descents u ds' r2 t3 -> tour u (r1 ++ r2) (EListdir u names :: t1 ++ t2 ++ t3)
| to_up u names ns ds fs ds' r1 r2 t1 t2 t3 : topdown = false -> ordered names ns -> told u ns ds fs t1 ->
    descents u ds r1 t2 -> visit u ds fs ds' r2 t3 -> tour u (r1 ++ r2) (EListdir u names :: t1 ++ t2 ++ t3)
with descents : uri -> list str -> list row -> list ev -> Prop :=
| de_nil u : descents u [] [] []
| de_in u n ns p l r1 r2 t1 t2 : u_div u n = Ok p -> l = false \/ follow = true -> tour p r1 t1 -> descents u ns r2 t2 ->
    descents u (n :: ns) (r1 ++ r2) (q_islink p l ++ t1 ++ t2)
| de_link u n ns p r t : u_div u n = Ok p -> follow = false -> descents u ns r t ->
    descents u (n :: ns) r (q_islink p true ++ t).
End Tour.

Inductive shows : uri -> list str -> list str -> list str -> list row -> list ev -> Prop :=
| sh u ds fs : shows u ds fs ds [(u, ds, fs)] [].

(** Removal of a tree: no hooks but those of [islink] on the way down *)
Inductive drops_files (u : uri) : list str -> list ev -> Prop :=
| df_nil : drops_files u [] []
| df_cons n ns p t : u_div u n = Ok p -> drops_files u ns t -> drops_files u (n :: ns) (ERemovefile p :: t).
Definition drop (u : uri) (l : bool) : list ev := [EIslink u l; if l then ERemovefile u else ERemovedir u].
Inductive drops_dirs (u : uri) : list str -> list ev -> Prop :=
| dd_nil : drops_dirs u [] []
| dd_cons n ns p l t : u_div u n = Ok p -> drops_dirs u ns t -> drops_dirs u (n :: ns) (drop p l ++ t).
Inductive clears : uri -> list str -> list str -> list str -> list row -> list ev -> Prop :=
| cl u ds fs t1 t2 : drops_files u fs t1 -> drops_dirs u ds t2 -> clears u ds fs ds [] (t1 ++ t2).
Inductive removes : bool -> uri -> list ev -> Prop :=
| rm_link r u : removes r u [hook "remove" u; EIslink u true; ERemovefile u]
| rm_file r u : removes r u [hook "remove" u; EIslink u false; EExists u true; EIsdir u false; EIsfile u true; ERemovefile u]
| rm_other r u : removes r u [hook "remove" u; EIslink u false; EExists u true; EIsdir u false; EIsfile u false]
| rm_dir u : removes false u [hook "remove" u; EIslink u false; EExists u true; EIsdir u true; ERemovedir u]
| rm_tree u rows t l : tour false false clears u rows t ->
    removes true u ([hook "remove" u; EIslink u false; EExists u true; EIsdir u true] ++ t ++ drop u l).

(** Copies: the contents, block by block; a link; one entry *)
Inductive blocks (f g : F) : list ev -> Prop :=
| bk_end v : truthy v = false -> blocks f g [ERead f 8192 v]
| bk_more v t : truthy v = true -> blocks f g t -> blocks f g (ERead f 8192 v :: EWrite g v :: t).
Definition opening u mode f := [hook "open" u; EOpen u (Some (lit mode)) f].
Inductive contents (u v : uri) : list ev -> Prop :=
| co f g t : blocks f g t -> contents u v (opening u "rb" f ++ opening v "wb" g ++ t ++ [EExit g; EExit f]).
Inductive relinks (u v : uri) : list ev -> Prop :=
| rl_new t : relinks u v ([EIslink u true] ++ q_isfile v false ++ [EReadlink u t; ESymlink t v])
| rl_over t : relinks u v ([EIslink u true] ++ q_isfile v true ++ [ERemovefile v; EReadlink u t; ESymlink t v]).
Definition stats (same : bool) u v : list ev := if same then [ECopystat u v] else [].
Inductive entry (follow same : bool) (u v : uri) : list ev -> Prop :=
| en_link t : follow = false -> relinks u v t -> entry follow same u v (q_islink u true ++ t)
| en_bytes l t : l = false \/ follow = true -> contents u v t -> entry follow same u v (q_islink u l ++ t ++ stats same u v).

(** Copy of a tree: the loop at one directory.  [ig] are names that are left out. *)
Inductive folders (follow : bool) (ig : list str) (u v : uri) : list str -> list str -> list ev -> Prop :=
| fo_nil : folders follow ig u v [] [] []
| fo_out n ns ds t : In n ig -> folders follow ig u v ns ds t -> folders follow ig u v (n :: ns) ds t
| fo_link n ns ds p q t1 t2 : ~ In n ig -> u_div u n = Ok p -> u_div v n = Ok q -> follow = false -> relinks p q t1 ->
    folders follow ig u v ns ds t2 -> folders follow ig u v (n :: ns) (n :: ds) (q_islink p true ++ t1 ++ t2)
| fo_dir n ns ds p q l t1 t2 : ~ In n ig -> u_div u n = Ok p -> u_div v n = Ok q -> l = false \/ follow = true -> makes q t1 ->
    folders follow ig u v ns ds t2 ->
    folders follow ig u v (n :: ns) (n :: ds) (q_islink p l ++ hook "makedirs" q :: t1 ++ t2).
Inductive entries (follow same : bool) (u v : uri) : list str -> list ev -> Prop :=
| ne_nil : entries follow same u v [] []
| ne_cons n ns p q t1 t2 : u_div u n = Ok p -> u_div v n = Ok q -> entry follow same p q t1 -> entries follow same u v ns t2 ->
    entries follow same u v (n :: ns) (t1 ++ t2).
(** where the entries of [u] go: what [u]'s path has beyond the source's and a separator, less blanks, below the destination *)
Inductive counterpart (src dst u : uri) : uri -> Prop :=
| cp_top : strip_p is_space (skipn (length (u_path src) + 1) (u_path u)) = [] -> counterpart src dst u dst
| cp_in v : strip_p is_space (skipn (length (u_path src) + 1) (u_path u)) <> [] ->
    u_div dst (strip_p is_space (skipn (length (u_path src) + 1) (u_path u))) = Ok v -> counterpart src dst u v.
Inductive rebuilds (follow same : bool) (ig : list str) (src dst : uri)
  : uri -> list str -> list str -> list str -> list row -> list ev -> Prop :=
| rb u v ds fs ds' t1 t2 : counterpart src dst u v -> folders follow ig u v ds ds' t1 -> entries follow same u v fs t2 ->
    rebuilds follow same ig src dst u ds fs ds' [] (t1 ++ t2).
(** the destination, or the entry of it with the last name of the source *)
Inductive target (src dst : uri) : bool -> uri -> Prop :=
| ta_plain : target src dst false dst
| ta_in v : u_div dst (u_last src) = Ok v -> target src dst true v.
Definition same_scheme (u v : uri) : bool := opt_eqb (u_scheme u) (u_scheme v).
Inductive dups (ig : list str) (follow : bool) (u v : uri) : bool -> list ev -> Prop :=
| du_file b w t : target u v b w -> entry follow (same_scheme u v) u w t ->
    dups ig follow u v false ([hook "exists" u; EExists u true] ++ q_isfile u true ++ q_isdir v b ++ t)
| du_link b w t : target u v b w -> follow = false -> relinks u w t ->
    dups ig follow u v true ([hook "exists" u; EExists u true] ++ q_isdir u true ++ q_isdir v b ++ q_islink u true ++ t)
| du_tree b w l rows t1 t2 : target u v b w -> l = false \/ follow = true -> makes w t1 ->
    tour true follow (rebuilds follow (same_scheme u v) ig u w) u rows t2 ->
    dups ig follow u v true ([hook "exists" u; EExists u true] ++ q_isdir u true ++ q_isdir v b ++ q_islink u l ++
      hook "makedirs" w :: t1 ++ hook "walk" u :: t2).
(** [own]: the class has an [internal_copy]; [known]: source and destination are known to have the same connection *)
Inductive clones (own known : bool) (r : bool) (ig : list str) (follow : bool) (u v : uri) : list ev -> Prop :=
| cn_own : own = true -> known = true -> clones own known r ig follow u v [hook "copy" u; EInternal u v r ig]
| cn_all t : own && known = false -> dups ig follow u v r t -> clones own known r ig follow u v (hook "copy" u :: t).

(** md5: [bs] is what is fed to the hash *)
Inductive feeds (f : F) : list N -> list ev -> Prop :=
| fe_end v : truthy v = false -> feeds f [] [ERead f 4096 v]
| fe_more v b bs t : truthy v = true -> bytes_of v = Some b -> feeds f bs t -> feeds f (b ++ bs) (ERead f 4096 v :: t).

(** glob *)
Inductive matching (u : uri) (pat : str) : list str -> list uri -> Prop :=
| ma_nil : matching u pat [] []
| ma_no n ns l : fnm n pat = false -> matching u pat ns l -> matching u pat (n :: ns) l
| ma_yes n ns p l : fnm n pat = true -> u_div u n = Ok p -> matching u pat ns l -> matching u pat (n :: ns) (p :: l).

(** [protocol own o a t]: the method [o] gives [a] after the calls [t]. *)
Inductive protocol (own : bool) : pop V -> pans F V -> list ev -> Prop :=
| pr_copy kn r ig fl u v t : clones own kn r ig fl u v t -> protocol own (PCopy kn r ig fl u v) RUnit t
| pr_move kn u v f t1 t2 : clones own kn (negb f) [] true u v t1 -> removes (negb f) u t2 ->
    protocol own (PMove kn u v) RUnit (hook "move" u :: q_isfile u f ++ t1 ++ t2)
| pr_remove r u t : removes r u t -> protocol own (PRemove r u) RUnit t
| pr_makedirs u t : makes u t -> protocol own (PMakedirs u) RUnit (hook "makedirs" u :: t)
| pr_walk td fl u rows t : tour td fl shows u rows t -> protocol own (PWalk td fl u) (RWalk rows) (hook "walk" u :: t)
| pr_glob u pat names l : matching u pat names l ->
    protocol own (PGlob u pat) (RUris l) [hook "glob" u; hook "listdir" u; EListdir u names]
| pr_md5 u f bs t : feeds f bs t -> protocol own (PMd5 u) (RBytes bs) (hook "md5" u :: opening u "rb" f ++ t ++ [EExit f])
| pr_open u o f : protocol own (POpen u o) (RFile f) [hook "open" u; EOpen u o f]
| pr_copystat u v : protocol own (PCopystat u v) RUnit [hook "copystat" u; ECopystat u v]
| pr_mkdir u : protocol own (PMkdir u) RUnit [hook "mkdir" u; EMkdir u]
| pr_exists u b : protocol own (PExists u) (RBool b) [hook "exists" u; EExists u b]
| pr_isfile u b : protocol own (PIsfile u) (RBool b) [hook "isfile" u; EIsfile u b]
| pr_isdir u b : protocol own (PIsdir u) (RBool b) [hook "isdir" u; EIsdir u b]
| pr_isexec u m b : protocol own (PIsexec u m) (RBool b) [hook "isexec" u; EIsexec u m b]
| pr_set_exec u m : protocol own (PSetExec u m) RUnit [hook "set_exec" u; ESetExec u m]
| pr_islink u b : protocol own (PIslink u) (RBool b) [hook "islink" u; EIslink u b]
| pr_readlink u t : protocol own (PReadlink u) (RUri t) [hook "readlink" u; EReadlink u t]
| pr_symlink u l : protocol own (PSymlink u l) RUnit [hook "symlink" u; ESymlink u l]
| pr_mtime u v : protocol own (PMtime u) (RVal v) [hook "mtime" u; EMtime u v]
| pr_listdir u l : protocol own (PListdir u) (RNames l) [hook "listdir" u; EListdir u l]
| pr_info u i fl v : protocol own (PInfo u i fl) (RVal v) [hook "info" u; EInfo u i fl v]
| pr_sync u v o : protocol own (PSync u v o) RUnit [hook "sync" u; ESync u v o]
| pr_lock u f cl v : protocol own (PLock u f cl) (RVal v) [hook "lock" u; ELock u f cl v]
| pr_manipulate u k : protocol own (PManipulate u k) RUnit [hook "_manipulate" u; EManipulate u k]
| pr_switch u br v : protocol own (PSwitch true u br) (RVal v) [hook "switch" u; ESwitch u br v]
| pr_update u r cl v : protocol own (PUpdate true u r cl) (RVal v) [hook "update" u; EUpdate u r cl v]
| pr_log u n k v : protocol own (PLog true u n k) (RVal v) [hook "log" u; ELog u n k v]
| pr_log_by_time u a b v : protocol own (PLogByTime true u a b) (RVal v) [hook "log_by_time" u; ELogByTime u a b v].
End Words.
Arguments ev F V : clear implicits.
