(** Specification vocabulary for several memory connections at once. *)
From Verif Require Import Str Exc UriParse BaseUri Mem UriOps Prog Registry SpecReg Net.

Definition noq (s : str) : Prop := ~ In cQuest s.

(** What stands between "memory://" and the path: nothing, "joe@", "joe:secret@", ":80", ... *)
Definition authority (a : str) : Prop :=
  Forall (fun c => ~ In c [cSlash; cQuest; cHash; cBack; cLpar; cUnder]) a /\ a <> [cDot].

(** The URIs written "memory://", the authority [a], and a path with no question mark in it. *)
Definition ours (a : str) (u : uri) : Prop :=
  exists rest, noq rest /\ (rest = [] \/ exists r, rest = cSlash :: r) /\ URI (lit "memory://" ++ a ++ rest) cSlash [] = Ok u.

(** No name in any directory has a question mark. *)
Definition tidy (s : mst) : Prop := forall i es mt mo, m_heap s i = NDir es mt mo -> forall n j, In (n, j) es -> noq n.

(** The URIs a method is given *)
Definition uris_of (o : uop) : list uri :=
  match o with
  | UCopy _ _ _ u v | UCopystat u v | UMove u v | USymlink u v | USync u v => [u; v]
  | _ => [uop_uri o]
  end.

Definition call_in (a : str) (k : call) : Prop :=
  match k with CUri _ o => Forall (ours a) (uris_of o) | COpen u _ => ours a u | _ => True end.
(** The URI a call starts with *)
Definition first_uri (k : call) : option uri := match k with CUri _ o => Some (uop_uri o) | COpen u _ => Some u | _ => None end.
(** The URIs that come back *)
Definition answer_in (a : str) (x : answer) : Prop :=
  match x with
  | AUris l => Forall (ours a) l
  | AWalk l => Forall (fun e => ours a (fst (fst e))) l
  | _ => True
  end.
(** A program that uses URIs of [a] only, as long as it is given no others. *)
Inductive prog_in (a : str) {X} : prog X -> Prop :=
| pi_done : forall x, prog_in a (Done x)
| pi_call : forall k f, call_in a k -> (forall r, (forall x, r = Ok x -> answer_in a x) -> prog_in a (f r)) -> prog_in a (Call k f).

(** Nothing but the file system of [c] and the time of its last use differ. *)
Record framed (c : nat) (N N' : net) : Prop := {
  fr_conns : r_conns (n_reg N') = r_conns (n_reg N);
  fr_schemes : r_schemes (n_reg N') = r_schemes (n_reg N);
  fr_next : r_next (n_reg N') = r_next (n_reg N);
  fr_closed : r_closed (n_reg N') = r_closed (n_reg N);
  fr_timeout : r_timeout (n_reg N') = r_timeout (n_reg N);
  fr_now : r_now (n_reg N') = r_now (n_reg N);
  fr_used : forall i, i <> c -> r_used (n_reg N') i = r_used (n_reg N) i;
  fr_fs : forall i, i <> c -> n_fs N' i = n_fs N i;
  fr_epoch : n_epoch N' = n_epoch N }.

(** [c] was made by the look-up of [k]; before, no connection was [k]'s. *)
Record opened (k : conn_key) (c : nat) (N N' : net) : Prop := {
  op_none : forall i, ~ open_as (n_reg N) k i;
  op_conns : r_conns (n_reg N') = r_conns (n_reg N) ++ [(k, c)];
  op_schemes : r_schemes (n_reg N') = r_schemes (n_reg N);
  op_new : c = r_next (n_reg N);
  op_next : r_next (n_reg N') = S c;
  op_closed : r_closed (n_reg N') = r_closed (n_reg N);
  op_timeout : r_timeout (n_reg N') = r_timeout (n_reg N);
  op_now : r_now (n_reg N') = r_now (n_reg N);
  op_used : forall i, i <> c -> r_used (n_reg N') i = r_used (n_reg N) i;
  op_fs : forall i, i <> c -> n_fs N' i = n_fs N i;
  op_epoch : n_epoch N' = S (n_epoch N) }.
(** An empty file system in the process [N] *)
Definition fresh (N : net) : mst := mkM (fun _ => NDir [] (r_now (n_reg N)) 0) 1 (r_now (n_reg N)) (S (n_epoch N)) (n_held N) [].
(** No host in the URI *)
Definition hostless (k : conn_key) : Prop := k_host k = None \/ k_host k = Some [].

(** *** Several programs at once *)
(** The URIs of [a] and of [b] belong to different connections. *)
Definition away (a b : str) : Prop := forall u v, ours a u -> ours b v -> ~ same_key (u_key u) (u_key v).
Definition elsewhere (a : str) (u : uri) : Prop := exists b, authority b /\ away a b /\ ours b u.
(** A call that has nothing to do with the connection of [a]: URIs of any other connections, files opened there. *)
Definition call_elsewhere (a : str) (k : call) : Prop :=
  match k with
  | CUri _ o => Forall (elsewhere a) (uris_of o)
  | COpen u _ => elsewhere a u
  | CTick _ => False
  | _ => True
  end.
(** The program [p], whose open files are [hs], runs to its end [x] in a process where others work, with the open files
    [ho], and clean-ups happen that do not drop the connection of [a]. *)
Inductive woven (a : str) {X} : prog X -> net -> list (nat * handle) -> list (nat * handle) -> X -> Prop :=
| wv_done : forall x N hs ho, woven a (Done x) N hs ho x
| wv_mine : forall k f N hs ho r N' hs' x, net_call k (N, hs) = (r, (N', hs')) -> woven a (f r) N' hs' ho x -> woven a (Call k f) N hs ho x
| wv_other : forall k p N hs ho r N' ho' x, call_elsewhere a k -> net_call k (N, ho) = (r, (N', ho')) -> woven a p N' hs ho' x -> woven a p N hs ho x
| wv_clean : forall force p N hs ho r N' x, (forall u c, ours a u -> open_as (n_reg N) (u_key u) c -> ~ due force (n_reg N) c) ->
    net_cleanup force N = (r, N') -> woven a p N' hs ho x -> woven a p N hs ho x.

(** *** The authority *)
(** The method on another URI; [None] for the methods that need the parent, the entries or a second URI. *)
Definition at_uri (v : uri) (o : uop) : option uop :=
  match o with
  | UOpen _ m => Some (UOpen v m) | UMkdir _ => Some (UMkdir v) | UExists _ => Some (UExists v) | UIsfile _ => Some (UIsfile v)
  | UIsdir _ => Some (UIsdir v) | UIsexec _ m => Some (UIsexec v m) | USetExec _ m => Some (USetExec v m) | UIslink _ => Some (UIslink v)
  | UReadlink _ => Some (UReadlink v) | UMtime _ => Some (UMtime v) | UListdir _ => Some (UListdir v) | UInfo _ f => Some (UInfo v f)
  | USetInfo _ mo mt f => Some (USetInfo v mo mt f) | UMd5 _ => Some (UMd5 v) | UManipMtime _ t => Some (UManipMtime v t)
  | UManipCallback _ cb => Some (UManipCallback v cb)
  | _ => None
  end.

(** *** The authority, for all methods *)
(** [v] is written as [u] with [b] instead of [a]. *)
Definition rewritten (a b : str) (u v : uri) : Prop :=
  exists rest, noq rest /\ (rest = [] \/ exists r, rest = cSlash :: r)
    /\ URI (lit "memory://" ++ a ++ rest) cSlash [] = Ok u /\ URI (lit "memory://" ++ b ++ rest) cSlash [] = Ok v.
(** The method with other URIs *)
Definition map_uris (f : uri -> uri) (o : uop) : uop :=
  match o with
  | UCopy r ig fl u v => UCopy r ig fl (f u) (f v) | UCopystat u v => UCopystat (f u) (f v) | UMove u v => UMove (f u) (f v)
  | URemove r u => URemove r (f u) | UOpen u m => UOpen (f u) m | UMakedirs u => UMakedirs (f u) | UMkdir u => UMkdir (f u)
  | UExists u => UExists (f u) | UIsfile u => UIsfile (f u) | UIsdir u => UIsdir (f u) | UIsexec u m => UIsexec (f u) m
  | USetExec u m => USetExec (f u) m | UIslink u => UIslink (f u) | UReadlink u => UReadlink (f u) | USymlink u l => USymlink (f u) (f l)
  | UMtime u => UMtime (f u) | UWalk td fl u => UWalk td fl (f u) | UListdir u => UListdir (f u) | UInfo u fl => UInfo (f u) fl
  | USetInfo u mo mt fl => USetInfo (f u) mo mt fl | USync u v => USync (f u) (f v) | UGlob u p => UGlob (f u) p | UMd5 u => UMd5 (f u)
  | ULock u x y => ULock (f u) x y | UManipMtime u t => UManipMtime (f u) t | UManipCallback u cb => UManipCallback (f u) cb
  end.
(** The file system keeps the URI symlink() is called on (readlink() gives it back), and the callbacks of _manipulate(). *)
Definition keeps_uri (o : uop) : Prop := match o with USymlink _ _ | UManipCallback _ _ => True | _ => False end.
(** copy() and move() take the name of the source; the root has none. *)
Definition names_root (o : uop) : Prop := match o with UCopy _ _ _ u _ | UMove u _ => u_path u = [] \/ u_path u = [cSlash] | _ => False end.
(** Methods that may make the directories above *)
Definition goes_up (o : uop) : Prop := match o with UMakedirs _ | UMove _ _ | UCopy true _ _ _ _ => True | _ => False end.
(** The same answer, up to the authority in the URIs *)
Definition rewritten_answer (a b : str) (x y : answer) : Prop :=
  match x, y with
  | AUris l, AUris l' => Forall2 (rewritten a b) l l'
  | AWalk l, AWalk l' => Forall2 (fun e e' => rewritten a b (fst (fst e)) (fst (fst e')) /\ snd (fst e) = snd (fst e') /\ snd e = snd e') l l'
  | _, _ => x = y
  end.
Definition rewritten_result (a b : str) (r r' : res answer) : Prop :=
  match r, r' with Ok x, Ok y => rewritten_answer a b x y | Raise e, Raise e' => e = e' | _, _ => False end.

(** *** Time *)
(** As [woven], where the clean-ups are those of the cleaner thread (not forced), and happen when at most the time-out has
    passed since the program last called a method of a URI, at [t]; before its first such call they happen at any time. *)
Inductive timely (a : str) {X} : option Z -> prog X -> net -> list (nat * handle) -> list (nat * handle) -> X -> Prop :=
| tm_done : forall t x N hs ho, timely a t (Done x) N hs ho x
| tm_mine : forall t k f N hs ho r N' hs' x, net_call k (N, hs) = (r, (N', hs')) ->
    timely a (match first_uri k with Some _ => Some (r_now (n_reg N)) | None => t end) (f r) N' hs' ho x -> timely a t (Call k f) N hs ho x
| tm_other : forall t k p N hs ho r N' ho' x, call_elsewhere a k -> net_call k (N, ho) = (r, (N', ho')) -> timely a t p N' hs ho' x -> timely a t p N hs ho x
| tm_clean : forall t p N hs ho r N' x, (forall t0, t = Some t0 -> (r_now (n_reg N) - t0 <= r_timeout (n_reg N))%Z) ->
    net_cleanup false N = (r, N') -> timely a t p N' hs ho x -> timely a t p N hs ho x.
