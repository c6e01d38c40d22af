(** Local files at and below one directory. *)
From Verif Require Import Str Exc UriParse BaseUri SpecUri Mem SpecMem Misc Posix Local SpecLocal Generic LocProg.

(** Texts without the characters that mean something in a URI, and without two dots in a row *)
Record mild (s : str) : Prop := {
  mi_free : free_of (cColon :: meta) s;
  mi_par : forall x y, s <> x ++ lit "((" ++ y;
  mi_dots : forall x y, s <> x ++ lit ".." ++ y }.

Section Home.
Variable D : list str.           (* the names on the way to the directory *)
Record home_dir : Prop := {
  hd_some : D <> [];
  hd_names : Forall (fun c => c <> [] /\ ~ In cSlash c /\ c <> dot /\ mild c) D;
  hd_nul : Forall (fun c => ~ In 0%N c) D;
  hd_first : forall c D', D = c :: D' -> forall r, c <> cDot :: r }.
(** Paths /n1/n2/..., maybe with slashes and dots *)
Definition home_text (p : str) : Prop := mild p /\ exists t, (t = [] \/ exists r, t = cSlash :: r) /\ p = abs_path D ++ t.
Definition home_uri (u : uri) : Prop := exists p, home_text p /\ URI (lit "file://" ++ p) cSlash [] = Ok u.
(** Links have such a path in them, so they do not lead away. *)
Record walled (x : pst) : Prop := {
  wa_names : forall p, pget (D ++ p) (p_tree x) <> None -> Forall mild p;
  wa_links : forall p tg, pget (D ++ p) (p_tree x) = Some (PLink tg) -> home_text tg;
  wa_above : forall A n B, D = A ++ n :: B -> is_dir_at x A }.
(** The same at and below the directory; the order of the entries is left open *)
Record same_home (x y : pst) : Prop := {
  sa_tree : forall p, pget (D ++ p) (p_tree y) = pget (D ++ p) (p_tree x);
  sa_now : p_now y = p_now x;
  sa_umask : p_umask y = p_umask x }.
Definition lcall_in (c : lcall) : Prop :=
  match c with
  | LCopy _ _ _ _ u v | LCopystat u v | LMove u v | LSymlink u v => home_uri u /\ home_uri v
  | LRemove _ _ u | LMakedirs _ u | LMkdir u | LExists u | LIsfile u | LIsdir u | LIslink u | LIsexec u _ | LSetExec u _ | LReadlink u
  | LMtime u | LInfo u _ | LSetMode u _ | LWalk _ _ _ u | LListdir u | LGlob u _ | LRead u | LWrite u _ | LAppend u _ => home_uri u
  | LTick _ => False
  end.
End Home.

(** What happens to the files: calls of one party, calls of the other, time.  The answers the first one gets come out. *)
Inductive levent := LOwn (c : lcall) | LOther (c : lcall) | LClock (now : Z).
Definition levent_in (D E : list str) (e : levent) : Prop := match e with LOwn c => lcall_in D c | LOther c => lcall_in E c | LClock _ => True end.
Definition lat_time (t : Z) (x : pst) : pst := mkP (p_tree x) (p_cwd x) t (p_umask x).
Fixpoint lhappen (es : list levent) (x : pst) : list (res lanswer) * pst :=
  match es with
  | [] => ([], x)
  | LOwn c :: es => let (r, x1) := lask c x in let (rs, x2) := lhappen es x1 in (r :: rs, x2)
  | LOther c :: es => lhappen es (snd (lask c x))
  | LClock t :: es => lhappen es (lat_time t x)
  end.
Definition lown_only (es : list levent) : list levent := filter (fun e => match e with LOther _ => false | _ => true end) es.
