(** Vocabulary for C127: URIs of files below the working directory. *)
From Verif Require Import Str Exc UriParse BaseUri SpecUri SpecNames Mem Generic Posix Local LocProg SpecLocal SpecPosix WorkDir.

(** The names that entries have on Linux *)
Definition dir_name (c : str) : Prop := ~ special c /\ ~ In cSlash c /\ ~ In 0%N c.
Definition real_dir (x : pst) (d : list str) : Prop := is_dir_at x d /\ Forall dir_name d.
(** [v] has a relative path and [w] the path of the directory [d], a slash, and that path. *)
Inductive under (d : list str) (v w : uri) : Prop :=
| un s : u_cls v = ULocal -> u_cls w = ULocal -> paths v s -> s <> [] -> (forall r, s <> cSlash :: r) ->
    paths w (match d with [] => cSlash :: s | _ => abs_path d ++ cSlash :: s end) -> under d v w.
(** The same call, for the URIs below [d] by their absolute paths; the text of a link that is made is not looked at. *)
Inductive rebased (d : list str) : lcall -> lcall -> Prop :=
| rb_copystat u v u' v' : under d u u' -> under d v v' -> rebased d (LCopystat u v) (LCopystat u' v')
| rb_remove n u u' : under d u u' -> rebased d (LRemove n false u) (LRemove n false u')
| rb_mkdir u u' : under d u u' -> rebased d (LMkdir u) (LMkdir u')
| rb_exists u u' : under d u u' -> rebased d (LExists u) (LExists u')
| rb_isfile u u' : under d u u' -> rebased d (LIsfile u) (LIsfile u')
| rb_isdir u u' : under d u u' -> rebased d (LIsdir u) (LIsdir u')
| rb_islink u u' : under d u u' -> rebased d (LIslink u) (LIslink u')
| rb_isexec u u' m : under d u u' -> rebased d (LIsexec u m) (LIsexec u' m)
| rb_set_exec u u' m : under d u u' -> rebased d (LSetExec u m) (LSetExec u' m)
| rb_readlink u u' : under d u u' -> rebased d (LReadlink u) (LReadlink u')
| rb_symlink t u u' : under d u u' -> rebased d (LSymlink t u) (LSymlink t u')
| rb_mtime u u' : under d u u' -> rebased d (LMtime u) (LMtime u')
| rb_info u u' f : under d u u' -> rebased d (LInfo u f) (LInfo u' f)
| rb_set_mode u u' m : under d u u' -> rebased d (LSetMode u m) (LSetMode u' m)
| rb_listdir u u' : under d u u' -> rebased d (LListdir u) (LListdir u')
| rb_read u u' : under d u u' -> rebased d (LRead u) (LRead u')
| rb_write u u' ds : under d u u' -> rebased d (LWrite u ds) (LWrite u' ds)
| rb_append u u' ds : under d u u' -> rebased d (LAppend u ds) (LAppend u' ds)
| rb_tick t : rebased d (LTick t) (LTick t).
(** Programs of such calls; and a program that never takes the directory away *)
Inductive moved_to {X} (d : list str) : lprog X -> lprog X -> Prop :=
| mt_done a : moved_to d (LDone a) (LDone a)
| mt_call c c' k k' : rebased d c c' -> (forall r, moved_to d (k r) (k' r)) -> moved_to d (LCall c k) (LCall c' k').
Inductive leaves {X} (d : list str) : lprog X -> pst -> Prop :=
| lv_done a x : leaves d (LDone a) x
| lv_call c k x r x' : lask c x = (r, x') -> is_dir_at x' d -> leaves d (k r) x' -> leaves d (LCall c k) x.
