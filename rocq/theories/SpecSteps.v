(** What other processes may do while a call works at and below a directory *)
From Verif Require Import Str Exc UriParse BaseUri SpecUri Mem SpecMem Misc Posix Local SpecLocal Generic LocProg LocTwin SpecHome LocSteps.

(** What is true or false because of what is elsewhere only *)
Definition about_rest (D : list str) (J : pst -> Prop) : Prop :=
  forall x y, (forall p, (forall r, p <> D ++ r) -> pget p (p_tree y) = pget p (p_tree x)) -> p_cwd y = p_cwd x -> p_now y = p_now x -> p_umask y = p_umask x -> J x -> J y.
(** Anything that leaves the files at and below the directory, the directories above, the clock and the umask as they are,
    and keeps [J] *)
Definition away (D : list str) (J : pst -> Prop) (f : pst -> pst) : Prop :=
  forall x, sound x -> walled D x -> J x -> sound (f x) /\ same_home D x (f x) /\ (forall A n B, D = A ++ n :: B -> is_dir_at (f x) A) /\ J (f x).
(** System calls for paths at and below a directory, whole methods, and several of them one after the other.  An open
    file is known by where it is. *)
Inductive acts (E : list str) : (pst -> pst) -> Prop :=
| act_none : acts E (fun x => x)
| act_then f g : acts E f -> acts E g -> acts E (fun x => g (f x))
| act_call c : lcall_in E c -> acts E (fun x => snd (lask c x))
| act_unlink p : home_text E p -> acts E (fun x => snd (os_unlink p x))
| act_rmdir p : home_text E p -> acts E (fun x => snd (os_rmdir p x))
| act_mkdir p : home_text E p -> acts E (fun x => snd (os_mkdir p x))
| act_symlink t p : home_text E t -> home_text E p -> acts E (fun x => snd (os_symlink t p x))
| act_chmod p m : home_text E p -> acts E (fun x => snd (os_chmod p m x))
| act_copystat p q : home_text E p -> home_text E q -> acts E (fun x => snd (sh_copystat p q x))
| act_open_w p : home_text E p -> acts E (fun x => snd (os_open_w p x))
| act_open_a p : home_text E p -> acts E (fun x => snd (os_open_a p x))
| act_append r b : Forall mild r -> acts E (fun x => snd (fd_append (E ++ r) b x))
| act_rename p q : home_text E p -> home_text E q -> acts E (fun x => snd (os_rename p q x)).
