(** Specification of a zip connection, independent of zip.py: the file as it is now, and the members the
    connection saw when it last opened it. *)
From Coq Require Import Sorted.
From Verif Require Import Str Exc UriParse BaseUri StrFacts SpecUri Zip SpecZip ZipUse.

Record view := mkView { now : disk; seen : option (list member) }.

Definition reads (o : option str) : Prop := match o with None => True | Some m => In 114%N m end.
Definition writes (o : option str) : Prop := exists m, o = Some m /\ ~ In 114%N m /\ In 119%N m.
Definition appends (o : option str) : Prop := exists m, o = Some m /\ ~ In 114%N m /\ ~ In 119%N m /\ In 97%N m.
Definition neither (o : option str) : Prop := exists m, o = Some m /\ ~ In 114%N m /\ ~ In 119%N m /\ ~ In 97%N m.
Definition in_file (d : disk) : list member := match d with DZip ms => ms | _ => [] end.
(** The name a member gets: the path up to its first NUL. *)
Definition name_of (p n : str) : Prop := ~ In 0%N n /\ (p = n \/ exists r, p = n ++ 0%N :: r).

Definition a_dir (ms : list member) (p : str) : Prop := p = root \/ exists m, is_member ms m /\ below p m.
(** What listdir shows of a member [m] in the directory [p]: the name after the path; for the root the second
    of the names between the slashes of [m], whatever the first is. *)
Definition shows (p m x : str) : Prop :=
  x <> [] /\ ~ In cSlash x /\
  exists a, (p = root /\ ~ In cSlash a \/ p <> root /\ a = p) /\ (m = a ++ cSlash :: x \/ below (a ++ cSlash :: x) m).

Inductive rule : view -> use -> answer -> view -> Prop :=
| r_read w sn ms u o d x : w = DZip ms -> reads o -> stored ms (u_path u) x ->
    rule (mkView w sn) (UWith u o d) (ABytes x) (mkView w (Some ms))
| r_read_no w sn ms u o d : w = DZip ms -> reads o -> ~ is_member ms (u_path u) ->
    rule (mkView w sn) (UWith u o d) (AFails FileDoesNotExistError) (mkView w (Some ms))
| r_read_none sn u o d : reads o -> rule (mkView DNone sn) (UWith u o d) (AFails (OSError ENOENT)) (mkView DNone sn)
| r_read_junk sn u o d : reads o -> rule (mkView DJunk sn) (UWith u o d) (AFails BadZipFile) (mkView DJunk sn)
| r_write w sn u o d n : writes o -> name_of (u_path u) n -> let ms := in_file w ++ [(n, d)] in
    rule (mkView w sn) (UWith u o d) ADone (mkView (DZip ms) (Some ms))
| r_append w sn u o d : appends o ->
    rule (mkView w sn) (UWith u o d) (AFails UnboundLocalError) (mkView (match w with DNone => DJunk | _ => w end) sn)
| r_neither w sn u o d : neither o -> rule (mkView w sn) (UWith u o d) (AFails (OSError EINVAL)) (mkView w sn)
| r_test_root v u x : u_path u = root -> In x [UExists u; UIsdir u; UIsfile u] -> rule v x (ABool true) v
| r_test_unseen w u x : u_path u <> root -> In x [UExists u; UIsdir u; UIsfile u] ->
    rule (mkView w None) x (AFails AttributeError) (mkView w None)
| r_isfile w ms u b : u_path u <> root -> (b = true <-> is_member ms (u_path u)) ->
    rule (mkView w (Some ms)) (UIsfile u) (ABool b) (mkView w (Some ms))
| r_isdir w ms u b : u_path u <> root -> (b = true <-> a_dir ms (u_path u)) ->
    rule (mkView w (Some ms)) (UIsdir u) (ABool b) (mkView w (Some ms))
| r_exists w ms u b : u_path u <> root -> (b = true <-> is_member ms (u_path u) \/ a_dir ms (u_path u)) ->
    rule (mkView w (Some ms)) (UExists u) (ABool b) (mkView w (Some ms))
| r_list_none sn u : rule (mkView DNone sn) (UListdir u) (ANames []) (mkView DNone sn)
| r_list_junk u : rule (mkView DJunk None) (UListdir u) (AFails BadZipFile) (mkView DJunk None)
| r_list w sn ms u l : w <> DNone -> (sn = Some ms \/ sn = None /\ w = DZip ms) -> a_dir ms (u_path u) ->
    StronglySorted slt l -> (forall x, In x l <-> exists m, is_member ms m /\ shows (u_path u) m x) ->
    rule (mkView w sn) (UListdir u) (ANames l) (mkView w (Some ms))
| r_list_no w sn ms u : w <> DNone -> (sn = Some ms \/ sn = None /\ w = DZip ms) -> ~ a_dir ms (u_path u) ->
    rule (mkView w sn) (UListdir u) (AFails FileDoesNotExistError) (mkView w (Some ms))
| r_other v d : rule v (UOther d) ADone (mkView d (seen v)).
Inductive rules : view -> list use -> list answer -> view -> Prop :=
| rs_nil v : rules v [] [] v
| rs_cons v x a v1 l al v2 : rule v x a v1 -> rules v1 l al v2 -> rules v (x :: l) (a :: al) v2.
(** Names can be encoded (a member name that cannot leaves the archive open for writing). *)
Definition fit (x : use) : Prop := match x with UWith u _ _ => text_ok (u_path u) | _ => True end.
