(** Which texts keep their meaning when a URI is made of them. *)
From Verif Require Import Str Exc UriParse BaseUri SpecUri.

(** A text that URI() takes for a path, and that is left as it is: no question mark before the first #, something and no
    line break behind that #, no backslash, no group in double parentheses, no ://, no colon as its second character *)
Record left_alone (p : str) : Prop := {
  la_text : path_text p;
  la_back : free_of [cBack] p;
  la_group : ~ has_group p;
  la_uri : forall x y, p <> x ++ lit "://" ++ y;
  la_drive : forall c r, p <> c :: cColon :: r }.
(** How the paths begin that do not get a ./ in front and lose nothing *)
Inductive kept_start (p : str) : Prop :=
| ks_root r : p = cSlash :: r -> (forall r, p <> lit "/." ++ r) -> kept_start p
| ks_here : p = [cDot] -> kept_start p
| ks_dot c r : p = cDot :: c :: r -> c = cSlash \/ c = cHash -> kept_start p.

(** The names that can be used below a directory other than the root *)
Record inner_name (n : str) : Prop := {
  in_back : free_of [cBack] n;
  in_text : path_text n;
  in_group : ~ has_group n }.
(** Paths of directories: as written in a URI they are taken as they are *)
Record dir_path (P : str) : Prop := {
  dp_text : free_of [cQuest; cHash; cBack] P;
  dp_group : forall x y, P <> x ++ lit "((" ++ y;
  dp_start : exists c r, P = cSlash :: c :: r /\ c <> cDot;
  dp_end : forall r, P <> r ++ [cSlash] }.
(** The suffixes that can be added to such a path *)
Record suffix_of (P x : str) : Prop := {
  sx_back : free_of [cBack] x;
  sx_text : path_text x;
  sx_group : ~ has_group (P ++ x) }.
(** Paths of local directories *)
Record local_dir (P : str) : Prop := {
  ld_dir : dir_path P;
  ld_uri : forall x y, P <> x ++ lit "://" ++ y;
  ld_drive : forall r, P <> cSlash :: cColon :: r }.
