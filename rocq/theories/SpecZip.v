(** Specification of zip archives, independent of zip.py. *)
From Verif Require Import Str Exc UriParse BaseUri SpecUri Zip.

(** The contents stored under a name: those of the last member of that name. *)
Definition stored (ms : list member) (p : str) (d : list N) : Prop :=
  exists l1 l2, ms = l1 ++ (p, d) :: l2 /\ ~ In p (map fst l2).
Definition is_member (ms : list member) (p : str) : Prop := In p (map fst ms).
(** [m] lies below the directory [p]. *)
Definition below (p m : str) : Prop := exists r, m = p ++ cSlash :: r.
Definition absolute (m : str) : Prop := exists r, m = cSlash :: r.
Definition all_absolute (ms : list member) : Prop := forall m, is_member ms m -> absolute m.
Definition root : str := [cSlash].
(** The path of [x] in the directory [p]. *)
Definition sub (p x : str) : str := if str_eqb p root then cSlash :: x else p ++ cSlash :: x.

(** Ordinary URIs of one archive: [v] is the text of the URI of the containing file. *)
Definition zip_text (v : str) (cs : list str) : str := lit "zip://" ++ auth_text (Connector v) ++ abs_path cs.
Definition zip_at (v : str) (cs : list str) (u : uri) : Prop :=
  auth_ok (Connector v) /\ Forall name_ok cs /\ (forall c cs', cs = c :: cs' -> forall r, c <> cDot :: r) /\
  URI (zip_text v cs) cSlash [] = Ok u.

(** A connection that has opened the archive [ms] before. *)
Definition connected (s : zst) (ms : list member) : Prop := zreachable s /\ z_handle s <> None /\ z_disk s = DZip ms.
(** Archives that are proper trees: [T] are the components of the members' names; they are ordinary names, no
    member occurs twice, none lies below another. *)
Record proper (ms : list member) (T : list (list str)) : Prop := {
  pr_names : map fst ms = map abs_path T;
  pr_ok : forall t, In t T -> t <> [] /\ Forall name_ok t /\ (forall c cs', t = c :: cs' -> forall r, c <> cDot :: r);
  pr_once : NoDup T;
  pr_tree : forall t b, In t T -> In (t ++ b) T -> b = [] }.
(** The names of the files a walk has shown. *)
Definition shown (w : list (uri * list str * list str)) : list str :=
  flat_map (fun x => map (sub (u_path (fst (fst x)))) (snd x)) w.
