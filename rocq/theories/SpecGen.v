(** Specification vocabulary for the generic operations (C34, C35, C38-C47, C50, C54). *)
From Verif Require Import Str Exc Utf8 UriParse BaseUri StrFacts Mem SpecUri SpecMem.
From Coq Require Import Sorted.

(** No registered callback raises. *)
Definition silent (s : mst) : Prop :=
  forall p cb u name, In (p, Some cb) (m_cbs s) -> cb u name = None.

(** [cs] is an existing directory followed by names that do not exist yet. *)
Definition gap (t : tree) (cs d b : list str) : Prop :=
  exists a, cs = a ++ b /\ leads t a (Found d) /\ is_edir (t d) /\
            forall n b', b = n :: b' -> t (d ++ [n]) = None.

(** Exactly the directories d/b1, d/b1/b2, ... are new. *)
Definition dirs_added (t t' : tree) (d b : list str) (now : Z) : Prop :=
  (forall b1 b2, b = b1 ++ b2 -> b1 <> [] -> t' (d ++ b1) = Some (EDir now 0)) /\
  (forall q, (forall b1 b2, b = b1 ++ b2 -> b1 <> [] -> q <> d ++ b1) -> t' q = t q).

(** All names below a directory are ordinary. *)
Definition ordinary_below (t : tree) (q : list str) : Prop :=
  forall r, t (q ++ r) <> None -> Forall name_ok r.
(** At the root also no name starting with a dot (see C60). *)
Definition no_top_dots (t : tree) (q : list str) : Prop :=
  q = [] -> forall n r, t (n :: r) <> None -> forall x, n <> cDot :: x.

(** Links from which the outcome is an answer and not an exception. *)
Definition answers (o : outcome) : Prop := ~ In o [Dead; NotDir; BadLink].

(** The places links lead on to, starting from the links below [q]. *)
Inductive link_reach (t : tree) (q : list str) : list str -> Prop :=
| lr_below r : is_elink (t (q ++ r)) -> link_reach t q (q ++ r)
| lr_next p p' : link_reach t q p -> arrow t p p' -> link_reach t q p'.
(** A path that runs only through directories or missing places. *)
Definition direct (t : tree) (p : list str) : Prop :=
  forall pre post, p = pre ++ post -> post <> [] -> t pre = None \/ is_edir (t pre).

(** Everything strictly below [q] is gone, everything else as before. *)
Definition emptied (t t' : tree) (q : list str) : Prop :=
  (forall r, r <> [] -> t' (q ++ r) = None) /\
  (forall p, (forall r, r <> [] -> p <> q ++ r) -> t' p = t p).

(** ** walk *)
(** [cs] leads to a directory *)
Definition to_dir (t : tree) (cs : list str) : Prop := exists q, leads t cs (Found q) /\ is_edir (t q).
(** The directories a walk from [cs] enters, when those named in [ignore] are left out: [r] is the path
    below the start, [q] the directory. *)
Inductive visits (t : tree) (follow : bool) (ignore cs : list str) : list str -> list str -> Prop :=
| v_top q : leads t cs (Found q) -> is_edir (t q) -> visits t follow ignore cs [] q
| v_down r q n q' : visits t follow ignore cs r q -> t (q ++ [n]) <> None -> ~ In n ignore ->
    leads t ((cs ++ r) ++ [n]) (Found q') -> is_edir (t q') -> (follow = true \/ ~ is_elink (t (q ++ [n]))) ->
    visits t follow ignore cs (r ++ [n]) q'.
(** Order: a directory before (top-down) or after (bottom-up) what is below it, siblings by name. *)
Definition visit_before (topdown : bool) (x y : list str) : Prop :=
  (exists n z, if topdown then y = x ++ n :: z else x = y ++ n :: z) \/
  (exists c a b x' y', x = c ++ a :: x' /\ y = c ++ b :: y' /\ slt a b).
(** [dirs] and [files] are the sorted names in directory [q], addressed by [cs]. *)
Definition listed (t : tree) (cs q dirs files : list str) : Prop :=
  StronglySorted slt dirs /\ StronglySorted slt files /\
  (forall n, In n dirs <-> t (q ++ [n]) <> None /\ to_dir t (cs ++ [n])) /\
  (forall n, In n files <-> t (q ++ [n]) <> None /\ ~ to_dir t (cs ++ [n])).

(** ** copy *)
(** Where a copy of something named [n] to [ct] goes. *)
Definition copy_dest (t : tree) (n : str) (ct cd : list str) : Prop :=
  (to_dir t ct /\ cd = ct ++ [n]) \/ (~ to_dir t ct /\ cd = ct).

(** What a recursive copy creates below its destination at time [now]. *)
Inductive copied (t : tree) (follow : bool) (ignore cs : list str) (now : Z) : list str -> entry -> Prop :=
| cp_dir r q n : visits t follow ignore cs r q -> t (q ++ [n]) <> None -> ~ In n ignore ->
    (follow = true \/ ~ is_elink (t (q ++ [n]))) -> to_dir t ((cs ++ r) ++ [n]) ->
    copied t follow ignore cs now (r ++ [n]) (EDir now 0)
| cp_file r q n x data mt mo : visits t follow ignore cs r q -> t (q ++ [n]) <> None ->
    (follow = true \/ ~ is_elink (t (q ++ [n]))) -> leads t ((cs ++ r) ++ [n]) (Found x) -> t x = Some (EFile data mt mo) ->
    copied t follow ignore cs now (r ++ [n]) (EFile data mt mo)
| cp_link r q n tg mt mo : follow = false -> visits t follow ignore cs r q -> t (q ++ [n]) = Some (ELink tg mt mo) ->
    (to_dir t ((cs ++ r) ++ [n]) -> ~ In n ignore) ->
    copied t follow ignore cs now (r ++ [n]) (ELink tg now 0).
(** Whatever is put at or below [N0], [cs] leads to [o]. *)
Definition settled (t : tree) (N0 cs : list str) (o : outcome) : Prop :=
  forall t', (forall x, (forall z, x <> N0 ++ z) -> t' x = t x) -> leads t' cs o.
(** Names without blanks at the ends. *)
Definition unpadded (n : str) : Prop := forall c x, n = c :: x \/ n = x ++ [c] -> is_space c = false.
(** [t'] is [t] with the new directories d/b1, d/b1/b2, ... and below the last of them exactly the entries [new]. *)
Definition reproduced (t t' : tree) (d b : list str) (now : Z) (new : list str -> entry -> Prop) : Prop :=
  (forall b1 b2, b = b1 ++ b2 -> b1 <> [] -> t' (d ++ b1) = Some (EDir now 0)) /\
  (forall y e, y <> [] -> t' (d ++ b ++ y) = Some e <-> new y e) /\
  (forall x, (forall z, x <> d ++ firstn 1 b ++ z) -> t' x = t x) /\
  (forall x, t' x <> None -> t x = None -> (exists b1 b2, b = b1 ++ b2 /\ x = d ++ b1) \/ exists y, x = d ++ b ++ y).

(** What a copy of an entry looks like: directories and links are new, files keep mtime and mode. *)
Definition stamp (now : Z) (e : entry) : entry :=
  match e with EFile data mt mo => EFile data mt mo | EDir _ _ => EDir now 0 | ELink tg _ _ => ELink tg now 0 end.

(** ** move *)
(** [e] is now at [p], [ps] is gone. *)
Definition moved (t t' : tree) (p ps : list str) (e : entry) : Prop :=
  t' p = Some e /\ t' ps = None /\ forall x, x <> p -> x <> ps -> t' x = t x.

(** The path [cs] names the entry [n] of the directory [d] (whether or not there is such an entry), and no
    link on the way has the name [n]. *)
Definition placed (t : tree) (cs d : list str) (n : str) : Prop :=
  exists init, cs = init ++ [n] /\ good_path cs /\ fresh_last t init n /\ leads t init (Found d) /\ is_edir (t d).
