(** fs.py 1118-1136: the loop that registers the plugins when the package is imported, and what [URI] (fs.py 237-250) and
    the connection registry make of it.

    Simplified: the URI class of a plugin is one of the four of the package. *)
From Verif Require Import Str Exc UriParse BaseUri Registry.

(** What [entrypoint.load()] gives: an object of which the attributes [scheme] and [uri] are asked for *)
Record plugin := mkPlugin { pl_scheme : res (option str); pl_uri : res uclass; pl_make : factory }.
Inductive entry_point :=
| Loads (p : plugin)
| Fails                  (* load() raises an Exception, an ImportError for example *)
| Ends (e : exc).        (* load() raises something else, SystemExit for example *)

(** SCHEME_REGISTRY *)
Definition classes := list (option str * uclass).
Fixpoint cget (k : option str) (l : classes) : option uclass :=
  match l with [] => None | (k', c) :: l' => if opt_str_eqb k k' then Some c else cget k l' end.
Fixpoint cset (k : option str) (c : uclass) (l : classes) : classes :=
  match l with [] => [(k, c)] | (k', c') :: l' => if opt_str_eqb k k' then (k', c) :: l' else (k', c') :: cset k c l' end.

Record pst := mkPst { ps_reg : rst; ps_classes : classes }.
Definition lift_reg {A} (m : M rst A) : M pst A := fun s => let (r, g) := m (ps_reg s) in (r, mkPst g (ps_classes s)).
Definition of_res {S A} (r : res A) : M S A := fun s => (r, s).

(** fs.py 1128-1136, the body of the loop *)
Definition load_one (e : entry_point) : M pst unit :=
  match e with
  | Fails => ret tt                                                   (* print, continue *)
  | Ends x => raise x
  | Loads p =>
      let! sc <- of_res (pl_scheme p);
      lift_reg (register sc (pl_make p)) ;;
      let! sc <- of_res (pl_scheme p);
      let! c <- of_res (pl_uri p);
      fun s => (Ok tt, mkPst (ps_reg s) (cset sc c (ps_classes s)))
  end.
Definition load_all (l : list entry_point) : M pst unit := mapM_ load_one l.
(** fs.py 177-178 and the loop: what importing the package leaves *)
Definition imported (l : list entry_point) (timeout now : Z) : res unit * pst := load_all l (mkPst (init_reg timeout now) []).

(** fs.py 237-250 [URI], with any SCHEME_REGISTRY *)
Definition class_in (l : classes) (s : option str) : uclass := match cget s l with Some c => c | None => UBase end.
Definition URI_in (l : classes) (text : str) (sep : N) (extras : dict str) : res uri :=
  let scheme := match scheme_re text with Some s => s | None => lit "file" end in
  mk_uri (class_in l (Some scheme)) text sep extras.

(** pyproject.toml 30-33 *)
Definition the_local (f : factory) : plugin := mkPlugin (Ok (Some (lit "file"))) (Ok ULocal) f.        (* localfs.py 45-46 *)
Definition the_memory (f : factory) : plugin := mkPlugin (Ok (Some (lit "memory"))) (Ok UMemory) f.    (* memory.py 302-304 *)
Definition the_zip (f : factory) : plugin := mkPlugin (Ok (Some (lit "zip"))) (Ok UZip) f.             (* zip.py 97-98 *)
