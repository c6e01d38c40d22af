(** The dump of a memory file system: memory.py 493-519 [MemoryFileSystem.dump].  The state is the file system
    together with what was written to [outf] so far. *)
From Verif Require Import Str Exc Utf8 UriParse BaseUri Mem.

Definition on_mem {A} (m : M mst A) : M (mst * str) A := fun x => let (r, s) := m (fst x) in (r, (s, snd x)).
(** [outf.write(t)] *)
Definition out (t : str) : M (mst * str) unit := fun x => (Ok tt, (fst x, snd x ++ t)).

(** memory.py 494-515 [traverse].  [image name]: mimetypes.guess_type(name) is in BINARY_MIME_TYPES (the
    tables of mimetypes are not modelled).  hashlib's update() of a MemoryFile is a TypeError (503).
    [sorted(current.items())] compares names only, as no two are equal. *)
Fixpoint traverse (image : str -> bool) (no_binary : bool) (fuel : nat) (current : nat) (path : str) : M (mst * str) unit :=
  match fuel with
  | O => raise OutOfFuel
  | S fuel' =>
      let! c <- on_mem (get_node_obj current);
      match c with
      | NDir es _ _ =>
          mapM_ (fun name =>
            let! i <- lift (match dget name es with Some i => Ok i | None => Raise KeyError end);
            let! value <- on_mem (get_node_obj i);
            match value with
            | NFile _ =>
                if no_binary && image name then raise TypeError
                else
                  out (lit "--- START " ++ path ++ name ++ lit " ---" ++ [cNL]) ;;
                  let! t <- on_mem (h_read (mkHandle i true false) (-1));
                  out (match t with VStr t => t | VBytes b => b end) ;;
                  out ([cNL] ++ lit "--- END ---" ++ [cNL; cNL])
            | NLink target _ _ =>
                let! t <- lift (u_str target);
                out (lit "LINK: " ++ path ++ name ++ lit " -> " ++ t ++ [cNL])
            | NDir _ _ _ =>
                out (lit "DIR: " ++ path ++ name ++ [cNL]) ;;
                traverse image no_binary fuel' i
                  ((if suffixb [cSlash] path then removelast path else path) ++ [cSlash] ++ name ++ [cSlash])
            end) (sort_strs (map fst es))
      | _ => raise AttributeError
      end
  end.

(** memory.py 493, 517-519; no directory is deeper than there are nodes. *)
Definition mem_dump (image : str -> bool) (no_binary : bool) : M (mst * str) unit :=
  out (lit "MEMORY DUMP: START" ++ [cNL]) ;;
  let! x <- get;
  traverse image no_binary (m_next (fst x)) root_id (lit "memory:///") ;;
  out (lit "MEMORY DUMP: END" ++ [cNL]).
