(** Two connections at once: the operations of fs.py on URIs of which some belong to one connection and some to
    another (fs.py 219-230 [with_connection]: a URI method works on the connection of its own URI; what it passes on
    to other URIs works on theirs).  [side u] says that [u] belongs to the first one. *)
From Verif Require Import Str Exc UriParse BaseUri Mem Generic Posix Local Zip.

Section World.
Context {S1 S2 : Type}.
Definition on1 {A} (m : M S1 A) : M (S1 * S2) A := fun s => let (r, s1) := m (fst s) in (r, (s1, snd s)).
Definition on2 {A} (m : M S2 A) : M (S1 * S2) A := fun s => let (r, s2) := m (snd s) in (r, (fst s, s2)).
Variables (b1 : backend S1) (b2 : backend S2).
(** [with u.open('rb') as f: f.read()] and [with u.open('wb') as f: f.write(d)] on each *)
Variables (rd1 : uri -> M S1 (list N)) (wr1 : uri -> list N -> M S1 unit).
Variables (rd2 : uri -> M S2 (list N)) (wr2 : uri -> list N -> M S2 unit).
Variable side : uri -> bool.

Definition both {A} (u : uri) (m1 : M S1 A) (m2 : M S2 A) : M (S1 * S2) A := if side u then on1 m1 else on2 m2.
(** fs.py 926-927, 966-967 between two connections: the source is opened before the destination, and read to the
    end.  Simplified: one block; Pieces.v has the blocks. *)
Definition world_content (source dest : uri) : M (S1 * S2) unit :=
  match side source, side dest with
  | true, true => on1 (b_copy_content b1 source dest)
  | false, false => on2 (b_copy_content b2 source dest)
  | true, false => let! d <- on1 (rd1 source); on2 (wr2 dest d)
  | false, true => let! d <- on2 (rd2 source); on1 (wr1 dest d)
  end.
Definition world : backend (S1 * S2) := {|
  b_hook := fun u n => both u (b_hook b1 u n) (b_hook b2 u n);
  b_exists := fun u => both u (b_exists b1 u) (b_exists b2 u);
  b_isfile := fun u => both u (b_isfile b1 u) (b_isfile b2 u);
  b_isdir := fun u => both u (b_isdir b1 u) (b_isdir b2 u);
  b_islink := fun u => both u (b_islink b1 u) (b_islink b2 u);
  b_listdir := fun u => both u (b_listdir b1 u) (b_listdir b2 u);
  b_removefile := fun u => both u (b_removefile b1 u) (b_removefile b2 u);
  b_removedir := fun u => both u (b_removedir b1 u) (b_removedir b2 u);
  b_mkdir := fun u => both u (b_mkdir b1 u) (b_mkdir b2 u);
  b_symlink := fun t u => both t (b_symlink b1 t u) (b_symlink b2 t u);
  b_readlink := fun u => both u (b_readlink b1 u) (b_readlink b2 u);
  b_copystat := fun s d => both s (b_copystat b1 s d) (b_copystat b2 s d);
  b_copy_content := world_content;
  b_removefile_by := fun u v => both u (b_removefile_by b1 u v) (b_removefile_by b2 u v);
  b_symlink_by := fun u t v => both u (b_symlink_by b1 u t v) (b_symlink_by b2 u t v) |}.
End World.

(** Memory files (fs.py 593-599, memory.py 153-160).  Simplified: copyfileobj writes blocks of 8192 bytes, which leaves
    the same content, position and time as one write; it writes nothing if there is nothing. *)
Definition mem_fetch (u : uri) : M mst (list N) :=
  let! h <- u_open u (Some (lit "rb"));
  let! v <- h_read h (-1);
  match v with VBytes d => ret d | VStr _ => raise TypeError end.
Definition mem_put (u : uri) (d : list N) : M mst unit :=
  let! h <- u_open u (Some (lit "wb"));
  match d with [] => ret tt | _ => h_write h (VBytes d) end.

(** A URI belongs to the memory backend by its scheme (fs.py 82-131, with one connection for each scheme). *)
Definition has_scheme (n : String.string) (u : uri) : bool := opt_eqb (u_scheme u) (Some (lit n)).
(** One memory file system and the local files *)
Definition mem_loc : backend (mst * pst) :=
  world mem_backend loc_backend mem_fetch mem_put loc_read_all (fun u d => loc_write_all u [d]) (has_scheme "memory").
(** One archive and a memory file system, or the local files (other than the archive) *)
Definition zip_mem : backend (zst * mst) :=
  world zip_backend mem_backend (fun u => zip_read u (Some (lit "rb"))) (fun u d => zip_write u (lit "wb") d) mem_fetch mem_put (has_scheme "zip").
Definition zip_file : backend (zst * pst) :=
  world zip_backend loc_backend (fun u => zip_read u (Some (lit "rb"))) (fun u d => zip_write u (lit "wb") d)
    loc_read_all (fun u d => loc_write_all u [d]) (has_scheme "zip").
(** Two memory file systems, told apart by the user name (fs.py 119-127; memory.py 307 forbids a host) *)
Definition mem_mem (user : option str) : backend (mst * mst) :=
  world mem_backend mem_backend mem_fetch mem_put mem_fetch mem_put (fun u => opt_eqb (u_user u) user).

(** localfs.py 129-150 [move] of a local URI when the destination may be elsewhere *)
Definition loc_move_to (w : backend (mst * pst)) (fuel : nat) (u other : uri) : M (mst * pst) unit :=
  if has_scheme "file" other then on2 (loc_move u other) else fs_move w fuel u other.
