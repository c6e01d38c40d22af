(** Copying a file block by block between two connections, as the code does it (World.v has it in one piece):
    fs.py 926-927, 966-967 [with source.open('rb') as infs, dest.open('wb') as outfs: shutil.copyfileobj(infs, outfs, 8192)]. *)
From Verif Require Import Str Exc UriParse BaseUri Mem Generic Posix Local Zip World.

Section Pieces.
Context {S R W : Type}.
(** A file open for reading: how much there is at most (the bound of the loop), and the next block; a file object is a
    value, [R] and [W] are what it is after the call.  Leaving the with-block of a file that was read does nothing
    that shows (memory.py 171-172; closing a file of the system or a member of an archive). *)
Variables (open_r : M S R) (left_r : R -> M S nat) (read : R -> M S (list N * R)).
Variables (open_w : M S W) (write : W -> list N -> M S W) (exit_w : W -> M S unit).

(** shutil.copyfileobj; the file that is written is there after an exception, too *)
Fixpoint pump (fuel : nat) (r : R) (w : W) (s : S) : res unit * W * S :=
  match fuel with
  | O => (Raise OutOfFuel, w, s)
  | Datatypes.S f =>
      match read r s with
      | (Raise e, s) => (Raise e, w, s)
      | (Ok ([], _), s) => (Ok tt, w, s)
      | (Ok (d, r), s) => match write w d s with
                          | (Raise e, s) => (Raise e, w, s)
                          | (Ok w, s) => pump f r w s
                          end
      end
  end.
(** [__exit__] comes last whatever has happened; what it raises takes the place of what the body has raised. *)
Definition finish (x : res unit * W * S) : res unit * S :=
  match x with
  | (b, w, s) => match exit_w w s with (Raise e, s) => (Raise e, s) | (Ok _, s) => (b, s) end
  end.
Definition pieces : M S unit :=
  let! r <- open_r;
  let! w <- open_w;
  fun s => match left_r r s with
           | (Ok n, s) => finish (pump (Datatypes.S n) r w s)
           | (Raise e, s) => (Raise e, s)
           end.
End Pieces.

Section Files.
(** The size of a block; fs.py says 8192. *)
Variable block : Z.

(** Memory: memory.py 153-160, 451-471 *)
Definition m_open_r (u : uri) : M mst handle := u_open u (Some (lit "rb")).
Definition m_left (h : handle) : M mst nat := let! f <- get_file (h_node h); ret (length (f_data f)).
Definition m_read (h : handle) : M mst (list N * handle) :=
  let! v <- h_read h block;
  match v with VBytes d => ret (d, h) | VStr _ => raise TypeError end.   (* not used: the handle is binary *)
Definition m_open_w (u : uri) : M mst handle := u_open u (Some (lit "wb")).
Definition m_write (h : handle) (d : list N) : M mst handle := h_write h (VBytes d) ;; ret h.
Definition m_exit (h : handle) : M mst unit := ret tt.

(** Files of the system (localfs.py 78-82): where the file is and how far it was read.  Simplified: what is written is
    in the file at once. *)
Definition l_open_r (u : uri) : M pst (list str * nat) := let! q <- os_open_r (u_path u); ret (q, 0).
Definition l_left (r : list str * nat) : M pst nat := let! d <- fd_data (fst r); ret (length d).
Definition l_read (r : list str * nat) : M pst (list N * (list str * nat)) :=
  let! d <- fd_data (fst r);
  let out := firstn (Z.to_nat block) (skipn (snd r) d) in
  ret (out, (fst r, snd r + length out)).
Definition l_open_w (u : uri) : M pst (list str) := os_open_w (u_path u).
Definition l_write (q : list str) (d : list N) : M pst (list str) := fd_append q d ;; ret q.
Definition l_exit (q : list str) : M pst unit := ret tt.

(** Members of an archive: what is still to be read; the name and what was written to the BytesIO (zip.py 13-29) *)
Definition z_open_r (u : uri) : M zst (list N) :=
  let! f <- zip_open u (Some (lit "rb"));
  match f with ZReader d => ret d | ZWriter _ => raise AttributeError end.  (* not used: 'rb' gives a reader *)
Definition z_left (r : list N) : M zst nat := ret (length r).
Definition z_read (r : list N) : M zst (list N * list N) :=
  ret (firstn (Z.to_nat block) r, skipn (Z.to_nat block) r).
Definition z_open_w (u : uri) : M zst (str * list N) :=
  let! f <- zip_open u (Some (lit "wb"));
  match f with ZWriter p => ret (p, []) | ZReader _ => raise AttributeError end.
Definition z_write (w : str * list N) (d : list N) : M zst (str * list N) := ret (fst w, snd w ++ d).
Definition z_exit (w : str * list N) : M zst unit := zip_exit (fst w) (snd w).

(** From one connection to the other, both ways *)
Section Two.
Context {S1 S2 R1 W1 R2 W2 : Type}.
Definition pieces12 (open_r : uri -> M S1 R1) (left_r : R1 -> M S1 nat) (read : R1 -> M S1 (list N * R1))
    (open_w : uri -> M S2 W2) (write : W2 -> list N -> M S2 W2) (exit_w : W2 -> M S2 unit) (source dest : uri) : M (S1 * S2) unit :=
  pieces (on1 (open_r source)) (fun r => on1 (left_r r)) (fun r => on1 (read r))
         (on2 (open_w dest)) (fun w d => on2 (write w d)) (fun w => on2 (exit_w w)).
Definition pieces21 (open_r : uri -> M S2 R2) (left_r : R2 -> M S2 nat) (read : R2 -> M S2 (list N * R2))
    (open_w : uri -> M S1 W1) (write : W1 -> list N -> M S1 W1) (exit_w : W1 -> M S1 unit) (source dest : uri) : M (S1 * S2) unit :=
  pieces (on2 (open_r source)) (fun r => on2 (left_r r)) (fun r => on2 (read r))
         (on1 (open_w dest)) (fun w d => on1 (write w d)) (fun w => on1 (exit_w w)).
End Two.
(** Two local files *)
Definition loc_pieces (source dest : uri) : M pst unit :=
  pieces (l_open_r source) l_left l_read (l_open_w dest) l_write l_exit.

Definition with_content {S} (b : backend S) (f : uri -> uri -> M S unit) : backend S :=
  mkBackend S (b_hook b) (b_exists b) (b_isfile b) (b_isdir b) (b_islink b) (b_listdir b) (b_removefile b) (b_removedir b) (b_mkdir b)
    (b_symlink b) (b_readlink b) (b_copystat b) f (b_removefile_by b) (b_symlink_by b).

(** The backends of World.v with this way of copying.  Two files of one memory file system are copied block by block
    in Mem.v, two members of one archive are not copied at all (Zip.v). *)
Definition mem_loc_by : backend (mst * pst) := with_content mem_loc (fun source dest =>
  match has_scheme "memory" source, has_scheme "memory" dest with
  | true, true => on1 (mem_copy_content source dest)
  | false, false => on2 (loc_pieces source dest)
  | true, false => pieces12 m_open_r m_left m_read l_open_w l_write l_exit source dest
  | false, true => pieces21 l_open_r l_left l_read m_open_w m_write m_exit source dest
  end).
Definition zip_mem_by : backend (zst * mst) := with_content zip_mem (fun source dest =>
  match has_scheme "zip" source, has_scheme "zip" dest with
  | true, true => on1 (zip_copy_content source dest)
  | false, false => on2 (mem_copy_content source dest)
  | true, false => pieces12 z_open_r z_left z_read m_open_w m_write m_exit source dest
  | false, true => pieces21 m_open_r m_left m_read z_open_w z_write z_exit source dest
  end).
Definition zip_file_by : backend (zst * pst) := with_content zip_file (fun source dest =>
  match has_scheme "zip" source, has_scheme "zip" dest with
  | true, true => on1 (zip_copy_content source dest)
  | false, false => on2 (loc_pieces source dest)
  | true, false => pieces12 z_open_r z_left z_read l_open_w l_write l_exit source dest
  | false, true => pieces21 l_open_r l_left l_read z_open_w z_write z_exit source dest
  end).
Definition mem_mem_by (user : option str) : backend (mst * mst) := with_content (mem_mem user) (fun source dest =>
  match opt_eqb (u_user source) user, opt_eqb (u_user dest) user with
  | true, true => on1 (mem_copy_content source dest)
  | false, false => on2 (mem_copy_content source dest)
  | true, false => pieces12 m_open_r m_left m_read m_open_w m_write m_exit source dest
  | false, true => pieces21 m_open_r m_left m_read m_open_w m_write m_exit source dest
  end).
End Files.
