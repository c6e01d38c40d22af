(** Specification of open files: what the calls on one handle do, told in terms of the bytes of the
    content and a position, without reference to how the model computes it. *)
From Verif Require Import Str Exc Utf8 UriParse BaseUri Mem SpecMem.

(** The calls. *)
Inductive hop :=
| HRead (size : Z) | HReadline | HWrite (v : pyval) | HSeek (to whence : Z) | HTell
| HTruncate (size : option Z) | HClose.
Inductive hval := RVal (v : pyval) | RNum (n : nat) | RNone | RErr (e : exc).

(** Making the calls (an exception is caught by the caller, who carries on). *)
Definition answer {A} (shape : A -> hval) (r : res A * mst) : hval * mst :=
  (match fst r with Ok a => shape a | Raise e => RErr e end, snd r).
Definition do_hop (h : handle) (o : hop) (s : mst) : hval * mst :=
  match o with
  | HRead z => answer RVal (h_read h z s)
  | HReadline => answer RVal (h_readline h s)
  | HWrite v => answer (fun _ => RNone) (h_write h v s)
  | HSeek t w => answer (fun _ => RNone) (h_seek h t w s)
  | HTell => answer RNum (h_tell h s)
  | HTruncate z => answer RNum (h_truncate h z s)
  | HClose => answer (fun _ => RNone) (h_close h s)
  end.
Fixpoint do_hops (h : handle) (os : list hop) (s : mst) : list hval * mst :=
  match os with
  | [] => ([], s)
  | o :: os' => let (v, s1) := do_hop h o s in let (vs, s2) := do_hops h os' s1 in (v :: vs, s2)
  end.

(** An open file: content, position, time of modification. *)
Record ofile := mkO { o_data : list N; o_pos : nat; o_mtime : Z }.

(** [shown b out v]: what a caller gets for the bytes [out]: the bytes themselves from a binary handle,
    the text they encode from a text handle, an error if they encode no text. *)
Inductive shown (binary : bool) (out : list N) : hval -> Prop :=
| sh_bytes : binary = true -> shown binary out (RVal (VBytes out))
| sh_text t : binary = false -> utf8_encode t = Ok out -> shown binary out (RVal (VStr t))
| sh_bad : binary = false -> (forall t, utf8_encode t <> Ok out) -> shown binary out (RErr UnicodeDecodeError).

(** [stored b v d]: writing [v] writes the bytes [d]. *)
Inductive stored (binary : bool) : pyval -> list N -> Prop :=
| st_bytes d : stored binary (VBytes d) d
| st_text t d : binary = false -> utf8_encode t = Ok d -> stored binary (VStr t) d.
(** Writing it fails: text to a binary handle, text that cannot be encoded. *)
Inductive unstorable (binary : bool) : pyval -> exc -> Prop :=
| us_binary t : binary = true -> unstorable binary (VStr t) TypeError
| us_surrogate t : binary = false -> (forall d, utf8_encode t <> Ok d) -> unstorable binary (VStr t) UnicodeEncodeError.

(** [written c p d c']: [c'] is [c] with [d] at position [p]; a gap is filled with zero bytes. *)
Definition written (c : list N) (p : nat) (d c' : list N) : Prop :=
  d = [] /\ c' = c \/
  d <> [] /\ length c' = Nat.max (length c) (p + length d) /\
  (forall i, i < length d -> nth_error c' (p + i) = nth_error d i) /\
  (forall i, i < length c -> i < p \/ p + length d <= i -> nth_error c' i = nth_error c i) /\
  (forall i, length c <= i -> i < p -> nth_error c' i = Some 0%N).
(** [part c p n out]: the bytes from position [p] on, at most [n] of them if [n] is given. *)
Definition part (c : list N) (p : nat) (n : option nat) (out : list N) : Prop :=
  (forall i, i < length out -> nth_error out i = nth_error c (p + i)) /\
  length out = match n with None => length c - p | Some n => Nat.min n (length c - p) end.

(** The target of a seek; None if the call is an error. *)
Definition target (len pos : nat) (to whence : Z) (t : option Z) : Prop :=
  t = match whence with
      | 0%Z => if (0 <=? to)%Z then Some to else None
      | 1%Z => Some (Z.max 0 (Z.of_nat pos + to))
      | 2%Z => Some (Z.max 0 (Z.of_nat len + to))
      | _ => None
      end.

(** One call: [acts readable binary now call before answer after]. *)
Inductive acts (readable binary : bool) (now : Z) : hop -> ofile -> hval -> ofile -> Prop :=
| ac_read z c p t out v :
    readable = true -> part c p (if (z <? 0)%Z then None else Some (Z.to_nat z)) out -> shown binary out v ->
    acts readable binary now (HRead z) (mkO c p t) v (mkO c (p + length out) t)
| ac_unreadable z o :
    readable = false -> acts readable binary now (HRead z) o (RErr (OSError EBADF)) o
| ac_readline c p t out left v :
    skipn p c = out ++ left ->
    (exists b, out = b ++ [10%N] /\ ~ In 10%N b) \/ left = [] /\ ~ In 10%N out -> shown binary out v ->
    acts readable binary now HReadline (mkO c p t) v (mkO c (p + length out) t)
| ac_write x d c p t c' :
    stored binary x d -> written c p d c' ->
    acts readable binary now (HWrite x) (mkO c p t) RNone (mkO c' (p + length d) now)
| ac_unstorable x e o :
    unstorable binary x e -> acts readable binary now (HWrite x) o (RErr e) o
| ac_seek to w c p t g :
    target (length c) p to w (Some g) -> acts readable binary now (HSeek to w) (mkO c p t) RNone (mkO c (Z.to_nat g) t)
| ac_badseek to w c p t :
    target (length c) p to w None -> acts readable binary now (HSeek to w) (mkO c p t) (RErr ValueError) (mkO c p t)
| ac_tell c p t :
    acts readable binary now HTell (mkO c p t) (RNum p) (mkO c p t)
| ac_truncate z c p t c' n :
    Z.of_nat n = match z with Some z => z | None => Z.of_nat p end -> part c 0 (Some n) c' ->
    acts readable binary now (HTruncate z) (mkO c p t) (RNum n) (mkO c' p t)
| ac_badtruncate z o :
    (z < 0)%Z -> acts readable binary now (HTruncate (Some z)) o (RErr ValueError) o
| ac_close c p t :
    acts readable binary now HClose (mkO c p t) RNone (mkO c 0 t).

Inductive acts_all (readable binary : bool) (now : Z) : list hop -> ofile -> list hval -> ofile -> Prop :=
| aa_nil o : acts_all readable binary now [] o [] o
| aa_cons c cs o v o1 vs o2 : acts readable binary now c o v o1 -> acts_all readable binary now cs o1 vs o2 ->
    acts_all readable binary now (c :: cs) o (v :: vs) o2.

(** How a file is opened: content, position, time and mode bits at the start. *)
Inductive starts (m : option str) (now : Z) : option entry -> ofile -> Z -> Prop :=
| so_read d mt mo : match m with None => True | Some o => has_char 114 o = true end ->
    starts m now (Some (EFile d mt mo)) (mkO d 0 mt) mo
| so_write e o : m = Some o -> has_char 114 o = false -> has_char 119 o = true ->
    e = None \/ is_efile e -> starts m now e (mkO [] 0 now) 0
| so_append o d mt mo p : m = Some o -> has_char 114 o = false -> has_char 119 o = false -> has_char 97 o = true ->
    (d <> [] -> p = length d) -> starts m now (Some (EFile d mt mo)) (mkO d p mt) mo.

(** Calls on two handles in turn, and the part of one of them. *)
Fixpoint do_both (h1 h2 : handle) (os : list (bool * hop)) (s : mst) : list (bool * hval) * mst :=
  match os with
  | [] => ([], s)
  | (b, o) :: os' => let (v, s1) := do_hop (if b then h1 else h2) o s in
                     let (vs, s2) := do_both h1 h2 os' s1 in ((b, v) :: vs, s2)
  end.
Definition only {A} (b : bool) (l : list (bool * A)) : list A := map snd (filter (fun x => Bool.eqb (fst x) b) l).
