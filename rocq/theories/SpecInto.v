(** What copying to a local destination may touch.  Stated on the entries of the tree and on path lookup. *)
From Verif Require Import Str Exc UriParse BaseUri SpecUri Mem SpecMem Posix Zip SpecLocal SpecPosix SpecStay.

(** What strip() removes: the characters that are white space in Unicode *)
Definition blanks : list N := [9; 10; 11; 12; 13; 28; 29; 30; 31; 32; 133; 160; 5760; 8192; 8193; 8194; 8195; 8196; 8197; 8198; 8199; 8200; 8201; 8202; 8232; 8233; 8239; 8287; 12288]%N.
(** Names that mean the same after they were joined to a URI, cut out of its path, stripped and joined again *)
Record firm_name (n : str) : Prop := {
  fi_signs : free_of [cSlash; cBack; cQuest; cHash] n;
  fi_group : ~ part_of (lit "((") n;
  fi_plain : ~ special n;
  fi_blank : forall c r, n = c :: r \/ n = r ++ [c] -> ~ In c blanks }.
(** The path of [ks] below the path [s] *)
Definition under (s : str) (ks : list str) : str := s ++ concat (map (cons cSlash) ks).
(** A path without a slash at its end.  The root and the working directory are written as nothing and as a dot. *)
Definition bare (s : str) : Prop := path_text s /\ forall r, s <> r ++ [cSlash].
Definition anchor (sw s : str) : Prop := (sw = [] /\ s = [cSlash]) \/ (sw = lit "." /\ s = lit ".") \/ (bare sw /\ s = sw).
(** Strictly below the directory [D], and on the way to [D ++ T], there, or below it *)
Definition region (D T q : list str) : Prop := exists k, k <> [] /\ q = D ++ k /\ (below k T \/ below T k).
Definition no_links (x : pst) (R : list str -> Prop) : Prop := forall q t, R q -> ~ entry_at x q (Some (PLink t)).
(** Everything that was there is there and of the same kind; links lead where they led. *)
Inductive kept : pent -> pent -> Prop :=
| kp_file d mo mt d' mo' mt' : kept (PFile d mo mt) (PFile d' mo' mt')
| kp_dir mo mt mo' mt' : kept (PDir mo mt) (PDir mo' mt')
| kp_link t : kept (PLink t) (PLink t).
Definition grown (x x' : pst) : Prop :=
  p_cwd x' = p_cwd x /\ p_now x' = p_now x /\ p_umask x' = p_umask x /\
  forall q e, entry_at x q (Some e) -> exists e', entry_at x' q (Some e') /\ kept e e'.
(** Only what is at and below [T] is written or made, apart from missing directories on the way from [D] to there. *)
Definition wrote_in (x x' : pst) (D T : list str) : Prop :=
  grown x x' /\
  forall q, ~ below (D ++ T) q ->
    pget q (p_tree x') = pget q (p_tree x) \/ (region D T q /\ entry_at x q None /\ is_dir_at x' q).
(** All names below a place are firm, and nothing there is a link. *)
Definition firm_below (x : pst) (d : list str) : Prop :=
  (forall p n, below d p -> entry_at x (p ++ [n]) None \/ firm_name n) /\ no_links x (below d).
(** Where a copy of something named [n] to [v] goes: [v] is written as the path of [ns] below [sw], which leads to the directory [D]; in the end it is at [D ++ T]. *)
Inductive landing (x : pst) (n : str) (v : uri) (D T : list str) : Prop :=
| la_at sw s ns mo mt : anchor sw s -> looked x true s (Is D (PDir mo mt)) -> Forall firm_name ns -> written (under sw ns) v ->
    (T = ns ++ [n] /\ exists p mo mt, sees x true v (Is p (PDir mo mt))) \/ (T = ns /\ forall p mo mt, ~ sees x true v (Is p (PDir mo mt))) ->
    no_links x (region D T) -> landing x n v D T.
(** ** Archives *)
(** What a connection knows of its archive: what is on the disk, and what was read or written since it was opened *)
Definition holds_members (z : zst) (ms : list member) : Prop := z_disk z = DZip ms \/ exists h, z_handle z = Some h /\ zh_members h = ms.
(** Between the slashes, the names of the members have firm names or nothing. *)
Definition firm_members (z : zst) : Prop := forall ms m l c, holds_members z ms -> In m (map fst ms) -> pieces m l -> In c l -> c = [] \/ firm_name c.
(** ** Memory file systems *)
(** All names are firm, and nothing is a link. *)
Definition firm_mem (s : mst) : Prop := (forall p n, view s (p ++ [n]) <> None -> firm_name n) /\ forall p, ~ is_elink (view s p).
