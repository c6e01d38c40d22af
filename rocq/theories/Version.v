(** The version of the package (_version.py), which __init__.py computes when the package is imported.
    Simplifications: what [verbose] prints is left out (get_config has verbose False); digits outside ASCII are not
    digits ([\d], int); the commands do not change the repository while it is asked.
    Not modelled: [register_vcs_handler] (60-69) and the table HANDLERS, which nothing here reads; win32. *)
From Verif Require Import Str Exc Utf8 UriParse.
Local Open Scope string_scope.
Local Open Scope list_scope.

(** A method to find the version: [Ok None] is the exception NotThisMethod (53-54). *)
Definition attempt (A : Type) := res (option A).
Definition not_this {A} : attempt A := Ok None.
Definition abind {A B} (m : attempt A) (k : A -> attempt B) : attempt B :=
  match m with Ok (Some a) => k a | Ok None => Ok None | Raise e => Raise e end.
Definition sure {A} (m : res A) : attempt A := match m with Ok a => Ok (Some a) | Raise e => Raise e end.
Notation "'alet' x <- m ; k" := (abind m (fun x => k))
  (at level 200, x pattern, m at level 100, k at level 200, right associativity).

(** The dictionary with the keys version, full-revisionid, dirty, error, date. *)
Record vers := mkVers { v_version : str; v_full : option str; v_dirty : option bool; v_error : option str; v_date : option str }.

(** VersioneerConfig (35-50): the settings used. *)
Record vconfig := mkCfg { c_style : str; c_tag_prefix : str; c_parentdir : str; c_source : str }.
(** get_config, _version.py 39-50 *)
Definition the_config : vconfig := mkCfg (lit "pep440-post") [] (lit "abl.vpath") (lit "abl/vpath/base/_version.py").

(** Starting a program: ENOENT, another OSError, or it ran, wrote these bytes and ended with this code. *)
Inductive started := NotFound | Refused | Ran (out : list N) (rc : Z).
Definition machine := str -> list str -> started.
(** bytes.strip() *)
Definition byte_space (c : N) : bool := ((9 <=? c) && (c <=? 13) || (c =? 32))%N.

(** run_command, _version.py 72-112 *)
Fixpoint run_command (m : machine) (commands : list str) (args : list str) : res (option str * option Z) :=
  match commands with
  | [] => Ok (None, None)
  | c :: more =>
      match m c args with
      | NotFound => run_command m more args
      | Refused => Ok (None, None)
      | Ran out rc =>
          rlet text <- utf8_decode (strip_p byte_space out) ;
          Ok (if negb (rc =? 0)%Z then None else Some text, Some rc)
      end
  end.

(** os.path.basename and os.path.dirname (posixpath) *)
Definition os_basename (p : str) : str := match cut_last cSlash p with Some (_, b) => b | None => p end.
Definition os_dirname (p : str) : str :=
  match cut_last cSlash p with
  | None => []
  | Some (a, _) =>
      let head := a ++ [cSlash] in
      if forallb (N.eqb cSlash) head then head else rstrip_p (N.eqb cSlash) head
  end.

(** versions_from_parentdir, _version.py 115-136: the loop, [n] rounds left *)
Fixpoint parentdir_loop (n : nat) (prefix root : str) : attempt vers :=
  match n with
  | O => not_this
  | S n' =>
      let dirname := os_basename root in
      if prefixb prefix dirname
      then Ok (Some (mkVers (skipn (length prefix) dirname) None (Some false) None None))
      else parentdir_loop n' prefix (os_dirname root)
  end.
Definition versions_from_parentdir (prefix root : str) : attempt vers := parentdir_loop 3 prefix root.

(** str.splitlines() *)
Definition is_break (c : N) : bool :=
  ((10 <=? c) && (c <=? 13) || (28 <=? c) && (c <=? 30) || (c =? 133) || (c =? 8232) || (c =? 8233))%N.
Fixpoint splitlines (s : str) : list str :=
  match s with
  | [] => []
  | c :: s' =>
      if is_break c
      then [] :: (if N.eqb c 13 then match s' with x :: t => if N.eqb x 10 then splitlines t else splitlines s' | [] => [] end
                  else splitlines s')
      else match splitlines s' with [] => [[c]] | w :: ws => (c :: w) :: ws end
  end.
(** [l[-1]] *)
Definition last_item {A} (l : list A) : res A := match rev l with [] => Raise IndexError | x :: _ => Ok x end.
(** [s.replace(c, rep, 1)] for one character *)
Definition replace1 (c : N) (rep s : str) : str := match cut_first c s with Some (a, b) => a ++ rep ++ b | None => s end.

(** The last line of a date, made ISO 8601 (_version.py 173-184 and 357-360) *)
Definition iso_date (date : str) : res str :=
  rlet l <- last_item (splitlines date) ;
  Ok (replace1 cSpace [] (replace1 cSpace (lit "T") (strip_ws l))).

(** The regular expression of git_get_keywords (153, 157, 161): an equals sign, white space, a text in double quotes; its group 1.
    The text ends at the last double quote of the line. *)
Definition cQuote : N := 34.
Definition quoted_at (s : str) : option str :=
  match lstrip_p is_space s with
  | c :: t => if N.eqb c cQuote
              then match cut_last cQuote (fst (span (fun x => negb (N.eqb x cNL)) t)) with Some (a, _) => Some a | None => None end
              else None
  | [] => None
  end.
Fixpoint search_quoted (s : str) : option str :=
  match s with
  | [] => None
  | c :: s' => if N.eqb c cEq then match quoted_at s' with Some g => Some g | None => search_quoted s' end else search_quoted s'
  end.
(** git_get_keywords, _version.py 140-164: the lines of the file; a file that cannot be opened has none *)
Definition keyword_line (start : string) (key : string) (line : str) (d : dict str) : dict str :=
  if prefixb (lit start) (strip_ws line)
  then match search_quoted line with Some g => dset (lit key) g d | None => d end
  else d.
Definition git_get_keywords (lines : list str) : dict str :=
  fold_left (fun d line =>
    keyword_line "git_date =" "date" line
      (keyword_line "git_full =" "full" line (keyword_line "git_refnames =" "refnames" line d))) lines [].
(** get_keywords, _version.py 22-32: git archive has replaced the three texts *)
Definition get_keywords (refnames full date : str) : dict str :=
  [(lit "refnames", refnames); (lit "full", full); (lit "date", date)].

(** git_versions_from_keywords, _version.py 168-228 *)
Definition starts_digit (s : str) : bool := match s with c :: _ => is_digit c | [] => false end.
Definition get_item (k : str) (d : dict str) : res str := match dget k d with Some v => Ok v | None => Raise KeyError end.
Fixpoint pick_ref (prefix : str) (refs : list str) : option str :=
  match refs with
  | [] => None
  | ref :: more =>
      if prefixb prefix ref
      then let r := skipn (length prefix) ref in
           if starts_digit r then Some r else pick_ref prefix more
      else pick_ref prefix more
  end.
Definition git_versions_from_keywords (kw : dict str) (prefix : str) : attempt vers :=
  match dget (lit "refnames") kw with
  | None => not_this
  | Some names =>
      alet date <- sure (match dget (lit "date") kw with
                         | Some d => rlet i <- iso_date d ; Ok (Some i)
                         | None => Ok None
                         end) ;
      let refnames := strip_ws names in
      if prefixb (lit "$Format") refnames then not_this else
      let refs := dedup (map strip_ws (split_on 44 (strip_p (fun c => N.eqb c cLpar || N.eqb c cRpar) refnames))) in
      let tags := map (skipn 5) (filter (prefixb (lit "tag: ")) refs) in
      let tags := match tags with [] => filter (existsb is_digit) refs | _ => tags end in
      match pick_ref prefix (sort_strs tags) with
      | Some r =>
          alet full <- sure (get_item (lit "full") kw) ;
          Ok (Some (mkVers r (Some (strip_ws full)) (Some false) None date))
      | None =>
          alet full <- sure (get_item (lit "full") kw) ;
          Ok (Some (mkVers (lit "0+unknown") (Some (strip_ws full)) (Some false) (Some (lit "no suitable tags")) None))
      end
  end.

(** The dictionary [pieces]: with an error the keys closest-tag, distance and date are missing, and nothing looks at them. *)
Record pieces := mkPieces { g_long : str; g_short : str; g_branch : option str; g_dirty : bool;
                            g_error : option str; g_tag : option str; g_dist : Z; g_date : option str }.

(** [re.search(r'^(.+)-(\d+)-g([0-9a-f]+)$', s)]: hexadecimal digits and digits are no hyphens, so the two hyphens are the
    last two; [$] also matches before a final newline; [.] is no newline. *)
Definition is_hex (c : N) : bool := is_digit c || between 97 c 102.
Definition drop_nl (s : str) : str := match rev s with c :: r => if N.eqb c cNL then rev r else s | [] => s end.
Definition describe_match (s : str) : option (str * str * str) :=
  match cut_last cMinus (drop_nl s) with
  | Some (a, g) =>
      match g with
      | c :: hex =>
          if N.eqb c 103 && negb (str_eqb hex []) && forallb is_hex hex
          then match cut_last cMinus a with
               | Some (tag, num) =>
                   if negb (str_eqb tag []) && negb (has_char cNL tag) && negb (str_eqb num []) && forallb is_digit num
                   then Some (tag, num, hex) else None
               | None => None
               end
          else None
      | [] => None
      end
  | None => None
  end.

(** git_pieces_from_vcs, _version.py 232-362 *)
Definition GITS : list str := [lit "git"].
Definition cut_branch (branches : list str) : list str :=
  match branches with b :: more => if has_char cLpar b then more else branches | [] => [] end.
Definition choose_branch (branches : list str) : option str :=
  if str_in (lit "master") branches then Some (lit "master")
  else match branches with [] => None | b :: _ => Some b end.
Definition is_rc0 (rc : option Z) : bool := match rc with Some z => (z =? 0)%Z | None => false end.
Definition git_pieces_from_vcs (m : machine) (prefix : str) : attempt pieces :=
  let runner := fun args => run_command m GITS (map lit args) in
  alet (_, rc) <- sure (runner ["rev-parse"; "--git-dir"]) ;
  if negb (is_rc0 rc) then not_this else
  let match_args := match prefix with [] => [] | _ => [lit "--match"; prefix ++ lit "*"] end in
  alet (describe_out, _) <- sure (run_command m GITS (map lit ["describe"; "--tags"; "--dirty"; "--always"; "--long"] ++ match_args)) ;
  match describe_out with
  | None => not_this
  | Some describe_out =>
  let describe_out := strip_ws describe_out in
  alet (full_out, _) <- sure (runner ["rev-parse"; "HEAD"]) ;
  match full_out with
  | None => not_this
  | Some full_out =>
  let full_out := strip_ws full_out in
  alet (branch_name, rc) <- sure (runner ["rev-parse"; "--abbrev-ref"; "HEAD"]) ;
  match is_rc0 rc, branch_name with
  | true, Some branch_name =>
  let branch_name := strip_ws branch_name in
  alet branch <- (if str_eqb branch_name (lit "HEAD")
                  then alet (branches, rc) <- sure (runner ["branch"; "--contains"]) ;
                       match is_rc0 rc, branches with
                       | true, Some branches => Ok (Some (choose_branch (map (skipn 2) (cut_branch (split_on cNL branches)))))
                       | _, _ => not_this
                       end
                  else Ok (Some (Some branch_name))) ;
  let dirty := suffixb (lit "-dirty") describe_out in
  let git_describe := if dirty then firstn (length describe_out - 6) describe_out else describe_out in
  let fails := fun e => Ok (Some (mkPieces full_out (firstn 7 full_out) branch dirty (Some e) None 0 None)) in
  let finish := fun tag dist short =>
    alet (date, _) <- sure (runner ["show"; "-s"; "--format=%ci"; "HEAD"]) ;
    match date with
    | None => Raise AttributeError
    | Some date =>
        alet date <- sure (iso_date (strip_ws date)) ;
        Ok (Some (mkPieces full_out short branch dirty None tag dist (Some date)))
    end in
  if has_char cMinus git_describe
  then match describe_match git_describe with
       | None => fails (lit "unable to parse git-describe output: '" ++ describe_out ++ lit "'")
       | Some (full_tag, num, hex) =>
           if negb (prefixb prefix full_tag)
           then fails (lit "tag '" ++ full_tag ++ lit "' doesn't start with prefix '" ++ prefix ++ lit "'")
           else alet dist <- sure (py_int num) ;
                finish (Some (skipn (length prefix) full_tag)) dist hex
       end
  else alet (count_out, _) <- sure (runner ["rev-list"; "HEAD"; "--count"]) ;
       match count_out with
       | None => Raise TypeError
       | Some count_out =>
           alet dist <- sure (py_int count_out) ;
           finish None dist (firstn 7 full_out)
       end
  | _, _ => not_this
  end
  end
  end.

(** plus_or_dot, _version.py 365-369; called with a tag only *)
Definition plus_or_dot (tag : str) : str := if has_char cPlus tag then lit "." else lit "+".
(** [if b: rendered += s] *)
Definition add_if (b : bool) (s : str) (rendered : str) : str := if b then rendered ++ s else rendered.
Definition the_tag (p : pieces) : option str := match g_tag p with Some (c :: t) => Some (c :: t) | _ => None end.
Definition moved_on (p : pieces) : bool := negb (g_dist p =? 0)%Z || g_dirty p.
Definition not_master (p : pieces) : bool := match g_branch p with Some b => negb (str_eqb b (lit "master")) | None => true end.
Definition dist_hex (p : pieces) : str := str_of_Z (g_dist p) ++ lit ".g" ++ g_short p.

(** render_pep440, _version.py 372-394 *)
Definition render_pep440 (p : pieces) : str :=
  match the_tag p with
  | Some t =>
      if moved_on p
      then let r := t ++ plus_or_dot t in
           let r := r ++ dist_hex p in
           add_if (g_dirty p) (lit ".dirty") r
      else t
  | None => add_if (g_dirty p) (lit ".dirty") (lit "0+untagged." ++ dist_hex p)
  end.

(** render_pep440_branch, _version.py 397-424 *)
Definition render_pep440_branch (p : pieces) : str :=
  match the_tag p with
  | Some t =>
      if moved_on p
      then let r := add_if (not_master p) (lit ".dev0") t in
           let r := r ++ plus_or_dot t in
           let r := r ++ dist_hex p in
           add_if (g_dirty p) (lit ".dirty") r
      else t
  | None =>
      let r := add_if (not_master p) (lit ".dev0") (lit "0") in
      let r := r ++ lit "+untagged." ++ dist_hex p in
      add_if (g_dirty p) (lit ".dirty") r
  end.

(** [str.split(s, sep)] for a non-empty text [sep]; [skip] counts the characters of a separator still to be dropped *)
Fixpoint split_str (skip : nat) (sep s : str) : list str :=
  match s with
  | [] => [[]]
  | c :: s' =>
      match skip with
      | S k => split_str k sep s'
      | O => if prefixb sep s then [] :: split_str (Nat.pred (length sep)) sep s'
             else match split_str 0 sep s' with [] => [[c]] | w :: ws => (c :: w) :: ws end
      end
  end.
(** pep440_split_post, _version.py 427-434 *)
Definition pep440_split_post (ver : str) : res (str * option Z) :=
  match split_str 0 (lit ".post") ver with
  | [a; b] => match b with [] => Ok (a, Some 0%Z) | _ => rlet n <- py_int b ; Ok (a, Some n) end
  | a :: _ => Ok (a, None)
  | [] => Raise IndexError
  end.

(** render_pep440_pre, _version.py 437-458 *)
Definition render_pep440_pre (p : pieces) : res str :=
  match the_tag p with
  | Some t =>
      if negb (g_dist p =? 0)%Z
      then rlet (tag_version, post_version) <- pep440_split_post t ;
           Ok (tag_version ++ match post_version with
                              | Some n => lit ".post" ++ str_of_Z (n + 1) ++ lit ".dev" ++ str_of_Z (g_dist p)
                              | None => lit ".post0.dev" ++ str_of_Z (g_dist p)
                              end)
      else Ok t
  | None => Ok (lit "0.post0.dev" ++ str_of_Z (g_dist p))
  end.

(** render_pep440_post, _version.py 461-485 *)
Definition render_pep440_post (p : pieces) : str :=
  match the_tag p with
  | Some t =>
      if moved_on p
      then let r := t ++ lit ".post" ++ str_of_Z (g_dist p) in
           let r := add_if (g_dirty p) (lit ".dev0") r in
           let r := r ++ plus_or_dot t in
           r ++ lit "g" ++ g_short p
      else t
  | None =>
      let r := lit "0.post" ++ str_of_Z (g_dist p) in
      let r := add_if (g_dirty p) (lit ".dev0") r in
      r ++ lit "+g" ++ g_short p
  end.

(** render_pep440_post_branch, _version.py 488-514 *)
Definition render_pep440_post_branch (p : pieces) : str :=
  match the_tag p with
  | Some t =>
      if moved_on p
      then let r := t ++ lit ".post" ++ str_of_Z (g_dist p) in
           let r := add_if (not_master p) (lit ".dev0") r in
           let r := r ++ plus_or_dot t in
           let r := r ++ lit "g" ++ g_short p in
           add_if (g_dirty p) (lit ".dirty") r
      else t
  | None =>
      let r := lit "0.post" ++ str_of_Z (g_dist p) in
      let r := add_if (not_master p) (lit ".dev0") r in
      let r := r ++ lit "+g" ++ g_short p in
      add_if (g_dirty p) (lit ".dirty") r
  end.

(** render_pep440_old, _version.py 517-536 *)
Definition render_pep440_old (p : pieces) : str :=
  match the_tag p with
  | Some t =>
      if moved_on p
      then add_if (g_dirty p) (lit ".dev0") (t ++ lit ".post" ++ str_of_Z (g_dist p))
      else t
  | None => add_if (g_dirty p) (lit ".dev0") (lit "0.post" ++ str_of_Z (g_dist p))
  end.

(** render_git_describe, _version.py 539-556 *)
Definition render_git_describe (p : pieces) : str :=
  let r := match the_tag p with
           | Some t => add_if (negb (g_dist p =? 0)%Z) (lit "-" ++ str_of_Z (g_dist p) ++ lit "-g" ++ g_short p) t
           | None => g_short p
           end in
  add_if (g_dirty p) (lit "-dirty") r.

(** render_git_describe_long, _version.py 559-576 *)
Definition render_git_describe_long (p : pieces) : str :=
  let r := match the_tag p with
           | Some t => t ++ lit "-" ++ str_of_Z (g_dist p) ++ lit "-g" ++ g_short p
           | None => g_short p
           end in
  add_if (g_dirty p) (lit "-dirty") r.

(** render, _version.py 579-612 *)
Definition render (p : pieces) (style : str) : res vers :=
  match g_error p with
  | Some (c :: e) => Ok (mkVers (lit "unknown") (Some (g_long p)) None (Some (c :: e)) None)
  | _ =>
      let style := if str_eqb style [] || str_eqb style (lit "default") then lit "pep440" else style in
      rlet rendered <-
        (if str_eqb style (lit "pep440") then Ok (render_pep440 p)
         else if str_eqb style (lit "pep440-branch") then Ok (render_pep440_branch p)
         else if str_eqb style (lit "pep440-pre") then render_pep440_pre p
         else if str_eqb style (lit "pep440-post") then Ok (render_pep440_post p)
         else if str_eqb style (lit "pep440-post-branch") then Ok (render_pep440_post_branch p)
         else if str_eqb style (lit "pep440-old") then Ok (render_pep440_old p)
         else if str_eqb style (lit "git-describe") then Ok (render_git_describe p)
         else if str_eqb style (lit "git-describe-long") then Ok (render_git_describe_long p)
         else Raise ValueError) ;
      Ok (mkVers rendered (Some (g_long p)) (Some (g_dirty p)) None (g_date p))
  end.

(** get_versions, _version.py 615-658. [file]: os.path.realpath(__file__), [None] when there is no __file__. *)
Definition get_versions (cfg : vconfig) (kw : dict str) (file : option str) (m : machine) : res vers :=
  match git_versions_from_keywords kw (c_tag_prefix cfg) with
  | Raise e => Raise e
  | Ok (Some v) => Ok v
  | Ok None =>
      match file with
      | None => Ok (mkVers (lit "0+unknown") None None (Some (lit "unable to find root of source tree")) None)
      | Some f =>
          let root := fold_left (fun r _ => os_dirname r) (split_on cSlash (c_source cfg)) f in
          match (alet p <- git_pieces_from_vcs m (c_tag_prefix cfg) ; sure (render p (c_style cfg))) with
          | Raise e => Raise e
          | Ok (Some v) => Ok v
          | Ok None =>
              match (match c_parentdir cfg with [] => not_this | _ => versions_from_parentdir (c_parentdir cfg) root end) with
              | Raise e => Raise e
              | Ok (Some v) => Ok v
              | Ok None => Ok (mkVers (lit "0+unknown") None None (Some (lit "unable to compute version")) None)
              end
          end
      end
  end.

(** [__version__] of the package, __init__.py 31-32 *)
Definition package_version (refnames full date : str) (file : option str) (m : machine) : res str :=
  rlet v <- get_versions the_config (get_keywords refnames full date) file m ;
  Ok (v_version v).
