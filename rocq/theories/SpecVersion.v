(** What the theorems on the version of the package say: texts git writes, and how the version is put together from them. *)
From Verif Require Import Str Exc Utf8 UriParse SpecUri SpecParse Version.
Local Open Scope string_scope.
Local Open Scope list_scope.

(** ** Archives *)
(** [w] is [s] without the parentheses around it. *)
Definition paren (c : N) : Prop := c = cLpar \/ c = cRpar.
Definition bared (s w : str) : Prop :=
  exists a b, s = a ++ w ++ b /\ (forall c, In c (a ++ b) -> paren c) /\ forall c r, w = c :: r \/ w = r ++ [c] -> ~ paren c.
(** [r] is one of the names separated by commas, without the blanks around it. *)
Definition listed (body r : str) : Prop :=
  exists l x, body = join_with (lit ",") l /\ (forall y, In y l -> ~ In 44%N y) /\ In x l /\ trimmed x r.
Definition digit (c : N) : Prop := (48 <= c <= 57)%N.
(** Names marked as tags; without any, all names with a digit in them. *)
Definition candidate (body t : str) : Prop :=
  listed body (lit "tag: " ++ t) \/ (forall t', ~ listed body (lit "tag: " ++ t')) /\ listed body t /\ exists c, In c t /\ digit c.
Definition numeric (v : str) : Prop := exists c r, v = c :: r /\ digit c.
(** The order of texts *)
Inductive before : str -> str -> Prop :=
| be_end c t : before [] (c :: t)
| be_less c d s t : (c < d)%N -> before (c :: s) (d :: t)
| be_same c s t : before s t -> before (c :: s) (c :: t).
Definition fits (prefix body v : str) : Prop := candidate body (prefix ++ v) /\ numeric v.
(** The first of the candidates with a number after the prefix *)
Definition release (prefix body v : str) : Prop :=
  fits prefix body v /\ forall w, fits prefix body w -> w = v \/ before v w.

(** The names git archive wrote: [bdy] is what is between the parentheses. *)
Definition expanded (names bdy : str) : Prop :=
  exists n, trimmed names n /\ (forall r, n <> lit "$Format" ++ r) /\ bared n bdy.

(** Dates: the last line, with a T for the first space and the second one removed *)
(** where str.splitlines() breaks: LF, VT, FF, CR, FS, GS, RS, NEL, LS, PS *)
Definition line_breaks : list N := [10; 11; 12; 13; 28; 29; 30; 133; 8232; 8233]%N.
Definition no_breaks (l : str) : Prop := forall c, In c l -> ~ In c line_breaks.
Definition last_line (s l : str) : Prop := l <> [] /\ no_breaks l /\ (s = l \/ exists a c, In c line_breaks /\ s = a ++ c :: l).
Inductive iso : str -> str -> Prop :=
| iso_none w : ~ In cSpace w -> iso w w
| iso_one a b : ~ In cSpace a -> ~ In cSpace b -> iso (a ++ cSpace :: b) (a ++ lit "T" ++ b)
| iso_two a b c : ~ In cSpace a -> ~ In cSpace b -> iso (a ++ cSpace :: b ++ cSpace :: c) (a ++ lit "T" ++ b ++ c).
Definition dated (s d : str) : Prop := exists l w, last_line s l /\ trimmed l w /\ iso w d.

(** ** Checkouts *)
(** Bytes without blanks around them *)
Definition tight (b : list N) : Prop := forall c r, b = c :: r \/ b = r ++ [c] -> byte_space c = false.
(** git, called with [args], writes [out] and perhaps a newline. *)
Definition says (m : machine) (args : list str) (out : str) : Prop :=
  exists b nl, m (lit "git") args = Ran (b ++ nl) 0 /\ (nl = [] \/ nl = [cNL]) /\ tight b /\ utf8_decode b = Ok out.
Definition says_lit (m : machine) (args : list string) (out : str) : Prop := says m (map lit args) out.

(** What there is to know about a checkout: the commit, the nearest tag (or none), the commits since then, the abbreviated
    commit, whether files were changed, the branch, the date of the commit. *)
Record tree := mkTree { t_full : str; t_tag : option str; t_since : N; t_hex : str; t_dirty : bool; t_branch : option str; t_date : str }.
Definition opt (b : bool) (s : str) : str := if b then s else [].
(** The text of git describe *)
Definition description (prefix : str) (t : tree) : str :=
  match t_tag t with
  | Some g => prefix ++ g ++ lit "-" ++ decimal (t_since t) ++ lit "-g" ++ t_hex t
  | None => t_hex t
  end ++ opt (t_dirty t) (lit "-dirty").
Definition hex_text (s : str) : Prop := s <> [] /\ forall c, In c s -> digit c \/ (97 <= c <= 102)%N.
Definition unpadded_text (s : str) : Prop := forall c r, s = c :: r \/ s = r ++ [c] -> is_space c = false.
Definition match_args (prefix : str) : list str := match prefix with [] => [] | _ => [lit "--match"; prefix ++ lit "*"] end.

(** The branch: its name, or what git branch lists for a detached head. *)
Inductive on_branch (m : machine) : option str -> Prop :=
| ob_named b : unpadded_text b -> b <> lit "HEAD" -> says_lit m ["rev-parse"; "--abbrev-ref"; "HEAD"] b -> on_branch m (Some b)
| ob_detached head names b :
    says_lit m ["rev-parse"; "--abbrev-ref"; "HEAD"] (lit "HEAD") ->
    In cLpar head -> ~ In cNL head -> (forall n, In n names -> ~ In cNL n) ->
    says_lit m ["branch"; "--contains"] (join_with [cNL] (head :: map (app (lit "  ")) names)) ->
    b = (if in_dec (list_eq_dec N.eq_dec) (lit "master") names then Some (lit "master") else hd_error names) ->
    on_branch m b.

Record checkout (m : machine) (prefix : str) (t : tree) : Prop := {
  co_git : exists d, says_lit m ["rev-parse"; "--git-dir"] d;
  co_tag : forall g, t_tag t = Some g -> ~ In cNL (prefix ++ g) /\ prefix ++ g <> [] /\ unpadded_text (prefix ++ g);
  co_hex : hex_text (t_hex t);
  co_describe : says m (map lit ["describe"; "--tags"; "--dirty"; "--always"; "--long"] ++ match_args prefix) (description prefix t);
  co_full : unpadded_text (t_full t) /\ says_lit m ["rev-parse"; "HEAD"] (t_full t);
  co_short : t_tag t = None -> t_hex t = firstn 7 (t_full t);
  co_count : t_tag t = None -> says_lit m ["rev-list"; "HEAD"; "--count"] (decimal (t_since t));
  co_branch : on_branch m (t_branch t);
  co_date : exists o s, says_lit m ["show"; "-s"; "--format=%ci"; "HEAD"] o /\ trimmed o s /\ dated s (t_date t) }.

(** The styles, as their documentation describes them. *)
Definition base (t : tree) : str := match t_tag t with Some (c :: g) => c :: g | _ => lit "0" end.
Definition tagged (t : tree) : bool := match t_tag t with Some (_ :: _) => true | _ => false end.
Definition off_tag (t : tree) : bool := negb (tagged t) || negb (t_since t =? 0)%N || t_dirty t.
Definition off_master (t : tree) : bool := match t_branch t with Some b => negb (str_eqb b (lit "master")) | None => true end.
Definition sep (t : tree) : str := if in_dec N.eq_dec cPlus (base t) then lit "." else lit "+".
Definition untag (t : tree) : str := opt (negb (tagged t)) (lit "untagged.").
Definition since (t : tree) : str := decimal (t_since t).
Inductive rendered (t : tree) : string -> str -> Prop :=
| re_default s : rendered t "pep440" s -> rendered t "default" s
| re_empty s : rendered t "pep440" s -> rendered t "" s
| re_pep440 : rendered t "pep440"
    (base t ++ opt (off_tag t) (sep t ++ untag t ++ since t ++ lit ".g" ++ t_hex t ++ opt (t_dirty t) (lit ".dirty")))
| re_branch : rendered t "pep440-branch"
    (base t ++ opt (off_tag t) (opt (off_master t) (lit ".dev0") ++ sep t ++ untag t ++ since t ++ lit ".g" ++ t_hex t ++ opt (t_dirty t) (lit ".dirty")))
| re_post : rendered t "pep440-post"
    (base t ++ opt (off_tag t) (lit ".post" ++ since t ++ opt (t_dirty t) (lit ".dev0") ++ sep t ++ lit "g" ++ t_hex t))
| re_post_branch : rendered t "pep440-post-branch"
    (base t ++ opt (off_tag t) (lit ".post" ++ since t ++ opt (off_master t) (lit ".dev0") ++ sep t ++ lit "g" ++ t_hex t ++ opt (t_dirty t) (lit ".dirty")))
| re_old : rendered t "pep440-old" (base t ++ opt (off_tag t) (lit ".post" ++ since t ++ opt (t_dirty t) (lit ".dev0")))
| re_pre : (forall a b, base t <> a ++ lit ".post" ++ b) -> (tagged t = true -> t_since t <> 0%N) ->
    rendered t "pep440-pre" (base t ++ lit ".post0.dev" ++ since t)
| re_pre_tag : tagged t = true -> t_since t = 0%N -> rendered t "pep440-pre" (base t)
| re_pre_post r b z : t_since t <> 0%N -> base t = r ++ lit ".post" ++ b -> (forall x y, r <> x ++ lit ".post" ++ y) ->
    b = [] /\ z = 0%Z \/ number b z ->
    rendered t "pep440-pre" (r ++ lit ".post" ++ signed (z + 1) ++ lit ".dev" ++ since t)
| re_pre_posts r x y : t_since t <> 0%N -> base t = r ++ lit ".post" ++ x ++ lit ".post" ++ y -> (forall x y, r <> x ++ lit ".post" ++ y) ->
    rendered t "pep440-pre" (r ++ lit ".post0.dev" ++ since t)
| re_describe : rendered t "git-describe"
    ((if tagged t then base t ++ opt (negb (t_since t =? 0)%N) (lit "-" ++ since t ++ lit "-g" ++ t_hex t) else t_hex t) ++ opt (t_dirty t) (lit "-dirty"))
| re_long : rendered t "git-describe-long"
    ((if tagged t then base t ++ lit "-" ++ since t ++ lit "-g" ++ t_hex t else t_hex t) ++ opt (t_dirty t) (lit "-dirty")).

(** A tag after whose one .post comes something, but no number *)
Definition odd_post (t : tree) : Prop := t_since t <> 0%N /\ exists r b, base t = r ++ lit ".post" ++ b /\ b <> [] /\ (forall z, ~ number b z) /\
  (forall x y, r <> x ++ lit ".post" ++ y) /\ forall x y, b <> x ++ lit ".post" ++ y.
Definition the_styles : list string := ["pep440"; "pep440-branch"; "pep440-post"; "pep440-post-branch"; "pep440-old"; "pep440-pre"; "git-describe"; "git-describe-long"; "default"; ""]%string.

(** ** Without git *)
Definition no_git (m : machine) : Prop :=
  match m (lit "git") (map lit ["rev-parse"; "--git-dir"]) with
  | Ran out rc => rc <> 0%Z /\ exists s, utf8_decode (strip_p byte_space out) = Ok s
  | _ => True
  end.
(** The keywords as they are in the repository *)
Definition unexpanded : dict str := get_keywords (lit "$Format:%d$") (lit "$Format:%H$") (lit "$Format:%ci$").
(** An absolute path, by its names *)
Definition abs_text (names : list str) : str := flat_map (cons cSlash) names.
Definition dir_text (n : str) : Prop := n <> [] /\ ~ In cSlash n.
(** The place of _version.py below the directories [names] *)
Definition version_file (names : list str) : str := abs_text (names ++ map lit ["abl"; "vpath"; "base"; "_version.py"]).
Definition begins (p s : str) : Prop := exists r, s = p ++ r.

(** ** Same versions *)
Definition plain_tag (s : str) : Prop := ~ In cPlus s /\ forall a b, s <> a ++ lit ".post" ++ b.

(** ** The file _version.py as text *)
Definition assigned_line (pad : str) (name : string) (x : str) : str := pad ++ lit name ++ lit " = " ++ [cQuote] ++ x ++ [cQuote; cNL].
Definition neutral (l : str) : Prop := forall w n, trimmed l w -> In n ["git_refnames ="; "git_full ="; "git_date ="] -> ~ begins (lit n) w.

(** ** git that answers *)
Definition readable (m : machine) : Prop := forall args out rc, m (lit "git") args = Ran out rc -> exists s, utf8_decode (strip_p byte_space out) = Ok s.
Definition tells_date (m : machine) : Prop := exists o w, says_lit m ["show"; "-s"; "--format=%ci"; "HEAD"] o /\ trimmed o w /\ w <> [].
Definition tells_count (m : machine) : Prop := exists n, says_lit m ["rev-list"; "HEAD"; "--count"] (decimal n).
