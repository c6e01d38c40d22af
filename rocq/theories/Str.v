(** Python text and the [str] methods the code uses.
    A Python [str] is a sequence of code points; [bytes] is a sequence of
    numbers below 256.  Both are [list N] here. *)
From Coq Require Export Ascii String.
From Coq Require Export NArith ZArith Arith Bool Lia List.
Export ListNotations.

Definition str := list N.

(** Literals: [lit "abc"] is the text abc. *)
Definition lit (s : string) : str := List.map N_of_ascii (list_ascii_of_string s).

(** The characters the code treats specially. *)
Definition cSlash : N := 47.      (* / *)
Definition cBack  : N := 92.      (* \ *)
Definition cColon : N := 58.      (* : *)
Definition cQuest : N := 63.      (* ? *)
Definition cHash  : N := 35.      (* # *)
Definition cAt    : N := 64.      (* @ *)
Definition cAmp   : N := 38.      (* & *)
Definition cEq    : N := 61.      (* = *)
Definition cDot   : N := 46.      (* . *)
Definition cPlus  : N := 43.      (* + *)
Definition cMinus : N := 45.      (* - *)
Definition cUnder : N := 95.      (* _ *)
Definition cPct   : N := 37.      (* % *)
Definition cSpace : N := 32.
Definition cLpar  : N := 40.      (* ( *)
Definition cRpar  : N := 41.      (* ) *)
Definition cNL    : N := 10.      (* newline *)

(** Equality of texts (Python [==] on str). *)
Fixpoint str_eqb (a b : str) : bool :=
  match a, b with
  | [], [] => true
  | x :: a', y :: b' => N.eqb x y && str_eqb a' b'
  | _, _ => false
  end.

(** [x in l] for a list or set of texts. *)
Definition str_in (x : str) (l : list str) : bool := existsb (str_eqb x) l.

(** Python truth value of an optional text: [None] and [''] are false. *)
Definition truthy (o : option str) : bool :=
  match o with None => false | Some [] => false | Some _ => true end.

(** [s.startswith(p)] *)
Fixpoint prefixb (p s : str) : bool :=
  match p, s with
  | [], _ => true
  | x :: p', y :: s' => N.eqb x y && prefixb p' s'
  | _ :: _, [] => false
  end.

(** [s.endswith(p)] *)
Definition suffixb (p s : str) : bool := prefixb (rev p) (rev s).

(** [p in s] for texts. *)
Fixpoint contains (p s : str) : bool :=
  prefixb p s || match s with [] => false | _ :: s' => contains p s' end.

(** [c in s] for one character. *)
Definition has_char (c : N) (s : str) : bool := existsb (N.eqb c) s.

(** [s.split(c)] for a one-character separator. *)
Fixpoint split_on (c : N) (s : str) : list str :=
  match s with
  | [] => [[]]
  | x :: s' =>
      if N.eqb x c then [] :: split_on c s'
      else match split_on c s' with
           | [] => [[x]]
           | w :: ws => (x :: w) :: ws
           end
  end.

(** [sep.join(l)] *)
Fixpoint join_with (sep : str) (l : list str) : str :=
  match l with
  | [] => []
  | [w] => w
  | w :: ws => w ++ sep ++ join_with sep ws
  end.

(** [s.split(c, 1)] / [s.partition(c)]: [None] when [c] does not occur. *)
Fixpoint cut_first (c : N) (s : str) : option (str * str) :=
  match s with
  | [] => None
  | x :: s' =>
      if N.eqb x c then Some ([], s')
      else match cut_first c s' with
           | None => None
           | Some (a, b) => Some (x :: a, b)
           end
  end.

(** [s.rsplit(c, 1)]: [None] when [c] does not occur (the list then has one
    element and the two-element unpacking raises ValueError). *)
Definition cut_last (c : N) (s : str) : option (str * str) :=
  match cut_first c (rev s) with
  | None => None
  | Some (a, b) => Some (rev b, rev a)
  end.

(** Longest prefix of characters satisfying [p], and the rest (the greedy
    regular expression [ [class]* ]). *)
Fixpoint span (p : N -> bool) (s : str) : str * str :=
  match s with
  | [] => ([], [])
  | x :: s' => if p x then let (a, b) := span p s' in (x :: a, b) else ([], s)
  end.

(** [lstrip], [rstrip], [strip] with a character predicate. *)
Definition lstrip_p (p : N -> bool) (s : str) : str := snd (span p s).
Definition rstrip_p (p : N -> bool) (s : str) : str := rev (lstrip_p p (rev s)).
Definition strip_p (p : N -> bool) (s : str) : str := rstrip_p p (lstrip_p p s).

(** Characters removed by [strip()] without argument (str.isspace). *)
Definition is_space (c : N) : bool :=
  ((9 <=? c) && (c <=? 13) || (28 <=? c) && (c <=? 32) || (c =? 133) || (c =? 160)
   || (c =? 5760) || (8192 <=? c) && (c <=? 8202) || (c =? 8232) || (c =? 8233)
   || (c =? 8239) || (c =? 8287) || (c =? 12288))%N.

Definition strip_ws (s : str) : str := strip_p is_space s.

(** [s.replace(pat, rep)] for non-empty [pat]: leftmost, non-overlapping. [skip]
    counts the characters of a match still to be dropped. *)
Fixpoint replace_go (skip : nat) (pat rep s : str) : str :=
  match s with
  | [] => []
  | c :: s' =>
      match skip with
      | S k => replace_go k pat rep s'
      | O => if prefixb pat s then rep ++ replace_go (Nat.pred (length pat)) pat rep s'
             else c :: replace_go 0 pat rep s'
      end
  end.
Definition replace (pat rep s : str) : str := replace_go 0 pat rep s.

(** [s.replace(a, b)] for single characters. *)
Definition replace_char (a b : N) (s : str) : str :=
  map (fun x => if N.eqb x a then b else x) s.

(** Python's order on str: lexicographic by code point. *)
Fixpoint str_ltb (a b : str) : bool :=
  match a, b with
  | _, [] => false
  | [], _ :: _ => true
  | x :: a', y :: b' => N.ltb x y || N.eqb x y && str_ltb a' b'
  end.

(** [sorted(l)]: stable insertion sort. *)
Fixpoint insert_sorted (x : str) (l : list str) : list str :=
  match l with
  | [] => [x]
  | y :: l' => if str_ltb y x then y :: insert_sorted x l' else x :: y :: l'
  end.
Definition sort_strs (l : list str) : list str := fold_right insert_sorted [] l.

(** Removal of later duplicates, as building a [set] does (order immaterial:
    the code sorts afterwards). *)
Fixpoint dedup (l : list str) : list str :=
  match l with
  | [] => []
  | x :: l' => if str_in x l' then dedup l' else x :: dedup l'
  end.

(** Dictionaries with text keys: association lists in insertion order. *)
Definition dict (V : Type) := list (str * V).
Fixpoint dget {V} (k : str) (d : dict V) : option V :=
  match d with
  | [] => None
  | (k', v) :: d' => if str_eqb k k' then Some v else dget k d'
  end.
(** [d[k] = v]: an existing key keeps its position. *)
Fixpoint dset {V} (k : str) (v : V) (d : dict V) : dict V :=
  match d with
  | [] => [(k, v)]
  | (k', v') :: d' => if str_eqb k k' then (k', v) :: d' else (k', v') :: dset k v d'
  end.
(** [del d[k]] *)
Fixpoint ddel {V} (k : str) (d : dict V) : dict V :=
  match d with
  | [] => []
  | (k', v') :: d' => if str_eqb k k' then d' else (k', v') :: ddel k d'
  end.
Definition dhas {V} (k : str) (d : dict V) : bool :=
  match dget k d with None => false | Some _ => true end.
(** [d.update(e)] *)
Definition dupdate {V} (d e : dict V) : dict V :=
  fold_left (fun acc kv => dset (fst kv) (snd kv) acc) e d.
(** [d1 == d2] for dictionaries of texts. *)
Definition dict_eqb (d e : dict str) : bool :=
  forallb (fun kv => match dget (fst kv) e with Some v => str_eqb v (snd kv) | None => false end) d
  && forallb (fun kv => match dget (fst kv) d with Some v => str_eqb v (snd kv) | None => false end) e.

(** [str(n)] for a non-negative integer. *)
Fixpoint dec_digits (fuel : nat) (n : N) (acc : str) : str :=
  match fuel with
  | O => acc
  | S f => let acc' := (48 + n mod 10)%N :: acc in
           if (n <? 10)%N then acc' else dec_digits f (n / 10)%N acc'
  end.
Definition str_of_N (n : N) : str := dec_digits (S (N.to_nat (N.log2 n))) n [].
