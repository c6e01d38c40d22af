(** Python's fnmatch.fnmatch(name, pat), used by fs.py 1024 (library code, not part of /repo): on POSIX
    the case is kept, and [translate] turns the pattern into a regular expression that has to match the
    whole name, the dot matching every character. *)
From Verif Require Import Str.

Inductive item :=
| IStar
| IAny
| IChar (c : N)
| ISet (neg : bool) (ranges : list (N * N)).

(** [!], [-], [*], [?], [[], []] *)
Definition cBang : N := 33.
Definition cMinus : N := 45.
Definition cStar : N := 42.
Definition cQuest : N := 63.
Definition cOpen : N := 91.
Definition cClose : N := 93.

(** The text up to the first closing bracket and what follows it. *)
Fixpoint cut_close (l : list N) : option (list N * list N) :=
  match l with
  | [] => None
  | c :: l' => if (c =? cClose)%N then Some ([], l')
               else match cut_close l' with
                    | Some (a, r) => Some (c :: a, r)
                    | None => None
                    end
  end.
(** What stands between the brackets: a leading [!] negates, a closing bracket in first place is a member. *)
Definition bracket (l : list N) : option (bool * list N * list N) :=
  let neg := match l with c :: _ => (c =? cBang)%N | [] => false end in
  let l1 := if neg then tl l else l in
  match l1 with
  | c :: l2 => if (c =? cClose)%N
               then match cut_close l2 with Some (a, r) => Some (neg, c :: a, r) | None => None end
               else match cut_close l1 with Some (a, r) => Some (neg, a, r) | None => None end
  | [] => None
  end.
(** Members: [a-z] is a range, a minus sign in first or last place stands for itself. *)
Fixpoint ranges_of (fuel : nat) (l : list N) : list (N * N) :=
  match fuel, l with
  | S f, a :: m :: z :: l' => if (m =? cMinus)%N then (a, z) :: ranges_of f l' else (a, a) :: ranges_of f (m :: z :: l')
  | S f, a :: l' => (a, a) :: ranges_of f l'
  | _, _ => []
  end.

Fixpoint items_of (fuel : nat) (l : list N) : list item :=
  match fuel, l with
  | S f, c :: l' =>
      if (c =? cStar)%N then IStar :: items_of f l'
      else if (c =? cQuest)%N then IAny :: items_of f l'
      else if (c =? cOpen)%N then
        match bracket l' with
        | Some (neg, a, r) => ISet neg (ranges_of (length a) a) :: items_of f r
        | None => IChar c :: items_of f l'
        end
      else IChar c :: items_of f l'
  | _, _ => []
  end.
Definition pattern (l : list N) : list item := items_of (length l) l.

Definition in_ranges (c : N) (rs : list (N * N)) : bool :=
  existsb (fun r => (fst r <=? c)%N && (c <=? snd r)%N) rs.
Definition one (i : item) (c : N) : bool :=
  match i with
  | IStar => false
  | IAny => true
  | IChar x => (x =? c)%N
  | ISet neg rs => xorb neg (in_ranges c rs)
  end.
(** Matching, as a backtracking matcher does it. *)
Fixpoint match_items (its : list item) : list N -> bool :=
  match its with
  | [] => fun s => match s with [] => true | _ => false end
  | IStar :: its' =>
      fix star (s : list N) : bool :=
        match_items its' s || match s with [] => false | _ :: s' => star s' end
  | i :: its' => fun s => match s with [] => false | c :: s' => one i c && match_items its' s' end
  end.
Definition fnmatch (name pat : str) : bool := match_items (pattern pat) name.
