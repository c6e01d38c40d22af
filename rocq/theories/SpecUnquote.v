(** What the values in a query mean: plus signs, percent signs and UTF-8, stated without the functions of Utf8.v. *)
From Verif Require Import Str Exc SpecUri.
Local Open Scope N_scope.

(** The UTF-8 form of a character *)
Inductive utf8_of (c : N) : list N -> Prop :=
| u8_1 : c < 128 -> utf8_of c [c]
| u8_2 a b : 128 <= c < 2048 -> b < 64 -> c = 64 * a + b -> utf8_of c [192 + a; 128 + b]
| u8_3 a b d : 2048 <= c < 65536 -> ~ 55296 <= c < 57344 -> b < 64 -> d < 64 -> c = 4096 * a + 64 * b + d ->
    utf8_of c [224 + a; 128 + b; 128 + d]
| u8_4 a b d e : 65536 <= c <= 1114111 -> b < 64 -> d < 64 -> e < 64 -> c = 262144 * a + 4096 * b + 64 * d + e ->
    utf8_of c [240 + a; 128 + b; 128 + d; 128 + e].
(** The beginning of a character *)
Definition begun (p : list N) : Prop := exists c e s, utf8_of c e /\ e = p ++ s.
(** Bytes that are replaced by one U+FFFD: no character begins here; as many as begin one, or one byte *)
Record broken (p rest : list N) : Prop := {
  br_some : p <> [];
  br_none : forall c e s, utf8_of c e -> p ++ rest <> e ++ s;
  br_begun : length p = 1%nat \/ begun p;
  br_most : forall p' rest', p ++ rest = p' ++ rest' -> begun p' -> (length p' <= length p)%nat }.
Inductive decoded : list N -> str -> Prop :=
| de_end : decoded [] []
| de_char c e rest t : utf8_of c e -> decoded rest t -> decoded (e ++ rest) (c :: t)
| de_bad p rest t : broken p rest -> decoded rest t -> decoded (p ++ rest) (65533 :: t).

(** Hexadecimal digits *)
Inductive hex_digit (c v : N) : Prop :=
| hx_num : 48 <= c <= 57 -> c = 48 + v -> hex_digit c v
| hx_upper : 65 <= c <= 70 -> c = 55 + v -> hex_digit c v
| hx_lower : 97 <= c <= 102 -> c = 87 + v -> hex_digit c v.
Definition two_hex (s : str) : Prop := exists h l x y r, s = h :: l :: r /\ hex_digit h x /\ hex_digit l y.
(** The bytes an ASCII text stands for *)
Inductive bytes_of : str -> list N -> Prop :=
| bo_end : bytes_of [] []
| bo_pct h l x y s b : hex_digit h x -> hex_digit l y -> bytes_of s b -> bytes_of (cPct :: h :: l :: s) (16 * x + y :: b)
| bo_plus s b : bytes_of s b -> bytes_of (cPlus :: s) (cSpace :: b)
| bo_char c s b : c < 128 -> c <> cPlus -> (c = cPct -> ~ two_hex s) -> bytes_of s b -> bytes_of (c :: s) (c :: b).
(** The text a value stands for: characters outside ASCII stand for themselves, what is between them is decoded *)
Inductive unquoted : str -> str -> Prop :=
| uq_ascii s b t : bytes_of s b -> decoded b t -> unquoted s t
| uq_wide run c s b t t' : 128 <= c -> bytes_of run b -> decoded b t -> unquoted s t' -> unquoted (run ++ c :: s) (t ++ c :: t').

(** Quoting: letters, digits and _.-~ stay, a space becomes a plus sign, other bytes two capital hexadecimal digits *)
Definition unreserved (c : N) : Prop :=
  65 <= c <= 90 \/ 97 <= c <= 122 \/ 48 <= c <= 57 \/ c = cUnder \/ c = cDot \/ c = cMinus \/ c = 126.
Inductive capital (v c : N) : Prop :=
| ca_num : v < 10 -> c = 48 + v -> capital v c
| ca_letter : 10 <= v < 16 -> c = 55 + v -> capital v c.
Inductive byte_text (b : N) : str -> Prop :=
| by_safe : unreserved b -> byte_text b [b]
| by_space : b = cSpace -> byte_text b [cPlus]
| by_hex x y h l : ~ unreserved b -> b <> cSpace -> b = 16 * x + y -> capital x h -> capital y l -> byte_text b [cPct; h; l].
Inductive bytes_text : list N -> str -> Prop :=
| bt_end : bytes_text [] []
| bt_byte b t bs t' : byte_text b t -> bytes_text bs t' -> bytes_text (b :: bs) (t ++ t').
Inductive quoted : str -> str -> Prop :=
| qd_end : quoted [] []
| qd_char c e t s t' : utf8_of c e -> bytes_text e t -> quoted s t' -> quoted (c :: s) (t ++ t').
(** key=value&key=value *)
Definition pair_text (kv : str * str) (i : str) : Prop := exists a b, quoted (fst kv) a /\ quoted (snd kv) b /\ i = a ++ cEq :: b.
Definition query_text (q : dict str) (t : str) : Prop := exists l, Forall2 pair_text q l /\ t = join_with [cAmp] l.
(** scheme://netloc/path?query *)
Inductive uri_text (sch n p : str) (q : dict str) : str -> Prop :=
| ut_bare : q = [] -> uri_text sch n p q (sch ++ lit "://" ++ n ++ p)
| ut_query w : q <> [] -> query_text q w -> uri_text sch n p q (sch ++ lit "://" ++ n ++ p ++ cQuest :: w).
