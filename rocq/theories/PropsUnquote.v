(** C155: what the values in a query mean, and how a query is written. *)
From Verif Require Import Str Exc StrFacts Utf8 UriParse BaseUri SpecUri SpecParse UriFacts UriFacts2 ParseFacts ParseFacts2 ParseFacts3 SpecUnquote UnquoteFacts.
From Coq Require Import Lia.

(** A value read from a query: plus signs, percent signs, bytes that are no UTF-8 and characters outside ASCII. *)
Theorem C155_value k v d : free_of [cEq; cAmp] k -> free_of [cEq; cAmp] v -> trimmed k k -> trimmed v v ->
  (parse_query_string (k ++ cEq :: v) = Ok d <-> exists w, unquoted v w /\ d = [(k, w)]).
Proof.
  intros Fk Fv Tk Tv. apply trimmed_strip in Tk, Tv.
  assert (P : parse_query_string (k ++ cEq :: v) = Ok [(k, unquote_plus v)]).
  { unfold parse_query_string. rewrite split_on_none.
    - cbn [parse_query_items]. rewrite split_on_app, split_on_none.
      + cbn [dset]. now rewrite Tk, Tv.
      + apply Fv. now left.
      + apply Fk. now left.
    - intros H. apply in_app_or in H as [H|[H|H]]; [apply (Fk cAmp) in H; auto|discriminate|apply (Fv cAmp) in H; auto]; right; now left. }
  rewrite P. split.
  - intros H. injection H as <-. exists (unquote_plus v). split; [now apply unquoted_iff|reflexivity].
  - intros (w & U & ->). apply unquoted_iff in U. now rewrite U.
Qed.
(** Every text has exactly one reading. *)
Theorem C155_one s : exists t, unquoted s t /\ forall t', unquoted s t' -> t' = t.
Proof. exists (unquote_plus s). split; [now apply unquoted_iff|]. intros t' U. apply unquoted_iff in U. now symmetry. Qed.
(** The text of a query that is made from a dictionary; it can be made just if every key and value can be encoded. *)
Theorem C155_written q t : urlencode q = Ok t <-> query_text q t.
Proof. symmetry. apply query_text_iff. Qed.
Theorem C155_text sch n p q t : uri_from_parts (Some sch) n p q = Ok t <-> uri_text sch n p q t.
Proof.
  unfold uri_from_parts. cbv zeta. assert (A : forall w, (sch ++ lit "://" ++ n ++ p) ++ [cQuest] ++ w = sch ++ lit "://" ++ n ++ p ++ cQuest :: w).
  { intros w. rewrite <- app_assoc. f_equal. rewrite <- app_assoc. f_equal. now rewrite <- app_assoc. }
  split.
  - destruct q as [|kv q]; [intros H; injection H as <-; now apply ut_bare|].
    destruct (urlencode (kv :: q)) as [w|] eqn:E; [|discriminate]. cbn [rbind]. rewrite A. intros [= <-].
    apply ut_query; [discriminate|]. now apply query_text_iff.
  - intros [->|w N Q]; [reflexivity|]. destruct q as [|kv q]; [easy|]. apply query_text_iff in Q. rewrite Q. cbn [rbind]. now rewrite A.
Qed.
(** What was quoted is what is read. *)
Theorem C155_back s t : quoted s t -> unquoted t s.
Proof. intros Q. apply quoted_iff in Q. apply unquoted_iff. now apply Utf8Facts.unquote_quote_plus. Qed.

(** small and capital hexadecimal digits, a plus sign, a lone percent sign, bytes that are no UTF-8 (one replacement character for
    the three bytes that begin a character, one for each of the others), a character outside ASCII *)
Example C155_value_witness :
  parse_query_string (lit "k=%c3%A9+%2B%zz") = Ok [(lit "k", [233%N] ++ lit " +%zz")] /\
  parse_query_string (lit "k=%f0%9f%98%ff%c0x") = Ok [(lit "k", [65533%N; 65533%N; 65533%N] ++ lit "x")] /\
  parse_query_string (lit "k=%c3" ++ [233%N] ++ lit "%a9") = Ok [(lit "k", [65533%N; 233%N; 65533%N])] /\
  (free_of [cEq; cAmp] (lit "k") /\ free_of [cEq; cAmp] (lit "%c3%A9+%2B%zz") /\ trimmed (lit "k") (lit "k") /\ trimmed (lit "%c3%A9+%2B%zz") (lit "%c3%A9+%2B%zz")) /\
  unquoted (lit "%c3%A9+%2B%zz") ([233%N] ++ lit " +%zz").
Proof.
  repeat split; try (vm_compute; reflexivity); try (now apply trimmed_strip); try (now apply unquoted_iff).
  all: intros c H; cbn in *; intuition (subst; discriminate).
Qed.
(** the rule itself, without the functions: %e9 alone *)
Example C155_rule_witness : unquoted (lit "%e9") [65533%N].
Proof.
  apply uq_ascii with [233%N].
  - apply (bo_pct 101 57 14 9 [] []); [apply hx_lower; lia|apply hx_num; lia|constructor].
  - apply (de_bad [233%N] [] []); [|constructor]. constructor; [discriminate| |now left|].
    + intros c e s U E. destruct U; apply (f_equal (@length N)) in E as L; cbn [app length] in L; try lia. injection E as <- _. lia.
    + intros p rest E _. apply (f_equal (@length N)) in E. rewrite !app_length in E. cbn [length] in *. lia.
Qed.
Example C155_written_witness :
  urlencode [(lit "a b", [233%N; 8364%N; 128512%N]); (lit "c", lit "~/+")] = Ok (lit "a+b=%C3%A9%E2%82%AC%F0%9F%98%80&c=~%2F%2B") /\
  uri_from_parts (Some (lit "s")) (lit "h") (lit "/p") [(lit "k", lit "/")] = Ok (lit "s://h/p?k=%2F") /\
  uri_from_parts (Some (lit "s")) (lit "h") (lit "/p") [(lit "k", [55296%N])] = Raise UnicodeEncodeError.
Proof. repeat split; vm_compute; reflexivity. Qed.
Example C155_back_witness : quoted (lit "a/b c") (lit "a%2Fb+c") /\ unquoted (lit "a%2Fb+c") (lit "a/b c").
Proof. assert (Q : quoted (lit "a/b c") (lit "a%2Fb+c")) by (apply quoted_iff; vm_compute; reflexivity). split; [exact Q|now apply C155_back]. Qed.
Example C155_one_witness : unquoted (lit "%") (lit "%") /\ unquoted (lit "+") (lit " ").
Proof. split; apply unquoted_iff; vm_compute; reflexivity. Qed.

Print Assumptions C155_value.
Print Assumptions C155_one.
Print Assumptions C155_written.
Print Assumptions C155_text.
Print Assumptions C155_back.
