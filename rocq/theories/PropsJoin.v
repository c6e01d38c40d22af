(** Property C109: the complete rule of urljoin. *)
From Verif Require Import Str Exc UriParse BaseUri StrFacts SpecUri UriFacts7 SpecParse ParseFacts ParseFacts2 SpecNames NamesFacts SpecJoin JoinFacts.
Open Scope string_scope.
Open Scope list_scope.

Theorem C109_urljoin base ref r : resolves base ref r <-> urljoin base ref = r.
Proof. apply resolves_iff. Qed.
Print Assumptions C109_urljoin.
Theorem C109_one base ref : exists r, resolves base ref r /\ forall r', resolves base ref r' -> r' = r.
Proof. exists (urljoin base ref). split; [now apply resolves_iff|]. intros r' H. apply resolves_iff in H. auto. Qed.
Print Assumptions C109_one.
(** Tidying up a list of names always ends, and always in the same list, whatever is done first. *)
Theorem C109_tidied rooted l : exists t, tidied rooted l t /\ forall t', tidied rooted l t' -> t' = t.
Proof. exists (norm_comps rooted [] l). split; [now apply tidied_iff|]. intros t' H. apply tidied_iff in H. auto. Qed.
Print Assumptions C109_tidied.
(** The only error is AttributeError, for a text in which no authority is marked by "//". *)
Theorem C109_fails base ref e : urljoin base ref = Raise e -> e = AttributeError /\ (takes_apart base (Raise AttributeError) \/ takes_apart ref (Raise AttributeError)).
Proof.
  intros H. apply resolves_iff in H. inversion H as [e' B|b e' B U| | |]; subst; [apply takes_apart_iff in B as E|apply takes_apart_iff in U as E]; apply urisplit_raises in E; subst e; auto.
Qed.
Print Assumptions C109_fails.
(** A path is kept when it has nothing to tidy up: no slash too many, no "." and, after a name, no "..". *)
Theorem C109_kept rooted l : (forall c, In c l -> ~ idle c /\ c <> lit "..") -> tidied rooted l l.
Proof. intros A. apply tidied_iff, norm_tidy, ty_names, A. Qed.
Print Assumptions C109_kept.
Example C109_witness :
  urljoin (lit "s://./a/b/c") (lit "s://./../x/./y/../z?q#") = Ok (lit "s:a/x/z?q") /\
  urljoin (lit "http://h/a/b") (lit "http://./c#f") = Ok (lit "http://h/a/c#f") /\
  urljoin (lit "http://h/a") (lit "x") = Raise AttributeError /\
  tidied false [lit "."; lit "a"; lit ".."; lit ".."; []; lit "b"] [lit ".."; lit "b"] /\
  tidied true [[]; lit ".."; lit "a"; []] [lit "a"].
Proof. split; [reflexivity|]. split; [reflexivity|]. split; [reflexivity|]. split; apply tidied_iff; reflexivity. Qed.
(** C15: next to a base whose path is a name in the root the result gets a slash too many (RFC 3986: http://h/c). *)
Theorem C15_refuted_slash : urljoin (lit "http://h/a") (lit "http://./c") = Ok (lit "http://h//c").
Proof. reflexivity. Qed.
Print Assumptions C15_refuted_slash.
