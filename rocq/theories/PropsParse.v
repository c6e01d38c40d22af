(** Properties C100 and C101: complete rules for taking a URI apart and for making a URI from a text, for every text.
    SpecParse.v has the rules; they use none of the functions of the parser. *)
From Verif Require Import Str Exc Utf8 UriParse BaseUri StrFacts SpecUri SpecParse ParseFacts ParseFacts2 ParseFacts3 ParseFacts4.
Local Open Scope string_scope.
Local Open Scope list_scope.

(** ** C100: the parser *)
Theorem C100_urisplit t r : takes_apart t r <-> urisplit t = r.
Proof. apply takes_apart_iff. Qed.
Theorem C100_parse t r : understood t r <-> uri_parse t = r.
Proof. apply understood_iff. Qed.
(** There is exactly one result for each text. *)
Theorem C100_one t : exists r, understood t r /\ forall r', understood t r' -> r' = r.
Proof.
  exists (uri_parse t). split; [now apply understood_iff|]. intros r' H. apply understood_iff in H. now rewrite H.
Qed.
(** Ports, as int() reads them *)
Theorem C100_number s z : number s z <-> py_int s = Ok z.
Proof. apply number_iff. Qed.

(** A key and a value are stripped before the value is unquoted; the last of two equal keys counts, the fragment belongs to
    the path except for http, and a port may have a sign and underscores. *)
Example C100_witness :
  understood (lit "zip://((file:///a.zip))/x?k=1& k = %20v+ #f")
    (Ok (mkParsed (Some (lit "zip")) (Some []) (lit "/x#f") [(lit "k", lit " v ")] (Some []) (lit "file:///a.zip") (Some []) (Some []) (Some []) 0 [])) /\
  understood (lit "http://u:p@h: -1_0 /x#f")
    (Ok (mkParsed (Some (lit "http")) (Some (lit "u:p@h: -1_0 ")) (lit "/x") [] (Some (lit "f")) [] (Some (lit "u")) (Some (lit "p")) (Some (lit "h")) (-10) (lit "h:-10"))) /\
  understood (lit "http://h:1__0/") (Raise ValueError) /\
  understood (lit "http://h/?a=b=c") (Raise ValueError) /\
  understood (lit "x:/y") (Raise AttributeError) /\
  number (lit "  -1_0 ") (-10).
Proof. rewrite !understood_iff, number_iff. repeat split; vm_compute; reflexivity. Qed.

(** ** C101: URI(text, sep, **extras) *)
Theorem C101_uri text sep ex r : made text sep ex r <-> URI text sep ex = r.
Proof. apply made_iff. Qed.
Theorem C101_class cls text sep ex r : built cls text sep ex r <-> mk_uri cls text sep ex = r.
Proof. apply built_iff. Qed.
Theorem C101_one text sep ex : exists r, made text sep ex r /\ forall r', made text sep ex r' -> r' = r.
Proof.
  exists (URI text sep ex). split; [now apply made_iff|]. intros r' H. apply made_iff in H. now rewrite H.
Qed.

(** A drive letter becomes a first directory; a password may come from the keyword arguments, which lose it, or from the
    query; a word with a digit is no scheme for the choice of the class. *)
Example C101_witness :
  (exists p, made (lit "c:\a\b") cSlash [] (Ok (mkUri ULocal (lit "file:///c/a/b") cSlash p [] (Some []) (Some []))) /\ p_path p = lit "/c/a/b") /\
  (exists p, made (lit "ftp://u@h/x?password=q") cSlash [(lit "password", lit "w"); (lit "k", lit "v")]
      (Ok (mkUri UBase (lit "ftp://u@h/x?password=q") cSlash p [(lit "k", lit "v")] (Some (lit "u")) (Some (lit "w"))))) /\
  (exists p, made (lit "ftp://u@h/x?password=q") cSlash []
      (Ok (mkUri UBase (lit "ftp://u@h/x?password=q") cSlash p [] (Some (lit "u")) (Some (lit "q"))))) /\
  (exists p, made (lit "s3://h/x") cSlash [] (Ok (mkUri ULocal (lit "s3://h/x") cSlash p [] None None)) /\ p_scheme p = Some (lit "s3")) /\
  made (lit "a") cSlash [(lit "sep", lit "/")] (Raise TypeError).
Proof.
  split; [|split; [|split; [|split]]].
  - eexists; split; [apply made_iff; vm_compute; reflexivity|vm_compute; reflexivity].
  - eexists; apply made_iff; vm_compute; reflexivity.
  - eexists; apply made_iff; vm_compute; reflexivity.
  - eexists; split; [apply made_iff; vm_compute; reflexivity|vm_compute; reflexivity].
  - apply made_iff; vm_compute; reflexivity.
Qed.

Print Assumptions C100_urisplit.
Print Assumptions C100_parse.
Print Assumptions C100_one.
Print Assumptions C100_number.
Print Assumptions C101_uri.
Print Assumptions C101_class.
Print Assumptions C101_one.
