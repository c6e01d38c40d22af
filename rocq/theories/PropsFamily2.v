(** C156: URIParser completely: parse, unparse, scheme_of and info_of of every text and every tuple. *)
From Verif Require Import Str Exc Utf8 UriParse BaseUri StrFacts UriFacts SpecUri UriFamily SpecParse ParseFacts ParseFacts2 SpecFamily PropsFamily.

Lemma before_iff t s : before_colon t s <-> scheme_of t = s.
Proof.
  unfold scheme_of. split.
  - intros [s' r -> F|F]; [apply free1 in F; now rewrite cut_first_app|]. apply free1, cut_first_none in F. now rewrite F.
  - destruct (cut_first cColon t) as [[a b]|] eqn:E; intros <-.
    + apply cut_first_some in E as [-> N]. apply bc_some with b; [reflexivity|now apply free1].
    + apply bc_none. now apply free1, cut_first_none.
Qed.
Lemma chosen_iff parsers s c : chosen parsers s c <-> match dget s parsers with Some c => c | None => DefaultURIParser end = c.
Proof.
  split.
  - intros [c' E|E]; now rewrite E.
  - destruct (dget s parsers) as [c'|] eqn:E; intros <-; [now apply ch_some|now apply ch_none].
Qed.
Lemma chosen_parser parsers t c : chosen parsers (scheme_of t) c <-> parser_for parsers t = c.
Proof. apply chosen_iff. Qed.
Lemma chosen_before parsers t s c : before_colon t s -> chosen parsers s c -> parser_for parsers t = c.
Proof. intros B C. apply before_iff in B. subst s. now apply chosen_parser. Qed.
Lemma host_port_iff h x p : host_port h x p <-> (x, p) = match cut_first cColon h with Some (a, b) => (or_none a, Some b) | None => (or_none h, None) end.
Proof.
  split.
  - intros [y q -> F|F]; [apply free1 in F; now rewrite cut_first_app|]. apply free1, cut_first_none in F. now rewrite F.
  - destruct (cut_first cColon h) as [[a b]|] eqn:E; intros X; injection X as -> ->.
    + apply cut_first_some in E as [-> N]. apply hp_port; [reflexivity|now apply free1].
    + apply hp_host. now apply free1, cut_first_none.
Qed.
Lemma filled_iff x d y : filled x d y <-> given x d = y.
Proof. split; [now intros []|]. destruct x; cbn; intros <-; constructor. Qed.
Lemma path_filled_iff p d y : path_filled p d y <-> match p with [] => d | n :: l => Some (n :: l) end = y.
Proof. split; [intros [p' ? N|?]; [now destruct p'|reflexivity]|]. destruct p; intros <-; constructor. discriminate. Qed.
Lemma defaults_iff own given ds : defaults_of own given ds <-> match given with [] => own | _ => given end = ds.
Proof. split; [intros [->|N]; [reflexivity|now destruct given]|]. destruct given; intros <-; constructor; auto; discriminate. Qed.
Lemma authority_split a us pw hp ho po : creds a us pw hp -> host_port hp ho po -> split_authority a = (us, pw, ho, po).
Proof.
  intros C H. apply creds_iff in C. apply host_port_iff in H. unfold auth_split in C. unfold split_authority.
  destruct (cut_first cAt a) as [[u h]|].
  - destruct (cut_first cColon u) as [[x y]|]; injection C as <- <- <-; (destruct (cut_first cColon h) as [[x' y']|]; injection H as -> ->; reflexivity).
  - injection C as <- <- <-. destruct (cut_first cColon a) as [[x' y']|]; injection H as -> ->; reflexivity.
Qed.
Lemma authority_rule a : exists us pw hp ho po, creds a us pw hp /\ host_port hp ho po.
Proof.
  destruct (auth_split a) as [[us pw] hp] eqn:E. destruct (match cut_first cColon hp with Some (x, b) => (or_none x, Some b) | None => (or_none hp, None) end) as [ho po] eqn:H.
  exists us, pw, hp, ho, po. split; [now apply creds_iff|now apply host_port_iff].
Qed.

Lemma tuple_rule parsers uri given : tuple_of parsers uri given (urip_parse parsers uri given).
Proof.
  unfold urip_parse, class_parse. destruct (urisplit uri) as [x|e] eqn:Ts; cbn [rbind]; [|apply to_apart; now apply takes_apart_iff].
  apply takes_apart_iff in Ts. assert (B : before_colon uri (scheme_of uri)) by now apply before_iff.
  destruct (parser_for parsers uri) as [own|] eqn:C; apply chosen_parser in C.
  - destruct (s_authority x) as [a|] eqn:A; [|exact (to_noauth parsers uri given _ _ _ B C Ts A)].
    destruct (authority_rule a) as (us & pw & hp & ho & po & Cr & H). rewrite (authority_split _ _ _ _ _ _ Cr H). cbv beta iota zeta.
    set (ds := match given with [] => own | _ => given end). assert (D : defaults_of own given ds) by now apply defaults_iff.
    assert (X : length ds = 7%nat \/ length ds <> 7%nat) by lia. destruct X as [L|L].
    + clearbody ds. destruct ds as [|du [|dpw [|dh [|dpo [|dpa [|dq [|df [|]]]]]]]]; try discriminate. cbn [rbind].
      eapply to_url; try eassumption; try (apply filled_iff; reflexivity); apply path_filled_iff; now destruct (s_path x).
    + match goal with |- tuple_of _ _ _ ?r => replace r with (@Raise (list (option str)) ValueError) end.
      * eapply to_short; eassumption.
      * clearbody ds. destruct ds as [|du [|dpw [|dh [|dpo [|dpa [|dq [|df [|]]]]]]]]; cbn in L; try reflexivity; lia.
  - destruct (cut_first cAt (s_path x)) as [[u h]|] eqn:Cu; cbn [rbind].
    + apply cut_first_some in Cu as [E N]. eapply to_mail; try eassumption. now apply free1.
    + apply cut_first_none in Cu. eapply to_nomail; try eassumption. now apply free1.
Qed.
Lemma tuple_det parsers uri given r : tuple_of parsers uri given r -> urip_parse parsers uri given = r.
Proof.
  unfold urip_parse, class_parse.
  intros [e Ts|s own x B C Ts A|s own x a hp us pw ho po us' pw' ho' po' path q f du dpw dh dpo dpa dq df B C Ts A Cr H D F1 F2 F3 F4 F5 F6 F7|s own x a ds B C Ts A D L|s x u h B C Ts E F|s x B C Ts F];
    apply takes_apart_iff in Ts; rewrite Ts; cbn [rbind]; auto; rewrite (chosen_before _ _ _ _ B C); apply before_iff in B; subst s.
  - now rewrite A.
  - rewrite A, (authority_split _ _ _ _ _ _ Cr H). apply defaults_iff in D. rewrite D. cbn [rbind].
    apply filled_iff in F1, F2, F3, F4, F6, F7. apply path_filled_iff in F5. now rewrite F1, F2, F3, F4, F5, F6, F7.
  - rewrite A. destruct (authority_rule a) as (us & pw & hp & ho & po & Cr & H). rewrite (authority_split _ _ _ _ _ _ Cr H). cbv beta iota zeta.
    apply defaults_iff in D. rewrite D. destruct ds as [|du [|dpw [|dh [|dpo [|dpa [|dq [|df [|]]]]]]]]; cbn in L; try reflexivity; lia.
  - apply free1 in F. now rewrite E, cut_first_app.
  - apply free1, cut_first_none in F. now rewrite F.
Qed.

(** ** parse *)
Theorem C156_parse parsers uri given r : urip_parse parsers uri given = r <-> tuple_of parsers uri given r.
Proof. split; [intros <-; apply tuple_rule|apply tuple_det]. Qed.
(** the text before the first colon; the text between the first two colons *)
Theorem C156_scheme uri s : scheme_of uri = s <-> before_colon uri s.
Proof. symmetry. apply before_iff. Qed.
Theorem C156_info uri r : info_of uri = r <-> after_colon uri r.
Proof.
  assert (Run : after_colon uri (info_of uri)).
  { unfold info_of. destruct (cut_first cColon uri) as [[a b]|] eqn:E.
    - apply cut_first_some in E as [-> N]. rewrite split_on_app by auto. destruct (cut_first cColon b) as [[c d]|] eqn:E2.
      + apply cut_first_some in E2 as [-> N2]. rewrite split_on_app by auto. apply ac_more with a d; auto; now apply free1.
      + apply cut_first_none in E2. rewrite split_on_none by auto. apply ac_last with a; auto; now apply free1.
    - apply cut_first_none in E. rewrite split_on_none by auto. apply ac_none. now apply free1. }
  split; [intros <-; exact Run|]. intros [F|s i -> F1 F2|s i t -> F1 F2]; unfold info_of.
  - apply free1 in F. now rewrite split_on_none.
  - apply free1 in F1, F2. now rewrite split_on_app, split_on_none.
  - apply free1 in F1, F2. now rewrite !split_on_app.
Qed.

(** ** unparse *)
Lemma part_iff pre x t : part_text pre x t <-> opt_add pre x = t.
Proof.
  split; [intros [w N| |]; try reflexivity; now destruct w|]. destruct x as [[|c w]|]; cbn [opt_add]; intros <-; constructor. discriminate.
Qed.
Lemma user_text c a b h d P Q F : opt_add (lit "//") (Some (((c :: a) ++ b ++ [cAt]) ++ h ++ d)) ++ P ++ Q ++ F = lit "//" ++ (c :: a) ++ b ++ cAt :: h ++ d ++ P ++ Q ++ F.
Proof. change (opt_add (lit "//") (Some (((c :: a) ++ b ++ [cAt]) ++ h ++ d))) with (lit "//" ++ ((c :: a) ++ b ++ [cAt]) ++ h ++ d). now rewrite <- !app_assoc. Qed.
Lemma mail_text a b Q F : opt_add [] (Some (a ++ [cAt] ++ b)) ++ Q ++ F = a ++ cAt :: b ++ Q ++ F.
Proof. replace (opt_add [] (Some (a ++ [cAt] ++ b))) with (a ++ [cAt] ++ b) by now destruct a. now rewrite <- !app_assoc. Qed.
Lemma class_rule c l : class_text c l (class_unparse c l).
Proof.
  assert (P : forall pre x, part_text pre x (opt_add pre x)) by (intros; now apply part_iff).
  destruct c as [own|].
  - destruct l as [|a [|b [|h [|d l]]]]; cbn [class_unparse]; try (apply ct_few; cbn; lia). unfold join_authority.
    destruct h as [h|]; cbn [rbind]; [|apply ct_nohost]. destruct l as [|p [|q [|f l]]]; try (apply ct_short; cbn; lia).
    unfold uriunsplit. cbn [app]. destruct a as [[|c a]|].
    + cbn [app]. apply ct_nouser with (opt_add [cColon] d); auto.
    + pose proof (ct_user own (c :: a) b h d p q f l _ _ _ _ _ ltac:(discriminate) (P _ _) (P _ _) (P _ _) (P _ _) (P _ _)) as X.
      match type of X with class_text _ _ (Ok ?u) => match goal with |- class_text _ _ (Ok ?v) => replace v with u; [exact X|] end end.
      symmetry. apply user_text.
    + cbn [app]. apply ct_nouser with (opt_add [cColon] d); auto.
  - destruct l as [|a [|b l]]; cbn [class_unparse]; try (destruct a); try (apply ct_mfew; cbn; lia); try (apply ct_mnone; auto).
    destruct b; [|apply ct_mnone; auto]. destruct l as [|q [|f l]]; try (apply ct_mshort; cbn; lia).
    pose proof (ct_mail s s0 q f l _ _ (P _ _) (P _ _)) as X. unfold uriunsplit.
    match type of X with class_text _ _ (Ok ?u) => match goal with |- class_text _ _ (Ok ?v) => replace v with u; [exact X|] end end.
    symmetry. apply mail_text.
Qed.
Lemma class_det c l r : class_text c l r -> class_unparse c l = r.
Proof.
  intros [own l' L|own a b d l'|own a b h d l' L|own a b h d p q f l' d' at' p' q' f' Ha Hd Hat Hp Hq Hf|own a b h d p q f l' b' d' p' q' f' Na Hb Hd Hp Hq Hf|l' L|a b l' Hn|a b l' L|a b q f l' q' f' Hq Hf];
    cbn [class_unparse].
  - destruct l' as [|? [|? [|? [|? l']]]]; cbn in L; try reflexivity; lia.
  - unfold join_authority. reflexivity.
  - unfold join_authority. cbn [rbind]. destruct l' as [|? [|? [|? l']]]; cbn in L; try reflexivity; lia.
  - unfold join_authority. cbn [rbind]. apply part_iff in Hd, Hat, Hp, Hq, Hf. unfold uriunsplit. rewrite Hd, Hp, Hq, Hf.
    destruct Ha as [-> | ->]; rewrite <- Hat; reflexivity.
  - unfold join_authority. cbn [rbind]. apply part_iff in Hb, Hd, Hp, Hq, Hf. unfold uriunsplit. rewrite Hp, Hq, Hf. destruct a as [|ca a]; [easy|].
    rewrite Hb, Hd. f_equal. apply user_text.
  - destruct l' as [|[|] [|? l']]; cbn in L; try reflexivity; lia.
  - destruct Hn as [-> | ->]; [reflexivity|now destruct a].
  - destruct l' as [|? [|? l']]; cbn in L; try reflexivity; lia.
  - apply part_iff in Hq, Hf. unfold uriunsplit. rewrite Hq, Hf. f_equal. apply mail_text.
Qed.
Theorem C156_unparse parsers l r : urip_unparse parsers l = r <-> text_of parsers l r.
Proof.
  split.
  - intros <-. destruct l as [|[t|] l]; cbn [urip_unparse]; try constructor.
    apply tx_some with (scheme_of t) (parser_for parsers t); [now apply before_iff|now apply chosen_parser|apply class_rule].
  - intros [|l'|t l' s c r' B C T]; cbn [urip_unparse]; auto. rewrite (chosen_before _ _ _ _ B C). now apply class_det.
Qed.
(** What unparse makes of the tuples of parse: the scheme is taken for the user, the user for the password, the password for the host
    and so on; a URI without a password (and without a default for it) cannot be written at all. *)
Theorem C156_back parsers uri given s us pw ho po path q f own : urip_parse parsers uri given = Ok [Some s; us; pw; ho; po; path; q; f] ->
  chosen parsers s (Url own) ->
  (pw = None -> urip_unparse parsers [Some s; us; pw; ho; po; path; q; f] = Raise TypeError) /\
  (forall h us' ho' po' path' q', pw = Some h -> part_text [cColon] us us' -> part_text [cColon] ho ho' -> part_text [] po po' -> part_text [cQuest] path path' -> part_text [cHash] q q' ->
     urip_unparse parsers [Some s; us; pw; ho; po; path; q; f] = Ok (lit "//" ++ s ++ us' ++ cAt :: h ++ ho' ++ po' ++ path' ++ q')).
Proof.
  intros H C.
  assert (Hs : s = scheme_of uri /\ s <> []).
  { unfold urip_parse in H. destruct (class_parse (parser_for parsers uri) given uri) as [l|] eqn:E; [|discriminate]. cbn [rbind] in H. injection H as Hs _. split; [now symmetry|].
    intros Es. subst s. unfold class_parse in E. destruct (scheme_cases uri) as [[r X]|X]; rewrite Es in X; cbn [app] in X; rewrite X in E.
    - now rewrite urisplit_colon in E.
    - discriminate. }
  destruct Hs as [Es Ns].
  assert (B : before_colon s s).
  { apply bc_none. apply free1. rewrite Es. apply scheme_nocolon. }
  split.
  - intros ->. apply C156_unparse. apply tx_some with s (Url own); auto. apply ct_nohost.
  - intros h us' ho' po' path' q' -> Pu Ph Pp Ppa Pq. apply C156_unparse. apply tx_some with s (Url own); auto. now apply ct_user.
Qed.
Theorem C156_back_mail parsers uri given s u h q f h' q' : urip_parse parsers uri given = Ok [Some s; u; h; q; f] ->
  part_text [cQuest] h h' -> part_text [cHash] q q' ->
  exists u', u = Some u' /\ urip_unparse parsers [Some s; u; h; q; f] = Ok (s ++ cAt :: u' ++ h' ++ q').
Proof.
  intros H Ph Pq. apply C156_parse in H. inversion H as [| | | |s0 x u0 h0 B C Ts E F|]; subst.
  exists u0. split; [reflexivity|]. assert (B' : before_colon s s).
  { apply bc_none. apply free1. apply before_iff in B. subst s. apply scheme_nocolon. }
  apply C156_unparse. apply tx_some with s Mailto; auto. now apply ct_mail.
Qed.

(** a default port, a missing password, another scheme, a wrong number of defaults, no authority *)
Example C156_parse_witness :
  urip_parse Schemes (lit "http://joe@h:/p?q#f") [] = Ok [Some (lit "http"); Some (lit "joe"); None; Some (lit "h"); Some []; Some (lit "/p"); Some (lit "q"); Some (lit "f")] /\
  urip_parse Schemes (lit "x:y") [] = Raise AttributeError /\
  urip_parse Schemes (lit "x://h") [None] = Raise ValueError /\
  urip_parse Schemes (lit "x://./p") [] = Raise TypeError /\
  urip_parse Schemes (lit "mailto://x/joe") [] = Raise ValueError /\
  before_colon (lit "x://h") (lit "x") /\ chosen Schemes (lit "x") (Url [None; None; None; None; Some (lit "/"); None; None]).
Proof. repeat split; try (vm_compute; reflexivity); [now apply before_iff|now apply chosen_iff]. Qed.
Example C156_info_witness : info_of (lit "http") = Raise IndexError /\ info_of (lit "http://h:80/") = Ok (lit "//h") /\ after_colon (lit "a:b") (Ok (lit "b")).
Proof. repeat split; try (vm_compute; reflexivity). now apply C156_info. Qed.
Example C156_unparse_witness :
  urip_unparse Schemes [Some (lit "http"); Some (lit "u"); Some (lit "p"); Some (lit "h"); Some (lit "80"); Some (lit "/x"); None; None] = Ok (lit "//http:u@p:h80?/x") /\
  urip_unparse Schemes [Some []; None; Some (lit "h"); Some (lit "80"); Some (lit "/x"); None; None] = Ok (lit "//h:80/x") /\
  urip_unparse Schemes [Some (lit "mailto"); Some (lit "h"); Some (lit "q"); None] = Ok (lit "mailto@h?q") /\
  urip_unparse Schemes [Some (lit "http"); Some (lit "u"); None; Some (lit "h")] = Raise TypeError /\
  urip_unparse Schemes [Some (lit "http"); Some (lit "u")] = Raise ValueError.
Proof. repeat split; vm_compute; reflexivity. Qed.
Example C156_back_witness :
  urip_parse Schemes (lit "ftp://h/x") [] = Ok [Some (lit "ftp"); Some (lit "anonymous"); Some (lit "anonymous"); Some (lit "h"); Some (lit "21"); Some (lit "/x"); None; None] /\
  urip_unparse Schemes [Some (lit "ftp"); Some (lit "anonymous"); Some (lit "anonymous"); Some (lit "h"); Some (lit "21"); Some (lit "/x"); None; None] = Ok (lit "//ftp:anonymous@anonymous:h21?/x") /\
  urip_parse Schemes (lit "mailto://x/joe@h?q") [] = Ok [Some (lit "mailto"); Some (lit "/joe"); Some (lit "h"); Some (lit "q"); None] /\
  urip_unparse Schemes [Some (lit "mailto"); Some (lit "/joe"); Some (lit "h"); Some (lit "q"); None] = Ok (lit "mailto@/joe?h#q").
Proof. repeat split; vm_compute; reflexivity. Qed.

Print Assumptions C156_parse.
Print Assumptions C156_scheme.
Print Assumptions C156_info.
Print Assumptions C156_unparse.
Print Assumptions C156_back.
Print Assumptions C156_back_mail.
