(** What of a memory URI depends on the authority: its parts besides the authority do not. *)
From Verif Require Import Str Exc StrFacts UriParse BaseUri Mem UriFacts Registry SpecReg Net SpecNet NetFacts Generic Alike.
From Verif Require Import Str Exc Utf8 UriParse BaseUri StrFacts UriFacts SpecUri UriFacts2 UriFacts3 UriFacts7 Mem Prog UriOps SpecNet NetFacts Generic Alike.

Lemma tail_same v x' : noq x' -> rooted x' -> exists p f, forall a, authority a ->
  tail_of v (pre ++ a ++ x') = Ok (mkSplit5 (Some (lit "memory")) (Some a) p None f).
Proof.
  intros Nx Rx'. destruct (span (not_in [cQuest; cHash]) x') as [p r3] eqn:Sp.
  pose proof (span_eq (not_in [cQuest; cHash]) x') as Eq. rewrite Sp in Eq. cbn [fst snd] in Eq.
  assert (Nr : noq r3) by (rewrite <- Eq in Nx; exact (noq_app_r _ _ Nx)).
  assert (Eqy : re_query r3 = (None, r3)).
  { unfold re_query. destruct r3 as [|c r3]; [reflexivity|]. destruct (N.eqb_spec c cQuest) as [->|]; [|reflexivity]. exfalso. apply Nr. now left. }
  exists (match re_fragment r3 with Some (c :: w) => p ++ [cHash] ++ c :: w | _ => p end), (match re_fragment r3 with Some _ => Some [] | None => None end).
  intros a A. unfold tail_of.
  change (re_scheme (pre ++ a ++ x')) with (Some (lit "memory"), lit "//" ++ a ++ x'). cbv iota beta.
  assert (Ea : re_authority (lit "//" ++ a ++ x') = (Some a, x')).
  { change (re_authority (lit "//" ++ a ++ x')) with (let (w, r) := span (not_in [cSlash; cQuest; cHash]) (a ++ x') in (Some w, r)). now rewrite (auth_span a A x' Rx'). }
  rewrite Ea. unfold re_path. rewrite Sp, Eqy.
  assert (Er : replace inner_token v a = a).
  { apply replace_id; [discriminate|]. apply (contains_not_char _ cUnder); [cbn; tauto|]. apply (auth_not a A). cbn; tauto. }
  rewrite Er. destruct (str_eqb a [cDot]) eqn:Ed; [apply str_eqb_eq in Ed; exfalso; exact (proj2 A Ed)|]. cbv iota beta.
  change (negb (is_http (Some (lit "memory")))) with true. cbn [andb].
  destruct (re_fragment r3) as [[|fc fw]|]; reflexivity.
Qed.
Lemma split_same x : noq x -> rooted x -> exists p f, forall a, authority a ->
  urisplit (pre ++ a ++ x) = Ok (mkSplit5 (Some (lit "memory")) (Some a) p None f).
Proof.
  intros Hx Rx.
  assert (F : forall a, authority a -> find_inner (pre ++ a ++ x) = match find_inner x with Some (b, m, r) => Some ((pre ++ a) ++ b, m, r) | None => None end).
  { intros a A. assert (NP : ~ In cLpar (pre ++ a)).
    { intros I. apply in_app_iff in I as [I|I]; [cbn in I; repeat (destruct I as [I|I]; [discriminate|]); exact I|]. revert I. apply (auth_not a A). cbn; tauto. }
    pose proof (find_inner_pre (pre ++ a) x NP) as F. rewrite <- app_assoc in F. exact F. }
  destruct (find_inner x) as [[[b m] r]|] eqn:E.
  - apply find_inner_sound in E as (y & -> & -> & _).
    destruct (tail_same (lit "((" ++ y ++ lit "))") (b ++ inner_token ++ r)) as (p & f & G).
    + apply noq_app; [exact (noq_app_l _ _ Hx)|]. apply noq_app.
      * intros I. cbn in I. repeat (destruct I as [I|I]; [discriminate I|]). exact I.
      * exact (noq_app_r _ _ (noq_app_r _ _ Hx)).
    + destruct Rx as [E|[q E]].
      * apply app_eq_nil in E as [_ E]. apply app_eq_nil in E as [E _]. discriminate.
      * destruct b as [|c b]; [discriminate E|]. injection E as -> E. right. now eexists.
    + exists p, f. intros a A. rewrite split_tail, (F a A), <- !app_assoc. exact (G a A).
  - destruct (tail_same [] x Hx Rx) as (p & f & G). exists p, f. intros a A. rewrite split_tail, (F a A). exact (G a A).
Qed.

(** Two URIs with the same text after their authorities *)
Section Two.
Variables a b : str.
Hypothesis A : authority a. Hypothesis B : authority b.
Record twins (u v : uri) : Prop := mkTwins {
  tw_ours : ours a u; tw_ours' : ours b v;
  tw_path : p_path (u_p u) = p_path (u_p v);
  tw_text : exists x, noq x /\ rooted x /\ u_uri u = pre ++ a ++ x /\ u_uri v = pre ++ b ++ x /\ (x = [cSlash] -> p_path (u_p u) = [cSlash]);
  tw_made : rewritten a b u v }.
Hypothesis Ca : exists q, creds a = Ok q. Hypothesis Cb : exists q, creds b = Ok q.
Lemma made_twins x : noq x -> rooted x -> exists u v, mk_uri UMemory (pre ++ a ++ x) cSlash [] = Ok u /\ mk_uri UMemory (pre ++ b ++ x) cSlash [] = Ok v /\ twins u v.
Proof.
  intros Hx Rx. destruct (split_same _ (replace_char_noq x Hx) (rooted_back x Rx)) as (p & f & G).
  assert (W : forall c, authority c -> (exists q, creds c = Ok q) -> exists u, mk_uri UMemory (pre ++ c ++ x) cSlash [] = Ok u /\ p_path (u_p u) = p /\ u_uri u = pre ++ c ++ replace_char cBack cSlash x).
  { intros c C (q & Q). unfold mk_uri. change (bad_init_kw []) with false. cbv iota. rewrite (clean_is c C).
    destruct (parse_is c C _ (replace_char_noq x Hx) (rooted_back x Rx)) as (p' & f' & _ & _ & _ & E). cbv zeta. rewrite E, Q.
    assert (P : p' = p).
    { unfold uri_parse in E. rewrite (G c C) in E. cbn [rbind s_authority s_query s_scheme s_path s_fragment] in E.
      assert (Ec : contains (lit "((") c = false) by (apply (contains_not_char _ cLpar); [cbn; tauto|apply (auth_not c C); cbn; tauto]).
      rewrite Ec in E. rewrite Q in E. unfold creds in Q. destruct c as [|c0 w].
      - injection Q as <-. cbn in E. injection E as E _. congruence.
      - destruct (split_authority (c0 :: w)) as [[[us pw] ho] po]. destruct (match po with Some (d :: t) => py_int (d :: t) | _ => Ok 0%Z end); [|discriminate Q].
        cbn [rbind] in Q. injection Q as <-. cbn in E. injection E as E _. congruence. }
    destruct q as [[[us pw] ho] po]. cbn [rbind p_username p_password p_query].
    assert (T : forall n v, take_cred n v [] [] = (v, [])) by (intros n [v|]; reflexivity). rewrite !T.
    eexists. split; [reflexivity|]. cbn [u_p p_path u_uri]. split; [exact P|reflexivity]. }
  destruct (W a A Ca) as (u & U1 & U2 & U3), (W b B Cb) as (v & V1 & V2 & V3). exists u, v. split; [exact U1|]. split; [exact V1|].
  split; [exact (ours_made a x u Hx Rx U1)|exact (ours_made b x v Hx Rx V1)|congruence| |exists x; now repeat split]. exists (replace_char cBack cSlash x). split; [now apply replace_char_noq|]. split; [now apply rooted_back|]. split; [exact U3|]. split; [exact V3|].
  intros Ex. rewrite U2. assert (An : authority []) by (split; [constructor|discriminate]). specialize (G [] An). rewrite Ex in G. vm_compute in G. injection G as G _. now rewrite <- G.
Qed.
Lemma made_rel x : noq x -> rooted x -> rel twins (mk_uri UMemory (pre ++ a ++ x) cSlash []) (mk_uri UMemory (pre ++ b ++ x) cSlash []).
Proof. intros Hx Rx. destruct (made_twins x Hx Rx) as (u & v & -> & -> & T). exact T. Qed.
Lemma twins_path u v : twins u v -> u_path u = u_path v.
Proof. intros [O O' P _ _]. unfold u_path. rewrite (sh_cls _ _ (ours_shape a A u O)), (sh_cls _ _ (ours_shape b B v O')). unfold base_path. now rewrite P. Qed.

Lemma div_text c u n : authority c -> ours c u -> noq n ->
  u_div u n = mk_uri UMemory (pre ++ c ++ rstrip_p is_slash (p_path (u_p u)) ++ [cSlash] ++ n) cSlash [].
Proof.
  intros C Hu Hn. pose proof Hu as O. apply (ours_shape c C) in Hu. unfold u_div, u_join. rewrite (sh_sep _ _ Hu), N.eqb_refl. cbn [rev app].
  rewrite (shape_extras c u Hu), (sh_cls _ _ Hu).
  destruct (sh_parsed _ _ Hu) as (p & f & us & pw & ho & po & Cr & Np & Rp & U1 & U2 & E). unfold u_scheme. rewrite E. cbn [p_scheme p_path p_query map rev app].
  cbn [uri_from_parts rbind].
  assert (Nl : as_list_netloc (mkParsed (Some (lit "memory")) (Some c) p [] f [] us pw ho po (netloc_of ho po)) = c).
  { unfold as_list_netloc. cbn [p_vpath p_authority p_netloc]. unfold creds in Cr. destruct c as [|c0 w]; [|reflexivity]. injection Cr as <- <- <- <-. reflexivity. }
  rewrite Nl. cbn [join_with]. set (t := rstrip_p is_slash p ++ [cSlash] ++ n).
  assert (Nt : noq t). { unfold t. apply noq_app; [apply (noq_incl _ _ Np); apply rstrip_in|]. apply noq_app; [intros [X|[]]; discriminate X|exact Hn]. }
  assert (Rt : rooted t).
  { unfold t. right. destruct (rstrip_p is_slash p) as [|c0 w] eqn:R; [now eexists|]. destruct Rp as [->|[q ->]]; [discriminate R|].
    assert (F : exists z, cSlash :: q = (c0 :: w) ++ z). { destruct (rstrip_decomp is_slash (cSlash :: q)) as (z & Ez & _). rewrite R in Ez. now exists z. }
    destruct F as [z F]. injection F as <- F. now eexists. }
  change (lit "memory" ++ lit "://" ++ c ++ t) with (pre ++ c ++ t).
  change (rstrip_p is_slash p ++ cSlash :: n) with t.
  destruct (mk_uri UMemory (pre ++ c ++ t) cSlash []) as [u'|e] eqn:M; cbn [rbind]; [|reflexivity]. f_equal.
  pose proof (ours_made c t u' Nt Rt M) as O'. pose proof (ours_shape c C u' O') as S'.
  destruct (sh_parsed _ _ S') as (p' & f' & us' & pw' & ho' & po' & _ & _ & _ & _ & _ & E'). destruct u' as [cl tx sp pp ex us2 pw2]. cbn [u_p] in E'. rewrite E'. reflexivity.
Qed.
Lemma twins_div u v n : twins u v -> noq n -> rel twins (u_div u n) (u_div v n).
Proof.
  intros T Hn. destruct T as [O O' P _ _]. rewrite (div_text a u n A O Hn), (div_text b v n B O' Hn), <- P.
  destruct (sh_parsed _ _ (ours_shape a A u O)) as (p & f & us & pw & ho & po & _ & Np & Rp & _ & _ & E). rewrite E. cbn [p_path]. apply made_rel.
  - apply noq_app; [apply (noq_incl _ _ Np); apply rstrip_in|]. apply noq_app; [intros [X|[]]; discriminate X|exact Hn].
  - right. destruct (rstrip_p is_slash p) as [|c0 w] eqn:R; [now eexists|]. destruct Rp as [->|[q ->]]; [discriminate R|].
    assert (F : exists z, cSlash :: q = (c0 :: w) ++ z). { destruct (rstrip_decomp is_slash (cSlash :: q)) as (z & Ez & _). rewrite R in Ez. now exists z. }
    destruct F as [z F]. injection F as <- F. now eexists.
Qed.
Lemma twins_scheme u v u' v' : twins u v -> twins u' v' -> opt_eqb (u_scheme u) (u_scheme u') = opt_eqb (u_scheme v) (u_scheme v').
Proof.
  intros [O1 O2 _ _ _] [O3 O4 _ _ _]. unfold u_scheme.
  destruct (sh_parsed _ _ (ours_shape a A u O1)) as (? & ? & ? & ? & ? & ? & _ & _ & _ & _ & _ & E1), (sh_parsed _ _ (ours_shape a A u' O3)) as (? & ? & ? & ? & ? & ? & _ & _ & _ & _ & _ & E2),
    (sh_parsed _ _ (ours_shape b B v O2)) as (? & ? & ? & ? & ? & ? & _ & _ & _ & _ & _ & E3), (sh_parsed _ _ (ours_shape b B v' O4)) as (? & ? & ? & ? & ? & ? & _ & _ & _ & _ & _ & E4).
  now rewrite E1, E2, E3, E4.
Qed.
Lemma twins_str u v : twins u v -> rel whatever (u_str u) (u_str v).
Proof.
  intros [O1 O2 _ _ _]. unfold u_str. rewrite (sh_cls _ _ (ours_shape a A u O1)), (sh_cls _ _ (ours_shape b B v O2)).
  destruct (sh_parsed _ _ (ours_shape a A u O1)) as (? & ? & ? & ? & ? & ? & _ & _ & _ & _ & _ & E1), (sh_parsed _ _ (ours_shape b B v O2)) as (? & ? & ? & ? & ? & ? & _ & _ & _ & _ & _ & E2).
  rewrite E1, E2. unfold parsed_str. cbn. exact I.
Qed.
Lemma text_slash u v : twins u v -> u_path u <> [] -> exists r, noq r /\ u_uri u = pre ++ a ++ cSlash :: r /\ u_uri v = pre ++ b ++ cSlash :: r /\ (u_path u <> [cSlash] -> r <> []).
Proof.
  intros [O O' P (x & Hx & Rx & E1 & E2 & E3) _] Hp. destruct Rx as [->|[r ->]].
  - exfalso. apply Hp. rewrite app_nil_r in E1. pose proof (sh_none _ _ (ours_shape a A u O) E1) as Q. unfold u_path. rewrite (sh_cls _ _ (ours_shape a A u O)). unfold base_path. now rewrite Q.
  - exists r. split; [intros I; apply Hx; now right|]. split; [exact E1|]. split; [exact E2|]. intros N ->. apply N. unfold u_path. rewrite (sh_cls _ _ (ours_shape a A u O)). unfold base_path. now rewrite (E3 eq_refl).
Qed.
Lemma last_text c r : authority c -> r <> [] ->
  match rev (split_on cSlash (pre ++ c ++ cSlash :: r)) with [] => [] | [x] => x | x :: y :: _ => match x with [] => y | _ => x end end
  = match rev (split_on cSlash r) with [] => [] | [x] => x | x :: y :: _ => match x with [] => y | _ => x end end.
Proof.
  intros C Hr. change (pre ++ c ++ cSlash :: r) with (lit "memory:" ++ cSlash :: ([] ++ cSlash :: (c ++ cSlash :: r))).
  rewrite split_on_app by (intros I; cbn in I; repeat (destruct I as [I|I]; [discriminate I|]); exact I). rewrite split_on_app by intros [].
  rewrite split_on_app by (apply (auth_not c C); cbn; tauto). cbn [rev]. rewrite <- !app_assoc. destruct (rev (split_on cSlash r)) as [|x [|y l]] eqn:E.
  - exfalso. apply (f_equal (@rev str)) in E. rewrite rev_involutive in E. pose proof (join_split cSlash r) as J. rewrite E in J. cbn in J. now destruct Hr.
  - assert (Ex : x <> []). { intros ->. apply (f_equal (@rev str)) in E. rewrite rev_involutive in E. pose proof (join_split cSlash r) as J. rewrite E in J. cbn in J. now destruct Hr. }
    cbn [app]. now destruct x.
  - reflexivity.
Qed.
Lemma twins_last u v : twins u v -> u_path u <> [] -> u_path u <> [cSlash] -> u_last u = u_last v /\ noq (u_last u).
Proof.
  intros T H1 H2. split; [|apply (last_noq a A); apply T]. destruct (text_slash u v T H1) as (r & _ & E1 & E2 & Hr). specialize (Hr H2).
  unfold u_last. rewrite E1, E2. etransitivity; [exact (last_text a r A Hr)|symmetry; exact (last_text b r B Hr)].
Qed.
(** *** The parent *)
Lemma end_slash c y : authority c -> c <> [] -> suffixb (lit "//") (pre ++ c ++ y) = suffixb (lit "//") y.
Proof.
  intros C Hc. destruct (exists_last Hc) as (w & d & ->). assert (Hd : N.eqb cSlash d = false).
  { apply N.eqb_neq. intros <-. apply (auth_not _ C cSlash); [cbn; tauto|]. apply in_app_iff. right. now left. }
  unfold suffixb. rewrite !rev_app_distr. cbn [rev app]. rewrite <- !app_assoc. cbn [app]. change (rev (lit "//")) with [cSlash; cSlash].
  destruct (rev y) as [|y1 [|y2 l]]; cbn [app prefixb]; rewrite ?Hd, ?andb_false_r; reflexivity.
Qed.
Lemma twins_split u v : a <> [] -> b <> [] -> twins u v -> u_path u <> [] -> rel (fun x y => twins (fst x) (fst y) /\ snd x = snd y) (u_split u) (u_split v).
Proof.
  intros Ha Hb T Hp. pose proof T as [O O' P _ _]. destruct (text_slash u v T Hp) as (r & Hr & E1 & E2 & _). unfold u_split.
  rewrite (sh_cls _ _ (ours_shape a A u O)), (sh_cls _ _ (ours_shape b B v O')), (sh_sep _ _ (ours_shape a A u O)), (sh_sep _ _ (ours_shape b B v O')), (shape_extras a u (ours_shape a A u O)), (shape_extras b v (ours_shape b B v O')), E1, E2.
  assert (F : exists y second, noq y /\ rooted y /\ forall c, cut_last cSlash (pre ++ c ++ cSlash :: r) = Some (pre ++ c ++ y, second)).
  { destruct (cut_last cSlash r) as [[r1 r2]|] eqn:C.
    - apply cut_last_some in C as [-> N2]. exists (cSlash :: r1), r2. split; [|split].
      + intros [X|X]; [discriminate X|]. apply Hr. apply in_app_iff. now left.
      + right. now eexists.
      + intros c. pose proof (cut_last_app cSlash (pre ++ c ++ cSlash :: r1) r2 N2) as C1. rewrite <- !app_assoc in C1. exact C1.
    - apply cut_last_none in C. exists [], r. split; [intros []|]. split; [now left|]. intros c. pose proof (cut_last_app cSlash (pre ++ c) r C) as C1. rewrite <- app_assoc in C1. rewrite app_nil_r. exact C1. }
  destruct F as (y & second & Ny & Ry & F). rewrite !F, (end_slash a y A Ha), (end_slash b y B Hb).
  set (z := if suffixb (lit "//") y then y ++ [cSlash] else y).
  assert (Z : forall c, (if suffixb (lit "//") y then (pre ++ c ++ y) ++ [cSlash] else pre ++ c ++ y) = pre ++ c ++ z) by (intros c; unfold z; destruct (suffixb (lit "//") y); [now rewrite <- !app_assoc|reflexivity]).
  rewrite !Z. change (match pre ++ a ++ z with [] => [cDot] | _ => pre ++ a ++ z end) with (pre ++ a ++ z). change (match pre ++ b ++ z with [] => [cDot] | _ => pre ++ b ++ z end) with (pre ++ b ++ z).
  assert (Nz : noq z) by (unfold z; destruct (suffixb _ y); [apply noq_app; [exact Ny|intros [X|[]]; discriminate X]|exact Ny]).
  assert (Rz : rooted z) by (unfold z; destruct (suffixb _ y); [right; destruct Ry as [->|[q ->]]; now eexists|exact Ry]).
  pose proof (made_rel z Nz Rz) as M. destruct (mk_uri UMemory (pre ++ a ++ z) cSlash []), (mk_uri UMemory (pre ++ b ++ z) cSlash []); cbn [rel] in M; try contradiction; cbn [rbind rel fst snd]; auto.
Qed.
Lemma twins_rest s s' u v : twins s s' -> twins u v ->
  strip_p is_space (skipn (length (u_path s) + 1) (u_path u)) = strip_p is_space (skipn (length (u_path s') + 1) (u_path v)) /\ noq (strip_p is_space (skipn (length (u_path s) + 1) (u_path u))).
Proof. intros T1 T2. split; [now rewrite (twins_path _ _ T1), (twins_path _ _ T2)|]. apply (rest_noq a A). apply T2. Qed.
End Two.
