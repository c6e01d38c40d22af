(** The rules of SpecNames.v are the functions of BaseUri.v. *)
From Verif Require Import Str Exc Utf8 UriParse BaseUri StrFacts SpecUri SpecParse ParseFacts ParseFacts2 ParseFacts3 ParseFacts4 SpecNames.

Definition half_text (t : str) : str * str := match cut_last cSlash t with Some fs => fs | None => ([], t) end.
Lemma halves_iff t a b : halves t a b <-> half_text t = (a, b).
Proof.
  unfold half_text. split.
  - intros [x y -> F|F]; [rewrite cut_last_app by now apply free1|rewrite (proj2 (cut_last_none _ _))]; auto. now apply free1.
  - destruct (cut_last cSlash t) as [[x y]|] eqn:E.
    + intros H. injection H as <- <-. apply cut_last_some in E as [E N]. apply hv_cut; auto. now apply free1.
    + intros H. injection H as <- <-. apply hv_none. apply free1. now apply cut_last_none.
Qed.
Definition dir_of (first : str) : str :=
  let first := if suffixb (lit "//") first then first ++ [cSlash] else first in match first with [] => [cDot] | _ => first end.
Lemma dir_iff a t : dir_text a t <-> dir_of a = t.
Proof.
  unfold dir_of. split.
  - intros [r ->| -> |N F].
    + rewrite (proj2 (suffixb_spec _ _)) by eauto. destruct r; reflexivity.
    + reflexivity.
    + destruct (suffixb (lit "//") a) eqn:E; [apply suffixb_spec in E as [r E]; now destruct (F r)|]. destruct a; congruence.
  - intros <-. destruct (suffixb (lit "//") a) eqn:E.
    + apply suffixb_spec in E as [r E]. assert (X : dir_text a (a ++ [cSlash])) by now apply dt_root with r. destruct a; exact X.
    + destruct a as [|c a]; [now apply dt_none|]. apply dt_plain; [discriminate|]. intros r H. assert (X : suffixb (lit "//") (c :: a) = true) by (apply suffixb_spec; eauto). congruence.
Qed.
Definition quest_text (b : str) : str := match cut_first cQuest b with Some (a, _) => a | None => b end.
Lemma quest_iff b n : before_quest b n <-> quest_text b = n.
Proof.
  unfold quest_text. split.
  - intros [x y -> F|F]; [rewrite cut_first_app; [reflexivity|now apply free1]|]. rewrite (proj2 (cut_first_none _ _)); [reflexivity|now apply free1].
  - intros <-. destruct (cut_first cQuest b) as [[x y]|] eqn:E.
    + apply cut_first_some in E as [E N]. apply bq_cut with y; auto. now apply free1.
    + apply bq_none, free1. now apply cut_first_none.
Qed.
Lemma handed_iff u ex : handed_on u ex <-> u_all_extras u = ex.
Proof.
  unfold u_all_extras. split.
  - intros [W|W]; [apply web_iff in W; now rewrite W|]. destruct (is_http (u_scheme u)) eqn:E; [|reflexivity]. apply web_iff in E. contradiction.
  - intros <-. destruct (is_http (u_scheme u)) eqn:E; [apply ho_web; now apply web_iff|apply ho_other]. rewrite web_iff. congruence.
Qed.
Lemma split_steps u : u_split u = let (a, b) := half_text (u_uri u) in
  match mk_uri (u_cls u) (dir_of a) (u_sep u) (u_all_extras u) with Ok d => Ok (d, quest_text b) | Raise e => Raise e end.
Proof. unfold u_split, half_text. destruct (cut_last cSlash (u_uri u)) as [[a b]|]; reflexivity. Qed.
Theorem splits_iff u r : splits u r <-> u_split u = r.
Proof.
  rewrite split_steps. split.
  - intros [a b t n ex x H D Q X B]. apply halves_iff in H. apply dir_iff in D. apply quest_iff in Q. apply handed_iff in X. apply built_iff in B.
    rewrite H, D, X, B, Q. reflexivity.
  - destruct (half_text (u_uri u)) as [a b] eqn:H. intros <-.
    apply spl with a b (dir_of a) (u_all_extras u); [now apply halves_iff|now apply dir_iff|now apply quest_iff|now apply handed_iff|now apply built_iff].
Qed.

Theorem ups_iff k : forall u r, ups k u r <-> u_dirname_loop k u = r.
Proof.
  induction k as [|k IH]; intros u r; cbn [u_dirname_loop].
  - split; [intros H; now inversion H|intros <-; constructor].
  - split.
    + intros H. inversion H as [|k' u' d n r' S U|k' u' e S]; subst; apply splits_iff in S; rewrite S; cbn [rbind]; [|reflexivity]. now apply IH.
    + destruct (u_split u) as [[d n]|e] eqn:S; cbn [rbind fst]; intros H.
      * apply up_more with d n; [now apply splits_iff|now apply IH].
      * subst r. apply up_fails. now apply splits_iff.
Qed.
Lemma ext_iff n a b : ext_of n a b <-> splitext n = (a, b).
Proof.
  unfold splitext. split.
  - intros [x y -> F (c & Ic & Nc)|F].
    + rewrite cut_last_app by now apply free1. destruct (forallb (N.eqb cDot) x) eqn:E; [|reflexivity]. rewrite forallb_forall in E. apply E in Ic. apply N.eqb_eq in Ic. congruence.
    + destruct (cut_last cDot n) as [[x y]|] eqn:E; [|reflexivity]. apply cut_last_some in E as [E Ny]. replace (forallb (N.eqb cDot) x) with true; [reflexivity|].
      symmetry. apply forallb_forall. intros c Ic. apply N.eqb_eq. symmetry. apply (F x y); auto. now apply free1.
  - destruct (cut_last cDot n) as [[x y]|] eqn:E.
    + apply cut_last_some in E as [E Ny]. destruct (forallb (N.eqb cDot) x) eqn:D; intros H; injection H as <- <-.
      * apply ex_none. intros x' y' E' F' c Ic. rewrite forallb_forall in D. symmetry. apply N.eqb_eq. apply D.
        apply free1 in F'. pose proof (cut_last_app cDot x' y' F') as C1. pose proof (cut_last_app cDot x y Ny) as C2. rewrite <- E' in C1. rewrite <- E in C2. congruence.
      * apply ex_some; auto; [now apply free1|]. clear -D. induction x as [|c x IH]; [discriminate|]. cbn in D.
        destruct (N.eqb_spec cDot c) as [<-|Nc]; [|exists c; cbn; auto]. destruct (IH D) as (d & Id & Nd). exists d. cbn. auto.
    + intros H. injection H as <- <-. apply cut_last_none in E. apply ex_none. intros x y -> _. destruct E. apply in_or_app. right. now left.
Qed.

Lemma split_on_last c a b : ~ In c b -> split_on c (a ++ c :: b) = split_on c a ++ [b].
Proof. intros H. rewrite split_on_gen. now rewrite (split_on_none c b). Qed.
Lemma last_iff u n : last_name (u_uri u) n <-> u_last u = n.
Proof.
  unfold u_last. set (t := u_uri u). clearbody t. split.
  - intros [a b -> F N|a b -> F|b -> F|F].
    + apply free1 in F. rewrite split_on_last, rev_app_distr by auto. cbn. destruct (rev (split_on cSlash a)) eqn:E; [reflexivity|]. destruct b; congruence.
    + apply free1 in F. replace (a ++ cSlash :: b ++ [cSlash]) with ((a ++ cSlash :: b) ++ cSlash :: []) by now rewrite <- app_assoc.
      rewrite split_on_last by auto. rewrite split_on_last by auto. rewrite !rev_app_distr. reflexivity.
    + apply free1 in F. rewrite split_on_last by auto. rewrite split_on_none by auto. reflexivity.
    + apply free1 in F. rewrite split_on_none by auto. reflexivity.
  - intros <-. destruct (cut_last cSlash t) as [[a b]|] eqn:E.
    + apply cut_last_some in E as [-> Nb]. rewrite split_on_last, rev_app_distr by auto. cbn [rev app]. destruct b as [|c b].
      * destruct (cut_last cSlash a) as [[x y]|] eqn:E.
        -- apply cut_last_some in E as [-> Ny]. rewrite split_on_last, rev_app_distr by auto. cbn [rev app]. apply ln_slash with x; [now rewrite <- app_assoc|now apply free1].
        -- apply cut_last_none in E. rewrite split_on_none by auto. cbn [rev app]. apply ln_first; auto. now apply free1.
      * destruct (rev (split_on cSlash a)) eqn:R.
        -- apply ln_name with a; [reflexivity|now apply free1|discriminate].
        -- apply ln_name with a; [reflexivity|now apply free1|discriminate].
    + apply cut_last_none in E. rewrite split_on_none by auto. cbn. apply ln_only. now apply free1.
Qed.

(** join *)
Lemma slashes_all s : slashes s <-> forallb is_slash s = true.
Proof.
  unfold slashes, is_slash. rewrite forallb_forall. split; intros H c I; [apply N.eqb_eq; auto|apply N.eqb_eq, H, I].
Qed.
Lemma end_stops w : (forall r, w <> r ++ [cSlash]) <-> stops is_slash (rev w).
Proof.
  split.
  - intros H. destruct (rev w) as [|c r] eqn:E; [exact I|]. cbn. unfold is_slash. apply N.eqb_neq. intros ->. apply (H (rev r)). rewrite <- (rev_involutive w), E. reflexivity.
  - intros S r ->. rewrite rev_app_distr in S. cbn in S. discriminate S.
Qed.
Lemma tail_iff s w : tail_cut s w <-> rstrip_p is_slash s = w.
Proof.
  split.
  - intros (b & -> & Sb & E). apply rstrip_app; [now apply slashes_all|now apply end_stops].
  - intros <-. destruct (rstrip_decomp is_slash s) as (t & E & A & S). exists t. split; [exact E|]. split; [now apply slashes_all|]. now apply end_stops.
Qed.
Lemma both_iff s w : both_cut s w <-> strip_p is_slash s = w.
Proof.
  unfold strip_p. split.
  - intros (a & b & -> & Sa & Sb & E). apply slashes_all in Sa, Sb. destruct w as [|c w].
    + cbn [app]. unfold lstrip_p at 1. rewrite span_all by (rewrite forallb_app, Sa, Sb; reflexivity). reflexivity.
    + unfold lstrip_p at 1. rewrite span_app; [|exact Sa|].
      * cbn [snd]. apply rstrip_app; [exact Sb|]. apply end_stops. intros r. apply (E r).
      * cbn. unfold is_slash. apply N.eqb_neq. intros ->. now destruct (E w) as [_ []].
  - intros <-. set (l := lstrip_p is_slash s). destruct (rstrip_decomp is_slash l) as (t & El & Bt & St).
    set (w := rstrip_p is_slash l) in *. exists (fst (span is_slash s)), t. split; [rewrite <- El; symmetry; apply span_eq|].
    split; [apply slashes_all, span_fst|]. split; [now apply slashes_all|]. intros r. split; [now apply end_stops|]. intros E.
    assert (X : l = cSlash :: r ++ t) by (rewrite El, E; reflexivity). pose proof (span_snd _ _ _ _ X) as Y. discriminate Y.
Qed.
Lemma swap_iff x y s t : Forall2 (fun c d => (c = x /\ d = y) \/ (c <> x /\ d = c)) s t <-> replace_char x y s = t.
Proof.
  unfold replace_char. split.
  - induction 1 as [|c d s t [[-> ->]|[N ->]] _ IH]; [reflexivity| |]; cbn [map]; rewrite IH; [now rewrite N.eqb_refl|]. now rewrite (proj2 (N.eqb_neq _ _) N).
  - intros <-. induction s as [|c s IH]; [constructor|]. constructor; auto. destruct (N.eqb_spec c x); auto.
Qed.
Lemma Forall2_map {A B} (R : A -> B -> Prop) (f : A -> B) : (forall a b, R a b <-> f a = b) -> forall l m, Forall2 R l m <-> map f l = m.
Proof.
  intros H l m. split.
  - induction 1 as [|a b l m E _ IH]; [reflexivity|]. apply H in E. cbn. now rewrite E, IH.
  - intros <-. induction l; cbn; constructor; auto. now apply H.
Qed.
Definition unsep (sep : N) (args : list str) : list str := if N.eqb sep cSlash then args else map (replace_char sep cSlash) args.
Lemma replace_same c s : replace_char c c s = s.
Proof. unfold replace_char. induction s as [|d s IH]; [reflexivity|]. cbn. rewrite IH. destruct (N.eqb_spec d c); congruence. Qed.
Lemma unsep_iff sep l m : Forall2 (with_slashes sep) l m <-> unsep sep l = m.
Proof.
  rewrite (Forall2_map (with_slashes sep) (replace_char sep cSlash)) by (intros; apply swap_iff). unfold unsep. destruct (N.eqb_spec sep cSlash) as [->|]; [|tauto].
  rewrite (map_ext _ (fun x => x)) by (intros; apply replace_same). now rewrite map_id.
Qed.
Lemma site_text_iff p s : site_text p s <-> as_list_netloc p = s.
Proof.
  unfold as_list_netloc. split.
  - intros [N|a E Ea N|E Ea].
    + destruct (p_vpath p); congruence.
    + rewrite E, Ea. destruct a; congruence.
    + rewrite E. destruct Ea as [-> | ->]; reflexivity.
  - destruct (p_vpath p) as [|c v] eqn:E.
    + destruct (p_authority p) as [[|x a]|] eqn:Ea; intros <-; [apply st_net; auto|apply st_auth; auto; discriminate|apply st_net; auto].
    + intros <-. rewrite <- E. apply st_conn. congruence.
Qed.
Definition asked_text (q : dict str) : res str := match q with [] => Ok [] | _ => match urlencode q with Ok e => Ok (cQuest :: e) | Raise e => Raise e end end.
Lemma asked_iff q r : asked q r <-> asked_text q = r.
Proof.
  unfold asked_text. split.
  - intros [-> |x N <-]; [reflexivity|]. destruct q; [congruence|reflexivity].
  - intros <-. destruct q as [|kv q]; [now apply as_none|]. apply as_some; [discriminate|reflexivity].
Qed.
Lemma requery_eq u r : requery u r = match r with Ok x => Ok (u_set_query x (p_query (u_p u))) | Raise e => Raise e end.
Proof. destruct r; reflexivity. Qed.
Lemma join_steps u init l : forall init' l', unsep (u_sep u) (init ++ [l]) = init' ++ [l'] ->
  u_join u (init ++ [l]) = match asked_text (p_query (u_p u)) with
    | Raise e => Raise e
    | Ok q => requery u (mk_uri (u_cls u) (match u_scheme u with Some sch => sch | None => lit "None" end ++ lit "://" ++ as_list_netloc (u_p u) ++
        join_with [cSlash] (rstrip_p is_slash (p_path (u_p u)) :: map (strip_p is_slash) init' ++ [l']) ++ q) (u_sep u) (u_all_extras u))
    end.
Proof.
  intros init' l' E. unfold u_join. fold (unsep (u_sep u) (init ++ [l])). rewrite E, rev_app_distr. cbn [rev app]. rewrite rev_involutive.
  set (j := join_with _ _). unfold uri_from_parts, asked_text. destruct (p_query (u_p u)) as [|kv q] eqn:Q.
  - cbn [rbind]. rewrite app_nil_r. rewrite requery_eq, Q. destruct (mk_uri _ _ _ _); reflexivity.
  - destruct (urlencode (kv :: q)) as [e|e]; cbn [rbind]; [|reflexivity]. rewrite requery_eq, Q, <- !app_assoc. destruct (mk_uri _ _ _ _); reflexivity.
Qed.
Theorem joins_iff u args r : joins u args r <-> u_join u args = r.
Proof.
  split.
  - intros [->|init l init' l' p mids s e -> U T M S A|init l init' l' p mids s q ex x -> U T M S A X B].
    + unfold u_join. now destruct (N.eqb (u_sep u) cSlash).
    + apply unsep_iff in U. apply asked_iff in A. rewrite (join_steps u init l _ _ U), A. reflexivity.
    + apply unsep_iff in U. apply asked_iff in A. apply tail_iff in T. apply (Forall2_map _ _ both_iff) in M. apply site_text_iff in S. apply handed_iff in X. apply built_iff in B.
      rewrite (join_steps u init l _ _ U), A, T, M, S, X, B. reflexivity.
  - intros <-. destruct args as [|a0 args0].
    { assert (X : u_join u [] = Raise IndexError) by (unfold u_join; now destruct (N.eqb (u_sep u) cSlash)). rewrite X. now apply jo_none. }
    destruct (exists_last (l := a0 :: args0)) as (init & l & ->); [discriminate|].
    destruct (exists_last (l := unsep (u_sep u) (init ++ [l]))) as (init' & l' & U).
    { unfold unsep. destruct (N.eqb _ _); [now destruct init|]. rewrite map_app. now destruct (map (replace_char (u_sep u) cSlash) init). }
    rewrite (join_steps u init l _ _ U). destruct (asked_text (p_query (u_p u))) as [q|e] eqn:A.
    + eapply jo_uri with (init := init) (l := l) (mids := map (strip_p is_slash) init'); [reflexivity|apply unsep_iff, U|apply tail_iff; reflexivity|apply (Forall2_map _ _ both_iff); reflexivity|apply site_text_iff; reflexivity|apply asked_iff; exact A|apply handed_iff; reflexivity|apply built_iff; reflexivity].
    + eapply jo_query with (init := init) (l := l) (mids := map (strip_p is_slash) init'); [reflexivity|apply unsep_iff, U|apply tail_iff; reflexivity|apply (Forall2_map _ _ both_iff); reflexivity|apply site_text_iff; reflexivity|apply asked_iff; exact A].
Qed.
Theorem adds_iff u x r : adds u x r <-> u_add u x = r.
Proof.
  assert (E : u_add u x = requery u (mk_uri (u_cls u) (u_uri u ++ x) (u_sep u) (u_all_extras u))).
  { unfold u_add. rewrite requery_eq. destruct (mk_uri _ _ _ _); reflexivity. }
  rewrite E. split.
  - intros [ex y H B]. apply handed_iff in H. apply built_iff in B. now rewrite H, B.
  - intros <-. apply ad with (u_all_extras u); [now apply handed_iff|now apply built_iff].
Qed.

(** path and str *)
Lemma plain_iff p x : plain_path p x <-> (if prefixb (lit "/.") p then tl p else p) = x.
Proof.
  split.
  - intros [r ->|N]; [reflexivity|]. destruct (prefixb (lit "/.") p) eqn:E; [apply prefixb_spec in E as [r E]; now destruct (N r)|reflexivity].
  - intros <-. destruct (prefixb (lit "/.") p) eqn:E.
    + apply prefixb_spec in E as [r ->]. now apply (pp_dot _ r).
    + apply pp_other. intros r ->. rewrite prefixb_app in E. discriminate E.
Qed.
Theorem paths_iff u x : paths u x <-> u_path u = x.
Proof.
  unfold u_path, base_path. split.
  - intros [y C P|d r r' C S P K|r' C S P K].
    + apply plain_iff in P. destruct C as [C|C]; [destruct (u_cls u); [exact P|congruence|exact P|exact P]|]. rewrite C, N.eqb_refl. destruct (u_cls u); exact P.
    + apply swap_iff in K. rewrite C, (proj2 (N.eqb_neq _ _) S), P. cbn [denormalize_path]. rewrite N.eqb_refl. cbn [andb]. now rewrite K.
    + apply swap_iff in K. rewrite C, (proj2 (N.eqb_neq _ _) S). unfold denormalize_path. destruct (p_path (u_p u)) as [|a [|d [|b r]]]; auto.
      destruct (N.eqb_spec a b) as [->|]; [|exact K]. destruct (N.eqb_spec b cSlash) as [->|]; [|exact K]. now destruct (P d r).
  - destruct (u_cls u) eqn:C; try (intros H; apply pa_plain; [left; congruence|now apply plain_iff]).
    destruct (N.eqb_spec (u_sep u) cSlash) as [S|S]; [intros H; apply pa_plain; [now right|now apply plain_iff]|].
    unfold denormalize_path. destruct (p_path (u_p u)) as [|a [|d [|b r]]] eqn:P.
    1-3: intros H; apply pa_sep; auto; [rewrite P; discriminate|rewrite P; now apply swap_iff].
    destruct (N.eqb_spec a b) as [->|]; cbn [andb].
    + destruct (N.eqb_spec b cSlash) as [->|]; intros H.
      * subst x. apply pa_drive with r; auto. now apply swap_iff.
      * apply pa_sep; auto; [intros; congruence|rewrite P; now apply swap_iff].
    + intros H. apply pa_sep; auto; [intros; congruence|rewrite P; now apply swap_iff].
Qed.
Lemma lacking_iff o : lacking o <-> truthy o = false.
Proof. unfold lacking, truthy. destruct o as [[|c s]|]; split; auto; try discriminate. intros [H|H]; discriminate H. Qed.
Lemma not_lacking o : ~ lacking o <-> truthy o = true.
Proof. rewrite lacking_iff. destruct (truthy o); split; congruence. Qed.
Lemma opt_iff o pre x : opt_part o pre x <-> opt_add pre o = x.
Proof.
  unfold opt_add. split.
  - intros [s [-> N]|[-> | ->]]; [destruct s; congruence|reflexivity|reflexivity].
  - intros <-. destruct o as [[|c s]|]; [apply op_lacking; now right|apply op_given; split; [auto|discriminate]|apply op_lacking; now left].
Qed.
Lemma http_iff s : prefixb (lit "http") s = false <-> no_head (lit "http") s.
Proof.
  unfold no_head. split.
  - intros E r ->. rewrite prefixb_app in E. discriminate E.
  - intros N. destruct (prefixb (lit "http") s) eqn:E; [|reflexivity]. apply prefixb_spec in E as [r E]. now destruct (N r).
Qed.
Lemma head_part_iff s h x : head_part s h x <-> (if (prefixb (lit "http") s && truthy h) || negb (prefixb (lit "http") s) then s ++ lit "://" else []) = x.
Proof.
  split.
  - intros [N L|D].
    + apply lacking_iff in L. rewrite <- http_iff in N. rewrite L. destruct (prefixb (lit "http") s); [reflexivity|congruence].
    + rewrite <- http_iff, not_lacking in D. destruct (prefixb (lit "http") s); [|reflexivity]. destruct D as [D|D]; [discriminate D|]. now rewrite D.
  - destruct (prefixb (lit "http") s) eqn:E; [destruct (truthy h) eqn:T|]; cbn; intros <-.
    + apply hp_host. right. now apply not_lacking.
    + apply hp_web; [rewrite <- http_iff; congruence|now apply lacking_iff].
    + apply hp_host. left. now apply http_iff.
Qed.
Lemma at_part_iff a b x : at_part a b x <-> (if truthy a || truthy b then [cAt] else []) = x.
Proof.
  split.
  - intros [D|A C]; [rewrite !not_lacking in D; destruct D as [-> | ->]; [reflexivity|now rewrite orb_true_r]|]. apply lacking_iff in A, C. now rewrite A, C.
  - destruct (truthy a) eqn:A; [|destruct (truthy b) eqn:C]; cbn; intros <-.
    + apply at_some. left. now apply not_lacking.
    + apply at_some. right. now apply not_lacking.
    + apply at_none; now apply lacking_iff.
Qed.
Lemma host_part_iff h v x : host_part h v x <-> (if truthy h then opt_text h else match v with [] => [] | v => lit "((" ++ v ++ lit "))" end) = x.
Proof.
  split.
  - intros [s [-> N]|L N|L ->]; [destruct s; [congruence|reflexivity]| |]; apply lacking_iff in L; rewrite L; [destruct v; [congruence|reflexivity]|reflexivity].
  - destruct (truthy h) eqn:T.
    + destruct h as [[|c s]|]; try discriminate T. cbn. intros <-. apply hs_host. split; [reflexivity|discriminate].
    + apply lacking_iff in T. destruct v; intros <-; [now apply hs_none|apply hs_conn; [exact T|discriminate]].
Qed.
Lemma port_part_iff z x : port_part z x <-> (if (z =? 0)%Z then [] else [cColon] ++ str_of_Z z) = x.
Proof.
  split.
  - intros [N| ->]; [|reflexivity]. rewrite (proj2 (Z.eqb_neq _ _) N). reflexivity.
  - destruct (Z.eqb_spec z 0); intros <-; [now apply pt_none|]. rewrite <- signed_iff. now apply SpecNames.pt_some.
Qed.
Lemma query_shown_iff q x : query_shown q x <-> query_text q = x.
Proof.
  split.
  - intros [|d N]; [reflexivity|]. destruct d; [congruence|reflexivity].
  - intros <-. destruct q; [constructor|]. apply (qs_some (p :: q)). discriminate.
Qed.
Theorem strs_iff u r : strs u r <-> u_str u = r.
Proof.
  assert (E : u_str u = match u_cls u with ULocal => Ok (u_path u) | _ => parsed_str (u_p u) end) by (unfold u_str; now destruct (u_cls u)).
  split.
  - intros [x C P|C S|s x1 x2 x3 x4 x5 x6 x7 x8 C S H1 H2 H3 H4 H5 H6 H7 H8].
    + apply paths_iff in P. now rewrite E, C, P.
    + assert (X : u_str u = parsed_str (u_p u)) by (rewrite E; destruct (u_cls u); congruence). rewrite X. unfold parsed_str. unfold u_scheme in S. now rewrite S.
    + assert (X : u_str u = parsed_str (u_p u)) by (rewrite E; destruct (u_cls u); congruence). rewrite X. unfold parsed_str. unfold u_scheme in S. rewrite S.
      apply head_part_iff in H1. apply opt_iff in H2, H3, H8. apply at_part_iff in H4. apply host_part_iff in H5. apply port_part_iff in H6. apply query_shown_iff in H7.
      subst. destruct (p_vpath (u_p u)); reflexivity.
  - intros <-. destruct (u_cls u) eqn:C.
    2: { rewrite E. apply st_local; [exact C|now apply paths_iff]. }
    all: rewrite E; unfold parsed_str; destruct (p_scheme (u_p u)) as [s|] eqn:S; [|apply st_none; [congruence|exact S]].
    all: eapply st_text; [congruence|exact S|apply head_part_iff; reflexivity|apply opt_iff; reflexivity|apply opt_iff; reflexivity|apply at_part_iff; reflexivity|apply host_part_iff; destruct (p_vpath (u_p u)); reflexivity|apply port_part_iff; reflexivity|apply query_shown_iff; reflexivity|apply opt_iff; reflexivity].
Qed.
Lemma unipaths_iff u x : unipaths (p_path (u_p u)) x <-> u_unipath u = x.
Proof.
  unfold u_unipath. set (p := p_path (u_p u)). clearbody p. split.
  - intros [r [-> | ->]|N]; [reflexivity|reflexivity|].
    destruct (prefixb [cDot] p) eqn:D; [apply head_iff in D as [r D]; now destruct (N r)|]. destruct (prefixb [cSlash] p) eqn:S; [apply head_iff in S as [r S]; now destruct (N r)|]. reflexivity.
  - destruct (prefixb [cDot] p) eqn:D; [apply head_iff in D as [r D]; intros <-; apply up_same with r; auto|]. destruct (prefixb [cSlash] p) eqn:S; [apply head_iff in S as [r S]; intros <-; apply up_same with r; auto|].
    intros <-. apply up_dot. intros r. split; intros E.
    + assert (X : prefixb [cDot] p = true) by (apply head_iff; eauto). congruence.
    + assert (X : prefixb [cSlash] p = true) by (apply head_iff; eauto). congruence.
Qed.
Lemma absolute_iff u : absolute (p_path (u_p u)) <-> u_is_absolute u = true.
Proof.
  unfold u_is_absolute, absolute. set (p := p_path (u_p u)). clearbody p. destruct (prefixb (lit "/.") p) eqn:E.
  - apply prefixb_spec in E as [r ->]. split; [intros [_ N]; now destruct (N r)|discriminate].
  - rewrite head_iff. split; [tauto|]. intros H. split; auto. intros r ->. rewrite prefixb_app in E. discriminate E.
Qed.
