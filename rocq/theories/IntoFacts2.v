(** Writing and making directories below a path whose names are firm. *)
From Verif Require Import Str Exc UriParse BaseUri StrFacts SpecUri SpecNames UriFacts Mem Misc Generic Posix SpecLocal Local LocalFacts1 LocalFacts12 LocalFacts15 LocalFacts17 LocalFacts18 MoveFacts.
From Verif Require Import SpecPosix SpecStay SpecInto PosixFacts PosixFacts2 StayFacts StayFacts2 StayFacts3 IntoFacts.
Open Scope string_scope.
Open Scope list_scope.
Local Notation LB := loc_backend.

(** ** Lookup when entries are added *)
Lemma kept_refl e : kept e e. Proof. destruct e; constructor. Qed.
Lemma kept_trans a b c : kept a b -> kept b c -> kept a c. Proof. intros H K. inversion H; subst; inversion K; subst; constructor. Qed.
Lemma grown_refl x : grown x x. Proof. repeat split. intros q e H. exists e. split; [exact H|apply kept_refl]. Qed.
Lemma grown_trans x y z : grown x y -> grown y z -> grown x z.
Proof.
  intros (A1 & A2 & A3 & A) (B1 & B2 & B3 & B). repeat split; try congruence. intros q e H. destruct (A q e H) as (e1 & H1 & K1). destruct (B q e1 H1) as (e2 & H2 & K2).
  exists e2. split; [exact H2|now apply (kept_trans e e1)].
Qed.
Definition wider (t t' : ptree) : Prop := forall q e, pget q t = Some e -> exists e', pget q t' = Some e' /\ kept e e'.
Lemma walk_wider t t' f : wider t t' -> forall b cs cur p e, pwalk t f b cur cs = Ok (At p e) -> exists e', pwalk t' f b cur cs = Ok (At p e') /\ kept e e'.
Proof.
  intros T. induction b as [|b IHb]; intros cs; induction cs as [|c cs IH]; intros cur p e; rewrite (pwalk_eq t _ _ cur), (pwalk_eq t' _ _ cur);
    (destruct (pget cur t) as [g|] eqn:E; [|discriminate]); destruct (T _ _ E) as (g' & Eg & Kg); rewrite Eg;
    inversion Kg; subst; try (intros X; injection X as <- <-; eexists; split; [reflexivity|exact Kg]); try discriminate;
    (destruct (str_eqb c [] || str_eqb c dot); [now apply IH|]); (destruct (str_eqb c dotdot); [now apply IH|]);
    (destruct (pget (cur ++ [c]) t) as [h|] eqn:E'; [|destruct cs; discriminate]); destruct (T _ _ E') as (h' & Eh & Kh); rewrite Eh; inversion Kh; subst; try (now apply IH);
    (destruct (match cs with [] => negb f | _ => false end); [intros X; injection X as <- <-; eexists; split; [reflexivity|exact Kh]|]); try discriminate;
    match goal with |- context [match ?tg with [] => _ | _ => _ end] => destruct tg; [discriminate|] end; now apply IHb.
Qed.
Lemma look_grown x x' f s p e : grown x x' -> plook x f s = Ok (At p e) -> exists e', plook x' f s = Ok (At p e') /\ kept e e'.
Proof. intros (C & _ & _ & W). unfold plook. rewrite C. destruct (has_char 0 s); [discriminate|]. destruct s; [discriminate|]. now apply walk_wider. Qed.

(** ** Lookup of firm names *)
Lemma firm_sp c : firm_name c -> str_eqb c [] || str_eqb c dot = false /\ str_eqb c dotdot = false.
Proof.
  intros F. pose proof (fi_plain _ F) as N. unfold special in N. split; [apply orb_false_iff; split|]; apply not_true_iff_false; intros H; apply str_eqb_eq in H; apply N; auto.
Qed.
Definition landed (t : ptree) (p : list str) (o : spot) : Prop :=
  match o with At q e => q = p /\ pget p t = Some e | Gap d n => d ++ [n] = p /\ pget p t = None end.
Lemma walk_firm t f b : forall k cur o, Forall firm_name k -> (forall a a', k = a ++ a' -> a <> [] -> forall l, pget (cur ++ a) t <> Some (PLink l)) -> k <> [] \/ (forall l, pget cur t <> Some (PLink l)) ->
  pwalk t f b cur k = Ok o -> landed t (cur ++ k) o.
Proof.
  induction k as [|c k IH]; intros cur o F N N0; rewrite (pwalk_eq t _ _ cur); destruct (pget cur t) as [[dd mo mt|mo mt|tg]|] eqn:E; try discriminate.
  - intros X. injection X as <-. rewrite app_nil_r. now split.
  - intros X. injection X as <-. rewrite app_nil_r. now split.
  - exfalso. destruct N0 as [N0|N0]; [easy|now apply (N0 tg)].
  - inversion F as [|? ? Fc Fk]; subst. destruct (firm_sp c Fc) as [S1 S2]. rewrite S1, S2.
    assert (Z : forall l, pget (cur ++ [c]) t <> Some (PLink l)) by (apply (N [c] k); [reflexivity|discriminate]).
    destruct (pget (cur ++ [c]) t) as [[dd' mo' mt'|mo' mt'|tg]|] eqn:E'.
    + intros X. change (c :: k) with ([c] ++ k). rewrite app_assoc. apply (IH (cur ++ [c])); auto; [|right; intros l; rewrite E'; discriminate].
      intros a a' -> Na l. rewrite <- app_assoc. now apply (N ([c] ++ a) a').
    + intros X. change (c :: k) with ([c] ++ k). rewrite app_assoc. apply (IH (cur ++ [c])); auto; [|right; intros l; rewrite E'; discriminate].
      intros a a' -> Na l. rewrite <- app_assoc. now apply (N ([c] ++ a) a').
    + exfalso. now apply (Z tg).
    + destruct k; [|discriminate]. intros X. injection X as <-. now split.
Qed.
Lemma split_under s k : Forall firm_name k -> split_on cSlash (under s k) = split_on cSlash s ++ k.
Proof.
  induction k as [|c k IH] using rev_ind; intros F; [now rewrite under_nil, app_nil_r|]. apply Forall_app in F as [F Fc]. inversion Fc as [|? ? Fc' _]; subst.
  rewrite under_snoc, split_snoc by (apply (fi_signs _ Fc'); cbn; auto). rewrite IH by exact F. now rewrite app_assoc.
Qed.
(** From a directory with a known path *)
Lemma look_from x sw sa f d mo mt k : anchor sw sa -> plook x true sa = Ok (At d (PDir mo mt)) -> Forall firm_name k -> k <> [] ->
  (exists e, plook x f (under sw k) = Raise e) \/ exists b, plook x f (under sw k) = pwalk (p_tree x) f b d k.
Proof.
  intros A L F N. destruct (has_char 0 (under sw k)) eqn:H0; [left; unfold plook; rewrite H0; eauto|right].
  assert (K : exists c r, under sw k = c :: r /\ pwalk (p_tree x) true pbudget (if N.eqb cSlash c then [] else p_cwd x) (split_on cSlash sw) = Ok (At d (PDir mo mt))).
  { destruct A as [[-> ->]|[[-> ->]|[[P _] ->]]].
    - destruct k as [|c k]; [easy|]. exists cSlash, (c ++ concat (map (cons cSlash) k)). split; [reflexivity|]. change (N.eqb cSlash cSlash) with true. cbv iota.
      assert (Lx : pwalk (p_tree x) true pbudget [] [[]; []] = Ok (At d (PDir mo mt))) by exact L. rewrite pwalk_eq in Lx |- *. destruct (pget [] (p_tree x)) as [[| |]|] eqn:G; try discriminate.
      cbn [str_eqb orb split_on] in *. rewrite pwalk_eq, G in Lx. exact Lx.
    - exists cDot, (concat (map (cons cSlash) k)). split; [reflexivity|]. exact L.
    - destruct (px_start _ P) as [(c & r & -> & _)|(r & ->)].
      + exists cSlash, ((c :: r) ++ concat (map (cons cSlash) k)). split; [reflexivity|]. unfold plook in L. destruct (has_char 0 (cSlash :: c :: r)); [discriminate|exact L].
      + exists cDot, ((cSlash :: r) ++ concat (map (cons cSlash) k)). split; [reflexivity|]. unfold plook in L. destruct (has_char 0 (lit "./" ++ r)); [discriminate|exact L]. }
  destruct K as (c & r & E & W). rewrite (look_ne x f _ c r E), H0, split_under by exact F. apply walk_on in W as (b & _ & _ & K). exists b. now apply K.
Qed.

(** ** The invariant *)
Lemma grown_put x q e : (forall e0, pget q (p_tree x) = Some e0 -> kept e0 e) -> grown x (set_tree x (pset q e (p_tree x))).
Proof.
  intros H. repeat split. intros p g G. unfold entry_at in *. cbn [p_tree set_tree]. rewrite pget_pset. destruct (path_eqb p q) eqn:E.
  - apply path_eqb_spec in E. subst. exists e. split; [reflexivity|now apply H].
  - exists g. split; [exact G|apply kept_refl].
Qed.
Section Into.
Variables (x0 : pst) (sw sa : str) (D T : list str) (mo0 mt0 : Z) (ds : option (list str)).
Hypotheses (A : anchor sw sa) (L0 : plook x0 true sa = Ok (At D (PDir mo0 mt0))).
Definition toward (k : list str) : Prop := k <> [] /\ Forall firm_name k /\ (below k T \/ below T k).
Definition inv (x : pst) : Prop :=
  wrote_in x0 x D T /\ no_links x (region D T) /\ match ds with Some d => firm_below x d | None => True end.
Lemma inv_top x : inv x -> exists mo mt, plook x true sa = Ok (At D (PDir mo mt)).
Proof. intros [[G _] _]. destruct (look_grown _ _ _ _ _ _ G L0) as (e & H & K). inversion K; subst. eauto. Qed.
Lemma inv_look x f k o : inv x -> toward k -> plook x f (under sw k) = Ok o -> landed (p_tree x) (D ++ k) o.
Proof.
  intros I (N & F & W) E. destruct (inv_top x I) as (mo & mt & L). destruct (look_from x sw sa f D mo mt k A L F N) as [(e & X)|(b & X)]; [congruence|].
  rewrite X in E. apply walk_firm in E; auto. intros a a' -> Na l H. destruct I as (_ & NL & _). apply (NL (D ++ a) l); [|exact H]. exists a. split; [exact Na|]. split; [reflexivity|].
  destruct W as [[z W]|[z W]]; [left; exists (a' ++ z); now rewrite app_assoc|].
  symmetry in W. apply app_eq_app in W as (m & [[-> ->]|[-> ->]]); [left|right]; now exists m.
Qed.
Lemma inv_put x k e : inv x -> toward k -> (forall l, e <> PLink l) -> (forall e0, pget (D ++ k) (p_tree x) = Some e0 -> kept e0 e) ->
  below T k \/ (pget (D ++ k) (p_tree x) = None /\ exists mo mt, e = PDir mo mt) -> inv (set_tree x (pset (D ++ k) e (p_tree x))).
Proof.
  intros ([G O] & NL & S) (N & F & W) Nl Ke C. set (x' := set_tree x (pset (D ++ k) e (p_tree x))).
  assert (Pg : forall q, pget q (p_tree x') = if path_eqb q (D ++ k) then Some e else pget q (p_tree x)) by (intros q; apply pget_pset).
  assert (R : region D T (D ++ k)) by (exists k; auto).
  split; [split|split].
  - apply (grown_trans x0 x); [exact G|]. now apply grown_put.
  - intros q Nq. rewrite Pg. destruct (path_eqb q (D ++ k)) eqn:E.
    + apply path_eqb_spec in E. subst q. right. split; [exact R|]. destruct C as [[z C]|[C (mo & mt & ->)]]; [exfalso; apply Nq; exists z; now rewrite C, app_assoc|].
      split; [|exists mo, mt; rewrite Pg, path_eqb_refl; reflexivity]. unfold entry_at. destruct (pget (D ++ k) (p_tree x0)) as [g|] eqn:Eg; [|reflexivity].
      destruct G as (_ & _ & _ & G). destruct (G _ _ Eg) as (e' & E' & _). unfold entry_at in E'. congruence.
    + destruct (O q Nq) as [X|(X1 & X2 & X3)]; [left; exact X|right]. repeat split; auto. destruct X3 as (mo & mt & X3). exists mo, mt. rewrite Pg, E. exact X3.
  - intros q t Rq Q. unfold entry_at in Q. rewrite Pg in Q. destruct (path_eqb q (D ++ k)); [injection Q as ->; now apply (Nl t)|]. now apply (NL q t).
  - destruct ds as [d|]; [|exact S]. destruct S as [S1 S2]. split.
    + intros p n Bp. unfold entry_at. rewrite Pg. destruct (path_eqb (p ++ [n]) (D ++ k)) eqn:E; [|now apply S1]. right. apply path_eqb_spec in E.
      destruct (exists_last N) as (k' & c & Ek). rewrite Ek, app_assoc in E. apply app_inj_tail in E as [_ ->]. rewrite Ek in F. apply Forall_app in F as [_ F]. now inversion F.
    + intros q t Bq Q. unfold entry_at in Q. rewrite Pg in Q. destruct (path_eqb q (D ++ k)); [injection Q as ->; now apply (Nl t)|]. now apply (S2 q t).
Qed.
Local Notation keep := (holds inv).
Lemma chop_under k u : toward k -> calm_uri (under sw k) u -> chop (under sw k) = under sw k.
Proof. intros (N & F & _) C. rewrite stem_chop by apply (px_start _ (cu_text _ _ C)). apply bare_stem. now apply firm_end. Qed.
Lemma into_mkdir k u : toward k -> calm_uri (under sw k) u -> keep (os_mkdir (under sw k)).
Proof.
  intros W C x I. unfold os_mkdir. rewrite (chop_under k u W C). unfold sys_mkdir. destruct (plook x false (under sw k)) as [[q e|d n]|e] eqn:E; try exact I.
  destruct (inv_look x _ k _ I W E) as [-> G]. apply inv_put; auto; [discriminate|intros e0; rewrite G; discriminate|]. right. split; [exact G|]. eauto.
Qed.
Lemma into_open k : toward k -> below T k -> forall x, inv x -> inv (snd (os_open_w (under sw k) x)) /\ forall q, fst (os_open_w (under sw k) x) = Ok q -> q = D ++ k.
Proof.
  intros W B x I. unfold os_open_w, refuse_slashed. destruct (slashed (under sw k)).
  { cbn [fst snd]. split; [exact I|]. intros q. destruct (plook x false (chop (under sw k))); discriminate. }
  unfold sys_open_w. destruct (plook x true (under sw k)) as [[q [dd mo mt|mo mt|t]|d n]|e] eqn:E; cbn [fst snd]; try (split; [exact I|discriminate]).
  - destruct (inv_look x _ k _ I W E) as [-> G]. split; [|intros q X; now injection X as <-]. apply inv_put; auto; [discriminate|]. intros e0. rewrite G. intros X. injection X as <-. constructor.
  - destruct (inv_look x _ k _ I W E) as [-> G]. split; [|intros q X; now injection X as <-]. apply inv_put; auto; [discriminate|]. intros e0. rewrite G. discriminate.
Qed.
Lemma into_append k b : toward k -> below T k -> keep (fd_append (D ++ k) b).
Proof.
  intros W B x I. unfold fd_append. cbn [snd]. destruct (pget (D ++ k) (p_tree x)) as [[dd mo mt|mo mt|t]|] eqn:E; try exact I. destruct b; [exact I|].
  apply inv_put; auto; [discriminate|]. intros e0. rewrite E. intros X. injection X as <-. constructor.
Qed.
Lemma into_write k u ds' : toward k -> below T k -> calm_uri (under sw k) u -> keep (loc_write_all u ds').
Proof.
  intros W B C x I. unfold loc_write_all, bind. rewrite (calm_path _ _ C). destruct (into_open k W B x I) as [K1 K2]. destruct (os_open_w (under sw k) x) as [[q|e] y]; cbn [fst snd] in *; [|exact K1].
  rewrite (K2 q eq_refl). now apply into_append.
Qed.
Lemma into_content k u v : toward k -> below T k -> calm_uri (under sw k) u -> keep (loc_copy_content v u).
Proof.
  intros W B C x I. unfold loc_copy_content. unfold bind at 1. assert (Q : snd (os_open_r (u_path v) x) = x) by reflexivity. destruct (os_open_r (u_path v) x) as [[p|e] y]; cbn [snd] in Q; subst y; [|exact I].
  unfold bind at 1. rewrite (calm_path _ _ C). destruct (into_open k W B x I) as [K1 K2]. destruct (os_open_w (under sw k) x) as [[q|e] y]; cbn [fst snd] in *; [|exact K1].
  rewrite (K2 q eq_refl). unfold bind, fd_data. now apply into_append.
Qed.
Lemma into_stat k u v : toward k -> below T k -> calm_uri (under sw k) u -> keep (loc_copystat v u).
Proof.
  intros W B C x I. unfold loc_copystat, sh_copystat. rewrite (calm_path _ _ C). destruct (plook x true (u_path v)) as [[p e|p n]|e]; [|exact I|exact I].
  destruct (plook x true (under sw k)) as [[q f|d n]|e1] eqn:E; [|exact I|exact I]. destruct (inv_look x _ k _ I W E) as [-> G]. cbn [snd].
  assert (Nf : forall l, f <> PLink l). { intros l ->. destruct I as (_ & NL & _). apply (NL (D ++ k) l); [|exact G]. destruct W as (W1 & W2 & W3). exists k. auto. }
  apply inv_put; auto.
  - intros l. destruct f; cbn; try discriminate. intros X. now apply (Nf target).
  - intros e0. rewrite G. intros X. injection X as <-. destruct f; cbn; constructor.
Qed.
End Into.
