(** Copying to a local destination: the destination, and local sources. *)
From Verif Require Import Str Exc UriParse BaseUri StrFacts SpecUri SpecNames UriFacts Mem Misc Generic Posix SpecLocal Local LocalFacts1 LocalFacts12 LocalFacts15 LocalFacts17 LocalFacts18 MoveFacts.
From Verif Require Import SpecPosix SpecStay SpecInto PosixFacts PosixFacts2 StayFacts StayFacts2 StayFacts3 IntoFacts IntoFacts2 IntoFacts3.
Open Scope string_scope.
Open Scope list_scope.
Local Notation LB := loc_backend.

Lemma set_path s u : set_uri s u -> u_path u = s. Proof. intros [C _]. now apply calm_path. Qed.
Lemma set_last pre n u : firm_name n -> set_uri (pre ++ cSlash :: n) u -> u_last u = n.
Proof.
  intros F [_ E]. unfold u_last. rewrite E, app_assoc, split_snoc by (apply (fi_signs _ F); cbn; auto). rewrite rev_app_distr. cbn [rev app].
  pose proof (firm_ne _ F) as N. destruct (rev (split_on cSlash (lit "file://" ++ pre))); [reflexivity|]. now destruct n.
Qed.
Lemma skip_front {A} (a b : list A) : skipn (length a) (a ++ b) = b. Proof. induction a; cbn; auto. Qed.
Lemma under_rest s ms : skipn (length s + 1) (under s ms) = match ms with [] => [] | _ => join_with [cSlash] ms end.
Proof.
  destruct ms as [|m ms].
  - rewrite under_nil. apply skipn_all2. rewrite Nat.add_comm. cbn. auto.
  - rewrite under_join by discriminate. change (s ++ cSlash :: join_with [cSlash] (m :: ms)) with (s ++ [cSlash] ++ join_with [cSlash] (m :: ms)). rewrite app_assoc.
    replace (length s + 1) with (length (s ++ [cSlash])) by (rewrite app_length; reflexivity). apply skip_front.
Qed.

(** ** Directories on the way *)
Section Make.
Context {S : Type}.
Variables (P : S -> Prop) (b : backend S) (sw sa : str) (T : list str).
Hypotheses (A : anchor sw sa)
  (Hook : forall u n, u_scheme u = Some (lit "file") -> guards P (b_hook b u n))
  (Top : forall u, u_scheme u = Some (lit "file") -> u_path u = sa -> yields P (b_isdir b u) (eq true))
  (Dir : forall k u, toward T k -> set_uri (under sw k) u -> guards P (b_isdir b u))
  (Mk : forall k u, toward T k -> set_uri (under sw k) u -> guards P (b_mkdir b u)).
Lemma toward_up ks k : toward T (ks ++ [k]) -> ks <> [] -> toward T ks.
Proof.
  intros (_ & F & W) N. apply Forall_app in F as [F _]. split; [exact N|]. split; [exact F|].
  destruct W as [[z W]|[z W]]; [left; exists ([k] ++ z); now rewrite app_assoc|].
  symmetry in W. apply app_eq_app in W as (m & [[-> E]|[-> E]]); [left|right]; now exists m.
Qed.
Lemma make_keeps fuel : forall k u, toward T k -> set_uri (under sw k) u -> guards P (u_makedirs b fuel u).
Proof.
  assert (Sch : forall s u, set_uri s u -> u_scheme u = Some (lit "file")) by (intros s u [C _]; apply C).
  assert (X : forall k u, toward T k -> set_uri (under sw k) u -> guards P (fs_makedirs b fuel u)).
  { induction fuel as [|f IH]; intros k u W U; cbn [fs_makedirs]; [apply y_raise|].
    eapply y_bind. { unfold u_isdir, hooked. eapply y_bind; [apply Hook; now apply (Sch _ _ U)|]. intros _ _. now apply (Dir k). }
    intros d _. destruct d; [now apply y_ret|]. destruct (exists_last (proj1 W)) as (ks & c & ->).
    apply (y_bind P _ _ (fun pt => snd pt = c /\ ((ks = [] /\ u_path (fst pt) = sa /\ u_scheme (fst pt) = Some (lit "file")) \/ (ks <> [] /\ set_uri (under sw ks) (fst pt))))).
    { apply y_lift. intros [d n] E. cbn [fst snd]. apply (set_split sw sa ks c u d n A); auto. apply W. }
    intros [d n] [-> K]. cbn [fst snd] in *.
    assert (Mkd : guards P (match c with [] => ret tt | _ => u_mkdir b u end)).
    { destruct c; [now apply y_ret|]. unfold u_mkdir, hooked. eapply y_bind; [apply Hook; now apply (Sch _ _ U)|]. intros _ _. now apply (Mk _ _ W U). }
    destruct K as [(-> & Pd & Sd)|[N Sd]].
    - apply (y_bind P _ _ (eq true)). { unfold u_isdir, hooked. eapply y_bind; [now apply Hook|]. intros _ _. now apply Top. }
      intros pd <-. apply (y_bind P _ _ (fun _ => True)); [now apply y_ret|]. intros _ _. exact Mkd.
    - eapply y_bind. { unfold u_isdir, hooked. eapply y_bind; [apply Hook; now apply (Sch _ _ Sd)|]. intros _ _. apply (Dir ks); [now apply (toward_up ks c)|exact Sd]. }
      intros pd _. apply (y_bind P _ _ (fun _ => True)); [|intros _ _; exact Mkd]. destruct pd; [now apply y_ret|]. apply (IH ks); [now apply (toward_up ks c)|exact Sd]. }
  intros k u W U. unfold u_makedirs, hooked. eapply y_bind; [apply Hook; now apply (Sch _ _ U)|]. intros _ _. now apply (X k).
Unshelve. all: exact (fun _ => True).
Qed.
End Make.

Lemma y_quiet {A} (P : pst -> Prop) (m : M pst A) : quiet_op m -> guards P m.
Proof. intros Q s I. split; [now rewrite Q|auto]. Qed.
Lemma y_holds {A} (P : pst -> Prop) (m : M pst A) : holds P m -> guards P m.
Proof. intros Q s I. split; [now apply Q|auto]. Qed.

(** ** The destination *)
Section Dest.
Variables (x0 : pst) (n : str) (v : uri) (D T : list str) (sw sa : str) (ns : list str) (mo0 mt0 : Z) (ds : option (list str)) (is_d : bool).
Hypotheses (A : anchor sw sa) (L0 : plook x0 true sa = Ok (At D (PDir mo0 mt0))) (Fn : firm_name n) (Fns : Forall firm_name ns) (Wv : written (under sw ns) v)
  (Ed : tests x0 true is_pdir (u_path v) = is_d) (ET : T = if is_d then ns ++ [n] else ns) (NL : no_links x0 (region D T)) (Sr : match ds with Some d => firm_below x0 d | None => True end).
Local Notation I := (inv x0 D T ds).
Definition dst (ks : list str) (w : uri) : Prop := Forall firm_name ks /\ set_uri (under sw (T ++ ks)) w.
Lemma T_firm : Forall firm_name T.
Proof. rewrite ET. destruct is_d; [apply Forall_app; auto|exact Fns]. Qed.
Lemma T_ne : T <> [].
Proof.
  intros E. rewrite ET in E. destruct is_d eqn:Ei; [apply app_eq_nil in E as [_ E]; discriminate|]. pose proof Wv as Wv'. rewrite E, under_nil in Wv'. pose proof (written_set _ _ Wv') as W. pose proof Ed as Ed'. rewrite (set_path _ _ W) in Ed'.
  destruct A as [[E1 E2]|[[E1 E2]|[[Pt _] E2]]]; rewrite E1 in W || rewrite E2 in L0.
  - destruct (px_start _ (cu_text _ _ (proj1 W))) as [(? & ? & X & _)|(? & X)]; discriminate X.
  - destruct (px_start _ (cu_text _ _ (proj1 W))) as [(? & ? & X & _)|(? & X)]; discriminate X.
  - clear - Ed' L0. unfold tests in Ed'. rewrite L0 in Ed'. discriminate.
Qed.
Lemma ns_end r : under sw ns <> r ++ [cSlash].
Proof.
  pose proof Fns as Fl. clear - A Fl. destruct ns as [|m l]; [|now apply firm_end]. rewrite under_nil. destruct A as [[-> ->]|[[-> ->]|[[_ B] ->]]]; [| |apply B].
  - destruct r; discriminate.
  - destruct r as [|c [|c' r]]; discriminate.
Qed.
Lemma dst_toward ks w : dst ks w -> toward T (T ++ ks) /\ below T (T ++ ks).
Proof.
  intros [F _]. pose proof T_ne as N. split; [|now exists ks]. split; [intros X; apply app_eq_nil in X as [X _]; now apply N|]. split; [apply Forall_app; split; [apply T_firm|exact F]|right; now exists ks].
Qed.
Lemma dst_start : if is_d then forall w, u_div v n = Ok w -> dst [] w else dst [] v.
Proof.
  pose proof (written_set _ _ Wv) as W. pose proof ns_end as Ns. pose proof ET as E'. clear ET. destruct is_d.
  - intros w E. split; [constructor|]. rewrite app_nil_r, E', <- under_app. apply (set_div _ v n w W); auto.
  - split; [constructor|]. now rewrite app_nil_r, E'.
Qed.
Lemma dst_div ks w ms v' : dst ks w -> Forall firm_name ms -> ms <> [] -> u_div w (join_with [cSlash] ms) = Ok v' -> dst (ks ++ ms) v'.
Proof.
  intros [F U] Fm Nm E. split; [apply Forall_app; auto|]. rewrite app_assoc, <- under_app. apply (set_join _ w ms v' U); auto.
  apply firm_end; [apply Forall_app; split; [apply T_firm|exact F]|]. pose proof T_ne as N. intros X. apply app_eq_nil in X as [X _]. now apply N.
Qed.
Lemma inv_start : I x0.
Proof. split; [split; [apply grown_refl|now left]|]. now split. Qed.
Lemma top_dir u : u_path u = sa -> forall x, I x -> loc_isdir u x = (Ok true, x).
Proof. intros E x Ix. unfold loc_isdir, path_isdir. rewrite LocalFacts18.test_run. unfold tests. rewrite E. destruct (inv_top x0 sa D T mo0 mt0 ds L0 x Ix) as (mo & mt & ->). reflexivity. Qed.
Lemma dst_mkdir k u : toward T k -> set_uri (under sw k) u -> holds I (loc_mkdir u).
Proof.
  intros W U. unfold loc_mkdir. rewrite (set_path _ _ U). destruct (under sw k) eqn:E; [now apply holds_quiet|]. rewrite <- E in *. apply (into_mkdir x0 sw sa D T mo0 mt0 ds A L0 k u W). apply U.
Qed.
Lemma dst_content u ks w : dst ks w -> holds I (loc_copy_content u w).
Proof. intros H. destruct (dst_toward _ _ H) as [W B]. destruct H as [_ [C _]]. now apply (into_content x0 sw sa D T mo0 mt0 ds A L0 (T ++ ks)). Qed.
Lemma dst_stat u ks w : dst ks w -> holds I (loc_copystat u w).
Proof. intros H. destruct (dst_toward _ _ H) as [W B]. destruct H as [_ [C _]]. now apply (into_stat x0 sw sa D T mo0 mt0 ds A L0 (T ++ ks)). Qed.
Lemma dst_write l ks w : dst ks w -> holds I (loc_write_all w l).
Proof. intros H. destruct (dst_toward _ _ H) as [W B]. destruct H as [_ [C _]]. now apply (into_write x0 sw sa D T mo0 mt0 ds A L0 (T ++ ks)). Qed.
End Dest.

(** ** A local source *)
Lemma walk_file t b d mo mt p f rest : rest <> [] -> forall cs cur, pwalk t true b cur cs = Ok (At p (PFile d mo mt)) -> exists e, pwalk t f b cur (cs ++ rest) = Raise e.
Proof.
  intros N. induction b as [|b IHb]; induction cs as [|c cs IH]; intros cur; cbn [app]; rewrite (pwalk_eq t true _ cur), (pwalk_eq t f _ cur);
    (destruct (pget cur t) as [[d' mo' mt'|mo' mt'|tg]|] eqn:E; try discriminate; try (solve [intros _; destruct rest; [easy|eauto]]));
    (destruct (str_eqb c [] || str_eqb c dot); [now apply IH|]); (destruct (str_eqb c dotdot); [now apply IH|]);
    (destruct (pget (cur ++ [c]) t) as [[d2 mo2 mt2|mo2 mt2|tg]|] eqn:E'; [now apply IH|now apply IH| |destruct cs; discriminate]);
    (destruct (cs ++ rest) as [|a l] eqn:Z; [destruct cs; [now subst|discriminate]|]);
    (destruct (match cs with [] => negb true | _ => false end) eqn:M; [destruct cs; discriminate|]); try discriminate;
    destruct tg as [|z tg]; try discriminate. rewrite <- Z, app_assoc. now apply IHb.
Qed.
Section Source.
Variables (x0 : pst) (su : str) (d : list str) (e0 : pent) (D T : list str).
Hypotheses (Bs : bare su) (Ls : plook x0 false su = Ok (At d e0)) (Ne : forall t, e0 <> PLink t).
Local Notation I := (inv x0 D T (Some d)).
Definition src (ms : list str) (u : uri) : Prop := Forall firm_name ms /\ set_uri (under su ms) u.
Lemma src_look x f ms q e : I x -> Forall firm_name ms -> plook x f (under su ms) = Ok (At q e) -> q = d ++ ms /\ pget q (p_tree x) = Some e /\ forall t, e <> PLink t.
Proof.
  intros ([G _] & _ & [_ Nl]) F E.
  assert (Ls' : plook x0 true su = Ok (At d e0)).
  { apply (looked_iff x0 true su (Is d e0)). apply looked_follow; [now apply looked_iff|]. intros p t X. injection X as <- ->. now apply (Ne t). }
  assert (K : forall p e', p = d ++ ms -> pget p (p_tree x) = Some e' -> forall t, e' <> PLink t).
  { intros p e' -> H t ->. apply (Nl (d ++ ms) t); [now exists ms|exact H]. }
  destruct ms as [|m ms].
  - rewrite under_nil in E. rewrite app_nil_r in K |- *. assert (X : exists e', plook x f su = Ok (At d e') /\ kept e0 e') by (destruct f; [exact (look_grown _ _ _ _ _ _ G Ls')|exact (look_grown _ _ _ _ _ _ G Ls)]).
    destruct X as (e' & X & _). rewrite X in E. injection E as <- <-. apply plook_spot in X. split; [reflexivity|]. split; [exact X|]. now apply (K d).
  - destruct (look_grown _ _ _ _ _ _ G Ls') as (e' & X & _). assert (Nm : m :: ms <> []) by discriminate. destruct e' as [dd mo mt|mo mt|t].
    + exfalso. pose proof (px_start _ (proj1 Bs)) as B. assert (Y : exists c r r', su = c :: r /\ under su (m :: ms) = c :: r').
      { destruct B as [(c & r & -> & _)|(r & ->)]; [exists cSlash, (c :: r)|exists cDot, (cSlash :: r)]; eexists; split; reflexivity. }
      destruct Y as (c & r & r' & E1 & E2). rewrite (look_ne x true su c r E1) in X. rewrite (look_ne x f _ c r' E2) in E. destruct (has_char 0 (under su (m :: ms))); [discriminate|]. destruct (has_char 0 su); [discriminate|].
      rewrite split_under in E by exact F. destruct (walk_file _ _ _ _ _ _ f _ Nm _ _ X) as (ex & Z). congruence.
    + assert (As : anchor su su) by (right; right; now split). destruct (look_from x su su f d mo mt (m :: ms) As X F Nm) as [(ex & Z)|(b & Z)]; [congruence|]. rewrite Z in E.
      apply walk_firm in E; auto; [|intros a a' Ea _ l H; apply (Nl (d ++ a) l); [now exists a|exact H]]. destruct E as [-> E]. split; [reflexivity|]. split; [exact E|]. now apply (K (d ++ m :: ms)).
    + exfalso. apply plook_spot in X. apply (Nl d t); [exists []; now rewrite app_nil_r|exact X].
Qed.
Lemma src_list ms u : src ms u -> yields I (loc_listdir u) (Forall firm_name).
Proof.
  intros [F U] x Ix. split; [now rewrite quiet_list|]. intros l. unfold loc_listdir, bind, os_listdir. rewrite (set_path _ _ U).
  destruct (plook x true (under su ms)) as [[q [dd mo mt|mo mt|t]|q m]|e] eqn:E; try discriminate. cbn [fst ret]. intros X. injection X as <-.
  destruct (src_look x _ ms q _ Ix F E) as (-> & _ & _). rewrite Forall_forall. intros m J. rewrite sort_In in J. apply children_in, in_pget in J.
  destruct Ix as (_ & _ & [S1 _]). destruct (S1 (d ++ ms) m) as [Z|Z]; [now exists ms|now destruct J|exact Z].
Qed.
Lemma src_islink ms u : src ms u -> yields I (loc_islink u) (eq false).
Proof.
  intros [F U] x Ix. unfold loc_islink, path_islink. rewrite LocalFacts18.test_run. cbn [fst snd]. split; [exact Ix|]. intros l X. injection X as <-. unfold tests. rewrite (set_path _ _ U).
  destruct (plook x false (under su ms)) as [[q e|q m]|e] eqn:E; try reflexivity. destruct (src_look x _ ms q _ Ix F E) as (_ & _ & Z). destruct e; try reflexivity. now destruct (Z target).
Qed.
Lemma src_div ms u n v : src ms u -> firm_name n -> u_div u n = Ok v -> src (ms ++ [n]) v.
Proof.
  intros [F U] Fn E. split; [apply Forall_app; auto|]. rewrite <- under_app. apply (set_div _ u n v U); auto. apply bare_end; auto. apply Bs.
Qed.
End Source.

Theorem into_local x pre n u v d e D T fuel rc ign fl : written (pre ++ cSlash :: n) u -> firm_name n -> looked x false (pre ++ cSlash :: n) (Is d e) -> (forall t, e <> PLink t) -> firm_below x d ->
  landing x n v D T -> wrote_in x (snd (u_copy LB fuel rc ign fl u v x)) D T.
Proof.
  intros Wu Fn Lu Ne Fb La. destruct La as [sw sa ns mo mt A Ld Fns Wv En NL]. apply looked_iff in Ld. cbn [answer] in Ld. apply looked_iff in Lu. cbn [answer] in Lu.
  pose proof (written_set _ _ Wu) as U. pose proof (written_set _ _ Wv) as V.
  assert (Bs : bare (pre ++ cSlash :: n)).
  { split; [apply Wu|]. intros r X. pose proof (firm_ne _ Fn) as N. destruct (exists_last N) as (m & c & Em). rewrite Em, app_comm_cons, app_assoc in X. apply app_inj_tail in X as [_ ->]. now apply (firm_last _ Fn m). }
  set (is_d := tests x true is_pdir (u_path v)).
  assert (ET : T = if is_d then ns ++ [n] else ns).
  { destruct En as [(-> & p & m1 & m2 & Se)|(-> & No)].
    - apply sees_iff in Se. cbn [answer] in Se. unfold is_d, tests. now rewrite Se.
    - unfold is_d, tests. destruct (plook x true (u_path v)) as [[p [dd m1 m2|m1 m2|t]|p m]|ex] eqn:E; try reflexivity. exfalso. apply (No p m1 m2). now apply sees_iff. }
  set (P0 := fun y : pst => y = x). set (P := inv x D T (Some d)).
  pose proof (copy_keeps P0 P LB fuel fl ign u v is_d (src (pre ++ cSlash :: n)) (dst T sw)) as K.
  assert (Q : forall A (m : M pst A), quiet_op m -> guards P0 m) by (intros; now apply y_quiet).
  assert (Res : P (snd (u_copy LB fuel rc ign fl u v x))).
  { apply K; try reflexivity.
    - split; [constructor|]. now rewrite under_nil.
    - intros. now apply y_quiet.
    - intros. apply y_quiet, quiet_test.
    - intros ms w Hw. eapply y_weak; [apply (src_islink x _ d e D T Bs Lu Ne ms w Hw)|]. now intros l <-.
    - intros ms w Hw. apply (src_list x _ d e D T Bs Lu Ne ms w Hw).
    - intros ms w m w'. now apply src_div.
    - intros ms w [F W]. split; [exact F|]. rewrite (set_path _ _ W), (set_path _ _ U). apply under_rest.
    - intros ks w ms w'. eapply (dst_div x n v D T sw sa ns mo mt is_d); eauto.
    - intros ks w Hw. destruct (dst_toward x n v D T sw sa ns mo mt is_d A Ld Fn Fns Wv eq_refl ET ks w Hw) as [W _].
      refine (make_keeps P LB sw sa T A _ _ _ _ fuel (T ++ ks) w W (proj2 Hw)); [intros; now apply y_quiet| | |].
      + intros w' _ Ew y Iy. cbn [b_isdir loc_backend]. rewrite (top_dir x D T sa mo mt (Some d) Ld w' Ew y Iy). split; [exact Iy|]. intros a X. now injection X.
      + intros. apply y_quiet, quiet_test.
      + intros. apply y_holds. cbn [b_mkdir loc_backend]. now apply (dst_mkdir x D T sw sa mo mt (Some d) A Ld k).
    - intros ms w ks w' _ Hw. apply y_holds. eapply (dst_content x n v D T sw sa ns mo mt); eauto.
    - intros _ ms w ks w' _ Hw. apply y_holds. eapply (dst_stat x n v D T sw sa ns mo mt); eauto.
    - intros y ->. now apply inv_start.
    - intros. now apply Q.
    - apply Q, quiet_test.
    - apply Q, quiet_test.
    - apply Q, quiet_test.
    - intros y ->. unfold u_isdir, hooked, bind. cbn [b_hook loc_backend ret b_isdir]. unfold loc_isdir, path_isdir. rewrite LocalFacts18.test_run. split; [reflexivity|]. intros a X. now injection X as <-.
    - rewrite (set_last _ _ _ Fn U). exact (dst_start x n v T sw sa ns is_d A Fn Fns Wv eq_refl ET). }
  apply Res.
Qed.
