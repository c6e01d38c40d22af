(** The rules of SpecPosix.v are the functions of Posix.v and Local.v. *)
From Verif Require Import Str Exc UriParse BaseUri StrFacts SpecUri SpecParse SpecNames ParseFacts2 NamesFacts Mem Misc Generic Posix Local SpecLocal SpecPosix.

(** ** Lookup *)
Lemma pieces_iff s l : pieces s l <-> split_on cSlash s = l.
Proof.
  unfold pieces. split.
  - intros (N & -> & F). apply split_join; auto. apply Forall_forall. intros i I. apply free1. auto.
  - intros <-. split; [apply split_on_nonnil|]. split; [symmetry; apply join_split|]. intros i I. apply free1. pose proof (split_on_no_sep cSlash s) as F. rewrite Forall_forall in F. auto.
Qed.
Lemma starts_iff cur s st : starts cur s st <-> (if prefixb [cSlash] s then [] else cur) = st.
Proof.
  split.
  - intros [r ->|N]; [reflexivity|]. destruct (prefixb [cSlash] s) eqn:E; [apply prefixb_spec in E as [r E]; now destruct (N r)|reflexivity].
  - intros <-. destruct (prefixb [cSlash] s) eqn:E; [apply prefixb_spec in E as [r E]; now apply sr_root with r|]. apply sr_here. intros r ->. discriminate E.
Qed.
Definition ordinary_piece (c : str) : bool := negb (str_eqb c [] || str_eqb c dot || str_eqb c dotdot).
Lemma special_iff c : special c <-> ordinary_piece c = false.
Proof.
  unfold special, ordinary_piece. rewrite negb_false_iff, !orb_true_iff, !str_eqb_eq. unfold dot, dotdot. tauto.
Qed.
Definition answer (o : place) : res spot := match o with Is p e => Ok (At p e) | Free d n => Ok (Gap d n) | Wrong e => Raise e end.
Lemma answer_inj o o' : answer o = answer o' -> o = o'.
Proof. destruct o, o'; cbn; congruence. Qed.
Lemma answer_onto r : exists o, answer o = r.
Proof. destruct r as [[p e|d n]|e]; [exists (Is p e)|exists (Free d n)|exists (Wrong e)]; reflexivity. Qed.

Lemma pwalk_eq t f b cur comps : pwalk t f b cur comps =
    match pget cur t with
    | None => Raise (OSError ENOENT)
    | Some (PDir mo mt) =>
        match comps with
        | [] => Ok (At cur (PDir mo mt))
        | c :: rest =>
            if str_eqb c [] || str_eqb c dot then pwalk t f b cur rest
            else if str_eqb c dotdot then pwalk t f b (removelast cur) rest
            else
              match pget (cur ++ [c]) t with
              | None => match rest with [] => Ok (Gap cur c) | _ => Raise (OSError ENOENT) end
              | Some (PLink tg) =>
                  if match rest with [] => negb f | _ => false end then Ok (At (cur ++ [c]) (PLink tg))
                  else
                    match b, tg with
                    | O, _ => Raise (OSError ELOOP)
                    | _, [] => Raise (OSError ENOENT)
                    | S b, _ => pwalk t f b (if prefixb [cSlash] tg then [] else cur) (split_on cSlash tg ++ rest)
                    end
              | Some _ => pwalk t f b (cur ++ [c]) rest
              end
        end
    | Some e =>
        match comps with
        | [] => Ok (At cur e)
        | _ => Raise (OSError ENOTDIR)
        end
    end.
Proof. destruct b, comps; reflexivity. Qed.
Lemma not_special c : ~ special c -> (str_eqb c [] || str_eqb c dot = false) /\ str_eqb c dotdot = false.
Proof.
  rewrite special_iff. unfold ordinary_piece. intros H. apply not_false_iff_true, negb_true_iff in H. now apply orb_false_iff in H.
Qed.
Lemma walks_run x f n cur l o : walks x f n cur l o -> forall b, (n <= b)%nat -> pwalk (p_tree x) f b cur l = answer o.
Proof.
  induction 1 as [cur e E|n cur c l o (mo & mt & D) C W IH|n cur l o (mo & mt & D) W IH|cur c (mo & mt & D) S E|cur c l (mo & mt & D) S E N|n cur c e l o (mo & mt & D) S E L W IH
    |cur c t (mo & mt & D) S E F|cur c l (mo & mt & D) S E F|n cur c t st ps l o (mo & mt & D) S E F T B P W IH|cur e l E D N|cur l E]; intros b Hb; rewrite pwalk_eq; unfold entry_at in *.
  - rewrite E. now destruct e.
  - rewrite D. replace (str_eqb c [] || str_eqb c dot) with true; [auto|]. symmetry. apply orb_true_iff. rewrite !str_eqb_eq. exact C.
  - rewrite D. change (str_eqb (lit "..") [] || str_eqb (lit "..") dot) with false. change (str_eqb (lit "..") dotdot) with true. cbv iota. auto.
  - rewrite D. apply not_special in S as [-> ->]. now rewrite E.
  - rewrite D. apply not_special in S as [-> ->]. rewrite E. now destruct l.
  - rewrite D. apply not_special in S as [-> ->]. rewrite E. destruct e; auto. now destruct (L target).
  - rewrite D. apply not_special in S as [-> ->]. rewrite E, F. reflexivity.
  - rewrite D. apply not_special in S as [-> ->]. rewrite E. replace (match l with [] => negb f | _ => false end) with false by (destruct l; [destruct F as [F|F]; [congruence|now rewrite F]|reflexivity]).
    destruct b; [lia|reflexivity].
  - rewrite D. apply not_special in S as [-> ->]. rewrite E. replace (match l with [] => negb f | _ => false end) with false by (destruct l; [destruct F as [F|F]; [congruence|now rewrite F]|reflexivity]).
    destruct b; [lia|]. apply starts_iff in B. apply pieces_iff in P. rewrite B, P. destruct t; [congruence|]. apply IH. lia.
  - rewrite E. destruct l; [congruence|]. destruct e; auto. destruct D. unfold is_dir_at. eauto.
  - now rewrite E.
Qed.
Lemma walks_exc x f n cur l o : walks x f n cur l o -> o <> Wrong (OSError ELOOP).
Proof. induction 1; congruence. Qed.
Lemma walks_ex x f b : forall l cur, (exists n o, (n <= b)%nat /\ walks x f n cur l o) \/ pwalk (p_tree x) f b cur l = Raise (OSError ELOOP).
Proof.
  induction b as [b IHb] using (well_founded_induction lt_wf). induction l as [|c l IH]; intros cur; rewrite pwalk_eq.
  - destruct (pget cur (p_tree x)) as [e|] eqn:E; [left; exists 0, (Is cur e); split; [lia|now apply wk_end]|]. left. exists 0, (Wrong (OSError ENOENT)). split; [lia|now apply wk_gone].
  - destruct (pget cur (p_tree x)) as [e|] eqn:E; [|left; exists 0, (Wrong (OSError ENOENT)); split; [lia|now apply wk_gone]].
    assert (Fi : ~ is_dir_at x cur -> exists n o, (n <= b)%nat /\ walks x f n cur (c :: l) o).
    { intros D. exists 0, (Wrong (OSError ENOTDIR)). split; [lia|]. now apply wk_file with e. }
    destruct e as [d mo mt|mo mt|tg]; [left; apply Fi; intros (? & ? & X); congruence| |left; apply Fi; intros (? & ? & X); congruence].
    assert (D : is_dir_at x cur) by (unfold is_dir_at; eauto).
    destruct (str_eqb c [] || str_eqb c dot) eqn:C1.
    { destruct (IH cur) as [(n & o & L & W)|X]; [left|right; exact X]. exists n, o. split; auto. apply wk_same; auto. apply orb_true_iff in C1. rewrite !str_eqb_eq in C1. exact C1. }
    destruct (str_eqb c dotdot) eqn:C2.
    { apply str_eqb_eq in C2. subst c. destruct (IH (removelast cur)) as [(n & o & L & W)|X]; [left|right; exact X]. exists n, o. split; auto. now apply wk_up. }
    assert (Sp : ~ special c). { rewrite special_iff. unfold ordinary_piece. rewrite C1, C2. discriminate. }
    destruct (pget (cur ++ [c]) (p_tree x)) as [e'|] eqn:E'.
    + assert (In : (forall t, e' <> PLink t) -> (exists n o, (n <= b)%nat /\ walks x f n cur (c :: l) o) \/ pwalk (p_tree x) f b (cur ++ [c]) l = Raise (OSError ELOOP)).
      { intros L. destruct (IH (cur ++ [c])) as [(n & o & Ln & W)|X]; [left|right; exact X]. exists n, o. split; auto. now apply wk_in with e'. }
      destruct e' as [d' mo' mt'|mo' mt'|tg]; [apply In; discriminate|apply In; discriminate|].
      destruct (match l with [] => negb f | _ => false end) eqn:Q.
      * left. destruct l; [|discriminate Q]. exists 0, (Is (cur ++ [c]) (PLink tg)). split; [lia|]. apply wk_last; auto. now apply negb_true_iff.
      * assert (Fo : l <> [] \/ f = true) by (destruct l; [right; now apply negb_false_iff|left; discriminate]).
        destruct b as [|b]; [now right|]. destruct tg as [|a tg].
        -- left. exists 1, (Wrong (OSError ENOENT)). split; [lia|now apply wk_blank].
        -- destruct (IHb b (Nat.lt_succ_diag_r b) (split_on cSlash (a :: tg) ++ l) (if prefixb [cSlash] (a :: tg) then [] else cur)) as [(n & o & Ln & W)|X]; [left|right; exact X].
           exists (S n), o. split; [lia|]. eapply wk_link; eauto; [discriminate|now apply starts_iff|now apply pieces_iff].
    + left. destruct l as [|c2 l].
      * exists 0, (Free cur c). split; [lia|now apply wk_free].
      * exists 0, (Wrong (OSError ENOENT)). split; [lia|]. apply wk_lost; auto. discriminate.
Qed.
Theorem looked_iff x f s o : looked x f s o <-> plook x f s = answer o.
Proof.
  unfold plook. split.
  - intros [N| -> |n st ps o' N S B P L W|st ps N S B P L].
    + now rewrite (proj2 (has_char_In _ _) N).
    + reflexivity.
    + rewrite (proj2 (has_char_false _ _) N). apply starts_iff in B. apply pieces_iff in P. destruct s; [congruence|]. rewrite B, P. now apply walks_run with n.
    + rewrite (proj2 (has_char_false _ _) N). pose proof B as B'. pose proof P as P'. apply starts_iff in B. apply pieces_iff in P. destruct s; [congruence|]. rewrite B, P.
      destruct (walks_ex x f pbudget ps st) as [(n1 & o1 & Ln & W)|X]; [|exact X]. apply L in W. unfold pbudget in Ln. lia.
  - destruct (has_char 0 s) eqn:N.
    { intros H. assert (X : o = Wrong ValueError) by now apply answer_inj. subst. apply lo_nul. now apply has_char_In. }
    destruct s as [|c s].
    { intros H. assert (X : o = Wrong (OSError ENOENT)) by now apply answer_inj. subst. now apply lo_empty. }
    apply has_char_false in N. set (st := if prefixb [cSlash] (c :: s) then [] else p_cwd x). intros H.
    destruct (walks_ex x f pbudget (split_on cSlash (c :: s)) st) as [(n & o' & Ln & W)|X].
    + pose proof (walks_run _ _ _ _ _ _ W pbudget Ln) as R. assert (X : o = o') by (apply answer_inj; congruence). subst o'.
      apply lo_found with n st (split_on cSlash (c :: s)); auto; [discriminate|now apply starts_iff|now apply pieces_iff].
    + assert (Y : o = Wrong (OSError ELOOP)) by (apply answer_inj; cbn [answer]; congruence). subst o.
      apply lo_loop with st (split_on cSlash (c :: s)); auto; [discriminate|now apply starts_iff|now apply pieces_iff|].
      intros n o W. destruct (Nat.le_gt_cases n 40) as [L|L]; [|exact L]. pose proof (walks_run _ _ _ _ _ _ W pbudget L) as R. apply walks_exc in W. destruct W. apply answer_inj. cbn [answer]. congruence.
Qed.
Theorem sees_iff x f u o : sees x f u o <-> plook x f (u_path u) = answer o.
Proof.
  unfold sees. split.
  - intros (s & P & L). apply paths_iff in P. rewrite P. now apply looked_iff.
  - intros H. exists (u_path u). split; [now apply paths_iff|now apply looked_iff].
Qed.
Lemma sees_ex x f u : exists o, sees x f u o.
Proof. destruct (answer_onto (plook x f (u_path u))) as [o H]. exists o. now apply sees_iff. Qed.
Lemma sees_det x f u o o' : sees x f u o -> sees x f u o' -> o = o'.
Proof. rewrite !sees_iff. intros. apply answer_inj. congruence. Qed.
