(** Facts about the registry run by one thread. *)
From Coq Require Import Lia.
From Verif Require Import Str Exc StrFacts UriParse BaseUri Registry SpecReg.

(** *** Keys *)
Lemma item_eqb_eq : forall a b, item_eqb a b = true <-> a = b.
Proof.
  intros [a1 a2] [b1 b2]. unfold item_eqb. cbn [fst snd]. rewrite Bool.andb_true_iff, !str_eqb_eq. split.
  - intros [-> ->]. reflexivity.
  - intros [= -> ->]. auto.
Qed.
Lemma opt_str_eqb_eq : forall a b, opt_str_eqb a b = true <-> a = b.
Proof.
  intros [a|] [b|]; cbn [opt_str_eqb].
  - rewrite str_eqb_eq. split; [intros ->|intros [= ->]]; reflexivity.
  - split; discriminate.
  - split; discriminate.
  - split; reflexivity.
Qed.
Lemma frozen_eqb_eq : forall a b, frozen_eqb a b = true <-> (forall kv, In kv a <-> In kv b).
Proof.
  intros a b. unfold frozen_eqb. rewrite Bool.andb_true_iff, !forallb_forall. split.
  - intros [H1 H2] kv. split; intros Hi.
    + apply H1, existsb_exists in Hi. destruct Hi as (y & Hy & E). apply item_eqb_eq in E. subst. exact Hy.
    + apply H2, existsb_exists in Hi. destruct Hi as (y & Hy & E). apply item_eqb_eq in E. subst. exact Hy.
  - intros H. split; intros x Hx; apply existsb_exists; exists x; (split; [apply H, Hx|apply item_eqb_eq; reflexivity]).
Qed.
Lemma key_eqb_eq : forall a b, key_eqb a b = true <-> same_key a b.
Proof.
  intros a b. unfold key_eqb, same_key. rewrite !Bool.andb_true_iff, !opt_str_eqb_eq, str_eqb_eq, Z.eqb_eq, frozen_eqb_eq. tauto.
Qed.
Lemma same_refl : forall a, same_key a a.
Proof. intros a. unfold same_key. intuition. Qed.
Lemma same_sym : forall a b, same_key a b -> same_key b a.
Proof. intros a b (H1 & H2 & H3 & H4 & H5 & H6 & H7). unfold same_key. repeat split; auto; apply H7. Qed.
Lemma same_trans : forall a b c, same_key a b -> same_key b c -> same_key a c.
Proof.
  intros a b c (H1 & H2 & H3 & H4 & H5 & H6 & H7) (G1 & G2 & G3 & G4 & G5 & G6 & G7). unfold same_key.
  repeat split; try congruence; intros H.
  - apply G7, H7, H.
  - apply H7, G7, H.
Qed.
Lemma key_eqb_refl : forall a, key_eqb a a = true.
Proof. intros a. apply key_eqb_eq, same_refl. Qed.
Lemma key_eqb_false : forall a b, key_eqb a b = false <-> ~ same_key a b.
Proof. intros a b. rewrite <- key_eqb_eq. destruct (key_eqb a b); split; intuition discriminate. Qed.

(** *** The table *)
Definition uniq (l : conns) : Prop :=
  ForallOrdPairs (fun a b => ~ same_key (fst a) (fst b)) l.
Lemma kget_in : forall k l c, kget k l = Some c -> exists k', same_key k k' /\ In (k', c) l.
Proof.
  induction l as [|[k' c'] l IH]; cbn [kget]; intros c E; [discriminate|].
  destruct (key_eqb k k') eqn:Ek.
  - injection E as <-. exists k'. split; [apply key_eqb_eq, Ek|left; reflexivity].
  - destruct (IH c E) as (k2 & H1 & H2). exists k2. split; [exact H1|right; exact H2].
Qed.
Lemma in_kget : forall k l c, uniq l -> (exists k', same_key k k' /\ In (k', c) l) -> kget k l = Some c.
Proof.
  induction l as [|[k' c'] l IH]; intros c Hu (k2 & Hk & Hi); [destruct Hi|]. cbn [kget].
  inversion Hu as [|x y Hall Hu']; subst. destruct Hi as [E|Hi].
  - injection E as -> ->. apply key_eqb_eq in Hk. rewrite Hk. reflexivity.
  - destruct (key_eqb k k') eqn:Ek.
    + exfalso. rewrite Forall_forall in Hall. apply (Hall _ Hi). cbn [fst]. apply key_eqb_eq in Ek.
      eapply same_trans; [apply same_sym, Ek|exact Hk].
    + apply IH; [exact Hu'|]. exists k2. auto.
Qed.
Lemma kget_same : forall a b l, same_key a b -> kget a l = kget b l.
Proof.
  intros a b l H. induction l as [|[k c] l IH]; [reflexivity|]. cbn [kget].
  destruct (key_eqb a k) eqn:E1, (key_eqb b k) eqn:E2; [reflexivity| | |exact IH]; exfalso.
  - apply key_eqb_false in E2. apply E2. apply key_eqb_eq in E1. eapply same_trans; [apply same_sym, H|exact E1].
  - apply key_eqb_false in E1. apply E1. apply key_eqb_eq in E2. eapply same_trans; [exact H|exact E2].
Qed.
Lemma kget_none : forall k l, kget k l = None -> forall k' c, In (k', c) l -> ~ same_key k k'.
Proof.
  induction l as [|[k0 c0] l IH]; cbn [kget]; intros E k' c Hi; [destruct Hi|].
  destruct (key_eqb k k0) eqn:Ek; [discriminate|]. destruct Hi as [[= -> ->]|Hi].
  - apply key_eqb_false, Ek.
  - eapply IH; eauto.
Qed.
Lemma kset_none : forall k c l, kget k l = None -> kset k c l = l ++ [(k, c)].
Proof.
  induction l as [|[k0 c0] l IH]; cbn [kget kset app]; intros E; [reflexivity|].
  destruct (key_eqb k k0); [discriminate|]. rewrite IH; auto.
Qed.
Lemma kget_kset : forall k c l, kget k (kset k c l) = Some c.
Proof.
  induction l as [|[k0 c0] l IH]; cbn [kset kget].
  - rewrite key_eqb_refl. reflexivity.
  - destruct (key_eqb k k0) eqn:E; cbn [kget]; rewrite E; auto.
Qed.
Lemma kget_kset_other : forall k k' c l, ~ same_key k k' -> kget k (kset k' c l) = kget k l.
Proof.
  intros k k' c l H. apply key_eqb_false in H. induction l as [|[k0 c0] l IH]; cbn [kset kget].
  - rewrite H. reflexivity.
  - destruct (key_eqb k' k0) eqn:E; cbn [kget].
    + destruct (key_eqb k k0) eqn:E2; [|reflexivity]. exfalso. apply key_eqb_false in H. apply H.
      apply key_eqb_eq in E, E2. eapply same_trans; [exact E2|apply same_sym, E].
    + rewrite IH. reflexivity.
Qed.
Lemma kset_ids : forall k c l x, In x (map snd (kset k c l)) -> x = c \/ In x (map snd l).
Proof.
  induction l as [|[k0 c0] l IH]; cbn [kset map snd In]; intros x H.
  - destruct H as [<-|[]]. auto.
  - destruct (key_eqb k k0); cbn [map snd In] in H; destruct H as [<-|H]; auto. destruct (IH x H); auto.
Qed.
Lemma kdel_uniq : forall l k, uniq l -> uniq (kdel k l).
Proof.
  induction l as [|[k0 c0] l IH]; intros k Hu; [exact Hu|]. cbn [kdel]. inversion Hu as [|x y Hall Hu']; subst.
  destruct (key_eqb k k0); [exact Hu'|]. constructor; [|apply IH, Hu'].
  apply Forall_forall. intros [k1 c1] Hi. rewrite Forall_forall in Hall. apply (Hall (k1, c1)).
  clear - Hi. induction l as [|[k2 c2] l IH]; [exact Hi|]. cbn [kdel] in Hi. destruct (key_eqb k k2); [right; exact Hi|].
  destruct Hi as [E|Hi]; [left; exact E|right; apply IH, Hi].
Qed.
Lemma kset_uniq : forall l k c, uniq l -> kget k l = None -> uniq (kset k c l).
Proof.
  intros l k c Hu E. rewrite kset_none by exact E. pose proof (kget_none _ _ E) as Hn. clear E.
  induction l as [|[k0 c0] l IH]; cbn [app].
  - constructor; constructor.
  - inversion Hu as [|x y Hall Hu']; subst. constructor.
    + apply Forall_app. split; [exact Hall|]. constructor; [|constructor]. cbn [fst]. intros H.
      apply (Hn k0 c0); [left; reflexivity|apply same_sym, H].
    + apply IH; [exact Hu'|]. intros k' c' Hi. apply (Hn k' c'). right. exact Hi.
Qed.
Lemma kdel_first : forall k c l, kdel k ((k, c) :: l) = l.
Proof. intros. cbn [kdel]. rewrite key_eqb_refl. reflexivity. Qed.
Lemma kdel_app : forall k c a b, uniq (a ++ (k, c) :: b) -> kdel k (a ++ (k, c) :: b) = a ++ b.
Proof.
  induction a as [|[k0 c0] a IH]; intros b Hu; [apply kdel_first|]. cbn [app kdel].
  inversion Hu as [|x y Hall Hu']; subst. destruct (key_eqb k k0) eqn:E.
  - exfalso. rewrite Forall_forall in Hall. apply (Hall (k, c)); [apply in_or_app; right; left; reflexivity|].
    cbn [fst]. apply same_sym, key_eqb_eq, E.
  - rewrite IH by exact Hu'. reflexivity.
Qed.
Lemma kget_app : forall k c a b, uniq (a ++ (k, c) :: b) -> kget k (a ++ (k, c) :: b) = Some c.
Proof.
  intros k c a b Hu. apply in_kget; [exact Hu|]. exists k. split; [apply same_refl|]. apply in_or_app. right. left. reflexivity.
Qed.
Lemma uniq_drop : forall a x b, uniq (a ++ x :: b) -> uniq (a ++ b).
Proof.
  induction a as [|y a IH]; intros x b Hu; cbn [app] in *; inversion Hu as [|p q Hall Hu']; subst; [exact Hu'|].
  constructor; [|eapply IH; eauto]. apply Forall_app in Hall. destruct Hall as [H1 H2]. inversion H2; subst.
  apply Forall_app. auto.
Qed.

(** *** Schemes *)
Lemma sget_sset : forall k f l, sget k (sset k f l) = Some f.
Proof.
  induction l as [|[k0 f0] l IH]; cbn [sset sget].
  - rewrite (proj2 (opt_str_eqb_eq k k) eq_refl). reflexivity.
  - destruct (opt_str_eqb k k0) eqn:E; cbn [sget]; rewrite E; auto.
Qed.
Lemma sget_sset_other : forall k k' f l, k <> k' -> sget k (sset k' f l) = sget k l.
Proof.
  intros k k' f l H. assert (E0 : opt_str_eqb k k' = false).
  { destruct (opt_str_eqb k k') eqn:E; [|reflexivity]. apply opt_str_eqb_eq in E. contradiction. }
  induction l as [|[k0 f0] l IH]; cbn [sset sget].
  - rewrite E0. reflexivity.
  - destruct (opt_str_eqb k' k0) eqn:E; cbn [sget].
    + apply opt_str_eqb_eq in E. subst. rewrite E0. reflexivity.
    + rewrite IH. reflexivity.
Qed.
Definition opt_str_dec (a b : option str) : {a = b} + {a <> b}.
Proof.
  destruct (opt_str_eqb a b) eqn:E.
  - left. apply opt_str_eqb_eq, E.
  - right. intros H. apply opt_str_eqb_eq in H. congruence.
Defined.

(** *** get_connection *)
Definition found (s : rst) (k : conn_key) (c : nat) : Prop := kget k (r_conns s) = Some c.
Inductive lookup_spec (k : conn_key) (s : rst) : res nat * rst -> Prop :=
| ls_noscheme : sget (k_scheme k) (r_schemes s) = None -> lookup_spec k s (Raise NoSchemeError, s)
| ls_found : forall f c, sget (k_scheme k) (r_schemes s) = Some f -> kget k (r_conns s) = Some c -> lookup_spec k s (Ok c, s)
| ls_fails : forall f e, sget (k_scheme k) (r_schemes s) = Some f -> kget k (r_conns s) = None -> f k = Some e -> lookup_spec k s (Raise e, s)
| ls_new : forall f, sget (k_scheme k) (r_schemes s) = Some f -> kget k (r_conns s) = None -> f k = None ->
    lookup_spec k s (Ok (r_next s), mkR (r_conns s ++ [(k, r_next s)]) (r_schemes s) (S (r_next s))
                   (fun i => if Nat.eqb i (r_next s) then r_now s else r_used s i) (r_closed s) (r_timeout s) (r_now s)).
Lemma lookup_cases : forall k s, lookup_spec k s (get_connection k s).
Proof.
  intros k s. unfold get_connection, bind, get, raise, ret. cbn [fst snd].
  destruct (sget (k_scheme k) (r_schemes s)) as [f|] eqn:Es; [|apply ls_noscheme, Es].
  destruct (kget k (r_conns s)) as [c|] eqn:Ek.
  - rewrite Ek. eapply ls_found; eauto.
  - unfold create, new_conn, bind, get, put, set_conns. destruct (f k) as [e|] eqn:Ef.
    + eapply ls_fails; eauto.
    + cbn [r_conns r_schemes r_next r_used r_closed r_timeout r_now]. rewrite kget_kset. rewrite kset_none by exact Ek.
      eapply ls_new; eauto.
Qed.
