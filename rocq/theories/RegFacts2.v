(** Facts about the registry run by one thread: clean-up, histories. *)
From Coq Require Import Lia.
From Verif Require Import Str Exc StrFacts UriParse BaseUri Registry SpecReg RegFacts.

Definition dueb (force : bool) (s : rst) (now : Z) (c : nat) : bool :=
  ((r_timeout s <? now - r_used s c)%Z || force)%bool.
Lemma dueb_due : forall force s c, dueb force s (r_now s) c = true <-> due force s c.
Proof.
  intros force s c. unfold dueb, due, stale. rewrite Bool.orb_true_iff, Z.ltb_lt. split; (intros [H|H]; [right; lia || exact H|left; lia || exact H]).
Qed.
Definition keep (force : bool) (s : rst) (e : conn_key * nat) : bool := negb (dueb force s (r_now s) (snd e)).
Definition drop (force : bool) (s : rst) (e : conn_key * nat) : bool := dueb force s (r_now s) (snd e).

Lemma cleanup_loop : forall force fails now l a s,
  r_conns s = a ++ l -> uniq (a ++ l) ->
  mapM_ (cleanup_one force fails now) l s
  = (Ok tt, mkR (a ++ filter (fun e => negb (dueb force s now (snd e))) l) (r_schemes s) (r_next s) (r_used s)
              (rev (map snd (filter (fun e => dueb force s now (snd e)) l)) ++ r_closed s) (r_timeout s) (r_now s)).
Proof.
  intros force fails now. induction l as [|[k c] l IH]; intros a s Ec Hu.
  - cbn [mapM_ filter map rev app]. unfold ret. rewrite <- Ec. destruct s; reflexivity.
  - cbn [mapM_]. unfold bind at 1. unfold cleanup_one at 1. unfold bind at 1. unfold get at 1. cbn [fst snd].
    fold (dueb force s now c). cbn [filter snd]. destruct (dueb force s now c) eqn:Ed; cbn [negb].
    + unfold bind at 1, swallow, close_conn. cbn [snd]. unfold del_conn, bind at 1, get, put, set_conns.
      cbn [r_conns r_schemes r_next r_used r_closed r_timeout r_now]. rewrite Ec, kget_app, kdel_app by exact Hu.
      match goal with |- mapM_ _ _ ?s' = _ => rewrite (IH a s') end; [|reflexivity|eapply uniq_drop; eauto].
      cbn [r_conns r_schemes r_next r_used r_closed r_timeout r_now map snd rev]. rewrite <- app_assoc. reflexivity.
    + unfold ret. rewrite (IH (a ++ [(k, c)]) s); [|rewrite <- app_assoc; exact Ec|rewrite <- app_assoc; exact Hu].
      rewrite <- app_assoc. reflexivity.
Qed.
Lemma cleanup_is : forall force fails s, uniq (r_conns s) ->
  cleanup force fails s
  = (Ok tt, mkR (filter (keep force s) (r_conns s)) (r_schemes s) (r_next s) (r_used s)
              (rev (map snd (filter (drop force s) (r_conns s))) ++ r_closed s) (r_timeout s) (r_now s)).
Proof.
  intros force fails s Hu. unfold cleanup, bind at 1, get. rewrite (cleanup_loop force fails (r_now s) (r_conns s) [] s eq_refl Hu).
  reflexivity.
Qed.
Lemma filter_swept : forall force s l,
  swept (due force s) l (filter (keep force s) l) (map snd (filter (drop force s) l)).
Proof.
  intros force s. induction l as [|[k c] l IH]; cbn [filter map]; [constructor|]. unfold keep at 1, drop at 1. cbn [snd].
  destruct (dueb force s (r_now s) c) eqn:E; cbn [negb map snd]; constructor; auto.
  - apply dueb_due, E.
  - intros H. apply dueb_due in H. congruence.
Qed.

(** *** The invariant *)
Record rinv (s : rst) : Prop := {
  ri_uniq : uniq (r_conns s);
  ri_ids : NoDup (map snd (r_conns s));
  ri_lt : forall c, In c (map snd (r_conns s)) -> c < r_next s;
  ri_cnd : NoDup (r_closed s);
  ri_clt : forall c, In c (r_closed s) -> c < r_next s;
  ri_apart : forall c, In c (map snd (r_conns s)) -> ~ In c (r_closed s);
  ri_sch : forall k c, In (k, c) (r_conns s) -> sget (k_scheme k) (r_schemes s) <> None }.

Lemma uniq_filter : forall (f : conn_key * nat -> bool) l, uniq l -> uniq (filter f l).
Proof.
  intros f. induction l as [|x l IH]; intros Hu; [constructor|]. inversion Hu as [|p q Hall Hu']; subst. cbn [filter].
  destruct (f x); [|apply IH, Hu']. constructor; [|apply IH, Hu']. rewrite Forall_forall in *. intros y Hy. apply filter_In in Hy. apply Hall, Hy.
Qed.
Lemma nodup_filter_map : forall (f : conn_key * nat -> bool) l, NoDup (map snd l) -> NoDup (map snd (filter f l)).
Proof.
  intros f. induction l as [|x l IH]; cbn [map filter]; intros H; [constructor|]. inversion H; subst.
  destruct (f x); [|auto]. cbn [map]. constructor; [|auto]. intros Hi. apply in_map_iff in Hi. destruct Hi as (y & Ey & Hy).
  apply filter_In in Hy. match goal with H : ~ In _ _ |- _ => apply H end. rewrite <- Ey. apply in_map, Hy.
Qed.
Lemma in_filter_map : forall (f : conn_key * nat -> bool) l c, In c (map snd (filter f l)) -> In c (map snd l).
Proof.
  intros f l c Hi. apply in_map_iff in Hi. destruct Hi as (y & <- & Hy). apply filter_In in Hy. apply in_map, Hy.
Qed.
Lemma nodup_app : forall (a b : list nat), NoDup a -> NoDup b -> (forall x, In x a -> ~ In x b) -> NoDup (a ++ b).
Proof.
  induction a as [|x a IH]; intros b Ha Hb H; cbn [app]; [exact Hb|]. inversion Ha; subst. constructor.
  - intros Hi. apply in_app_or in Hi. destruct Hi as [Hi|Hi]; [contradiction|]. apply (H x); [left; reflexivity|exact Hi].
  - apply IH; auto. intros y Hy. apply H. right. exact Hy.
Qed.
Lemma pair_snd_unique : forall (l : conns) x y, NoDup (map snd l) -> In x l -> In y l -> snd x = snd y -> x = y.
Proof.
  induction l as [|z l IH]; intros x y Hn Hx Hy E; [destruct Hx|]. inversion Hn; subst. destruct Hx as [->|Hx], Hy as [->|Hy]; auto.
  - exfalso. match goal with H : ~ In _ _ |- _ => apply H end. rewrite E. apply in_map, Hy.
  - exfalso. match goal with H : ~ In _ _ |- _ => apply H end. rewrite <- E. apply in_map, Hx.
Qed.
Lemma rinv_init : forall t n, rinv (init_reg t n).
Proof. intros. constructor; cbn; try constructor; try tauto; intros; contradiction. Qed.
Lemma rinv_lookup : forall k s, rinv s -> rinv (snd (get_connection k s)).
Proof.
  intros k s Hi. destruct (lookup_cases k s) as [E|f c E Ek|f e E Ek Ef|f E Ek Ef]; cbn [snd]; try exact Hi.
  destruct Hi as [Hu Hn Hl Hc Hcl Ha Hs].
  constructor; cbn [r_conns r_schemes r_next r_used r_closed r_timeout r_now].
  - rewrite <- kset_none by exact Ek. apply kset_uniq; auto.
  - rewrite map_app. apply nodup_app; auto; [constructor; [intros []|constructor]|].
    intros x Hx [<-|[]]. cbn [snd] in Hx. apply Hl in Hx. lia.
  - intros c Hc2. rewrite map_app in Hc2. apply in_app_or in Hc2. destruct Hc2 as [Hc2|[<-|[]]]; [apply Hl in Hc2|cbn [snd]]; lia.
  - exact Hc.
  - intros c Hc2. apply Hcl in Hc2. lia.
  - intros c Hc2 Hc3. rewrite map_app in Hc2. apply in_app_or in Hc2. destruct Hc2 as [Hc2|[<-|[]]]; [apply (Ha _ Hc2 Hc3)|].
    cbn [snd] in Hc3. apply Hcl in Hc3. lia.
  - intros k' c Hi. apply in_app_or in Hi. destruct Hi as [Hi|[[= <- <-]|[]]]; [apply (Hs _ _ Hi)|congruence].
Qed.
Lemma rinv_cleanup : forall force fails s, rinv s -> rinv (snd (cleanup force fails s)).
Proof.
  intros force fails s [Hu Hn Hl Hc Hcl Ha Hs]. rewrite cleanup_is by exact Hu. cbn [snd].
  constructor; cbn [r_conns r_schemes r_next r_used r_closed r_timeout r_now].
  - apply uniq_filter, Hu.
  - apply nodup_filter_map, Hn.
  - intros c Hi. apply Hl, (in_filter_map _ _ _ Hi).
  - apply nodup_app; auto.
    + apply NoDup_rev, nodup_filter_map, Hn.
    + intros x Hx. apply in_rev in Hx. apply Ha, (in_filter_map _ _ _ Hx).
  - intros c Hi. apply in_app_or in Hi. destruct Hi as [Hi|Hi]; [|apply Hcl, Hi]. apply in_rev in Hi. apply Hl, (in_filter_map _ _ _ Hi).
  - intros c Hi Hj. apply in_app_or in Hj. destruct Hj as [Hj|Hj].
    + apply in_rev in Hj. apply in_map_iff in Hi, Hj. destruct Hi as (x & Ex & Hx), Hj as (y & Ey & Hy).
      apply filter_In in Hx, Hy. destruct Hx as [Hx Hx2], Hy as [Hy Hy2].
      assert (x = y) by (eapply pair_snd_unique; eauto; congruence). subst y. unfold keep, drop in *. rewrite Hy2 in Hx2. discriminate.
    + apply (Ha c); [apply (in_filter_map _ _ _ Hi)|exact Hj].
  - intros k c Hi. apply filter_In in Hi. apply (Hs k c), Hi.
Qed.
Lemma rinv_register : forall sc f s, rinv s -> rinv (snd (register sc f s)).
Proof.
  intros sc f s [Hu Hn Hl Hc Hcl Ha Hs].
  constructor; cbn [register snd r_conns r_schemes r_next r_used r_closed r_timeout r_now]; auto.
  intros k c Hi. destruct (opt_str_dec (k_scheme k) sc) as [->|Hne].
  - rewrite sget_sset. discriminate.
  - rewrite sget_sset_other by exact Hne. apply (Hs _ _ Hi).
Qed.
Lemma use_is : forall k s,
  use_connection k s = match get_connection k s with
                       | (Ok c, s') => (Ok c, set_used s' c (r_now s'))
                       | (Raise e, s') => (Raise e, s')
                       end.
Proof. intros k s. unfold use_connection, bind, get, put, ret. destruct (get_connection k s) as [[c|e] s']; reflexivity. Qed.
Lemma rinv_used : forall s c t, rinv s -> rinv (set_used s c t).
Proof. intros s c t [Hu Hn Hl Hc Hcl Ha Hs]. constructor; auto. Qed.
Lemma rinv_event : forall e s, rinv s -> rinv (snd (run_event e s)).
Proof.
  intros [sc f|k|k|force fails|d] s Hi; cbn [run_event].
  - apply rinv_register, Hi.
  - unfold bind. pose proof (rinv_lookup k s Hi) as H. destruct (get_connection k s) as [[c|e] s']; exact H.
  - unfold bind. rewrite use_is. pose proof (rinv_lookup k s Hi) as H. destruct (get_connection k s) as [[c|e] s']; [apply rinv_used, H|exact H].
  - apply rinv_cleanup, Hi.
  - destruct Hi. constructor; auto.
Qed.
Lemma rinv_events : forall l s, rinv s -> rinv (run_events l s).
Proof. induction l as [|e l IH]; intros s Hi; [exact Hi|]. cbn [run_events fold_left]. apply IH, rinv_event, Hi. Qed.
Lemma r_reachable_inv : forall s, r_reachable s -> rinv s.
Proof. intros s (t & n & l & ->). apply rinv_events, rinv_init. Qed.

(** *** What a history does to an entry *)
Lemma lookup_found : forall k s c, fst (get_connection k s) = Ok c ->
  kget k (r_conns (snd (get_connection k s))) = Some c /\ sget (k_scheme k) (r_schemes (snd (get_connection k s))) <> None.
Proof.
  intros k s c. destruct (lookup_cases k s) as [E|f c' E Ek|f e E Ek Ef|f E Ek Ef]; cbn [fst snd]; intros H; try discriminate.
  - injection H as <-. split; [exact Ek|congruence].
  - injection H as <-. cbn [r_conns r_schemes]. split; [|congruence]. rewrite <- kset_none by exact Ek. apply kget_kset.
Qed.
Lemma lookup_keeps : forall k k' s c, kget k (r_conns s) = Some c -> kget k (r_conns (snd (get_connection k' s))) = Some c.
Proof.
  intros k k' s c H. destruct (lookup_cases k' s) as [E|f c' E Ek|f e E Ek Ef|f E Ek Ef]; cbn [snd r_conns]; auto.
  rewrite <- kset_none by exact Ek. rewrite kget_kset_other; [exact H|]. intros Hs. apply (kget_same _ _ (r_conns s)) in Hs. congruence.
Qed.
Lemma lookup_schemes : forall k s, r_schemes (snd (get_connection k s)) = r_schemes s.
Proof. intros k s. destruct (lookup_cases k s); reflexivity. Qed.
Lemma lookup_closed : forall k s, r_closed (snd (get_connection k s)) = r_closed s.
Proof. intros k s. destruct (lookup_cases k s); reflexivity. Qed.
Lemma lookup_timeout : forall k s, r_timeout (snd (get_connection k s)) = r_timeout s /\ r_now (snd (get_connection k s)) = r_now s.
Proof. intros k s. destruct (lookup_cases k s); split; reflexivity. Qed.

(** An entry stays until it is closed. *)
Lemma event_closed : forall e s c, In c (r_closed s) -> rinv s -> In c (r_closed (snd (run_event e s))).
Proof.
  intros [sc f|k|k|force fails|d] s c H Hi; cbn [run_event]; auto.
  - unfold bind. pose proof (lookup_closed k s) as E. destruct (get_connection k s) as [[x|x] s']; cbn [snd ret] in *; congruence.
  - unfold bind. rewrite use_is. pose proof (lookup_closed k s) as E. destruct (get_connection k s) as [[x|x] s']; cbn [snd ret set_used r_closed] in *; congruence.
  - rewrite cleanup_is by apply Hi. cbn [snd r_closed]. apply in_or_app. right. exact H.
Qed.
Lemma events_closed : forall l s c, In c (r_closed s) -> rinv s -> In c (r_closed (run_events l s)).
Proof.
  induction l as [|e l IH]; intros s c H Hi; [exact H|]. cbn [run_events fold_left]. apply IH; [apply event_closed; auto|apply rinv_event, Hi].
Qed.
Lemma event_keeps : forall e s k c, rinv s -> kget k (r_conns s) = Some c -> ~ In c (r_closed (snd (run_event e s))) ->
  kget k (r_conns (snd (run_event e s))) = Some c.
Proof.
  intros [sc f|k'|k'|force fails|d] s k c Hi H Hc; cbn [run_event] in *; auto.
  - unfold bind in *. pose proof (lookup_keeps k k' s c H) as E. destruct (get_connection k' s) as [[x|x] s']; exact E.
  - unfold bind in *. rewrite use_is in *. pose proof (lookup_keeps k k' s c H) as E. destruct (get_connection k' s) as [[x|x] s']; exact E.
  - rewrite cleanup_is in * by apply Hi. cbn [snd r_conns r_closed] in *. apply in_kget; [apply uniq_filter, Hi|].
    apply kget_in in H. destruct H as (k2 & Hk & Hin). exists k2. split; [exact Hk|]. apply filter_In. split; [exact Hin|].
    unfold keep. destruct (dueb force s (r_now s) (snd (k2, c))) eqn:E; [|reflexivity]. exfalso. apply Hc. apply in_or_app. left.
    apply in_rev. rewrite rev_involutive. apply in_map_iff. exists (k2, c). split; [reflexivity|]. apply filter_In. auto.
Qed.
Lemma events_keep : forall l s k c, rinv s -> kget k (r_conns s) = Some c -> ~ In c (r_closed (run_events l s)) ->
  kget k (r_conns (run_events l s)) = Some c.
Proof.
  induction l as [|e l IH]; intros s k c Hi H Hc; [exact H|]. cbn [run_events fold_left] in *. apply IH; [apply rinv_event, Hi| |exact Hc].
  apply event_keeps; auto. intros Hx. apply Hc. apply events_closed; [exact Hx|apply rinv_event, Hi].
Qed.
Lemma event_schemes : forall e s sc, rinv s -> sget sc (r_schemes s) <> None -> sget sc (r_schemes (snd (run_event e s))) <> None.
Proof.
  intros [sc' f|k'|k'|force fails|d] s sc Hi H; cbn [run_event]; auto.
  - cbn [register snd r_schemes]. destruct (opt_str_dec sc sc') as [->|Hne]; [rewrite sget_sset; discriminate|].
    rewrite sget_sset_other; auto.
  - unfold bind in *. pose proof (lookup_schemes k' s) as E. destruct (get_connection k' s) as [[x|x] s']; cbn [snd ret] in *; congruence.
  - unfold bind in *. rewrite use_is in *. pose proof (lookup_schemes k' s) as E. destruct (get_connection k' s) as [[x|x] s']; cbn [snd ret set_used r_schemes] in *; congruence.
  - rewrite cleanup_is by apply Hi. exact H.
Qed.
Lemma events_schemes : forall l s sc, rinv s -> sget sc (r_schemes s) <> None -> sget sc (r_schemes (run_events l s)) <> None.
Proof.
  induction l as [|e l IH]; intros s sc Hi H; [exact H|]. cbn [run_events fold_left]. apply IH; [apply rinv_event, Hi|].
  apply event_schemes; auto.
Qed.
Lemma lookup_hit : forall k s c, kget k (r_conns s) = Some c -> sget (k_scheme k) (r_schemes s) <> None ->
  get_connection k s = (Ok c, s).
Proof.
  intros k s c H Hs. destruct (lookup_cases k s) as [E|f c' E Ek|f e E Ek Ef|f E Ek Ef]; congruence.
Qed.
Lemma same_lookup : forall k k' s c l, rinv s -> same_key k k' ->
  fst (get_connection k s) = Ok c ->
  let s1 := run_events l (snd (get_connection k s)) in
  ~ In c (r_closed s1) -> get_connection k' s1 = (Ok c, s1).
Proof.
  intros k k' s c l Hi Hk H s1 Hc. pose proof (lookup_found k s c H) as [Hg Hs]. pose proof (rinv_lookup k s Hi) as Hi'.
  apply lookup_hit.
  - rewrite <- (kget_same k k') by exact Hk. apply events_keep; auto.
  - destruct Hk as (Esc & _). rewrite <- Esc. apply events_schemes; auto.
Qed.

(** A connection that was handed out for one key is never handed out for another. *)
Definition owned (s : rst) (k : conn_key) (c : nat) : Prop :=
  c < r_next s /\ forall k', In (k', c) (r_conns s) -> same_key k k'.
Lemma owned_lookup : forall k c k' s, owned s k c -> owned (snd (get_connection k' s)) k c.
Proof.
  intros k c k' s [H1 H2]. destruct (lookup_cases k' s) as [E|f c' E Ek|f e E Ek Ef|f E Ek Ef]; cbn [snd]; try (split; assumption).
  split; cbn [r_next r_conns]; [lia|]. intros k2 Hi. apply in_app_or in Hi. destruct Hi as [Hi|[[= <- <-]|[]]]; [apply H2, Hi|lia].
Qed.
Lemma owned_event : forall e s k c, rinv s -> owned s k c -> owned (snd (run_event e s)) k c.
Proof.
  intros [sc' f|k'|k'|force fails|d] s k c Hi H; cbn [run_event]; auto.
  - unfold bind. pose proof (owned_lookup k c k' s H) as E. destruct (get_connection k' s) as [[x|x] s']; exact E.
  - unfold bind. rewrite use_is. pose proof (owned_lookup k c k' s H) as E. destruct (get_connection k' s) as [[x|x] s']; exact E.
  - rewrite cleanup_is by apply Hi. destruct H as [H1 H2]. split; [exact H1|]. intros k2 Hin. apply filter_In in Hin. apply H2, Hin.
Qed.
Lemma owned_events : forall l s k c, rinv s -> owned s k c -> owned (run_events l s) k c.
Proof.
  induction l as [|e l IH]; intros s k c Hi H; [exact H|]. cbn [run_events fold_left]. apply IH; [apply rinv_event, Hi|].
  apply owned_event; auto.
Qed.
Lemma lookup_owned : forall k s c, rinv s -> fst (get_connection k s) = Ok c -> owned (snd (get_connection k s)) k c.
Proof.
  intros k s c Hi H. pose proof (lookup_found k s c H) as [Hg Hs]. pose proof (rinv_lookup k s Hi) as Hi'.
  apply kget_in in Hg. destruct Hg as (k2 & Hk & Hin). split.
  - apply (ri_lt _ Hi'). apply in_map_iff. exists (k2, c). auto.
  - intros k3 H3. assert (E : (k3, c) = (k2, c)) by (eapply pair_snd_unique; eauto; apply Hi'). injection E as ->. exact Hk.
Qed.
Lemma different_lookup : forall k k' s c c' l, rinv s -> ~ same_key k k' ->
  fst (get_connection k s) = Ok c ->
  let s1 := run_events l (snd (get_connection k s)) in
  fst (get_connection k' s1) = Ok c' -> c <> c'.
Proof.
  intros k k' s c c' l Hi Hk H s1 H' ->. pose proof (rinv_lookup k s Hi) as Hi'.
  pose proof (owned_lookup k c' k' s1 (owned_events l _ k c' Hi' (lookup_owned k s c' Hi H))) as [_ Ho].
  apply lookup_found in H'. destruct H' as [Hg _]. apply kget_in in Hg. destruct Hg as (k2 & Hk2 & Hin). apply Ho in Hin.
  apply Hk. eapply same_trans; [exact Hin|apply same_sym, Hk2].
Qed.
Lemma lookup_open : forall k s c, rinv s -> fst (get_connection k s) = Ok c -> ~ In c (r_closed (snd (get_connection k s))).
Proof.
  intros k s c Hi H. pose proof (lookup_found k s c H) as [Hg _]. apply kget_in in Hg. destruct Hg as (k2 & _ & Hin).
  apply (ri_apart _ (rinv_lookup k s Hi)). apply in_map_iff. exists (k2, c). auto.
Qed.

(** *** Registrations *)
Lemma run_events_snoc : forall l e s, run_events (l ++ [e]) s = snd (run_event e (run_events l s)).
Proof. intros. unfold run_events. rewrite fold_left_app. reflexivity. Qed.
Lemma event_sget : forall e s sc, rinv s -> (forall g, e <> RRegister sc g) ->
  sget sc (r_schemes (snd (run_event e s))) = sget sc (r_schemes s).
Proof.
  intros [sc' f|k'|k'|force fails|d] s sc Hi H; cbn [run_event]; auto.
  - cbn [register snd r_schemes]. apply sget_sset_other. intros ->. apply (H f). reflexivity.
  - unfold bind in *. pose proof (lookup_schemes k' s) as E. destruct (get_connection k' s) as [[x|x] s']; cbn [snd ret] in *; congruence.
  - unfold bind in *. rewrite use_is in *. pose proof (lookup_schemes k' s) as E. destruct (get_connection k' s) as [[x|x] s']; cbn [snd ret set_used r_schemes] in *; congruence.
  - rewrite cleanup_is by apply Hi. reflexivity.
Qed.
Lemma registered_sget : forall sc f l, registered sc f l -> forall t n, sget sc (r_schemes (run_events l (init_reg t n))) = Some f.
Proof.
  induction 1 as [f l|f l e Hr IH He]; intros t n; rewrite run_events_snoc.
  - cbn [run_event register snd r_schemes]. apply sget_sset.
  - rewrite event_sget; auto. apply rinv_events, rinv_init.
Qed.
Lemma unregistered_sget : forall sc l, unregistered sc l -> forall t n, sget sc (r_schemes (run_events l (init_reg t n))) = None.
Proof.
  intros sc l. induction l as [|e l IH] using rev_ind; intros Hu t n; [reflexivity|]. rewrite run_events_snoc, event_sget.
  - apply IH. intros f Hi. apply (Hu f). apply in_or_app. left. exact Hi.
  - apply rinv_events, rinv_init.
  - intros g ->. apply (Hu g). apply in_or_app. right. left. reflexivity.
Qed.
