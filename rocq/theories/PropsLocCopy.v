(** Property C108: the complete rule for copying single local files and links, between any two URIs. *)
From Verif Require Import Str Exc Utf8 UriParse BaseUri StrFacts Utf8Facts SpecUri SpecParse SpecNames NamesFacts Mem SpecMem Generic UriOps.
From Verif Require Import UriFacts2 UriFacts3 MemUri PropsMem.
From Verif Require Import Misc Posix Local SpecLocal LocalFacts1 LocalFacts6 LocalFacts12 LocalFacts14 LocalFacts15 PropsLocal2.
From Verif Require Import SpecPosix PosixFacts PosixFacts2 PosixFacts3 PropsPosix SpecMove MoveFacts MoveFacts2 SpecLocCopy LocCopyFacts.
Open Scope string_scope.
Open Scope list_scope.
Local Notation LB := loc_backend.

(** [copy] without [recursive], for all URIs [u] and [v] and every tree with links *)
Theorem C108_copy x u v fuel ign follow : sound x -> u_cls u = ULocal ->
  copies x follow u v (fst (u_copy LB fuel false ign follow u v x)) (snd (u_copy LB fuel false ign follow u v x)).
Proof. apply copies_run. Qed.
Print Assumptions C108_copy.
Theorem C108_one x u v fuel ign follow r x1 : sound x -> u_cls u = ULocal -> copies x follow u v r x1 ->
  fst (u_copy LB fuel false ign follow u v x) = r /\ alike (snd (u_copy LB fuel false ign follow u v x)) x1.
Proof. intros So Cl C. exact (copies_det _ _ _ _ _ _ _ _ (copies_run x u v fuel ign follow So Cl) C). Qed.
Print Assumptions C108_one.
(** A copy that works and whose destination is not the source: both can be read, with the same content, and nothing else changed. *)
Theorem C108_both x u v w fuel ign follow p d mo mt x' : sound x -> u_cls u = ULocal -> sees x true u (Is p (PFile d mo mt)) -> lands x u v (Ok w) ->
  (follow = true \/ forall q t, ~ sees x false u (Is q (PLink t))) -> (forall d' mo' mt', ~ opens x w p (Some (PFile d' mo' mt'))) ->
  u_copy LB fuel false ign follow u v x = (Ok tt, x') ->
  loc_read_all w x' = (Ok d, x') /\ loc_read_all u x' = (Ok d, x') /\ exists q o e, opens x w q o /\ only x x' q (Some e).
Proof.
  intros So Cl Su La Fo Ns E. pose proof (copies_run x u v fuel ign follow So Cl) as C. rewrite E in C. cbn [fst snd] in C.
  assert (C' : exists s, copied x u w s (Ok tt) x').
  { inversion C as [ | | |p' d' mo' mt' q' t' w' r' x2 S' F' K' L' R'|p' d' mo' mt' w' s' r' x2 S' F' L' E' C']; subst.
    - destruct Fo as [Fo|Fo]; [discriminate|now apply Fo in K'].
    - pose proof (lands_det _ _ _ _ _ La L') as Q. injection Q as <-. eauto. }
  destruct C' as [s C']. assert (K : exists q o d2 mo2 mt2, opens x w q o /\ p <> q /\ d2 = d /\ only x x' q (Some (PFile d2 mo2 mt2))).
  { inversion C' as [p' d' mo' mt' q d1 mo1 mt1 y S O N On|p' d' mo' mt' q y S O On|p' d' mo' mt' y S O On|]; subst;
      pose proof (sees_det _ _ _ _ _ Su S) as Q; injection Q as <- <- <- <-.
    - exists q, (Some (PFile d1 mo1 mt1)). destruct s; eauto 9.
    - assert (p <> q). { intros <-. apply opens_spot in O. apply sees_spot in Su. unfold entry_at in *. congruence. } exists q, None. destruct s; eauto 9.
    - now apply Ns in O. }
  destruct K as (q & o & d2 & mo2 & mt2 & O & N & -> & On).
  assert (Sx : sound x'). { pose proof (LocalFacts17.steady_u_copy fuel false ign follow u v) as St. specialize (St x So). rewrite E in St. exact St. }
  split; [|split; [|eauto 6]].
  - apply C105_read; auto. eapply opens_read. eapply opens_after; eauto.
  - apply C105_read; auto. eapply rd_file. eapply sees_beside; eauto. intros e G. apply opens_spot in O as Gq. unfold entry_at in *. destruct O as [q d1 mo1 mt1 T S|i m T S]; [|congruence]. rewrite G in Gq. injection Gq as ->. eauto.
Qed.
Print Assumptions C108_both.
(** When the content cannot be copied, nothing has changed: links that are made anew are the only copies that can fail half-way. *)
Theorem C108_failure x u v fuel ign follow e x' : sound x -> u_cls u = ULocal -> (follow = true \/ forall q t, ~ sees x false u (Is q (PLink t))) ->
  u_copy LB fuel false ign follow u v x = (Raise e, x') -> x' = x.
Proof.
  intros So Cl Fo E. pose proof (copies_run x u v fuel ign follow So Cl) as C. rewrite E in C. cbn [fst snd] in C.
  inversion C as [ | | |p' d' mo' mt' q' t' w' r' x2 S' F' K' L' R'|p' d' mo' mt' w' s' r' x2 S' F' L' E' C']; subst; auto.
  - destruct Fo as [Fo|Fo]; [discriminate|now apply Fo in K'].
  - inversion C'; subst; auto.
Qed.
Print Assumptions C108_failure.
(** A file copied onto itself, by whatever path, is emptied. *)
Theorem C108_self x u v fuel ign follow p d mo mt : sound x -> u_cls u = ULocal -> sees x true u (Is p (PFile d mo mt)) -> ~ dir_seen x v -> opens x v p (Some (PFile d mo mt)) ->
  (follow = true \/ forall q t, ~ sees x false u (Is q (PLink t))) -> exists x' mo', u_copy LB fuel false ign follow u v x = (Ok tt, x') /\ only x x' p (Some (PFile [] mo' (p_now x))).
Proof.
  intros So Cl Su Nd Op Fo. pose proof (copies_run x u v fuel ign follow So Cl) as C. destruct (u_copy LB fuel false ign follow u v x) as [r x'] eqn:E. cbn [fst snd] in C.
  assert (La : lands x u v (Ok v)) by now apply ld_at.
  assert (C' : exists s, copied x u v s r x').
  { inversion C as [o e S A|(q & mo1 & mt1 & D)|p' d' mo' mt' e S L|p' d' mo' mt' q' t' w' r' x2 S' F' K' L' R'|p' d' mo' mt' w' s' r' x2 S' F' L' E' C']; subst.
    - pose proof (sees_det _ _ _ _ _ Su S) as <-. inversion A; discriminate.
    - pose proof (sees_det _ _ _ _ _ Su D). discriminate.
    - pose proof (lands_det _ _ _ _ _ La L). discriminate.
    - destruct Fo as [Fo|Fo]; [discriminate|now apply Fo in K'].
    - pose proof (lands_det _ _ _ _ _ La L') as Q. injection Q as <-. eauto. }
  destruct C' as [s C']. inversion C' as [p' d' mo' mt' q d1 mo1 mt1 y S O N On|p' d' mo' mt' q y S O On|p' d' mo' mt' y S O On|e R]; subst.
  - destruct (opens_det _ _ _ _ _ _ Op O) as [<- _]. pose proof (sees_det _ _ _ _ _ Su S) as Q. injection Q as <- _ _ _. easy.
  - destruct (opens_det _ _ _ _ _ _ Op O). discriminate.
  - pose proof (sees_det _ _ _ _ _ Su S) as Q. injection Q as <- <- <- <-. eauto.
  - now destruct (opens_refused _ _ _ _ _ Op R).
Qed.
Print Assumptions C108_self.
Lemma walks_removed x x1 n cur l o q t : sound x -> walks x false n cur l o -> o = Is q (PLink t) -> only x x1 q None -> (l <> [] \/ forall t', ~ entry_at x cur (Some (PLink t'))) ->
  exists n' o', (n' <= n)%nat /\ walks x1 false n' cur l o' /\ absent o' (OSError ENOENT).
Proof.
  intros So W. intros Ho (O1 & O2 & _). assert (G : entry_at x q (Some (PLink t))).
  { clear -W Ho. induction W as [cur e E| | | | | |cur c t' D Sp E F| | | | ]; try discriminate; auto; [injection Ho as <- ->|injection Ho as <- <-]; exact E. }
  assert (Dir : forall r, is_dir_at x r -> is_dir_at x1 r).
  { intros r (a & b & D). exists a, b. destruct (list_eq_dec str_eq_dec r q) as [->|N]; [unfold entry_at in G; congruence|now rewrite O2]. }
  induction W as [cur e E|n cur c l o D C W IH|n cur l o D W IH|cur c D Sp E|cur c l D Sp E N|n cur c e l o D Sp E L W IH
    |cur c tt D Sp E F|cur c l D Sp E F|n cur c tt st' ps l o D Sp E F T B P W IH|cur e l E D N|cur l E]; intros Hc; try discriminate.
  - injection Ho as -> ->. destruct Hc as [Hc|Hc]; [easy|]. exfalso. eapply Hc; eauto.
  - destruct IH as (n' & o' & Le & W' & A); auto; [right; intros t' El; exact (link_not_dir _ _ _ El D)|]. exists n', o'. split; [auto|split; [now apply wk_same; auto|auto]].
  - destruct IH as (n' & o' & Le & W' & A); auto.
    { right. intros t' El. destruct cur as [|c0 cur0] using rev_ind; [exact (link_not_dir _ _ _ El D)|]. rewrite removelast_last in El. destruct D as (a & b & D). apply (link_not_dir _ _ _ El). apply (so_up x So _ c0). rewrite D. discriminate. }
    exists n', o'. split; [auto|split; [now apply wk_up; auto|auto]].
  - destruct IH as (n' & o' & Le & W' & A); auto; [right; intros t' El; unfold entry_at in *; rewrite E in El; injection El as ->; exact (L t' eq_refl)|]. exists n', o'. split; [auto|split; [|auto]].
    apply wk_in with e; auto. unfold entry_at in *. rewrite O2; auto. intros Q. rewrite Q, G in E. injection E as <-. exact (L t eq_refl).
  - injection Ho as <- <-. exists 0%nat, (Free cur c). split; [auto|split; [apply wk_free; auto|now apply ab_free with cur c]].
  - destruct (list_eq_dec str_eq_dec (cur ++ [c]) q) as [<-|Nq].
    + destruct l as [|b l].
      * exists 0%nat, (Free cur c). split; [lia|split; [apply wk_free; auto|now apply ab_free with cur c]].
      * exists 0%nat, (Wrong (OSError ENOENT)). split; [lia|split; [apply wk_lost; auto; discriminate|now apply ab_wrong]].
    + destruct IH as (n' & o' & Le & W' & A); auto.
      { left. destruct P as (Pn & _). destruct ps; [easy|discriminate]. }
      exists (Datatypes.S n'), o'. split; [lia|split; [|auto]]. apply wk_link with tt st' ps; auto. unfold entry_at in *. now rewrite O2.
Qed.
Lemma sees_removed x x1 u q t : sound x -> sees x false u (Is q (PLink t)) -> only x x1 q None -> exists o, sees x1 false u o /\ absent o (OSError ENOENT).
Proof.
  intros So (s & P & L) O. inversion L as [| |n st ps o N1 N2 St B Ln W|]; subst. destruct (walks_removed _ _ _ _ _ _ _ _ So W eq_refl O) as (n' & o' & Le & W' & A); [left; exact (proj1 B)|].
  exists o'. split; auto. exists s. split; auto. apply lo_found with n' st ps; auto; [|lia]. destruct O as (_ & _ & -> & _). exact St.
Qed.
(** A link copied as a link onto itself, by whatever path, is deleted. *)
Theorem C108_link_self x u v fuel ign p d mo mt q t : sound x -> u_cls u = ULocal -> sees x true u (Is p (PFile d mo mt)) -> sees x false u (Is q (PLink t)) ->
  sees x true v (Is p (PFile d mo mt)) -> sees x false v (Is q (PLink t)) ->
  exists x', u_copy LB fuel false ign false u v x = (Raise (OSError ENOENT), x') /\ only x x' q None.
Proof.
  intros So Cl Su Sf Vt Vf. pose proof (copies_run x u v fuel ign false So Cl) as C. destruct (u_copy LB fuel false ign false u v x) as [r x'] eqn:E. cbn [fst snd] in C.
  assert (La : lands x u v (Ok v)) by (apply ld_at; intros (a & b & c & D); pose proof (sees_det _ _ _ _ _ Vt D); discriminate).
  assert (R : relinks x u v r x').
  { inversion C as [o e S A|(a & mo1 & mt1 & D)|p' d' mo' mt' e S L|p' d' mo' mt' q' t' w' r' x2 S' F' K' L' R'|p' d' mo' mt' w' s' r' x2 S' F' L' E' C']; subst.
    - pose proof (sees_det _ _ _ _ _ Su S) as <-. inversion A; discriminate.
    - pose proof (sees_det _ _ _ _ _ Su D). discriminate.
    - pose proof (lands_det _ _ _ _ _ La L). discriminate.
    - pose proof (lands_det _ _ _ _ _ La L') as Q. injection Q as <-. exact R'.
    - destruct F' as [F'|F']; [discriminate|now apply F' in Sf]. }
  assert (Cl1 : forall x1, cleared x v x1 -> only x x1 q None).
  { intros x1 [p' d' mo' mt' q' e' z' S1 S2 O|N]; [|now apply N in Vt]. pose proof (sees_det _ _ _ _ _ Vf S2) as Q. injection Q as <- _. exact O. }
  inversion R as [x1 e1 C1 L|x1 t1 r1 y C1 L K]; subst; apply Cl1 in C1; destruct (sees_removed _ _ _ _ _ So Sf C1) as (o' & S' & A').
  - pose proof (leads_det _ _ _ _ L (le_absent _ _ _ _ S' A')) as Q. injection Q as ->. eauto.
  - pose proof (leads_det _ _ _ _ L (le_absent _ _ _ _ S' A')) as Q. discriminate.
Qed.
Print Assumptions C108_link_self.
(** Read, write and execute bits are kept as they are. *)
Theorem C108_perms mo : (0 <= mo < 4096)%Z -> stat_perms mo = mo.
Proof.
  intros R. unfold stat_perms. rewrite Z.land_lor_distr_l. change (Z.land 32768 4095) with 0%Z. rewrite Z.lor_0_l. change 4095%Z with (Z.ones 12). rewrite Z.land_ones by lia. now apply Z.mod_small.
Qed.
Print Assumptions C108_perms.
Example C108_witness : sound loc20 /\
  (let c f (u v : string) := u_copy LB 9 false [] f (U u) (U v) loc20 in
   (* through a link, into a directory, with mode and time of the source *)
   (fst (c true "/d/e/up" "/m/k") = Ok tt /\ pget (P ["d"; "k"; "up"]) (p_tree (snd (c true "/d/e/up" "/m/k"))) = Some (PFile (lit "one") 420 6)) /\
   (* along a link to nothing *)
   (fst (c true "/d/f" "/z") = Ok tt /\ pget (P ["d"; "new"]) (p_tree (snd (c true "/d/f" "/z"))) = Some (PFile (lit "one") 420 6)) /\
   (* onto itself *)
   (fst (c true "/d/f" "/l/e/up") = Ok tt /\ pget (P ["d"; "f"]) (p_tree (snd (c true "/d/f" "/l/e/up"))) = Some (PFile [] 420 50)) /\
   (* a link, made anew *)
   (fst (c false "/d/e/up" "/d/up") = Ok tt /\ pget (P ["d"; "up"]) (p_tree (snd (c false "/d/e/up" "/d/up"))) = Some (PLink (lit "../l/f"))) /\
   (fst (c false "/d/e/up" "/l/e/up") = Raise (OSError ENOENT) /\ pget (P ["d"; "e"; "up"]) (p_tree (snd (c false "/d/e/up" "/l/e/up"))) = None) /\
   c true "/d/f" "/o" = (Raise (OSError ELOOP), loc20) /\ c true "/d" "/x" = (Raise AssertionError, loc20) /\ c true "/d/g" "/x" = (Raise FileDoesNotExistError, loc20)).
Proof. split; [apply loc20_sound|]. vm_compute. repeat split. Qed.
Example C108_self_witness : sound loc20 /\ u_cls (U "/d/f") = ULocal /\ sees loc20 true (U "/d/f") (Is (P ["d"; "f"]) (PFile (lit "one") 420 6)) /\ ~ dir_seen loc20 (U "/l/e/up") /\
  opens loc20 (U "/l/e/up") (P ["d"; "f"]) (Some (PFile (lit "one") 420 6)) /\ sees loc20 false (U "/l/e/up") (Is (P ["d"; "e"; "up"]) (PLink (lit "../../l/f"))) /\
  (forall d mo mt, ~ opens loc20 (U "/d/g") (P ["d"; "f"]) (Some (PFile d mo mt))).
Proof.
  split; [apply loc20_sound|]. split; [reflexivity|]. split; [apply sees_iff; vm_compute; reflexivity|].
  assert (H : sees loc20 true (U "/l/e/up") (Is (P ["d"; "f"]) (PFile (lit "one") 420 6))) by (apply sees_iff; vm_compute; reflexivity).
  split; [|split; [|split; [apply sees_iff; vm_compute; reflexivity|]]].
  - intros (p & mo & mt & D). pose proof (sees_det _ _ _ _ _ H D). discriminate.
  - apply op_file; [rewrite trailing_iff; vm_compute; discriminate|exact H].
  - intros d mo mt O. inversion O as [p d' mo' mt' T S|]; subst. assert (F : sees loc20 true (U "/d/g") (Free (P ["d"]) (lit "g"))) by (apply sees_iff; vm_compute; reflexivity).
    pose proof (sees_det _ _ _ _ _ S F). discriminate.
Qed.
