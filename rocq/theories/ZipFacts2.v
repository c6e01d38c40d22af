(** Ordinary URIs of a zip archive, and walking one. *)
From Coq Require Import Lia Sorted Permutation.
From Verif Require Import Str Exc Utf8 UriParse BaseUri StrFacts UriFacts SpecUri UriFacts2 UriFacts3 UriFacts4 UriFacts5 UriFacts6 SpecMem.
From Verif Require Import Mem MemUri Generic GenFacts1 GenFacts4 GenFacts8 Zip SpecZip ZipFacts.

Lemma scheme_zip : scheme_ok (lit "zip").
Proof.
  constructor; try (cbn; lia); try (split; discriminate); try discriminate.
  intros c Hc. cbn in Hc. unfold scheme_letter. intuition (subst; lia).
Qed.
Definition zip_uri (v : str) (cs : list str) : uri :=
  made UZip (zip_text v cs) cSlash (parse_of (lit "zip") (Connector v) (abs_path cs) [] None) [].
Lemma zip_gtext v cs : gtext (lit "zip") (Connector v) (abs_path cs) None None = zip_text v cs.
Proof. unfold gtext, zip_text. cbn [qtext ftext]. now rewrite !app_nil_r. Qed.
Lemma zip_loc v cs : auth_ok (Connector v) -> Forall name_ok cs -> loc_ok (lit "zip") (Connector v) (abs_path cs).
Proof.
  intros A H. apply loc_abs; auto.
  - right. split; [apply scheme_zip|exact A].
  - intros E. discriminate.
Qed.
Lemma zip_uri_eq v cs : auth_ok (Connector v) -> Forall name_ok cs -> URI (zip_text v cs) cSlash [] = Ok (zip_uri v cs).
Proof.
  intros A H. rewrite <- zip_gtext.
  rewrite (URI_made _ _ _ [] None); auto using zip_loc, empty_query_ok, no_query_enc.
  now rewrite zip_gtext.
Qed.
Lemma zip_at_eq v cs u : zip_at v cs u -> u = zip_uri v cs.
Proof. intros (A & H & _ & E). rewrite zip_uri_eq in E by auto. now injection E as <-. Qed.
Lemma zip_at_good v cs u : zip_at v cs u -> good_path cs.
Proof. intros (A & H & D & E). now split. Qed.
Lemma zip_at_uri v cs : auth_ok (Connector v) -> good_path cs -> zip_at v cs (zip_uri v cs).
Proof. intros A [H D]. repeat split; auto. now apply zip_uri_eq. Qed.
Lemma zip_fields v cs : u_cls (zip_uri v cs) = UZip /\ u_p (zip_uri v cs) = parse_of (lit "zip") (Connector v) (abs_path cs) [] None /\
  u_sep (zip_uri v cs) = cSlash /\ u_all_extras (zip_uri v cs) = [].
Proof. repeat split. Qed.
Lemma zip_path v cs : good_path cs -> u_path (zip_uri v cs) = abs_path cs.
Proof.
  intros G. rewrite <- (good_path_path cs G). reflexivity.
Qed.
Lemma zip_div v cs n : auth_ok (Connector v) -> Forall name_ok (cs ++ [n]) -> u_div (zip_uri v cs) n = Ok (zip_uri v (cs ++ [n])).
Proof.
  intros A H. pose proof H as H0. apply Forall_app in H as [H1 H2]. inversion H2 as [|? ? Hn _]; subst.
  unfold u_div. change [n] with ([] ++ [n]) at 1.
  erewrite (join_made (zip_uri v cs) (lit "zip") (Connector v) (flat_map (fun c => cSlash :: c) cs)
              (match cs with [] => 1 | _ => 0 end) [] None [] n (abs_path (cs ++ [n]))); auto using empty_query_ok, no_query_enc.
  - now rewrite zip_gtext.
  - rewrite (proj1 (proj2 (zip_fields v cs))). f_equal. destruct cs; [reflexivity|]. cbn [repeat]. now rewrite app_nil_r.
  - now apply nts_flat.
  - rewrite abs_path_snoc. reflexivity.
  - now apply zip_loc.
Qed.

(** *** Components *)
Lemma flat_inj (cs cs' : list str) : Forall (fun c => ~ In cSlash c) cs -> Forall (fun c => ~ In cSlash c) cs' ->
  flat_map (fun c => cSlash :: c) cs = flat_map (fun c => cSlash :: c) cs' -> cs = cs'.
Proof.
  assert (S : forall cs, Forall (fun c => ~ In cSlash c) cs -> split_on cSlash (flat_map (fun c => cSlash :: c) cs) = [] :: cs).
  { clear. induction cs as [|c cs IH] using rev_ind; intros F; [reflexivity|]. apply Forall_app in F as [F1 F2]. inversion F2; subst.
    rewrite flat_map_app. cbn [flat_map]. rewrite app_nil_r, split_on_gen, IH, split_on_none by auto. reflexivity. }
  intros F F' E. apply (f_equal (split_on cSlash)) in E. rewrite !S in E by auto. now injection E.
Qed.
Lemma names_no_slash cs : Forall name_ok cs -> Forall (fun c => ~ In cSlash c) cs.
Proof. intros H. eapply Forall_impl; [|exact H]. intros c Hc. now apply name_no_slash. Qed.
Lemma abs_inj cs cs' : Forall name_ok cs -> Forall name_ok cs' -> cs <> [] -> cs' <> [] -> abs_path cs = abs_path cs' -> cs = cs'.
Proof. intros H H' N N'. rewrite !abs_path_ne by auto. apply flat_inj; now apply names_no_slash. Qed.
Lemma abs_sub cs n : Forall name_ok cs -> sub (abs_path cs) n = abs_path (cs ++ [n]).
Proof.
  intros H. rewrite abs_path_snoc. unfold sub. destruct cs as [|c cs]; [reflexivity|].
  destruct (str_eqb (abs_path (c :: cs)) root) eqn:E; [|reflexivity]. apply root_eqb in E. inversion H as [|? ? Hc _]; subst.
  cbn in E. injection E as E. apply app_eq_nil in E as [-> _]. now destruct (name_ne _ Hc).
Qed.
Lemma below_abs cs t : Forall (fun c => ~ In cSlash c) cs -> Forall name_ok t -> cs <> [] -> t <> [] ->
  (below (abs_path cs) (abs_path t) <-> exists b, b <> [] /\ t = cs ++ b).
Proof.
  intros H Ht N Nt. split.
  - intros [r E]. rewrite !abs_path_ne in E by auto.
    exists (split_on cSlash r). split; [apply split_on_nonnil|]. apply flat_inj; [now apply names_no_slash|apply Forall_app; split; [auto|apply split_on_no_sep]|].
    rewrite E, flat_map_app. f_equal. rewrite <- (join_split cSlash r) at 1. pose proof (split_on_nonnil cSlash r) as X.
    generalize dependent (split_on cSlash r). clear. intros l Hl. destruct l as [|x l]; [easy|]. clear Hl. revert x.
    induction l as [|y l IH]; intros x; [cbn; now rewrite app_nil_r|].
    rewrite join_with_cons by discriminate. cbn [flat_map app]. f_equal. f_equal. apply IH.
  - intros (b & Nb & ->). destruct b as [|x b]; [easy|]. exists (x ++ flat_map (fun c => cSlash :: c) b).
    rewrite !abs_path_ne by auto. rewrite flat_map_app. reflexivity.
Qed.

(** *** Walking *)
Lemma nodup_app {A} (l1 l2 : list A) : NoDup l1 -> NoDup l2 -> (forall x, In x l1 -> ~ In x l2) -> NoDup (l1 ++ l2).
Proof.
  induction l1 as [|x l1 IH]; intros H1 H2 H; [exact H2|]. inversion H1; subst. cbn. constructor.
  - rewrite in_app_iff. intros [X|X]; [contradiction|]. apply (H x); [now left|exact X].
  - apply IH; auto. intros y Hy. apply H. now right.
Qed.
Section Tree.
Variables (v : str) (T : list (list str)) (s : zst) (h : zhandle).
Hypothesis Hv : auth_ok (Connector v).
Hypothesis Hgood : forall t, In t T -> t <> [] /\ good_path t.
Hypothesis Hfree : forall t b, In t T -> In (t ++ b) T -> b = [].
Hypothesis Hh : z_handle s = Some h.
Hypothesis Hd : z_disk s <> DNone.
Hypothesis Hn : map fst (zh_members h) = map abs_path T.
Let Z := zip_backend.

Definition dirT (c : list str) : Prop := exists b, b <> [] /\ In (c ++ b) T.
Lemma part_good c b : In (c ++ b) T -> good_path c.
Proof. intros H. apply (good_app c b). apply (Hgood _ H). Qed.
Lemma member_abs m : is_member (zh_members h) m <-> exists t, In t T /\ m = abs_path t.
Proof. unfold is_member. rewrite Hn, in_map_iff. split; intros (t & H1 & H2); exists t; auto. Qed.
Lemma all_abs : all_absolute (zh_members h).
Proof.
  intros m H. apply member_abs in H as (t & H & ->). destruct (Hgood _ H) as [N _]. destruct t as [|x t]; [easy|]. cbn. now eexists.
Qed.
Lemma below_dir c : good_path c -> c <> [] -> ((exists m, is_member (zh_members h) m /\ below (abs_path c) m) <-> dirT c).
Proof.
  intros G N. split.
  - intros (m & H & B). apply member_abs in H as (t & H & ->). destruct (Hgood _ H) as [Nt Gt].
    apply below_abs in B as (b & Nb & ->); auto; [now exists b|apply names_no_slash, G|apply Gt].
  - intros (b & Nb & H). exists (abs_path (c ++ b)). split; [apply member_abs; eauto|]. destruct (Hgood _ H) as [Nt Gt].
    apply below_abs; eauto; [apply names_no_slash, G|apply Gt].
Qed.
Lemma isdir_T c : good_path c -> c <> [] -> exists b, zip_isdir (zip_uri v c) s = (Ok b, s) /\ (b = true <-> dirT c).
Proof.
  intros G N. destruct (isdir_run s h Hh (zip_uri v c)) as (b & E & Hb). exists b. split; [exact E|]. rewrite zip_path in Hb by auto.
  rewrite Hb, below_dir by auto. split; [|tauto]. intros [X|X]; [|exact X]. exfalso. destruct c as [|x c]; [easy|]. cbn in X. injection X as X.
  apply app_eq_nil in X as [-> _]. destruct G as [G _]. inversion G as [|? ? Hx _]. now destruct (name_ne _ Hx).
Qed.
Lemma listdir_T c : good_path c -> c = [] \/ dirT c ->
  exists l, zip_listdir (zip_uri v c) s = (Ok l, s) /\ StronglySorted slt l /\ forall n, In n l <-> exists b, In (c ++ n :: b) T.
Proof.
  intros G D. destruct (listdir_run s h Hh (zip_uri v c) Hd all_abs) as (l & E & S & I).
  - rewrite zip_path by auto. destruct c as [|x c]; [now left|]. right. apply below_dir; auto; [discriminate|]. now destruct D.
  - exists l. split; [exact E|]. split; [exact S|]. intros n. rewrite I, zip_path, abs_sub by (auto; apply G). split.
    + intros (Nn & Ns & m & H & C). apply member_abs in H as (t & H & ->). destruct (Hgood _ H) as [Nt Gt].
      assert (F : Forall (fun c => ~ In cSlash c) (c ++ [n])) by (apply Forall_app; split; [apply names_no_slash, G|auto]).
      assert (N1 : c ++ [n] <> []) by (now destruct c). destruct C as [C|C].
      * rewrite !abs_path_ne in C by auto. apply flat_inj in C; auto; [|apply names_no_slash, Gt]. subst t. now exists [].
      * apply below_abs in C as (b & _ & ->); auto; [|apply Gt]. exists b. now rewrite <- app_assoc in H.
    + intros [b H]. pose proof H as H'. replace (c ++ n :: b) with ((c ++ [n]) ++ b) in H' by (now rewrite <- app_assoc). pose proof (part_good _ _ H') as Gn.
      pose proof (good_name c n [] Gn) as Nn. split; [apply (name_ne _ Nn)|]. split; [now apply name_no_slash|].
      exists (abs_path ((c ++ [n]) ++ b)). split; [apply member_abs; eauto|]. destruct b as [|y b]; [left; now rewrite app_nil_r|]. right.
      apply below_abs; auto; [apply names_no_slash, Gn|apply (Hgood _ H')|now destruct c|now destruct c|]. exists (y :: b). split; [discriminate|reflexivity].
Qed.
Lemma kinds_T c names : StronglySorted slt names -> (forall n, In n names -> exists b, In (c ++ n :: b) T) ->
  exists ds fs, kinds Z (zip_uri v c) names s = (Ok (ds, fs), s) /\ StronglySorted slt ds /\ StronglySorted slt fs /\
    (forall n, In n ds <-> In n names /\ dirT (c ++ [n])) /\ (forall n, In n fs <-> In n names /\ ~ dirT (c ++ [n])).
Proof.
  induction names as [|n names IH]; intros S H.
  - exists [], []. cbn. repeat split; auto; try constructor; tauto.
  - inversion S as [|? ? S1 S2]; subst. destruct IH as (ds & fs & E & D1 & D2 & I1 & I2); [exact S1|intros m Hm; apply H; now right|].
    destruct (H n (or_introl eq_refl)) as [b Hb]. replace (c ++ n :: b) with ((c ++ [n]) ++ b) in Hb by (now rewrite <- app_assoc).
    pose proof (part_good _ _ Hb) as G. destruct (isdir_T (c ++ [n]) G) as (d & Ed & Hd'); [now destruct c|].
    cbn [kinds]. erewrite bind_ok by (apply lift_ok, zip_div; [exact Hv|apply G]). erewrite bind_ok by exact Ed. erewrite bind_ok by exact E.
    rewrite Forall_forall in S2. assert (Q : forall l, (forall m, In m l -> In m names) -> StronglySorted slt l -> StronglySorted slt (n :: l)).
    { intros l Hl Sl. constructor; [exact Sl|]. apply Forall_forall. auto. }
    destruct d; cbn [fst snd].
    + exists (n :: ds), fs. split; [reflexivity|]. split; [apply Q; auto; intros m Hm; now apply I1 in Hm|]. split; [auto|].
      split; intros m; cbn [In]; rewrite ?I1, ?I2; split; try tauto.
      * intros [->|X]; [|tauto]. split; [now left|]. now apply Hd'.
      * intros [[->|X] Y]; [|tauto]. destruct Y. now apply Hd'.
    + exists ds, (n :: fs). split; [reflexivity|]. split; [auto|]. split; [apply Q; auto; intros m Hm; now apply I2 in Hm|].
      assert (ND : ~ dirT (c ++ [n])) by (intros X; apply Hd' in X; discriminate).
      split; intros m; cbn [In]; rewrite ?I1, ?I2; split; try tauto.
      * intros [[->|X] Y]; tauto.
      * intros [->|X]; tauto.
Qed.

Definition visit := (list str * list str * list str)%type.
Definition as_uris (x : visit) : uri * list str * list str := (zip_uri v (fst (fst x)), snd (fst x), snd x).
Definition at_ (x : visit) : list str := fst (fst x).
Definition good_visit (x : visit) : Prop :=
  StronglySorted slt (snd (fst x)) /\ StronglySorted slt (snd x) /\
  (forall n, In n (snd (fst x)) <-> dirT (at_ x ++ [n])) /\ (forall n, In n (snd x) <-> In (at_ x ++ [n]) T).
Definition body (acc : list (uri * list str * list str)) (root : uri) (dirs files : list str) : M zst (list (uri * list str * list str) * list str) :=
  ret (acc ++ [(root, dirs, files)], dirs).

Lemma walk_T td fl : forall fuel c acc, good_path c -> c = [] \/ dirT c -> (forall b, In (c ++ b) T -> length b <= fuel) -> 1 <= fuel ->
  exists w, walk_gen Z fuel td fl body acc (zip_uri v c) s = (Ok (acc ++ map as_uris w), s) /\
    NoDup (map at_ w) /\ Forall good_visit w /\ (forall x, In x (map at_ w) <-> x = c \/ exists r, x = c ++ r /\ dirT x).
Proof.
  induction fuel as [|fuel IH]; intros c acc G D L F; [lia|]. cbn [walk_gen].
  destruct (listdir_T c G D) as (names & En & Sn & In_). erewrite bind_ok by exact En. rewrite (sort_id names Sn).
  destruct (kinds_T c names Sn) as (ds & fs & Ek & S1 & S2 & I1 & I2); [intros n X; now apply In_|].
  erewrite bind_ok by exact Ek. cbn [fst snd].
  assert (Dn : forall n, In n ds <-> dirT (c ++ [n])).
  { intros n. rewrite I1. split; [tauto|]. intros X. split; [|exact X]. destruct X as (b & Nb & X). apply In_. exists b. now rewrite <- app_assoc in X. }
  assert (Gv : good_visit (c, ds, fs)).
  { split; [exact S1|]. split; [exact S2|]. split; [exact Dn|]. intros n. cbn [snd at_ fst]. rewrite I2, In_. split.
    - intros [[b X] Y]. destruct b as [|y b]; [exact X|]. destruct Y. exists (y :: b). split; [discriminate|]. now rewrite <- app_assoc.
    - intros X. split; [now exists []|]. intros (b & Nb & Y). now apply Hfree in Y. }
  assert (Fo : forall l acc0, NoDup l -> (forall n, In n l -> In n ds) -> exists w,
    foldM (fun a name => let! path <- lift (u_div (zip_uri v c) name);
                         let! l <- u_islink Z path;
                         if negb l || fl then walk_gen Z fuel td fl body a path else ret a) acc0 l s
    = (Ok (acc0 ++ map as_uris w), s) /\ NoDup (map at_ w) /\ Forall good_visit w /\
    (forall x, In x (map at_ w) <-> exists n r, In n l /\ x = c ++ n :: r /\ dirT x)).
  { induction l as [|n l IHl]; intros acc0 N Hl.
    - exists []. cbn. rewrite app_nil_r. repeat split; auto; try constructor; try tauto. intros (n & r & X & _). exact X.
    - inversion N as [|? ? N1 N2]; subst. pose proof (proj1 (Dn n) (Hl n (or_introl eq_refl))) as Dc. destruct Dc as (b & Nb & Hb).
      pose proof (part_good _ _ Hb) as Gn. rewrite foldM_cons.
      destruct (IH (c ++ [n]) acc0 Gn) as (w1 & E1 & A1 & B1 & C1).
      + right. now exists b.
      + intros b' Hb'. specialize (L (n :: b')). rewrite <- app_assoc in Hb'. specialize (L Hb'). cbn in L. lia.
      + specialize (L (n :: b)). rewrite <- app_assoc in Hb. specialize (L Hb). destruct b; [easy|]. cbn in L. lia.
      + destruct (IHl (acc0 ++ map as_uris w1) N2) as (w2 & E2 & A2 & B2 & C2); [intros m Hm; apply Hl; now right|].
        exists (w1 ++ w2). split; [|split; [|split]].
        * unfold bind at 1. erewrite bind_ok by (apply lift_ok, zip_div; [exact Hv|apply Gn]).
          erewrite bind_ok by (instantiate (1 := s); instantiate (1 := false); reflexivity). cbn [negb orb].
          rewrite E1, E2. now rewrite map_app, app_assoc.
        * rewrite map_app. apply nodup_app; auto. intros x X1 X2. apply C1 in X1. apply C2 in X2 as (m & r & Hm & -> & _).
          assert (exists r', c ++ m :: r = (c ++ [n]) ++ r') as [r' Y]. { destruct X1 as [X1|(r' & X1 & _)]; [exists []; now rewrite app_nil_r|eauto]. }
          rewrite <- app_assoc in Y. apply app_inv_head in Y. injection Y as -> _. contradiction.
        * apply Forall_app. auto.
        * intros x. rewrite map_app, in_app_iff, C1, C2. split.
          -- intros [[->|(r & -> & X)]|(m & r & Hm & X)].
             ++ exists n, []. split; [now left|]. split; [reflexivity|]. now exists b.
             ++ exists n, r. split; [now left|]. split; [now rewrite <- app_assoc|exact X].
             ++ exists m, r. split; [now right|exact X].
          -- intros (m & r & [<-|Hm] & -> & X); [left; right; exists r; split; [now rewrite <- app_assoc|exact X]|right; exists m, r; auto]. }
  assert (Nd : NoDup ds) by (now apply slt_NoDup).
  assert (Cc : forall x, (exists n r, In n ds /\ x = c ++ n :: r /\ dirT x) <-> exists r, r <> [] /\ x = c ++ r /\ dirT x).
  { intros x. split.
    - intros (n & r & _ & -> & X). exists (n :: r). split; [discriminate|auto].
    - intros (r & Nr & -> & X). destruct r as [|n r]; [easy|]. exists n, r. split; [|auto]. apply Dn. destruct X as (b & Nb & X).
      exists (r ++ b). split; [now destruct r|]. rewrite <- app_assoc in *. exact X. }
  assert (Fin : forall w, (forall x, In x (map at_ w) <-> exists n r, In n ds /\ x = c ++ n :: r /\ dirT x) -> NoDup (map at_ w) ->
     ~ In c (map at_ w) /\ forall x, x = c \/ In x (map at_ w) <-> x = c \/ exists r, x = c ++ r /\ dirT x).
  { intros w C N. split.
    - intros X. apply C in X as (n & r & _ & X & _). rewrite <- (app_nil_r c) in X at 1. now apply app_inv_head in X.
    - intros x. rewrite C, Cc. split.
      + intros [X|(r & _ & X)]; [now left|right; eauto].
      + intros [X|(r & X & Y)]; [now left|]. destruct r as [|n r]; [left; now rewrite app_nil_r in X|]. right. exists (n :: r). split; [discriminate|auto]. }
  destruct td.
  - unfold body at 1. rewrite (bind_ok (ret _) _ s _ s eq_refl). cbn [fst snd].
    destruct (Fo ds (acc ++ [(zip_uri v c, ds, fs)]) Nd (fun n X => X)) as (w & E & A & B & C). destruct (Fin w C A) as [F1 F2].
    exists ((c, ds, fs) :: w). split; [erewrite bind_ok by exact E; cbn [ret map as_uris fst snd]; unfold ret; now rewrite <- app_assoc|].
    split; [cbn [map]; constructor; auto|]. split; [now constructor|]. intros x. cbn [map In]. rewrite <- F2. split; intros [X|X]; auto.
  - rewrite (bind_ok (ret _) _ s _ s eq_refl). cbn [fst snd].
    destruct (Fo ds acc Nd (fun n X => X)) as (w & E & A & B & C). destruct (Fin w C A) as [F1 F2].
    exists (w ++ [(c, ds, fs)]). split.
    + erewrite bind_ok by exact E. unfold body at 1, bind, ret. cbn [fst]. now rewrite map_app, app_assoc.
    + rewrite map_app. cbn [map]. split; [apply nodup_app; auto; [repeat constructor; auto|intros x X [<-|[]]; contradiction]|].
      split; [apply Forall_app; auto|]. intros x. rewrite in_app_iff, <- F2. cbn [In]. change (at_ (c, ds, fs)) with c. split; intros [X|X]; auto; destruct X as [X|[]]; auto.
Qed.
End Tree.
