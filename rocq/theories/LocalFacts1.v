(** The tree of the operating system model; ordinary file URIs; path lookup compared with the memory backend. *)
From Coq Require Import Lia Permutation Sorted.
From Verif Require Import Str Exc Utf8 UriParse BaseUri StrFacts UriFacts SpecUri UriFacts2 UriFacts3 UriFacts4 UriFacts5 UriFacts6.
From Verif Require Import Mem SpecMem MemFacts2 MemFacts3 MemFacts4 MemFacts6 MemFacts7 MemFacts9 MemFacts MemFacts10 MemUri Generic SpecGen GenFacts1.
From Verif Require Import Misc Posix Local SpecLocal.

Lemma path_eqb_spec p q : path_eqb p q = true <-> p = q.
Proof.
  revert q. induction p as [|a p IH]; intros [|b q]; cbn; try (split; [discriminate|discriminate]); [tauto|].
  rewrite andb_true_iff, IH. rewrite str_eqb_eq. split; [intros [-> ->]; auto|]. now intros [= -> ->].
Qed.
Lemma path_eqb_refl p : path_eqb p p = true.
Proof. now apply path_eqb_spec. Qed.
Lemma path_eqb_neq p q : p <> q -> path_eqb p q = false.
Proof. intros H. destruct (path_eqb p q) eqn:E; auto. now apply path_eqb_spec in E. Qed.
Lemma path_dec (p q : list str) : {p = q} + {p <> q}.
Proof. destruct (path_eqb p q) eqn:E; [left|right]; [now apply path_eqb_spec|]. intros ->. now rewrite path_eqb_refl in E. Qed.

Lemma pget_in t p e : NoDup (map fst t) -> (pget p t = Some e <-> In (p, e) t).
Proof.
  induction t as [|[q f] t IH]; cbn; [split; [discriminate|tauto]|].
  intros H. inversion H as [|? ? Hn Hd]; subst. destruct (path_eqb p q) eqn:E.
  - apply path_eqb_spec in E. subst q. split.
    + intros [= ->]. now left.
    + intros [[= ->]|I]; auto. exfalso. apply Hn. apply in_map_iff. now exists (p, e).
  - rewrite IH by auto. split; [auto|]. intros [[= -> ->]|I]; auto. now rewrite path_eqb_refl in E.
Qed.
Lemma pget_pset p e t q : pget q (pset p e t) = if path_eqb q p then Some e else pget q t.
Proof.
  induction t as [|[r f] t IH]; cbn; [reflexivity|].
  destruct (path_eqb p r) eqn:E; cbn.
  - apply path_eqb_spec in E. subst r. now destruct (path_eqb q p).
  - rewrite IH. destruct (path_eqb q r) eqn:F; auto. destruct (path_eqb q p) eqn:G; auto.
    apply path_eqb_spec in F, G. subst. now rewrite path_eqb_refl in E.
Qed.
Lemma pget_pdel p t q : pget q (pdel p t) = if path_eqb q p then None else pget q t.
Proof.
  unfold pdel. induction t as [|[r f] t IH]; cbn; [now destruct (path_eqb q p)|].
  destruct (path_eqb p r) eqn:E; cbn.
  - rewrite IH. apply path_eqb_spec in E. subst r. now destruct (path_eqb q p) eqn:F.
  - rewrite IH. destruct (path_eqb q r) eqn:F; auto. destruct (path_eqb q p) eqn:G; auto.
    apply path_eqb_spec in F, G. subst. now rewrite path_eqb_refl in E.
Qed.
Lemma pset_nodup p e t : NoDup (map fst t) -> NoDup (map fst (pset p e t)).
Proof.
  assert (I : forall t q, In q (map fst (pset p e t)) -> q = p \/ In q (map fst t)).
  { clear. induction t as [|[r f] t IH]; cbn; intros q; [intuition|].
    destruct (path_eqb p r) eqn:E; cbn; [intuition|]. intros [->|H]; auto. apply IH in H. tauto. }
  induction t as [|[r f] t IH]; cbn; intros H; [constructor; auto; constructor|].
  inversion H; subst. destruct (path_eqb p r) eqn:E; cbn.
  - apply path_eqb_spec in E. now subst r.
  - constructor; auto. intros K. apply I in K as [->|K]; auto. now rewrite path_eqb_refl in E.
Qed.
Lemma pdel_nodup p t : NoDup (map fst t) -> NoDup (map fst (pdel p t)).
Proof.
  unfold pdel. induction t as [|[r f] t IH]; cbn; intros H; auto. inversion H; subst.
  destruct (path_eqb p r); cbn; auto. constructor; auto. intros K. apply H2.
  apply in_map_iff in K as (y & <- & K). apply filter_In in K. now apply in_map.
Qed.

Lemma child_name_spec p q n : child_name p q = Some n <-> q = p ++ [n].
Proof.
  revert q. induction p as [|a p IH]; intros [|b q]; cbn; try (split; discriminate).
  - destruct q; split; try discriminate; now intros [= ->].
  - destruct (str_eqb a b) eqn:E.
    + apply str_eqb_eq in E. subst b. rewrite IH. split; [now intros ->|now intros [= ->]].
    + split; [discriminate|]. intros [= -> ->]. now rewrite str_eqb_refl in E.
Qed.
Lemma children_in p t n : In n (pchildren p t) <-> In (p ++ [n]) (map fst t).
Proof.
  unfold pchildren. rewrite in_flat_map, in_map_iff. split.
  - intros ([q e] & I & H). cbn [fst] in H. destruct (child_name p q) eqn:E; [|now destruct H].
    destruct H as [->|[]]. apply child_name_spec in E. now exists (q, e).
  - intros ([q e] & E & I). cbn [fst] in E. exists (q, e). split; auto. cbn [fst].
    apply child_name_spec in E. rewrite E. now left.
Qed.
Lemma children_get p t n : NoDup (map fst t) -> (In n (pchildren p t) <-> pget (p ++ [n]) t <> None).
Proof.
  intros H. rewrite children_in, in_map_iff. split.
  - intros ([q e] & E & I). cbn [fst] in E. subst q. apply pget_in in I; auto. rewrite I. discriminate.
  - intros K. destruct (pget (p ++ [n]) t) as [e|] eqn:E; [|easy]. apply pget_in in E; auto. now exists (p ++ [n], e).
Qed.
Lemma children_nodup p t : NoDup (map fst t) -> NoDup (pchildren p t).
Proof.
  unfold pchildren. induction t as [|[q e] t IH]; cbn [flat_map map fst]; intros H; [constructor|].
  inversion H; subst. destruct (child_name p q) eqn:E; cbn [app]; auto.
  constructor; auto. intros K. apply child_name_spec in E. subst q. apply children_in in K. auto.
Qed.

(** *** Ordinary file URIs *)
Definition file_uri (cs : list str) : uri :=
  mkUri ULocal (file_text cs) cSlash (parse_of (lit "file") NoAuth (abs_path cs) [] None) [] (Some []) (Some []).
Lemma plain_names cs : Forall plain_name cs -> Forall name_ok cs.
Proof. intros H. eapply Forall_impl; [|exact H]. intros c Hc. now apply pn_name. Qed.
Lemma plain_good cs : plain_path cs -> good_path cs.
Proof. intros [H1 H2]. split; auto. now apply plain_names. Qed.
Lemma plain_nil : plain_path [].
Proof. split; [constructor|discriminate]. Qed.
Lemma plain_app a b : plain_path (a ++ b) -> plain_path a.
Proof. intros [H1 H2]. split; [now apply Forall_app in H1|]. intros c cs ->. now apply (H2 c (cs ++ b)). Qed.
Lemma file_gtext cs : gtext (lit "file") NoAuth (abs_path cs) None None = file_text cs.
Proof. unfold gtext, file_text. cbn [auth_text qtext ftext]. now rewrite !app_nil_r. Qed.
Lemma file_loc cs : Forall plain_name cs -> loc_ok (lit "file") NoAuth (abs_path cs).
Proof.
  intros H. apply loc_abs; auto using plain_names.
  intros _ n Hn r. rewrite Forall_forall in H. now apply pn_colon, H.
Qed.
Lemma file_uri_eq cs : Forall plain_name cs -> URI (file_text cs) cSlash [] = Ok (file_uri cs).
Proof.
  intros H. rewrite <- file_gtext.
  rewrite (URI_made _ _ _ [] None); auto using file_loc, empty_query_ok, no_query_enc.
  now rewrite file_gtext.
Qed.
Lemma file_at_eq cs u : file_at cs u -> u = file_uri cs.
Proof. intros [H E]. rewrite file_uri_eq in E by apply H. now injection E as <-. Qed.
Lemma file_div cs n : Forall plain_name (cs ++ [n]) -> u_div (file_uri cs) n = Ok (file_uri (cs ++ [n])).
Proof.
  intros H. pose proof H as H0. apply Forall_app in H as [H1 H2]. inversion H2 as [|? ? Hn _]; subst.
  unfold u_div. change [n] with ([] ++ [n]) at 1.
  erewrite (join_made (file_uri cs) (lit "file") NoAuth (flat_map (fun c => cSlash :: c) cs)
              (match cs with [] => 1 | _ => 0 end) [] None [] n (abs_path (cs ++ [n]))); auto using empty_query_ok, no_query_enc.
  - now rewrite file_gtext.
  - cbn [file_uri u_p]. f_equal. destruct cs; [reflexivity|]. cbn [repeat]. now rewrite app_nil_r.
  - now apply nts_flat, plain_names.
  - constructor.
  - rewrite abs_path_snoc. reflexivity.
  - now apply file_loc.
Qed.
Lemma file_split cs n : Forall plain_name (cs ++ [n]) -> u_split (file_uri (cs ++ [n])) = Ok (file_uri cs, n).
Proof.
  intros H. pose proof H as H0. apply Forall_app in H as [H1 H2]. inversion H2 as [|? ? Hn _]; subst.
  rewrite (split_made (file_uri (cs ++ [n])) (lit "file") NoAuth (flat_map (fun c => cSlash :: c) cs) n None []);
    auto using empty_query_ok, no_query_enc.
  - rewrite dir_path_abs by (auto using plain_names). now rewrite file_gtext.
  - rewrite <- abs_path_snoc. symmetry. apply file_gtext.
  - now apply nts_flat, plain_names.
  - now apply pn_name.
  - rewrite dir_path_abs by (auto using plain_names). now apply file_loc.
Qed.
Lemma file_basename cs n : Forall plain_name (cs ++ [n]) -> u_basename (file_uri (cs ++ [n])) = Ok n.
Proof. intros H. unfold u_basename. now rewrite file_split. Qed.
Lemma file_last cs n : name_ok n -> u_last (file_uri (cs ++ [n])) = n.
Proof.
  intros H. apply (last_of_text _ (lit "file://" ++ flat_map (fun c => cSlash :: c) cs)); auto.
  cbn [file_uri u_uri]. unfold file_text. now rewrite abs_path_snoc, app_assoc.
Qed.
Lemma last_nil : u_last (file_uri []) = u_last (mem_uri []).
Proof. reflexivity. Qed.
Lemma file_path cs : good_path cs -> u_path (file_uri cs) = abs_path cs.
Proof. intros G. rewrite <- (good_path_path cs G). reflexivity. Qed.

Lemma split_flat1 l : Forall name_ok l -> split_on cSlash (flat_map (fun x : str => cSlash :: x) l) = [] :: l.
Proof.
  induction l as [|x l IH] using rev_ind; intros H; [reflexivity|].
  apply Forall_app in H as [H1 H2]. inversion H2; subst.
  rewrite flat_map_app. cbn [flat_map]. rewrite app_nil_r, split_on_gen, IH by auto.
  rewrite (split_on_none _ x) by now apply name_no_slash. reflexivity.
Qed.
Lemma split_abs cs : Forall name_ok cs -> split_on cSlash (abs_path cs) = match cs with [] => [[]; []] | _ => [] :: cs end.
Proof.
  intros H. destruct cs as [|c cs]; [reflexivity|]. unfold abs_path. now apply split_flat1.
Qed.

(** *** Path lookup *)
Record twin (s : mst) (x : pst) : Prop := { tw_wf : wf s; tw_silent : silent s; tw_mirror : mirrors s x }.

Lemma no_nul cs : Forall plain_name cs -> has_char 0 (abs_path cs) = false.
Proof.
  intros H. destruct (has_char 0 (abs_path cs)) eqn:E; auto. apply has_char_In in E.
  destruct cs as [|c cs]; [cbn in E; intuition discriminate|].
  unfold abs_path in E. apply in_flat_map in E as (n & I & E). destruct E as [E|E]; [discriminate|].
  rewrite Forall_forall in H. now destruct (pn_nul _ (H n I)).
Qed.
Lemma plain_step n : plain_name n -> str_eqb n [] || str_eqb n dot = false /\ str_eqb n dotdot = false.
Proof.
  intros H. split; [apply orb_false_iff; split|]; apply str_eqb_neq.
  - apply (name_ne _ (pn_name _ H)).
  - apply (pn_dot _ H).
  - apply (pn_dotdot _ H).
Qed.

Section Walk.
Variables (s : mst) (x : pst).
Hypothesis T : twin s x.
Local Notation t := (view s).
Local Notation T' := (p_tree x).

Lemma mi_dir p : is_edir (t p) -> exists mo mt, pget p T' = Some (PDir mo mt).
Proof.
  intros (mt & mo & E). pose proof (mi_same _ _ (tw_mirror _ _ T) p) as H. rewrite E in H. cbn in H.
  destruct (pget p T') as [[]|]; try easy. eauto.
Qed.
Lemma mi_file p d mt mo : t p = Some (EFile d mt mo) -> exists mo' mt', pget p T' = Some (PFile d mo' mt').
Proof.
  intros E. pose proof (mi_same _ _ (tw_mirror _ _ T) p) as H. rewrite E in H. cbn in H.
  destruct (pget p T') as [[]|]; try easy. subst. eauto.
Qed.
Lemma mi_none p : t p = None -> pget p T' = None.
Proof.
  intros E. pose proof (mi_same _ _ (tw_mirror _ _ T) p) as H. rewrite E in H. cbn in H.
  now destruct (pget p T') as [[]|].
Qed.
Lemma mi_kind p : t p <> None -> is_edir (t p) \/ is_efile (t p).
Proof.
  intros E. pose proof (mi_same _ _ (tw_mirror _ _ T) p) as H.
  destruct (t p) as [[d mt mo|mt mo|tg mt mo]|]; [right|left| |easy].
  - now exists d, mt, mo.
  - now exists mt, mo.
  - cbn in H. easy.
Qed.

Inductive looked (cur cs : list str) : res spot -> Prop :=
| lk_found e e' : t (cur ++ cs) = Some e -> pget (cur ++ cs) T' = Some e' -> same_entry (Some e) (Some e') ->
    resolves t 32 cur cs (Found (cur ++ cs)) -> looked cur cs (Ok (At (cur ++ cs) e'))
| lk_gap init n : cs = init ++ [n] -> is_edir (t (cur ++ init)) -> t (cur ++ cs) = None ->
    resolves t 32 cur init (Found (cur ++ init)) -> resolves t 32 cur cs Missing -> looked cur cs (Ok (Gap (cur ++ init) n))
| lk_missing init n : cs = init ++ [n] -> resolves t 32 cur init Missing -> resolves t 32 cur cs Missing ->
    looked cur cs (Raise (OSError ENOENT))
| lk_notdir init n : cs = init ++ [n] -> resolves t 32 cur cs NotDir ->
    resolves t 32 cur init NotDir \/ (resolves t 32 cur init (Found (cur ++ init)) /\ is_efile (t (cur ++ init))) ->
    looked cur cs (Raise (OSError ENOTDIR)).

Lemma walk_looked f b cs : forall cur, t cur <> None -> Forall plain_name cs -> looked cur cs (pwalk T' f b cur cs).
Proof.
  induction cs as [|c cs IH]; intros cur Hc HF.
  - destruct (mi_kind _ Hc) as [D|F].
    + destruct (mi_dir _ D) as (mo & mt & E). destruct b; cbn [pwalk]; rewrite E; pattern cur at 2; rewrite <- (app_nil_r cur);
      destruct D as (mt' & mo' & D); eapply lk_found; rewrite ?app_nil_r; eauto; try constructor.
    + destruct F as (d & mt & mo & F). destruct (mi_file _ _ _ _ F) as (mo' & mt' & E).
      destruct b; cbn [pwalk]; rewrite E; pattern cur at 2; rewrite <- (app_nil_r cur);
      eapply lk_found; rewrite ?app_nil_r; eauto; try constructor.
  - inversion HF as [|? ? Hn HF']; subst. destruct (plain_step _ Hn) as [N1 N2].
    destruct (mi_kind _ Hc) as [D|F].
    + destruct (mi_dir _ D) as (mo & mt & E).
      destruct (t (cur ++ [c])) as [e|] eqn:Ec.
      * assert (Hc' : t (cur ++ [c]) <> None) by (rewrite Ec; discriminate).
        specialize (IH (cur ++ [c]) Hc' HF').
        assert (K : is_efile (t (cur ++ [c])) \/ is_edir (t (cur ++ [c]))) by (destruct (mi_kind _ Hc'); auto).
        assert (W : pwalk T' f b cur (c :: cs) = pwalk T' f b (cur ++ [c]) cs).
        { pose proof (mi_same _ _ (tw_mirror _ _ T) (cur ++ [c])) as H. 
          destruct b; cbn [pwalk]; rewrite E, N1, N2; destruct K as [(d & mt1 & mo1 & K)|K];
            [destruct (mi_file _ _ _ _ K) as (? & ? & ->)|destruct (mi_dir _ K) as (? & ? & ->)|
             destruct (mi_file _ _ _ _ K) as (? & ? & ->)|destruct (mi_dir _ K) as (? & ? & ->)]; reflexivity. }
        rewrite W. inversion IH as [e0 e' A1 A2 A3 A4 A5|init n A1 A2 A3 A4 A5 A6|init n A1 A2 A3 A4|init n A1 A2 A3 A4];
          rewrite <- ?app_assoc in *; cbn [app] in *.
        -- eapply lk_found; eauto. eapply rs_step; eauto.
        -- apply (lk_gap _ _ (c :: init) n); auto; [now subst cs|eapply rs_step; eauto|eapply rs_step; eauto].
        -- apply (lk_missing _ _ (c :: init) n); [now subst cs|eapply rs_step; eauto|eapply rs_step; eauto].
        -- apply (lk_notdir _ _ (c :: init) n); [now subst cs|eapply rs_step; eauto|].
           destruct A3 as [A3|[A3 A5]]; [left|right; split; auto]; eapply rs_step; eauto.
      * pose proof (mi_none _ Ec) as Gc. destruct cs as [|c' cs].
        -- replace (pwalk T' f b cur [c]) with (@Ok spot (Gap (cur ++ []) c))
             by (rewrite app_nil_r; destruct b; cbn [pwalk]; now rewrite E, N1, N2, Gc).
           apply (lk_gap _ _ [] c); auto; [now rewrite app_nil_r| |now apply rs_missing].
           rewrite app_nil_r. apply rs_end.
        -- replace (pwalk T' f b cur (c :: c' :: cs)) with (@Raise spot (OSError ENOENT))
             by (destruct b; cbn [pwalk]; now rewrite E, N1, N2, Gc).
           destruct (snoc_cases (c' :: cs)) as [H|(init & n & H)]; [discriminate|]. rewrite H.
           apply (lk_missing _ _ (c :: init) n); auto; now apply rs_missing.
    + destruct F as (d & mt & mo & F). destruct (mi_file _ _ _ _ F) as (mo' & mt' & E).
      replace (pwalk T' f b cur (c :: cs)) with (@Raise spot (OSError ENOTDIR)) by (destruct b; cbn [pwalk]; now rewrite E).
      assert (ND : ~ is_edir (t cur)) by (intros (? & ? & X); rewrite X in F; discriminate).
      destruct (snoc_cases (c :: cs)) as [H|(init & n & H)]; [discriminate|].
      apply (lk_notdir _ _ init n); auto; [now apply rs_notdir|].
      destruct init as [|a init]; [right|left].
      * rewrite app_nil_r. split; [apply rs_end|]. now exists d, mt, mo.
      * now apply rs_notdir.
Qed.

Lemma look cs f : plain_path cs -> looked [] cs (plook x f (abs_path cs)).
Proof.
  intros [H1 _]. unfold plook. rewrite no_nul by auto.
  assert (P : exists r, abs_path cs = cSlash :: r) by (destruct cs; cbn; eauto).
  destruct P as [r P]. destruct (abs_path cs) as [|a l] eqn:Ea; [discriminate|].
  assert (Pr : prefixb [cSlash] (a :: l) = true) by (apply prefixb_spec; injection P as -> ->; now exists r).
  rewrite Pr, <- Ea, split_abs by now apply plain_names.
  assert (R : t [] <> None) by (destruct (root_dir s (tw_wf _ _ T)) as (? & ? & E); rewrite E; discriminate).
  assert (D : exists mo mt, pget [] T' = Some (PDir mo mt)) by (apply mi_dir, root_dir, T).
  destruct D as (mo & mt & D).
  assert (W : forall l, pwalk T' f pbudget [] ([] :: l) = pwalk T' f pbudget [] l) by (intros l0; cbn [pwalk pbudget]; now rewrite D).
  destruct cs as [|c cs]; rewrite !W; apply walk_looked; auto.
Qed.
End Walk.

(** ** Ends of paths *)
Lemma chop_end p c : c <> cSlash -> chop (p ++ [c]) = p ++ [c].
Proof.
  intros N. unfold chop. rewrite rev_unit. cbn [drop_slashes]. rewrite (proj2 (N.eqb_neq c cSlash) N). cbn [rev]. rewrite rev_involutive. now destruct p.
Qed.
Lemma chop_abs cs : Forall name_ok cs -> chop (abs_path cs) = abs_path cs.
Proof.
  intros H. destruct (snoc_cases cs) as [->|(i & n & ->)]; [reflexivity|]. apply Forall_app in H as [_ H]. inversion H as [|? ? Hn _]; subst.
  assert (E : exists a c, n = a ++ [c] /\ c <> cSlash).
  { destruct (snoc_cases n) as [->|(a & c & ->)]; [now destruct (name_ne _ Hn)|]. exists a, c. split; auto. intros ->. apply (name_free _ Hn cSlash); [now left|]. apply in_or_app. right. now left. }
  destruct E as (a & c & -> & N). assert (Y : abs_path (i ++ [a ++ [c]]) = (flat_map (fun c => cSlash :: c) i ++ cSlash :: a) ++ [c]).
  { unfold abs_path. destruct (i ++ [a ++ [c]]) eqn:E; [now destruct i|]. rewrite <- E, flat_map_app. cbn [flat_map]. now rewrite app_nil_r, <- app_assoc. }
  exact (eq_trans (f_equal chop Y) (eq_trans (chop_end _ _ N) (eq_sym Y))).
Qed.
Lemma names_ok cs : Forall plain_name cs -> Forall name_ok cs.
Proof. intros H. eapply Forall_impl; [|exact H]. apply pn_name. Qed.
Lemma slashed_abs cs : Forall plain_name cs -> slashed (abs_path cs) = false.
Proof. intros H. unfold slashed. rewrite chop_abs by now apply names_ok. now rewrite (proj2 (str_eqb_eq _ _) eq_refl). Qed.
Lemma last_piece_abs cs : Forall plain_name cs -> last_piece (abs_path cs) = last cs [].
Proof. intros H. unfold last_piece. rewrite chop_abs, split_abs by now apply names_ok. destruct cs; reflexivity. Qed.
Lemma last_not_dots cs : Forall plain_name cs -> last cs [] <> lit "." /\ last cs [] <> lit "..".
Proof.
  intros H. destruct (snoc_cases cs) as [->|(i & n & ->)]; [split; discriminate|]. apply Forall_app in H as [_ H]. inversion H as [|? ? Hn _]; subst.
  rewrite last_last. split; apply Hn.
Qed.
Lemma unlink_abs cs x : Forall plain_name cs -> os_unlink (abs_path cs) x = sys_unlink (abs_path cs) x.
Proof. intros H. unfold os_unlink. now rewrite slashed_abs. Qed.
Lemma rmdir_abs cs x : Forall plain_name cs -> os_rmdir (abs_path cs) x = sys_rmdir (abs_path cs) x.
Proof.
  intros H. unfold os_rmdir. rewrite last_piece_abs, chop_abs by auto using names_ok. destruct (last_not_dots _ H) as [A B].
  destruct (plook x false (abs_path cs)) as [[|]|]; auto. change dot with (lit "."). change dotdot with (lit ".."). apply str_eqb_neq in A, B. now rewrite A, B.
Qed.
Lemma mkdir_abs cs : Forall plain_name cs -> os_mkdir (abs_path cs) = sys_mkdir (abs_path cs).
Proof. intros H. unfold os_mkdir. now rewrite chop_abs by auto using names_ok. Qed.
Lemma symlink_abs t cs x : Forall plain_name cs -> os_symlink t (abs_path cs) x = sys_symlink t (abs_path cs) x.
Proof. intros H. unfold os_symlink. now rewrite slashed_abs. Qed.
Lemma open_w_abs cs x : Forall plain_name cs -> os_open_w (abs_path cs) x = sys_open_w (abs_path cs) x.
Proof. intros H. unfold os_open_w, refuse_slashed. now rewrite slashed_abs. Qed.
Lemma open_a_abs cs x : Forall plain_name cs -> os_open_a (abs_path cs) x = sys_open_a (abs_path cs) x.
Proof. intros H. unfold os_open_a, refuse_slashed. now rewrite slashed_abs. Qed.
Lemma unnamed_abs cs : Forall plain_name cs -> cs <> [] -> unnamed (abs_path cs) = false.
Proof.
  intros H N. unfold unnamed. rewrite last_piece_abs by auto. destruct (last_not_dots _ H) as [A B]. apply str_eqb_neq in A, B. change dot with (lit "."). change dotdot with (lit ".."). rewrite A, B.
  rewrite !orb_false_r. apply str_eqb_neq. destruct (snoc_cases cs) as [->|(i & n & ->)]; [congruence|]. apply Forall_app in H as [_ H]. inversion H as [|? ? Hn _]; subst. rewrite last_last. apply Hn.
Qed.
Lemma rename_abs p q x : Forall plain_name p -> Forall plain_name q -> p <> [] -> q <> [] -> os_rename (abs_path p) (abs_path q) x =
  match plook x false (abs_path p), plook x false (abs_path q) with
  | Raise e, _ => (Raise e, x)
  | Ok _, Raise e => (Raise e, x)
  | Ok (Gap _ _), _ => (Raise (OSError ENOENT), x)
  | Ok (At p e), Ok b => sys_rename p e b x
  end.
Proof.
  intros Hp Hq Np Nq. unfold os_rename. rewrite !no_nul, !chop_abs, !slashed_abs, !unnamed_abs by auto using names_ok. cbn [orb]. destruct (plook x false (abs_path p)) as [[]|], (plook x false (abs_path q)) as [[]|]; auto; now rewrite andb_false_r.
Qed.
