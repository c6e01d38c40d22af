(** Ordinary memory URIs: construction, joining and splitting. *)
From Verif Require Import Str Exc Utf8 UriParse BaseUri StrFacts Utf8Facts UriFacts SpecUri UriFacts2 UriFacts3 UriFacts4 UriFacts5 UriFacts6.
From Verif Require Import Mem SpecMem MemFacts2 MemFacts3 MemFacts4 MemFacts6 MemFacts7 MemFacts9 MemFacts.

Lemma scheme_mem : scheme_ok (lit "memory").
Proof.
  constructor; try (cbn; lia); try (split; discriminate); try discriminate.
  intros c Hc. cbn in Hc. unfold scheme_letter. intuition (subst; lia).
Qed.

Definition mem_uri (cs : list str) : uri :=
  mkUri UMemory (mem_text cs) cSlash (parse_of (lit "memory") NoAuth (abs_path cs) [] None) [] (Some []) (Some []).

Lemma mem_gtext cs : gtext (lit "memory") NoAuth (abs_path cs) None None = mem_text cs.
Proof. unfold gtext, mem_text. cbn [auth_text qtext ftext]. now rewrite !app_nil_r. Qed.

Lemma good_loc cs : Forall name_ok cs -> loc_ok (lit "memory") NoAuth (abs_path cs).
Proof.
  intros H. apply loc_abs; auto.
  - right. split; [apply scheme_mem|constructor].
  - intros E. discriminate.
Qed.
Lemma mem_made cs : made UMemory (mem_text cs) cSlash (parse_of (lit "memory") NoAuth (abs_path cs) [] None) [] = mem_uri cs.
Proof. reflexivity. Qed.

Lemma mem_uri_eq cs : Forall name_ok cs -> URI (mem_text cs) cSlash [] = Ok (mem_uri cs).
Proof.
  intros H. rewrite <- mem_gtext.
  rewrite (URI_made _ _ _ [] None); auto using good_loc, empty_query_ok, no_query_enc.
  now rewrite mem_gtext.
Qed.
Lemma mem_at_eq cs u : mem_at cs u -> u = mem_uri cs.
Proof. intros [H E]. rewrite mem_uri_eq in E by apply H. now injection E as <-. Qed.
Lemma mem_at_good cs u : mem_at cs u -> good_path cs.
Proof. now intros [H _]. Qed.
Lemma mem_at_uri cs : good_path cs -> mem_at cs (mem_uri cs).
Proof. intros H. split; auto. apply mem_uri_eq. apply H. Qed.

Lemma good_app a b : good_path (a ++ b) -> good_path a.
Proof.
  intros [H1 H2]. split; [now apply Forall_app in H1|].
  intros c cs ->. now apply (H2 c (cs ++ b)).
Qed.
Lemma good_snoc cs n : good_path cs -> name_ok n -> (cs = [] -> forall r, n <> cDot :: r) -> good_path (cs ++ [n]).
Proof.
  intros [H1 H2] Hn Hd. split; [apply Forall_app; auto|].
  intros c cs' E. destruct cs as [|x cs]; cbn in E; injection E as <- <-; auto. now apply (H2 x cs).
Qed.
Lemma good_nil : good_path [].
Proof. split; [constructor|]. discriminate. Qed.
Lemma good_name a n b : good_path (a ++ n :: b) -> name_ok n.
Proof. intros [H _]. apply Forall_app in H as [_ H]. now inversion H. Qed.

Lemma nts_flat cs : Forall name_ok cs -> no_trailing_slash (flat_map (fun c => cSlash :: c) cs).
Proof.
  induction cs as [|n cs IH] using rev_ind; intros H; [intros r; now destruct r|].
  apply Forall_app in H as [H1 H2]. inversion H2 as [|? ? Hn _]; subst.
  rewrite flat_map_app. cbn [flat_map]. rewrite app_nil_r. apply nts_app; [discriminate|].
  change (cSlash :: n) with ([cSlash] ++ n). apply nts_app; [apply (name_ne _ Hn)|now apply name_nts].
Qed.

Lemma mem_div cs n : Forall name_ok (cs ++ [n]) -> u_div (mem_uri cs) n = Ok (mem_uri (cs ++ [n])).
Proof.
  intros H. pose proof H as H0. apply Forall_app in H as [H1 H2]. inversion H2 as [|? ? Hn _]; subst.
  unfold u_div. change [n] with ([] ++ [n]) at 1.
  erewrite (join_made (mem_uri cs) (lit "memory") NoAuth (flat_map (fun c => cSlash :: c) cs)
              (match cs with [] => 1 | _ => 0 end) [] None [] n (abs_path (cs ++ [n]))); auto using empty_query_ok, no_query_enc.
  - now rewrite mem_gtext.
  - cbn [mem_uri u_p]. f_equal. destruct cs; [reflexivity|]. cbn [repeat]. now rewrite app_nil_r.
  - now apply nts_flat.
  - constructor.
  - rewrite abs_path_snoc. reflexivity.
  - now apply good_loc.
Qed.
Lemma mem_split cs n : Forall name_ok (cs ++ [n]) -> u_split (mem_uri (cs ++ [n])) = Ok (mem_uri cs, n).
Proof.
  intros H. pose proof H as H0. apply Forall_app in H as [H1 H2]. inversion H2 as [|? ? Hn _]; subst.
  rewrite (split_made (mem_uri (cs ++ [n])) (lit "memory") NoAuth (flat_map (fun c => cSlash :: c) cs) n None []);
    auto using empty_query_ok, no_query_enc.
  - rewrite dir_path_abs by auto. now rewrite mem_gtext.
  - rewrite <- abs_path_snoc. symmetry. apply mem_gtext.
  - now apply nts_flat.
  - rewrite dir_path_abs by auto. now apply good_loc.
Qed.
Lemma mem_dirname cs n : Forall name_ok (cs ++ [n]) -> u_dirname 1 (mem_uri (cs ++ [n])) = Ok (mem_uri cs).
Proof. intros H. unfold u_dirname, u_dirname_loop. now rewrite mem_split. Qed.
Lemma mem_basename cs n : Forall name_ok (cs ++ [n]) -> u_basename (mem_uri (cs ++ [n])) = Ok n.
Proof. intros H. unfold u_basename. now rewrite mem_split. Qed.
Lemma mem_last cs n : name_ok n -> u_last (mem_uri (cs ++ [n])) = n.
Proof.
  intros H. apply (last_of_text _ (lit "memory://" ++ flat_map (fun c => cSlash :: c) cs)); auto.
  cbn [mem_uri u_uri]. unfold mem_text. now rewrite abs_path_snoc, app_assoc.
Qed.

Lemma good_path_path cs : good_path cs -> u_path (mem_uri cs) = abs_path cs.
Proof.
  intros [H1 H2]. unfold u_path. cbn [mem_uri u_cls]. unfold base_path. cbn [mem_uri u_p parse_of p_path].
  destruct cs as [|c cs]; [reflexivity|]. destruct (prefixb (lit "/.") (abs_path (c :: cs))) eqn:E; auto.
  apply prefixb_spec in E as [x E]. exfalso. inversion H1 as [|? ? Hn _]; subst.
  destruct c as [|a c]; [now destruct (name_ne _ Hn)|]. cbn in E. injection E as E _.
  now apply (H2 (a :: c) cs eq_refl c); subst.
Qed.
Lemma mem_addr cs : good_path cs -> addr (mem_uri cs) cs.
Proof.
  intros G. split; [now apply good_path_path|]. destruct G as [H1 H2]. split.
  - eapply Forall_impl; [|exact H1]. intros c Hc. now apply name_no_slash.
  - intros ->. inversion H1 as [|? ? Hn _]; subst. now destruct (name_ne _ Hn).
Qed.
Lemma names_ne cs : Forall name_ok cs -> Forall (fun c => c <> []) cs.
Proof. intros H. eapply Forall_impl; [|exact H]. intros c Hc. apply (name_ne _ Hc). Qed.
Lemma mem_regular t cs : good_path cs -> (forall init n, cs = init ++ [n] -> fresh_last t init n) -> regular t (mem_uri cs) cs.
Proof.
  intros G F. split; [now apply mem_addr|apply names_ne, G|].
  intros init n ->. split; [now apply F|]. apply mem_last. now apply (good_name init n []).
Qed.
Lemma addr_mem_eq cs cs' : good_path cs -> addr (mem_uri cs) cs' -> cs' = cs.
Proof. intros G H. eapply addr_inj; [exact H|now apply mem_addr]. Qed.

(** The path of a directory: no link on it. *)
Lemma fresh_dir h next p n : wfh h next -> is_edir (tree_of h p) -> fresh_last (tree_of h) p n.
Proof.
  intros W Hd pre post d E L. subst p.
  assert (Hp : is_edir (tree_of h pre)).
  { clear -W Hd. revert Hd. generalize (n :: post). intros l. induction l as [|x l IH] using rev_ind; [now rewrite app_nil_r|].
    intros Hd. apply IH. rewrite app_assoc in Hd. destruct Hd as (mt & mo & Hd).
    eapply tree_parent with (n := x); eauto. rewrite Hd. discriminate. }
  assert (d = pre).
  { pose proof (resolves_dir h 32 pre Hp) as L2.
    pose proof (leads_det h next W pre _ _ L L2) as E. now injection E. }
  subst d. intros (tg & mt & mo & E).
  change (n :: post) with ([n] ++ post) in Hd. rewrite app_assoc in Hd.
  destruct post as [|x post].
  - rewrite app_nil_r in Hd. destruct Hd as (a & b & Hd). congruence.
  - assert (Hq : is_edir (tree_of h (pre ++ [n]))).
    { clear -W Hd. revert Hd. generalize (x :: post). intros l. induction l as [|y l IH] using rev_ind; [now rewrite app_nil_r|].
      intros Hd. apply IH. rewrite app_assoc in Hd. destruct Hd as (mt & mo & Hd).
      eapply tree_parent with (n := y); eauto. rewrite Hd. discriminate. }
    destruct Hq as (a & b & Hq). congruence.
Qed.
