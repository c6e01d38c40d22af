(** The calls on paths at and below a directory. *)
From Coq Require Import Lia Permutation.
From Verif Require Import Str Exc StrFacts UriParse BaseUri SpecUri Mem SpecMem Misc Posix Local SpecLocal Generic LocProg SpecHome ApartFacts2 LocalFacts1 LocalFacts6 LocalFacts15 LocTwin HomeFacts1 HomeFacts2 HomeFacts3 Pair.
Open Scope nat_scope.

Section Home.
Variable D : list str.
Variables x0 y0 : pst.
Hypothesis HD : home_dir D.
Hypothesis roof1 : forall A n B, D = A ++ n :: B -> is_dir_at x0 A.
Hypothesis roof2 : forall A n B, D = A ++ n :: B -> is_dir_at y0 A.
Notation twins := (twins D x0 y0).
Notation home_text := (home_text D).
Notation home_uri := (home_uri D).
Notation on Q m := (both twins Q m m).
Local Hint Resolve uri_path : core.
(** The directories above are there. *)
Lemma roof_walk (t : ptree) f b : (forall A n B, D = A ++ n :: B -> exists mo mt, pget A t = Some (PDir mo mt)) ->
  forall B A n C, D = A ++ B ++ n :: C -> exists mo mt, pwalk t f b A B = Ok (At (A ++ B) (PDir mo mt)).
Proof.
  intros R B. induction B as [|c B IH]; intros A n C E.
  - destruct (R A n C E) as (mo & mt & G). exists mo, mt. rewrite app_nil_r. destruct b; cbn; now rewrite G.
  - destruct (R A c (B ++ n :: C) E) as (mo & mt & G). destruct (name_no D x0 y0 HD roof1 roof2 c A (B ++ n :: C) E) as (N1 & N2 & _).
    assert (E' : D = (A ++ [c]) ++ B ++ n :: C) by (now rewrite <- app_assoc).
    assert (G' : exists mo mt, pget (A ++ [c]) t = Some (PDir mo mt)). { destruct B as [|d B]; [exact (R (A ++ [c]) n C E')|exact (R (A ++ [c]) d (B ++ n :: C) E')]. }
    destruct G' as (mo' & mt' & G'). destruct (IH (A ++ [c]) n C E') as (mo2 & mt2 & W). exists mo2, mt2. rewrite <- app_assoc in W. cbn [app] in W. rewrite <- W.
    destruct b; cbn; rewrite G, N1, N2, G'; reflexivity.
Qed.
Lemma roof_look x A n B : (forall A n B, D = A ++ n :: B -> is_dir_at x A) -> D = A ++ n :: B -> os_test true is_pdir (abs_path A) x = (Ok true, x).
Proof.
  intros R E. unfold os_test, os_stat, plook. destruct (has_char 0 (abs_path A)) eqn:Z.
  - exfalso. apply has_char_In in Z. pose proof (hd_nul D HD) as Nz. rewrite E in Nz. apply Forall_app in Nz as [Nz _]. destruct A as [|a A]; [cbn in Z; now destruct Z as [Z|[]]|].
    unfold abs_path in Z. apply in_flat_map in Z as (c & Ic & Z). rewrite Forall_forall in Nz. destruct Z as [Z|Z]; [discriminate Z|now apply (Nz c Ic)].
  - assert (P : exists r, abs_path A = cSlash :: r) by (destruct A; cbn; eauto). destruct P as [r P]. rewrite P. change (prefixb [cSlash] (cSlash :: r)) with true. cbv iota.
    assert (W : exists mo mt, pwalk (p_tree x) true pbudget [] (split_on cSlash (cSlash :: r)) = Ok (At A (PDir mo mt))).
    { rewrite <- P. destruct A as [|a A].
      - destruct (R [] n B E) as (mo & mt & G). exists mo, mt. cbn. now rewrite G.
      - assert (S : split_on cSlash (abs_path (a :: A)) = [] :: a :: A).
        { pose proof (hd_names _ HD) as Nm. rewrite E in Nm. apply Forall_app in Nm as [Nm _]. apply split_abs. eapply Forall_impl; [|exact Nm]. intros c (H1 & H2 & _ & [F Q _]). constructor; [exact H1| |exact Q]. intros b [<-|Hb]; [exact H2|]. apply F. now right. }
        rewrite S. destruct (R [] a (A ++ n :: B) E) as (mo & mt & G). destruct (roof_walk (p_tree x) true pbudget R (a :: A) [] n B E) as (mo2 & mt2 & W). exists mo2, mt2. cbn [app] in W. rewrite <- W. cbn. now rewrite G. }
    destruct W as (mo & mt & ->). reflexivity.
Qed.
Lemma on_up u : roof_uri D u -> on (fun d => d = true) (u_isdir loc_backend u).
Proof.
  intros (A & n & B & E & ->) x y T.
  assert (P : u_path (furi (abs_path A)) = abs_path A).
  { unfold u_path, base_path. cbn [furi u_cls u_sep u_p UriFacts2.parse_of p_path]. change (N.eqb cSlash cSlash) with true. cbv iota. destruct (prefixb (lit "/.") (abs_path A)) eqn:Q; [|reflexivity]. exfalso. apply prefixb_spec in Q as [r Q].
    destruct A as [|a A]; [discriminate Q|]. pose proof (hd_names D HD) as Nm. pose proof (hd_first D HD a (A ++ n :: B) E) as F. rewrite E in Nm. apply Forall_inv in Nm as (N & _). destruct a as [|b a]; [easy|]. cbn in Q. injection Q as -> _. exact (F a eq_refl). }
  unfold u_isdir, hooked, bind. cbn [loc_backend b_hook b_isdir ret]. unfold loc_isdir, path_isdir. rewrite P.
  rewrite (roof_look x A n B (fun A n B => tw_roof1 D x0 y0 roof1 roof2 x y A n B T) E), (roof_look y A n B (fun A n B => tw_roof2 D x0 y0 roof1 roof2 x y A n B T) E).
  split; [reflexivity|]. split; [exact T|]. intros a Ea. now injection Ea as <-.
Qed.
Lemma on_mk u : home_uri u -> on any (loc_mkdir u).
Proof. intros H. unfold loc_mkdir. pose proof (uri_path D HD u H) as P. destruct (u_path u); [now apply both_ret|]. now apply on_osmkdir. Qed.
Lemma on_list u : home_uri u -> on (Forall mild) (loc_listdir u).
Proof. intros H. unfold loc_listdir. eapply both_bind; [apply on_oslist; auto|]. intros l F. apply both_ret. now apply sorted_in. Qed.
Lemma on_rd u : home_uri u -> on any (loc_removedir u).
Proof. intros H. unfold loc_removedir. eapply both_bind; [apply on_test; auto|]. intros l _. destruct l; [apply both_raise|apply on_rmdir; auto]. Qed.
Lemma on_rl u : home_uri u -> on (fun v => home_text (u_path v)) (loc_readlink u).
Proof.
  intros H. unfold loc_readlink. eapply both_bind; [apply on_osreadlink; auto|]. intros tg Ht. apply both_lift. intros v E. now rewrite (read_path D HD tg v Ht E).
Qed.
Lemma on_content u v : home_uri u -> home_uri v -> on any (loc_copy_content u v).
Proof.
  intros Hu Hv. unfold loc_copy_content. eapply both_bind; [apply on_open_r; auto|]. intros p Bp. eapply both_bind; [apply on_open_w; auto|]. intros q Bq. eapply both_bind; [now apply on_data|]. intros d _. now apply on_append.
Qed.
Lemma local_pair : paired twins loc_backend loc_backend home_uri mild (fun v => home_text (u_path v)) any.
Proof.
  constructor; cbn [loc_backend b_hook b_exists b_isfile b_isdir b_islink b_listdir b_removefile b_removedir b_mkdir b_readlink b_copystat b_copy_content b_removefile_by b_symlink_by]; intros.
  - now apply both_ret.
  - apply on_test; auto.
  - apply on_test; auto.
  - eapply both_weak; [apply on_test; auto|]. now intros.
  - apply on_test; auto.
  - now apply on_list.
  - apply on_unlink; auto.
  - now apply on_rd.
  - now apply on_mk.
  - now apply on_rl.
  - apply on_oscopystat; auto.
  - now apply on_content.
  - apply on_unlink; auto.
  - apply on_ossymlink; auto.
Qed.
Lemma home_basename u b : home_uri u -> u_basename u = Ok b -> mild b.
Proof.
  intros H E. apply (home_furi D HD) in H as (p & H & ->). unfold u_basename, u_split in E. cbn [furi u_uri] in E. destruct (home_slash D HD p H) as [q ->].
  destruct (cut_last cSlash (lit "file://" ++ cSlash :: q)) as [[a w]|] eqn:C; [|apply cut_last_none in C; destruct C; apply in_app_iff; right; now left].
  apply cut_last_some in C as [C Nw].
  assert (I : In w (split_on cSlash q)).
  { apply (f_equal (split_on cSlash)) in C. rewrite !split_on_gen in C. rewrite (split_on_none cSlash w Nw) in C. apply (f_equal (@rev str)) in C. rewrite !rev_app_distr in C. cbn [rev app] in C.
    apply in_rev. destruct (rev (split_on cSlash q)) as [|x l] eqn:R; [apply (f_equal (@rev str)) in R; rewrite rev_involutive in R; destruct (proj1 (piece_sub cSlash q)) as (w' & ws & b' & E' & _); rewrite E' in R; discriminate R|]. injection C as <- _. now left. }
  assert (Mw : mild w) by (apply (mild_piece (cSlash :: q)); [apply H|now right]).
  match type of E with context [mk_uri ?c ?t ?s ?e] => destruct (mk_uri c t s e) as [d|e']; [|discriminate E] end. cbn [rbind snd] in E. injection E as <-.
  destruct (cut_first cQuest w) as [[k l]|] eqn:F; [|exact Mw]. apply cut_first_some in F as [-> _]. apply (mild_sub _ _ Mw). now exists [], (cQuest :: l).
Qed.
Lemma on_info u f : home_uri u -> on any (loc_info u f).
Proof. intros H. unfold loc_info. eapply both_bind; [apply on_test; auto|]. intros l _. eapply both_bind; [apply on_stat; auto|]. intros e _. now apply both_ret. Qed.
Lemma on_setmode u m : home_uri u -> on any (loc_set_mode u m).
Proof. intros H. unfold loc_set_mode. eapply both_bind; [apply on_test; auto|]. intros l _. apply on_chmod; auto. Qed.
Lemma on_move u v : home_uri u -> home_uri v -> on any (loc_move u v).
Proof.
  intros Hu Hv. unfold loc_move. eapply both_bind; [apply on_test; auto|]. intros sd _. eapply both_bind with (Q := any); [destruct sd; [apply on_test; auto|now apply both_ret]|]. intros dd _.
  eapply both_bind with (Q := home_uri); [|intros w Hw; apply on_shmove; auto]. destruct dd; [|now apply both_ret]. apply both_lift. intros w E. destruct (u_basename u) as [b|e] eqn:B; [|discriminate E]. cbn [rbind] in E.
  exact (home_div D HD v b w Hv (home_basename u b Hu B) E).
Qed.
Lemma on_said {A} (f : A -> lanswer) Q m : on Q m -> on any (said f m).
Proof. intros H. unfold said. eapply both_bind; [exact H|]. intros a _. now apply both_ret. Qed.
Lemma on_lask c : lcall_in D c -> on any (lask c).
Proof.
  pose proof (home_div D HD) as Dv. pose proof on_up as Upd. pose proof (fun u d n H (_ : any u) => home_split D HD u d n H) as Sp. pose proof (home_last D HD) as La. pose proof (home_rest D HD) as Re.
  pose proof local_pair as LP.
  destruct c; cbn [lcall_in lask]; intros H; lazymatch type of H with _ /\ _ => destruct H as [H H'] | False => destruct H | _ => idtac end.
  - eapply on_said. exact (both_copy_up _ _ _ _ _ _ _ LP Dv _ Upd Sp La Re _ _ _ _ _ _ H H').
  - eapply on_said; unfold loc_copystat; eapply on_oscopystat; auto.
  - eapply on_said. now apply on_move.
  - eapply on_said. exact (both_remove _ _ _ _ _ _ _ LP Dv _ _ _ H).
  - eapply on_said. exact (both_makedirs_up _ _ _ _ _ _ _ LP _ Upd Sp _ _ H).
  - eapply on_said. now apply (both_mkdir _ _ _ _ _ _ _ LP).
  - eapply on_said. now apply (both_exists _ _ _ _ _ _ _ LP).
  - eapply on_said. now apply (both_isfile _ _ _ _ _ _ _ LP).
  - eapply on_said. now apply (both_isdir _ _ _ _ _ _ _ LP).
  - eapply on_said. now apply (both_islink _ _ _ _ _ _ _ LP).
  - apply (on_said _ any). unfold loc_isexec. eapply both_bind; [now apply on_info|]. intros i _. apply both_ret. exact I.
  - eapply on_said. unfold loc_set_exec. eapply both_bind; [now apply on_info|]. intros i _. now apply on_setmode.
  - eapply on_said. now apply on_rl.
  - eapply on_said; unfold loc_symlink; eapply on_ossymlink; auto.
  - apply (on_said _ any). unfold loc_mtime. eapply both_bind; [now apply on_info|]. intros i _. apply both_ret. exact I.
  - eapply on_said. now apply on_info.
  - eapply on_said. now apply on_setmode.
  - eapply on_said. exact (both_walk _ _ _ _ _ _ _ LP Dv _ _ _ _ H).
  - eapply on_said. now apply (both_listdir _ _ _ _ _ _ _ LP).
  - eapply on_said. exact (both_glob _ _ _ _ _ _ _ LP Dv _ _ _ H).
  - eapply on_said. unfold loc_read_all. eapply both_bind; [apply on_open_r; auto|]. intros q Bq. now apply on_data.
  - eapply on_said. unfold loc_write_all. eapply both_bind; [apply on_open_w; auto|]. intros q Bq. now apply on_append.
  - eapply on_said. unfold loc_append_all. eapply both_bind; [apply on_open_a; auto|]. intros q Bq. now apply on_append.
Qed.
End Home.
