(** The complete rules of SpecExact.v hold of the model: opening files. *)
From Verif Require Import Str Exc Utf8 UriParse BaseUri StrFacts SpecUri Mem SpecMem SpecHandle SpecExact.
From Verif Require Import MemFacts MemFacts2 MemFacts3 MemFacts4 MemFacts5 MemFacts6 MemFacts7 HandleFacts ExactFacts ExactFacts2.

Section S.
Variable s : mst.
Hypothesis W : wf s.
Let h := m_heap s.
Let t := view s.

(** A file that is open *)
Record open_at (s' : mst) (hd : handle) (q : list str) (start : ofile) (mode : Z) : Prop := {
  oa_wf : wf s'; oa_rest : same_rest s s'; oa_phys : phys (m_heap s') root_id q = Some (h_node hd);
  oa_file : exists f, m_heap s' (h_node hd) = NFile f /\ ofl f = start /\ f_mode f = mode;
  oa_put : put_at t (view s') q (EFile (o_data start) (o_mtime start) mode) }.
Definition opened_as (b r : bool) (q : list str) (start : ofile) (mode : Z) (x : res handle * mst) : Prop :=
  exists hd s', x = (Ok hd, s') /\ h_readable hd = r /\ h_binary hd = b /\ open_at s' hd q start mode.

(** The names the code sees when writing *)
Lemma steps_to_write u cs p : addr u cs -> mem_path u = Ok p -> steps_of p = to_write cs.
Proof.
  intros A P. destruct (proj1 (addr_path u cs) A) as (p' & P' & [[-> ->]|[N ->]]); rewrite P in P'; injection P' as ->; [reflexivity|].
  destruct (steps_of p') eqn:E; [|reflexivity]. unfold steps_of in E. exfalso. revert E. clear. destruct p'; cbn; [discriminate|]. destruct (N.eqb n cSlash); [discriminate|]. destruct (split_on cSlash p'); discriminate.
Qed.
Lemma write_noway u b cs init n o : addr u cs -> to_write cs = init ++ [n] -> leads t init o -> (forall d, o <> Found d) -> open_for_write u b s = (Raise (err_of o), s).
Proof.
  intros A E L No. destruct (proj1 (addr_path u cs) A) as (p & P & _). assert (Es := steps_to_write u cs p A P). rewrite E in Es.
  unfold open_for_write, bind, lift. rewrite P, (run_parent s W p init n o Es L). now rewrite (res_throw _ _ No).
Qed.
Lemma write_nodir u b cs init n d : addr u cs -> to_write cs = init ++ [n] -> leads t init (Found d) -> ~ is_edir (t d) -> open_for_write u b s = (Raise AttributeError, s).
Proof.
  intros A E L D. destruct (proj1 (addr_path u cs) A) as (p & P & _). assert (Es := steps_to_write u cs p A P). rewrite E in Es.
  unfold open_for_write, bind, lift. rewrite P, (run_parent s W p init n _ Es L). cbn [res_of rbind].
  destruct (leads_phys _ _ W _ _ L) as (i & Pi & _). rewrite Pi. cbn [need]. unfold node_has, bind, get_node_obj.
  destruct (m_heap s i) eqn:Hi; auto. exfalso. apply D. eapply dir_tree; eauto.
Qed.
Lemma write_taken u b cs init n d o : addr u cs -> to_write cs = init ++ [n] -> leads t init (Found d) -> is_edir (t d) -> t (d ++ [n]) <> None ->
  leads t (init ++ [n]) o ->
  open_for_write u b s = match res_of h true o with
                         | Ok (Some c) => if is_dir (h c) then (Raise (OSError EISDIR), s) else (file_reset c ;; ret (mkHandle c false b)) s
                         | Ok None => (Raise AttributeError, s)
                         | Raise e => (Raise e, s)
                         end.
Proof.
  intros A E L D T L'. destruct (proj1 (addr_path u cs) A) as (p & P & _). assert (Es := steps_to_write u cs p A P). rewrite E in Es.
  destruct (place_dir s W init n d L D) as (i & es & mt & mo & Pi & Hi & Bi & T1 & T2).
  assert (T' : view s (d ++ [n]) <> None) by exact T. rewrite T2 in T'. destruct (dget n es) as [j|] eqn:G; [|easy].
  unfold open_for_write, bind, lift. rewrite P, (run_parent s W p init n _ Es L). cbn [res_of rbind]. rewrite Pi. cbn [need].
  unfold node_has, bind, get_node_obj. rewrite Es, last_snoc, Hi. cbn [ret].
  assert (Hh : dhas n es = true) by (unfold dhas; now rewrite G). rewrite Hh.
  rewrite (child_follow _ _ W true init n d i es mt mo j o L Pi Hi G L'). change (m_heap s) with h.
  destruct (res_of h true o) as [[c|]|]; auto. now destruct (is_dir (h c)).
Qed.
Lemma write_new u b cs init n d : addr u cs -> to_write cs = init ++ [n] -> leads t init (Found d) -> is_edir (t d) -> t (d ++ [n]) = None ->
  opened_as b false (d ++ [n]) (mkO [] 0 (m_now s)) 0 (open_for_write u b s).
Proof.
  intros A E L D T. destruct (proj1 (addr_path u cs) A) as (p & P & _). assert (Es := steps_to_write u cs p A P). rewrite E in Es.
  destruct (place_dir s W init n d L D) as (i & es & mt & mo & Pi & Hi & Bi & T1 & T2).
  assert (T' : view s (d ++ [n]) = None) by exact T. rewrite T2 in T'. destruct (dget n es) as [j|] eqn:G; [discriminate T'|].
  assert (Hh : dhas n es = false) by (unfold dhas; now rewrite G).
  unfold open_for_write, bind, lift. rewrite P, (run_parent s W p init n _ Es L). cbn [res_of rbind]. rewrite Pi. cbn [need].
  unfold node_has, bind, get_node_obj. rewrite Es, last_snoc, Hi. cbn [ret]. rewrite Hh. cbn [get].
  assert (RA := run_add s i n (new_file p (m_now s) (m_epoch s)) es mt mo Bi Hi). unfold bind in RA.
  destruct (added_spec s W d i n (new_file p (m_now s) (m_epoch s)) es mt mo Pi Hi Hh) as (X1 & X2 & X3 & X4 & X5 & X6).
  { intros ? Y; discriminate Y. }
  destruct (alloc (new_file p (m_now s) (m_epoch s)) s) as [[j|] s1] eqn:AL; [|discriminate].
  rewrite RA. assert (j = m_next s) by (unfold alloc in AL; congruence). subst j.
  eexists _, _. split; [reflexivity|]. split; [reflexivity|]. split; [reflexivity|]. constructor; auto.
  exists (mkFile p [] 0 (m_now s) 0 (m_epoch s, p)). split; [exact X6|]. auto.
Qed.
Lemma write_file u b cs q : addr u cs -> leads t (to_write cs) (Found q) -> is_efile (t q) ->
  opened_as b false q (mkO [] 0 (m_now s)) 0 (open_for_write u b s).
Proof.
  intros A L (d0 & mt0 & mo0 & F). destruct (efile_node s _ _ _ _ F) as (c & f & Pc & Hc & _).
  destruct (snoc_cases (to_write cs)) as [E|(init & n & E)]; [destruct cs; discriminate E|]. rewrite E in L.
  destruct (leads_prefix s W _ _ _ L) as (d & L0 & D). destruct (leads_taken s W _ _ _ _ L0 L) as [_ T].
  rewrite (write_taken u b cs init n d (Found q) A E L0 D T L). cbn [res_of]. change h with (m_heap s). rewrite Pc, Hc. cbn [is_dir].
  destruct (run_reset s c f Hc) as (s' & K & U). unfold bind. rewrite K.
  exists (mkHandle c false b), s'. split; [reflexivity|]. split; [reflexivity|]. split; [reflexivity|]. constructor.
  - eapply file_upd_wf; eauto.
  - apply U.
  - rewrite (file_upd_phys _ _ _ _ _ _ U). exact Pc.
  - eexists. split; [apply U|]. auto.
  - exact (file_upd_put _ _ _ _ _ q W U Pc).
Qed.
Lemma write_isdir u b cs q : addr u cs -> leads t (to_write cs) (Found q) -> is_edir (t q) -> open_for_write u b s = (Raise (OSError EISDIR), s).
Proof.
  intros A L D'. destruct (snoc_cases (to_write cs)) as [E|(init & n & E)]; [destruct cs; discriminate E|]. rewrite E in L.
  destruct (leads_prefix s W _ _ _ L) as (d & L0 & D). destruct (leads_taken s W _ _ _ _ L0 L) as [_ T].
  rewrite (write_taken u b cs init n d (Found q) A E L0 D T L). cbn [res_of]. change h with (m_heap s).
  destruct (leads_phys _ _ W _ _ L) as (x & Px & _). rewrite Px. destruct (tree_dir (m_heap s) q x Px D') as (es' & mt' & mo' & Hx). now rewrite Hx.
Qed.

Lemma same_put q e t' : t q = Some e -> same_tree t t' -> put_at t t' q e.
Proof. intros T S. split; [rewrite S; exact T|intros r _; apply S]. Qed.
Definition open_fact (m : option str) (x : res handle * mst) (r : opens) : Prop :=
  match r with
  | Refused e => x = (Raise e, s)
  | Opens q start mode => opened_as (opt_b m) (opt_r m) q start mode x
  end.
Lemma exact_open u cs m r : addr u cs -> open_rule t (m_now s) m cs r -> open_fact m (mem_open u m s) r.
Proof.
  intros A R.
  assert (RD : opt_r m = true -> mem_open u m s = open_for_read u (opt_b m) s).
  { unfold mem_open, opt_r, opt_b. destruct m as [o|]; [|reflexivity]. now intros ->. }
  assert (WR : opt_r m = false -> opt_w m = true -> mem_open u m s = open_for_write u (opt_b m) s).
  { unfold mem_open, opt_r, opt_b, opt_w. destruct m as [o|]; [|discriminate]. now intros -> ->. }
  assert (AP : opt_r m = false -> opt_w m = false -> opt_a m = true -> mem_open u m s = open_for_append u (opt_b m) s).
  { unfold mem_open, opt_r, opt_b, opt_w, opt_a. destruct m as [o|]; [|discriminate]. now intros -> -> ->. }
  destruct R as [q d mt mo O L T|q d mt mo O1 O2 O3 L T|q O L T|o O L No|init n d O1 O2 E L D T|q O1 O2 L F|q O1 O2 L F|init n d o O1 O2 E L D T L' No|init n d O1 O2 E L D|init n o O1 O2 E L No|O1 O2 O3]; cbn [open_fact].
  - rewrite (RD O). destruct (open_read s W u (opt_b m) q d mt mo (ex_intro _ cs (conj A L)) T) as (s' & hd & f & K & Eh & Op & F1 & F2 & F3 & F4 & Sm).
    exists hd, s'. split; [exact K|]. split; [rewrite Eh, O; reflexivity|]. split; [rewrite Eh; reflexivity|]. destruct Op as [p1 p2 p3 p4 p5]. constructor; auto.
    + exists f. split; [exact p4|]. split; [|exact F4]. unfold ofl. congruence.
    + apply same_put; [exact T|exact Sm].
  - rewrite (AP O1 O2 O3). destruct (open_append s W u (opt_b m) q d mt mo (ex_intro _ cs (conj A L)) T) as (s' & hd & f & K & Eh & Op & F1 & F2 & F3 & F4 & Sm).
    exists hd, s'. split; [exact K|]. split; [rewrite Eh, O1; reflexivity|]. split; [rewrite Eh; reflexivity|]. destruct Op as [p1 p2 p3 p4 p5]. constructor; auto.
    + exists f. split; [exact p4|]. split; [|exact F4]. unfold ofl. rewrite F1, F2, F3. f_equal. unfold file_len. destruct d; cbn [length Nat.pred]; lia.
    + apply same_put; [exact T|exact Sm].
  - destruct (opt_r m) eqn:O1.
    + rewrite (RD eq_refl). apply (open_read_dir s W u (opt_b m) q (ex_intro _ cs (conj A L)) T).
    + destruct O as [O|[O2 O3]]; [discriminate O|]. rewrite (AP eq_refl O2 O3). unfold open_for_append, bind.
      destruct (run_lookup_found s W u cs q A L) as (i & P & E & _). rewrite E. destruct (tree_dir (m_heap s) q i P T) as (es' & mt' & mo' & Hx).
      unfold get_file, bind, get_node_obj. now rewrite Hx.
  - destruct (open_read_fail s W u (opt_b m) cs o A L No) as [X Y]. destruct (opt_r m) eqn:O1.
    + rewrite (RD eq_refl). exact X.
    + destruct O as [O|[O2 O3]]; [discriminate O|]. rewrite (AP eq_refl O2 O3). exact Y.
  - rewrite (WR O1 O2), O1. now apply (write_new u _ cs init n d).
  - rewrite (WR O1 O2), O1. now apply (write_file u _ cs q).
  - rewrite (WR O1 O2). now apply (write_isdir u _ cs q).
  - rewrite (WR O1 O2), (write_taken u _ cs init n d o A E L D T L'). change h with (m_heap s). now rewrite (res_throw _ _ No).
  - rewrite (WR O1 O2). now apply (write_nodir u _ cs init n d).
  - rewrite (WR O1 O2). now apply (write_noway u _ cs init n o).
  - unfold mem_open, opt_r, opt_w, opt_a in *. destruct m as [o|]; [|discriminate]. now rewrite O1, O2, O3.
Qed.
Lemma open_total m cs : exists r, open_rule t (m_now s) m cs r.
Proof.
  assert (RA : opt_r m = true \/ opt_r m = false /\ opt_w m = false /\ opt_a m = true -> exists r, open_rule t (m_now s) m cs r).
  { intros O. assert (O' : opt_r m = true \/ opt_w m = false /\ opt_a m = true) by tauto.
    destruct (leads_total h cs) as [o L]. destruct (outcome_cases o) as [[q ->]|No]; [|eexists; eapply or_lost; eauto].
    destruct (leads_real _ _ W _ _ L) as [(d & mt & mo & F)|F]; [|eexists; eapply or_dir; eauto].
    destruct O as [O|(O1 & O2 & O3)]; eexists; [eapply or_read|eapply or_append]; eauto. }
  destruct (opt_r m) eqn:O1; [apply RA; auto|]. destruct (opt_w m) eqn:O2.
  - destruct (snoc_cases (to_write cs)) as [E|(init & n & E)]; [destruct cs; discriminate E|].
    destruct (leads_total h init) as [o L]. destruct (outcome_cases o) as [[d ->]|No]; [|eexists; eapply or_noway; eauto].
    destruct (edir_dec (t d)) as [D|D]; [|eexists; eapply or_nodir; eauto].
    destruct (t (d ++ [n])) as [e|] eqn:T; [|eexists; eapply or_new; eauto].
    destruct (leads_total h (init ++ [n])) as [o L']. destruct (outcome_cases o) as [[q ->]|No].
    + rewrite <- E in L'. destruct (leads_real _ _ W _ _ L') as [F|F]; eexists; [eapply or_file|eapply or_isdir]; eauto.
    + eexists. eapply or_dead; eauto. congruence.
  - destruct (opt_a m) eqn:O3; [apply RA; auto|]. eexists. now apply or_mode.
Qed.
(** The calls on the file afterwards *)
Lemma open_calls b r q start mode x : opened_as b r q start mode x -> exists hd s1, x = (Ok hd, s1) /\ same_rest s s1 /\
  put_at t (view s1) q (EFile (o_data start) (o_mtime start) mode) /\
  forall os, exists vs s2 o, do_hops hd os s1 = (vs, s2) /\ acts_all r b (m_now s) os start vs o /\
    put_at t (view s2) q (EFile (o_data o) (o_mtime o) mode).
Proof.
  intros (hd & s1 & -> & Hr & Hb & [w1 re ph (f & Hf & <- & <-) pt]). exists hd, s1. split; [reflexivity|]. split; [exact re|]. split; [exact pt|]. intros os.
  destruct (do_hops_acts hd os s1 f Hf) as (vs & s2 & f' & D & U & (_ & Mm & _) & A).
  exists vs, s2, (ofl f'). split; [exact D|]. rewrite Hr, Hb, (rest_now _ _ re) in A. split; [exact A|].
  destruct (file_upd_put _ _ _ _ _ q w1 U ph) as [X Y]. rewrite Mm in X.
  split; [exact X|]. intros k Nk. rewrite Y by auto. now apply pt.
Qed.
End S.
