(** Reading sequences, lines, text mode. *)
From Verif Require Import Str Exc Utf8 Utf8Facts UriParse BaseUri StrFacts Mem SpecUri SpecMem SpecFile MemFacts MemFacts2 MemFacts3 MemFacts4 MemFacts5 MemFacts6 MemFacts7.

Fixpoint read_seq (hd : handle) (zs : list Z) : M mst (list pyval) :=
  match zs with
  | [] => ret []
  | z :: zs' => let! v <- h_read hd z; let! vs <- read_seq hd zs'; ret (v :: vs)
  end.

Lemma bio_read_slice data pos z :
  let n := if (z <? 0)%Z then length (skipn pos data) else Z.to_nat z in
  bio_read data pos z = (firstn n (skipn pos data), pos + length (firstn n (skipn pos data)))%nat.
Proof.
  cbn zeta. unfold bio_read. destruct (z <? 0)%Z; auto. now rewrite firstn_all.
Qed.
Lemma skipn_plus {A} a b (l : list A) : skipn (a + b) l = skipn b (skipn a l).
Proof. revert l. induction a as [|a IH]; intros l; auto. destruct l; cbn; auto. now rewrite skipn_nil. Qed.
Lemma skipn_firstn_length {A} n (l : list A) : skipn (length (firstn n l)) l = skipn n l.
Proof.
  rewrite firstn_length. destruct (Nat.le_ge_cases n (length l)).
  - now rewrite Nat.min_l.
  - rewrite Nat.min_r by lia. rewrite skipn_all, skipn_all2; auto.
Qed.

Lemma read_seq_spec i b zs : forall s f, m_heap s i = NFile f -> b = true ->
  exists s' pos, read_seq (mkHandle i true b) zs s = (Ok (map VBytes (fst (slices (skipn (f_pos f) (f_data f)) zs))), s') /\
    file_upd s s' i f (fset f (f_data f) pos (f_mtime f)) /\
    skipn pos (f_data f) = snd (slices (skipn (f_pos f) (f_data f)) zs).
Proof.
  induction zs as [|z zs IH]; intros s f E ->.
  - exists s, (f_pos f). split; auto. rewrite fset_same. split; auto. now apply file_upd_refl.
  - cbn [read_seq]. unfold bind at 1. unfold h_read. cbn [h_readable negb h_node]. unfold bind at 1.
    destruct (run_read s i f E z) as (s1 & R1 & U1). rewrite R1. rewrite bio_read_slice in U1 |- *. cbn [fst snd] in U1 |- *.
    unfold lift at 1. unfold proxy_decode at 1. cbn [h_binary]. unfold bind at 1.
    destruct (IH s1 _ (fu_new _ _ _ _ _ U1) eq_refl) as (s2 & pos & R2 & U2 & K). rewrite R2.
    exists s2, pos. cbn [fset f_data f_pos] in *. rewrite skipn_plus, skipn_firstn_length in *.
    cbn [slices]. destruct (slices (skipn _ (skipn (f_pos f) (f_data f))) zs) as [o l]. cbn [fst snd map] in *.
    split; [reflexivity|]. split; auto. eapply file_upd_trans; eauto.
Qed.

Lemma slices_concat rest zs : concat (fst (slices rest zs)) ++ snd (slices rest zs) = rest.
Proof.
  revert rest. induction zs as [|z zs IH]; intros rest; auto. cbn [slices].
  set (n := if (z <? 0)%Z then length rest else Z.to_nat z). specialize (IH (skipn n rest)).
  destruct (slices (skipn n rest) zs) as [o l]. cbn [fst snd concat] in *. rewrite <- app_assoc, IH. apply firstn_skipn.
Qed.
Lemma slices_all rest zs z : (z < 0)%Z -> In z zs -> snd (slices rest zs) = [].
Proof.
  intros Hz. revert rest. induction zs as [|y zs IH]; intros rest; [easy|]. intros [->|Hi]; cbn [slices].
  - replace (z <? 0)%Z with true by (symmetry; now apply Z.ltb_lt). rewrite skipn_all.
    clear IH. destruct (slices [] zs) as [o l] eqn:E. cbn. assert (K := slices_concat [] zs). rewrite E in K. cbn in K.
    now apply app_eq_nil in K.
  - specialize (IH (skipn (if (y <? 0)%Z then length rest else Z.to_nat y) rest) Hi). now destruct (slices _ zs).
Qed.

(** ** Lines *)
Fixpoint split_lines (fuel : nat) (b : list N) : list (list N) :=
  match fuel with
  | O => []
  | S f => match b with
           | [] => []
           | _ => line_of b :: split_lines f (skipn (length (line_of b)) b)
           end
  end.
Lemma split_lines_S f b : b <> [] -> split_lines (S f) b = line_of b :: split_lines f (skipn (length (line_of b)) b).
Proof. now destruct b. Qed.
Lemma line_of_app b : line_of b ++ skipn (length (line_of b)) b = b.
Proof. induction b as [|c b IH]; auto. cbn [line_of]. destruct (N.eqb c cNL); cbn; congruence. Qed.
Lemma line_of_nil b : line_of b = [] -> b = [].
Proof. destruct b; auto. cbn. now destruct (N.eqb n cNL). Qed.
Lemma line_of_cases b : b <> [] -> is_line (line_of b) \/ (line_of b = b /\ is_tail b).
Proof.
  induction b as [|c b IH]; [easy|]. intros _. cbn [line_of]. destruct (N.eqb c cNL) eqn:E.
  - apply N.eqb_eq in E. left. exists []. subst. split; auto.
  - apply N.eqb_neq in E. destruct b as [|c' b].
    + right. split; auto. split; [easy|]. cbn. unfold cNL in *. intuition congruence.
    + destruct IH as [(x & -> & Hx)|(Hl & Hn & Ht)]; [easy| |].
      * left. exists (c :: x). split; auto. cbn. unfold cNL in *. intuition congruence.
      * right. rewrite Hl. split; auto. split; [easy|]. intros [|]; [unfold cNL in *; congruence|]. now apply Ht.
Qed.
Lemma line_of_length b : b <> [] -> (length (skipn (length (line_of b)) b) < length b)%nat.
Proof.
  intros H. rewrite skipn_length. assert (length (line_of b) <> 0)%nat.
  { intros C. apply length_zero_iff_nil in C. now apply line_of_nil in C. }
  destruct b; [easy|]. cbn [length] in *. lia.
Qed.
Lemma split_lines_spec fuel : forall b, (length b < fuel)%nat -> is_lines b (split_lines fuel b).
Proof.
  induction fuel as [|fuel IH]; intros b L; [lia|]. cbn [split_lines]. destruct b as [|c b].
  - split; auto. exists [], []. repeat split; auto.
  - set (B := c :: b) in *. assert (NB : B <> []) by easy. assert (LL := line_of_length B NB).
    destruct (IH (skipn (length (line_of B)) B)) as [C (full & tail & E & F & T)]; [lia|]. split.
    + cbn [concat]. rewrite C. apply line_of_app.
    + destruct (line_of_cases B NB) as [HL|[HL HT]].
      * exists (line_of B :: full), tail. rewrite E. repeat split; auto.
      * exists [], [B]. split; [|split; eauto].
        rewrite HL, skipn_all. destruct fuel; reflexivity.
Qed.

Lemma run_next s i f b : m_heap s i = NFile f ->
  let out := line_of (skipn (f_pos f) (f_data f)) in
  exists s', file_upd s s' i f (fset f (f_data f) (f_pos f + length out) (f_mtime f)) /\
    h_next (mkHandle i true b) s = match out with [] => (Ok None, s') | _ => (rlet v <- proxy_decode (mkHandle i true b) out; Ok (Some v), s') end.
Proof.
  intros E out. destruct (run_readline s i f E) as (s' & R & U). fold out in R, U. exists s'. split; auto.
  unfold h_next, bind. cbn [h_node]. rewrite R. destruct out; auto. unfold lift.
  destruct (proxy_decode (mkHandle i true b) (n :: out)); reflexivity.
Qed.
Lemma h_lines_spec i fuel : forall s f rd, m_heap s i = NFile f -> (length (skipn (f_pos f) (f_data f)) < fuel)%nat ->
  exists s' pos, h_lines fuel (mkHandle i rd true) s = (Ok (map VBytes (split_lines fuel (skipn (f_pos f) (f_data f)))), s') /\
    file_upd s s' i f (fset f (f_data f) pos (f_mtime f)).
Proof.
  induction fuel as [|fuel IH]; intros s f rd E L; [lia|]. cbn [h_lines]. unfold bind at 1.
  destruct (run_next s i f true E) as (s1 & U1 & R1). unfold h_next in *. cbn [h_node] in *.
  change (proxy_decode (mkHandle i true true)) with (proxy_decode (mkHandle i rd true)) in R1. rewrite R1.
  set (rest := skipn (f_pos f) (f_data f)) in *. destruct rest as [|c rest'] eqn:ER.
  - cbn [line_of]. exists s1. eexists. split; [reflexivity|exact U1].
  - assert (NR : rest <> []) by (rewrite ER; easy). rewrite <- ER in *. assert (LL := line_of_length rest NR).
    destruct (line_of rest) as [|x l] eqn:EL; [now apply line_of_nil in EL|]. cbn [proxy_decode h_binary rbind].
    destruct (IH s1 _ rd (fu_new _ _ _ _ _ U1)) as (s2 & pos & R2 & U2).
    { cbn [fset f_pos f_data]. rewrite skipn_plus. fold rest. cbn [length] in *. lia. }
    cbn [fset f_pos f_data] in R2, U2. rewrite skipn_plus in R2. fold rest in R2. unfold bind. rewrite R2.
    exists s2, pos. split; [|eapply file_upd_trans; eauto]. rewrite split_lines_S, EL by auto. reflexivity.
Qed.

(** *** Text *)
Lemma enc1_nl c : scalar c = true -> In 10%N (enc1 c) -> c = 10%N.
Proof.
  intros H. assert (B := enc1_bytes c H). unfold enc1 in *.
  destruct (c <? 128)%N eqn:E1; [cbn; intuition congruence|]. apply N.ltb_ge in E1.
  destruct (c <? 2048)%N eqn:E2; [|destruct (c <? 65536)%N eqn:E3]; cbn [In]; intros HI; exfalso;
  repeat destruct HI as [HI|HI]; auto; lia.
Qed.
Lemma line_of_pre p r : ~ In 10%N p -> line_of (p ++ r) = p ++ line_of r.
Proof.
  induction p as [|c p IH]; auto. intros H. cbn [app line_of]. destruct (N.eqb c cNL) eqn:E.
  - apply N.eqb_eq in E. exfalso. apply H. now left.
  - rewrite IH; auto. intros C; apply H; now right.
Qed.
Lemma line_of_enc t : forallb scalar t = true -> line_of (flat_map enc1 t) = flat_map enc1 (line_of t).
Proof.
  induction t as [|c t IH]; auto. cbn [forallb flat_map]. intros H. apply andb_true_iff in H as [Hc Ht]. cbn [line_of].
  destruct (N.eqb c cNL) eqn:E.
  - apply N.eqb_eq in E. subst. reflexivity.
  - rewrite line_of_pre.
    + cbn [flat_map]. now rewrite IH.
    + intros C. apply enc1_nl in C; auto. subst. discriminate.
Qed.
Lemma scalar_skip n t : forallb scalar t = true -> forallb scalar (skipn n t) = true.
Proof. rewrite !forallb_forall. intros H x Hx. apply H. rewrite <- (firstn_skipn n t). apply in_or_app. now right. Qed.
Lemma scalar_line t : forallb scalar t = true -> forallb scalar (line_of t) = true.
Proof. rewrite !forallb_forall. intros H x Hx. apply H. rewrite <- (line_of_app t). apply in_or_app. now left. Qed.
Lemma decode_enc t : forallb scalar t = true -> utf8_decode (flat_map enc1 t) = Ok t.
Proof. intros H. unfold utf8_decode. now apply decode_fuel_enc. Qed.
Lemma flat_enc_nil t : flat_map enc1 t = [] -> t = [].
Proof.
  destruct t; auto. cbn. intros H. apply app_eq_nil in H as [H _]. assert (K := enc1_length n). rewrite H in K. cbn in K. lia.
Qed.
Lemma skip_enc t : flat_map enc1 t = flat_map enc1 (line_of t) ++ flat_map enc1 (skipn (length (line_of t)) t).
Proof. rewrite <- flat_map_app. now rewrite line_of_app. Qed.

Lemma h_lines_text i fuel : forall s f rd t, m_heap s i = NFile f -> forallb scalar t = true ->
  skipn (f_pos f) (f_data f) = flat_map enc1 t -> (length t < fuel)%nat ->
  exists s' pos, h_lines fuel (mkHandle i rd false) s = (Ok (map VStr (split_lines fuel t)), s') /\
    file_upd s s' i f (fset f (f_data f) pos (f_mtime f)).
Proof.
  induction fuel as [|fuel IH]; intros s f rd t E Sc Rest L; [lia|]. cbn [h_lines]. unfold bind at 1.
  destruct (run_next s i f false E) as (s1 & U1 & R1). unfold h_next in *. cbn [h_node] in *.
  change (proxy_decode (mkHandle i true false)) with (proxy_decode (mkHandle i rd false)) in R1. rewrite R1.
  rewrite Rest in *. rewrite line_of_enc in * by auto. destruct t as [|c t'] eqn:ET.
  - cbn [line_of flat_map]. exists s1. eexists. split; [reflexivity|exact U1].
  - rewrite <- ET in *. assert (NT : t <> []) by (rewrite ET; easy). assert (LL := line_of_length t NT).
    assert (Dc : proxy_decode (mkHandle i rd false) (flat_map enc1 (line_of t)) = Ok (VStr (line_of t))).
    { unfold proxy_decode. cbn [h_binary]. rewrite decode_enc; auto. now apply scalar_line. }
    destruct (flat_map enc1 (line_of t)) as [|x l] eqn:EL.
    { apply flat_enc_nil in EL. now apply line_of_nil in EL. }
    rewrite Dc. cbn [rbind].
    destruct (IH s1 _ rd (skipn (length (line_of t)) t) (fu_new _ _ _ _ _ U1)) as (s2 & pos & R2 & U2).
    + now apply scalar_skip.
    + cbn [fset f_pos f_data]. rewrite skipn_plus, Rest, skip_enc, EL. rewrite skipn_app, skipn_all, Nat.sub_diag. reflexivity.
    + lia.
    + unfold bind. rewrite R2. exists s2, pos. split; [|eapply file_upd_trans; eauto].
      rewrite split_lines_S by auto. reflexivity.
Qed.

(** ** Links *)
Lemma resolves_more t k d steps o : resolves t k d steps o -> o <> Loop -> resolves t (S k) d steps o.
Proof.
  induction 1; intros HL.
  - constructor.
  - now apply rs_notdir.
  - now apply rs_missing.
  - apply rs_step; auto.
  - easy.
  - eapply rs_badlink; eauto.
  - eapply rs_link; eauto; apply IHresolves1; discriminate.
  - eapply rs_link_missing; eauto; apply IHresolves; discriminate.
  - eapply rs_link_dead; eauto; apply IHresolves; discriminate.
  - eapply rs_link_fails; eauto.
Qed.
Lemma resolves_le t k k' d steps o : (k <= k')%nat -> resolves t k d steps o -> o <> Loop -> resolves t k' d steps o.
Proof. induction 1; auto. intros. apply resolves_more; auto. Qed.

(** One link followed. *)
Lemma link_follow t k d n target mt mo cs o :
  is_edir (t d) -> t (d ++ [n]) = Some (ELink target mt mo) -> addr target cs ->
  resolves t k [] cs o -> resolves t (S k) d [n] o.
Proof.
  intros D L A R. destruct o as [q| | | | |].
  - eapply rs_link; eauto. constructor.
  - eapply rs_link_missing; eauto.
  - eapply rs_link_fails; eauto. cbn. auto.
  - eapply rs_link_fails; eauto. cbn. auto.
  - eapply rs_link_fails; eauto. cbn. auto.
  - eapply rs_link_fails; eauto. cbn. auto 6.
Qed.
