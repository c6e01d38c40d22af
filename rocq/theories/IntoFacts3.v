(** The recursive copy keeps what its steps keep: for any backend, any predicate on states, and any description of the URIs of the source and of the destination. *)
From Coq Require Import Lia.
From Verif Require Import Str Exc UriParse BaseUri StrFacts SpecUri SpecNames UriFacts Mem Misc Generic.
From Verif Require Import Posix SpecLocal SpecPosix SpecStay SpecInto.
Open Scope string_scope.
Open Scope list_scope.

Lemma space_iff c : is_space c = true <-> In c blanks.
Proof. unfold is_space, blanks. cbn [In]. rewrite !orb_true_iff, !andb_true_iff, !N.eqb_eq, !N.leb_le. lia. Qed.
Lemma space_not c : ~ In c blanks -> is_space c = false.
Proof. rewrite <- space_iff. now destruct (is_space c). Qed.

Section Yields.
Context {S : Type}.
Variable P : S -> Prop.
Definition yields {A} (m : M S A) (Q : A -> Prop) : Prop := forall s, P s -> P (snd (m s)) /\ forall a, fst (m s) = Ok a -> Q a.
Definition guards {A} (m : M S A) : Prop := yields m (fun _ => True).
Lemma y_bind {A B} (m : M S A) (k : A -> M S B) Q R : yields m Q -> (forall a, Q a -> yields (k a) R) -> yields (bind m k) R.
Proof. intros H K s I. unfold bind. destruct (H s I) as [I' Qa]. destruct (m s) as [[a|e] s1]; cbn [fst snd] in *; [now apply K; [apply Qa|]|]. now split. Qed.
Lemma y_weak {A} (m : M S A) (Q R : A -> Prop) : yields m Q -> (forall a, Q a -> R a) -> yields m R.
Proof. intros H K s I. destruct (H s I) as [I' Qa]. split; [exact I'|auto]. Qed.
Lemma y_ret {A} (a : A) (Q : A -> Prop) : Q a -> yields (ret a) Q.
Proof. intros H s I. split; [exact I|]. intros b E. now injection E as <-. Qed.
Lemma y_raise {A} e (Q : A -> Prop) : yields (raise e) Q.
Proof. intros s I. split; [exact I|discriminate]. Qed.
Lemma y_lift {A} (r : res A) (Q : A -> Prop) : (forall a, r = Ok a -> Q a) -> yields (lift r) Q.
Proof. intros H s I. split; [exact I|exact H]. Qed.
Lemma y_mapM {A} (f : A -> M S unit) l : (forall a, In a l -> guards (f a)) -> guards (mapM_ f l).
Proof. induction l as [|a l IH]; intros H; cbn [mapM_]; [now apply y_ret|]. eapply y_bind; [apply H; now left|]. intros _ _. apply IH. intros b I. apply H. now right. Qed.
Lemma y_foldM {A B} (f : B -> A -> M S B) (Q : B -> Prop) l : (forall a b, In a l -> Q b -> yields (f b a) Q) -> forall b, Q b -> yields (foldM f b l) Q.
Proof. induction l as [|a l IH]; intros H b Qb; cbn [foldM]; [now apply y_ret|]. eapply y_bind; [apply H; [now left|exact Qb]|]. intros c Qc. apply IH; auto. intros d e I. apply H. now right. Qed.
End Yields.

Lemma firm_join_strip ms : Forall firm_name ms -> ms <> [] -> strip_p is_space (join_with [cSlash] ms) = join_with [cSlash] ms /\ join_with [cSlash] ms <> [].
Proof.
  intros F N. assert (H : exists c r, join_with [cSlash] ms = c :: r /\ is_space c = false).
  { destruct ms as [|m ms]; [easy|]. inversion F as [|? ? Fm _]; subst. destruct m as [|c m]; [exfalso; apply (fi_plain _ Fm); now left|].
    exists c. destruct ms; [cbn; exists m|rewrite join_with_cons by easy; eexists]; (split; [reflexivity|]); apply space_not, (fi_blank _ Fm c m); now left. }
  assert (L : exists c r, join_with [cSlash] ms = r ++ [c] /\ is_space c = false).
  { destruct (exists_last N) as (l & m & ->). apply Forall_app in F as [_ F]. inversion F as [|? ? Fm _]; subst. destruct (@exists_last _ m) as (r & c & Em); [intros ->; apply (fi_plain _ Fm); now left|].
    exists c. destruct l as [|l0 l]; [cbn; exists r|rewrite join_with_app by easy; cbn [join_with]; rewrite Em, !app_assoc; eexists]; (split; [try exact Em; reflexivity|]); apply space_not, (fi_blank _ Fm c r); now right. }
  destruct H as (c & r & E & Sc). split; [|now rewrite E]. apply strip_id.
  - rewrite E. cbn. exact Sc.
  - destruct L as (c' & r' & E' & Sc'). rewrite E', rev_app_distr. cbn. exact Sc'.
Qed.

Section Gen.
Context {S : Type}.
Variables (P0 P : S -> Prop) (b : backend S) (fuel : nat) (fl : bool) (ign : list str) (source dest : uri) (is_d : bool).
Variables (src dst : list str -> uri -> Prop).
Local Notation Y := (yields P).
Local Notation G := (guards P).
Let same := opt_eqb (u_scheme source) (u_scheme dest).
Hypotheses
  (S0 : src [] source)
  (Shook : forall ms u n, src ms u -> G (b_hook b u n))
  (Sisdir : forall ms u, src ms u -> G (b_isdir b u))
  (Sislink : forall ms u, src ms u -> Y (b_islink b u) (fun l => l && negb fl = false))
  (Slist : forall ms u, src ms u -> Y (b_listdir b u) (Forall firm_name))
  (Sdiv : forall ms u n v, src ms u -> firm_name n -> u_div u n = Ok v -> src (ms ++ [n]) v)
  (Srest : forall ms u, src ms u -> Forall firm_name ms /\ skipn (length (u_path source) + 1) (u_path u) = match ms with [] => [] | _ => join_with [cSlash] ms end)
  (Ddiv : forall ks w ms v, dst ks w -> Forall firm_name ms -> ms <> [] -> u_div w (join_with [cSlash] ms) = Ok v -> dst (ks ++ ms) v)
  (Dmake : forall ks w, dst ks w -> G (u_makedirs b fuel w))
  (Dcontent : forall ms u ks w, src ms u -> dst ks w -> G (b_copy_content b u w))
  (Dstat : same = true -> forall ms u ks w, src ms u -> dst ks w -> G (b_copystat b u w))
  (Start : forall s, P0 s -> P s)
  (Shook0 : forall n, guards P0 (b_hook b source n))
  (Sexists0 : guards P0 (b_exists b source)) (Sisfile0 : guards P0 (b_isfile b source)) (Sisdir0 : guards P0 (b_isdir b source))
  (Disdir : yields P0 (u_isdir b dest) (eq is_d))
  (D0 : if is_d then forall v, u_div dest (u_last source) = Ok v -> dst [] v else dst [] dest).

Lemma Sulink ms u : src ms u -> Y (u_islink b u) (fun l => l && negb fl = false).
Proof. intros H. unfold u_islink, hooked. eapply y_bind; [now apply (Shook ms)|]. intros _ _. now apply (Sislink ms). Qed.
Lemma entry_keeps ms u ks w : src ms u -> dst ks w -> G (copy_entry b fl same u w).
Proof.
  intros Hs Hd. unfold copy_entry. eapply y_bind; [now apply (Sulink ms)|]. cbv beta. intros l ->. eapply y_bind; [now apply (Dcontent ms u ks w)|]. intros _ _.
  destruct same; [now apply (Dstat eq_refl ms u ks w)|now apply y_ret].
Qed.
Lemma kinds_keeps ms top l : src ms top -> Forall firm_name l -> Y (kinds b top l) (fun r => Forall firm_name (fst r) /\ Forall firm_name (snd r)).
Proof.
  intros Hs F. induction F as [|n l Fn Fl IH]; cbn [kinds]; [apply y_ret; split; constructor|].
  apply (y_bind P _ _ (fun v => src (ms ++ [n]) v)); [apply y_lift; intros v; now apply Sdiv|]. intros v Hv.
  eapply y_bind; [now apply (Sisdir (ms ++ [n]))|]. intros d _. eapply y_bind; [exact IH|]. cbv beta. intros [x y] [Hx Hy]. apply y_ret. destruct d; cbn [fst snd] in *; auto.
Qed.
Lemma remove_first_firm x l : Forall firm_name l -> Forall firm_name (remove_first x l).
Proof. induction 1 as [|y l Hy Hl IH]; cbn; [constructor|]. destruct (str_eqb x y); auto. Qed.
Lemma step_keeps droot ms root dirs files : dst [] droot -> src ms root -> Forall firm_name dirs -> Forall firm_name files ->
  Y (copy_step b fuel ign fl same (length (u_path source) + 1) droot root dirs files) (Forall firm_name).
Proof.
  intros Hd Hs Fd Ff. unfold copy_step. destruct (Srest ms root Hs) as [Fm Er]. rewrite Er. cbv zeta.
  apply (y_bind P _ _ (fun v => dst ms v)).
  - destruct ms as [|m ms]; [now apply y_ret|]. destruct (firm_join_strip (m :: ms)) as [E1 E2]; auto; [discriminate|]. rewrite E1.
    destruct (join_with [cSlash] (m :: ms)) eqn:Ej; [easy|]. apply y_lift. intros v Ev. apply (Ddiv [] droot); auto; [discriminate|]. now rewrite Ej.
  - intros dbase Hb. apply (y_bind P _ _ (Forall firm_name)).
    + apply y_foldM; [|exact Fd]. intros n ds In Hds. destruct (str_in n ign); [apply y_ret; now apply remove_first_firm|]. rewrite Forall_forall in Fd. pose proof (Fd n In) as Fn.
      apply (y_bind P _ _ (fun v => dst (ms ++ [n]) v)); [apply y_lift; intros v Ev; apply (Ddiv ms dbase [n]); auto; discriminate|]. intros ddir Hdd.
      apply (y_bind P _ _ (fun v => src (ms ++ [n]) v)); [apply y_lift; intros v; now apply Sdiv|]. intros sp Hsp.
      eapply y_bind; [now apply (Sulink (ms ++ [n]))|]. cbv beta. intros l ->. eapply y_bind; [now apply (Dmake (ms ++ [n]))|]. intros _ _. now apply y_ret.
    + intros ds Fds. eapply y_bind; [|intros _ _; now apply y_ret]. apply y_mapM. intros n In. rewrite Forall_forall in Ff. pose proof (Ff n In) as Fn.
      apply (y_bind P _ _ (fun v => src (ms ++ [n]) v)); [apply y_lift; intros v; now apply Sdiv|]. intros sf Hsf.
      apply (y_bind P _ _ (fun v => dst (ms ++ [n]) v)); [apply y_lift; intros v Ev; apply (Ddiv ms dbase [n]); auto; discriminate|]. intros df Hdf.
      now apply (entry_keeps (ms ++ [n]) sf (ms ++ [n])).
Qed.
Lemma walk_keeps droot : dst [] droot -> forall f ms top, src ms top ->
  G (walk_gen b f true fl (fun (_ : unit) root dirs files => let! ds <- copy_step b fuel ign fl same (length (u_path source) + 1) droot root dirs files; ret (tt, ds)) tt top).
Proof.
  intros Hd. induction f as [|f IH]; intros ms top Hs; cbn [walk_gen]; [apply y_raise|].
  eapply y_bind; [now apply (Slist ms)|]. intros names Fn. assert (Fs : Forall firm_name (sort_strs names)) by (rewrite Forall_forall in *; intros n In; apply Fn; now apply sort_In).
  eapply y_bind; [now apply (kinds_keeps ms)|]. cbv beta. intros dn [F1 F2].
  apply (y_bind P _ _ (fun ad => Forall firm_name (snd ad))).
  - eapply y_bind; [now apply (step_keeps droot ms)|]. intros ds Fds. now apply y_ret.
  - intros ad Fa. apply (y_bind P _ _ (fun _ => True)); [|intros a _; now apply y_ret]. apply (y_foldM P _ (fun _ => True)); [|exact I]. intros n [] In _. rewrite Forall_forall in Fa. pose proof (Fa n In) as Fnn.
    apply (y_bind P _ _ (fun v => src (ms ++ [n]) v)); [apply y_lift; intros v; now apply Sdiv|]. intros p Hp.
    eapply y_bind; [now apply (Sulink (ms ++ [n]))|]. intros l _. destruct (negb l || fl); [now apply (IH (ms ++ [n]))|now apply y_ret].
Qed.
Definition from {A} (m : M S A) : Prop := forall s, P0 s -> P (snd (m s)).
Lemma f_bind {A B} (m : M S A) (k : A -> M S B) Q : yields P0 m Q -> (forall a, Q a -> from (k a)) -> from (bind m k).
Proof. intros H K s I. unfold bind. destruct (H s I) as [I' Qa]. destruct (m s) as [[a|e] s1]; cbn [fst snd] in *; [now apply K; [apply Qa|]|now apply Start]. Qed.
Lemma f_of {A} (m : M S A) Q : Y m Q -> from m. Proof. intros H s I. apply H. now apply Start. Qed.
Theorem copy_keeps rc : from (u_copy b fuel rc ign fl source dest).
Proof.
  assert (Pick : Y (if is_d then lift (u_div dest (u_last source)) else ret dest) (dst [])).
  { destruct is_d; [apply y_lift; exact D0|now apply y_ret]. }
  unfold u_copy, hooked. eapply f_bind; [apply Shook0|]. intros _ _. unfold fs_copy. fold same. cbv zeta.
  eapply f_bind. { unfold u_exists, hooked. eapply y_bind; [apply Shook0|]. intros _ _. apply Sexists0. }
  intros e _. destruct e; cbn [negb]; [|eapply f_of, y_bind; [apply y_lift; intros; exact I|intros; apply y_raise]]. destruct rc; cbn [negb].
  - eapply f_bind. { unfold u_isdir, hooked. eapply y_bind; [apply Shook0|]. intros _ _. apply Sisdir0. }
    intros d _. destruct d; cbn [negb]; [|eapply f_of, y_raise]. eapply f_bind; [exact Disdir|]. intros d <-. apply (f_of _ (fun _ => True)). eapply y_bind; [exact Pick|]. intros droot Hd.
    eapply y_bind; [now apply (Sulink [])|]. cbv beta. intros l ->. eapply y_bind; [now apply (Dmake [])|]. intros _ _.
    eapply y_bind; [now apply (Shook [])|]. intros _ _. now apply (walk_keeps droot Hd fuel []).
  - eapply f_bind. { unfold u_isfile, hooked. eapply y_bind; [apply Shook0|]. intros _ _. apply Sisfile0. }
    intros f _. destruct f; cbn [negb]; [|eapply f_of, y_raise]. eapply f_bind; [exact Disdir|]. intros d <-. apply (f_of _ (fun _ => True)).
    eapply y_bind; [exact Pick|]. intros droot Hd. now apply (entry_keeps [] source []).
Unshelve. all: exact (fun _ => True).
Qed.
End Gen.
