(** Copying from another connection to a local destination; archives. *)
From Verif Require Import Str Exc UriParse BaseUri StrFacts SpecUri SpecNames UriFacts Mem Misc Generic Posix SpecLocal Local LocalFacts1 LocalFacts12 LocalFacts15 LocalFacts17 LocalFacts18 MoveFacts.
From Verif Require Import Zip World SpecMem ZipFacts2 WorldFacts7.
From Verif Require Import SpecZip SpecPosix SpecLocal SpecStay SpecInto PosixFacts PosixFacts2 StayFacts StayFacts2 StayFacts3 IntoFacts IntoFacts2 IntoFacts3 IntoFacts4.
Open Scope string_scope.
Open Scope list_scope.
Local Notation LB := loc_backend.

Section Two.
Context {S1 : Type}.
Variables (b1 : backend S1) (rd1 : uri -> M S1 (list N)) (wr1 : uri -> list N -> M S1 unit) (sch : string) (J : S1 -> Prop).
Let W := world b1 LB rd1 wr1 loc_read_all (fun u d => loc_write_all u [d]) (has_scheme sch).
Variables (src1 : list str -> uri -> Prop) (source : uri) (n : str) (fl : bool).
Hypotheses
  (Sch : lit sch <> lit "file")
  (Sside : forall ms u, src1 ms u -> u_scheme u = Some (lit sch))
  (S0 : src1 [] source)
  (Sl : u_last source = n)
  (Shook : forall ms u k, src1 ms u -> guards J (b_hook b1 u k))
  (Sexists : guards J (b_exists b1 source)) (Sisfile : guards J (b_isfile b1 source))
  (Sisdir : forall ms u, src1 ms u -> guards J (b_isdir b1 u))
  (Sislink : forall ms u, src1 ms u -> yields J (b_islink b1 u) (fun l => l && negb fl = false))
  (Slist : forall ms u, src1 ms u -> yields J (b_listdir b1 u) (Forall firm_name))
  (Sdiv : forall ms u k v, src1 ms u -> firm_name k -> u_div u k = Ok v -> src1 (ms ++ [k]) v)
  (Srest : forall ms u, src1 ms u -> Forall firm_name ms /\ skipn (length (u_path source) + 1) (u_path u) = match ms with [] => [] | _ => join_with [cSlash] ms end)
  (Sread : forall ms u, src1 ms u -> guards J (rd1 u)).

Definition pair_p (I : pst -> Prop) (s : S1 * pst) : Prop := J (fst s) /\ I (snd s).
Lemma y_on1 {A} I (m : M S1 A) Q : yields J m Q -> yields (pair_p I) (on1 m) Q.
Proof. intros H [s x] [Js Ix]. unfold on1. cbn [fst snd] in *. destruct (H s Js) as [H1 H2]. destruct (m s) as [r s']. cbn [fst snd] in *. now repeat split. Qed.
Lemma y_on2 {A} I (m : M pst A) Q : yields I m Q -> yields (pair_p I) (on2 m) Q.
Proof. intros H [s x] [Js Ix]. unfold on2. cbn [fst snd] in *. destruct (H x Ix) as [H1 H2]. destruct (m x) as [r x']. cbn [fst snd] in *. now repeat split. Qed.
Lemma side1 u : u_scheme u = Some (lit sch) -> has_scheme sch u = true.
Proof. intros E. unfold has_scheme. rewrite E. cbn. now apply str_eqb_eq. Qed.
Lemma side2 u : u_scheme u = Some (lit "file") -> has_scheme sch u = false.
Proof. intros E. unfold has_scheme. rewrite E. cbn [opt_eqb]. apply not_true_iff_false. intros H. apply str_eqb_eq in H. now apply Sch. Qed.
Lemma both1 {A} I u (m1 : M S1 A) (m2 : M pst A) Q : u_scheme u = Some (lit sch) -> yields J m1 Q -> yields (pair_p I) (both (has_scheme sch) u m1 m2) Q.
Proof. intros E H. unfold both. rewrite (side1 u E). now apply y_on1. Qed.
Lemma both2 {A} I u (m1 : M S1 A) (m2 : M pst A) Q : u_scheme u = Some (lit "file") -> yields I m2 Q -> yields (pair_p I) (both (has_scheme sch) u m1 m2) Q.
Proof. intros E H. unfold both. rewrite (side2 u E). now apply y_on2. Qed.
Lemma set_scheme s u : set_uri s u -> u_scheme u = Some (lit "file"). Proof. intros [C _]. apply C. Qed.

Theorem into_other s x v D T fuel rc ign : J s -> firm_name n -> landing x n v D T -> wrote_in x (snd (snd (u_copy W fuel rc ign fl source v (s, x)))) D T.
Proof.
  intros Js Fn La. destruct La as [sw sa ns mo mt A Ld Fns Wv En NL]. apply looked_iff in Ld. cbn [answer] in Ld. pose proof (written_set _ _ Wv) as V.
  set (is_d := tests x true is_pdir (u_path v)).
  assert (ET : T = if is_d then ns ++ [n] else ns).
  { destruct En as [(-> & p & m1 & m2 & Se)|(-> & No)].
    - apply sees_iff in Se. cbn [answer] in Se. unfold is_d, tests. now rewrite Se.
    - unfold is_d, tests. destruct (plook x true (u_path v)) as [[p [dd m1 m2|m1 m2|t]|p m]|ex] eqn:E; try reflexivity. exfalso. apply (No p m1 m2). now apply sees_iff. }
  set (I0 := fun y : pst => y = x). set (I := inv x D T None). set (P0 := pair_p I0). set (P := pair_p I).
  pose proof (copy_keeps P0 P W fuel fl ign source v is_d src1 (dst T sw)) as K.
  assert (Res : P (snd (u_copy W fuel rc ign fl source v (s, x)))).
  { apply K; auto.
    - intros ms u k H. apply both1; [now apply (Sside ms)|now apply (Shook ms)].
    - intros ms u H. apply both1; [now apply (Sside ms)|now apply (Sisdir ms)].
    - intros ms u H. apply both1; [now apply (Sside ms)|now apply (Sislink ms)].
    - intros ms u H. apply both1; [now apply (Sside ms)|now apply (Slist ms)].
    - intros ks w ms w'. eapply (dst_div x n v D T sw sa ns mo mt is_d); eauto.
    - intros ks w Hw. destruct (dst_toward x n v D T sw sa ns mo mt is_d A Ld Fn Fns Wv eq_refl ET ks w Hw) as [Tw _].
      refine (make_keeps P W sw sa T A _ _ _ _ fuel (T ++ ks) w Tw (proj2 Hw)).
      + intros u k Eu. apply both2; [exact Eu|now apply y_quiet].
      + intros u Eu Ep. apply both2; [exact Eu|]. intros y Iy. cbn [b_isdir loc_backend]. rewrite (top_dir x D T sa mo mt None Ld u Ep y Iy). split; [exact Iy|]. intros a X. now injection X.
      + intros k u Tk U. apply both2; [now apply (set_scheme _ _ U)|apply y_quiet, quiet_test].
      + intros k u Tk U. apply both2; [now apply (set_scheme _ _ U)|apply y_holds]. cbn [b_mkdir loc_backend]. now apply (dst_mkdir x D T sw sa mo mt None A Ld k).
    - intros ms u ks w Hu Hw. cbn [W world b_copy_content]. unfold world_content. rewrite (side1 u (Sside _ _ Hu)), (side2 w (set_scheme _ _ (proj2 Hw))).
      eapply y_bind; [apply y_on1; now apply (Sread ms)|]. intros d _. apply y_on2, y_holds. eapply (dst_write x n v D T sw sa ns mo mt); eauto.
    - intros E. exfalso. rewrite (Sside _ _ S0), (set_scheme _ _ V) in E. cbn [opt_eqb] in E. apply str_eqb_eq in E. now apply Sch.
    - intros [s' y] [Js' Ey]. cbn [fst snd] in *. unfold I0 in Ey. subst y. split; [exact Js'|]. now apply inv_start.
    - intros k. apply both1; [now apply (Sside [])|now apply (Shook [])].
    - apply both1; [now apply (Sside [])|exact Sexists].
    - apply both1; [now apply (Sside [])|exact Sisfile].
    - apply both1; [now apply (Sside [])|now apply (Sisdir [])].
    - unfold u_isdir, hooked. eapply y_bind; [apply both2; [now apply (set_scheme _ _ V)|now apply y_quiet]|]. intros _ _. apply both2; [now apply (set_scheme _ _ V)|].
      intros y Ey. unfold I0 in Ey. subst y. cbn [b_isdir loc_backend]. unfold loc_isdir, path_isdir. rewrite LocalFacts18.test_run. split; [reflexivity|]. intros a X. now injection X as <-.
    - rewrite Sl. exact (dst_start x n v T sw sa ns is_d A Fn Fns Wv eq_refl ET).
    - now split. }
  apply Res.
Unshelve. all: exact (fun _ => True).
Qed.
End Two.

(** ** Archives *)
Lemma firm_ok n : firm_name n -> name_ok n.
Proof.
  intros [F1 F2 F3 F4]. constructor.
  - intros ->. apply F3. now left.
  - intros c I. apply F1. unfold meta in I. cbn in *. tauto.
  - intros a b ->. apply F2. now exists a, b.
Qed.
Lemma abs_under cs ms : cs <> [] -> abs_path (cs ++ ms) = under (abs_path cs) ms.
Proof.
  intros N. unfold under, abs_path. destruct cs as [|c cs]; [easy|]. cbn [app]. change (c :: cs ++ ms) with ((c :: cs) ++ ms). rewrite flat_map_app. f_equal. apply flat_map_concat_map.
Qed.
Lemma fm_close z : firm_members z -> firm_members (snd (close_zip z)).
Proof.
  intros F ms m l c H. unfold close_zip in H. destruct (z_handle z) as [h|] eqn:E; [|now apply F]. destruct (zh_open h); [|now apply F]. cbn [snd] in H. apply F.
  destruct H as [H|(h' & H & H')]; cbn [z_disk z_handle] in *.
  - destruct (zh_write h && zh_dirty h); [injection H as <-|left; exact H]. right. exists h. auto.
  - injection H as <-. cbn in H'. subst. right. exists h. auto.
Qed.
Lemma fm_read z : firm_members z -> firm_members (snd (zipfile_r z)).
Proof.
  intros F ms m l c H. unfold zipfile_r in H. destruct (z_disk z) as [| |ms'] eqn:E; try (now apply F). cbn [snd] in H. apply F. destruct H as [H|(h & H & H')]; cbn [z_disk z_handle] in *.
  - injection H as <-. now left.
  - injection H as <-. cbn in H'. subst. now left.
Qed.
Lemma fm_open : guards firm_members (open_zip None) /\ guards firm_members (open_zip (Some (lit "rb"))).
Proof.
  assert (K : guards firm_members (close_zip ;; zipfile_r)).
  { eapply y_bind; [intros z F; split; [now apply fm_close|intros; exact I]|]. intros _ _ z F. split; [now apply fm_read|auto]. }
  split; exact K.
Qed.
Lemma fm_ispart u f : guards firm_members (zip_ispart u f).
Proof. intros z F. unfold zip_ispart. destruct (str_eqb (u_path u) [cSlash]); [now split|]. destruct (z_handle z); now split. Qed.
Lemma item_piece p m : content_item p m = [] \/ In (content_item p m) (split_on cSlash m).
Proof.
  unfold content_item. assert (N : forall i, nth i (split_on cSlash m) [] = [] \/ In (nth i (split_on cSlash m) []) (split_on cSlash m)).
  { intros i. destruct (nth_in_or_default i (split_on cSlash m) []) as [H|H]; auto. }
  destruct (_ && _); [apply N|]. destruct (Nat.leb _ _); [now left|]. destruct (is_start _ _); [apply N|now left].
Qed.
Lemma fm_list u : yields firm_members (zip_listdir u) (Forall firm_name).
Proof.
  intros z F. unfold zip_listdir. destruct (z_disk z) eqn:Ed; [cbn; split; [exact F|intros a X; injection X as <-; apply Forall_nil]| |];
  (match goal with |- context [(?m ;; ?k) z] => enough (Y : yields firm_members (m ;; k) (Forall firm_name)) by (apply Y; exact F) end;
   eapply y_bind; [instantiate (1 := fun _ => True); destruct (z_handle z); [now apply y_ret|apply fm_open]|]; intros _ _;
   eapply y_bind; [apply fm_ispart|]; intros d _; destruct d; cbn [negb]; [|apply y_raise];
   intros z' F'; destruct (z_handle z') as [h|] eqn:Eh; cbn [fst snd]; (split; [exact F'|]); intros a X; injection X as <-; [|apply Forall_nil];
   apply Forall_forall; intros c Hc; rewrite sort_In, dedup_In, filter_In, in_map_iff in Hc; destruct Hc as [(m & <- & Hm) Ne];
   destruct (item_piece (u_path u) m) as [E|E]; [rewrite E in Ne; discriminate|];
   destruct (F' (zh_members h) m (split_on cSlash m) _ (or_intror (ex_intro _ h (conj Eh eq_refl))) Hm (proj2 (pieces_iff m _) eq_refl) E) as [Z|Z]; [rewrite Z in Ne; discriminate|exact Z]).
Qed.
Lemma fm_fetch u : guards firm_members (zip_read u (Some (lit "rb"))).
Proof.
  unfold zip_read, zip_open. change (has_char 114 (lit "rb")) with true. cbv iota zeta.
  apply (y_bind _ _ _ (fun f => exists d, f = ZReader d)).
  - eapply y_bind; [apply fm_open|]. intros _ _ z F. unfold zip_open_for_reading. destruct (z_handle z) as [h|]; [|now split]. destruct (lookup_last (u_path u) (zh_members h)); [|now split].
    split; [exact F|]. intros a X. injection X as <-. eauto.
  - intros f [d ->]. now apply y_ret.
Qed.
Theorem into_zip vc cs n u v D T z x fuel rc ign fl : zip_at vc (cs ++ [n]) u -> firm_name n -> firm_members z -> landing x n v D T ->
  wrote_in x (snd (snd (u_copy zip_file fuel rc ign fl u v (z, x)))) D T.
Proof.
  intros Z Fn F La. pose proof (zip_at_good _ _ _ Z) as G. rewrite (zip_at_eq _ _ _ Z). destruct Z as (Av & Ok1 & Dot & _).
  assert (Ne : cs ++ [n] <> []) by (destruct cs; discriminate).
  assert (Gd : forall ms, Forall firm_name ms -> good_path ((cs ++ [n]) ++ ms)).
  { intros ms Fm. constructor; [apply Forall_app; split; [exact Ok1|eapply Forall_impl; [apply firm_ok|exact Fm]]|]. intros c l E. destruct (cs ++ [n]) as [|c' l'] eqn:Ec; [easy|]. cbn in E. injection E as <- _. now apply (Dot c' l'). }
  apply (into_other zip_backend _ _ "zip" firm_members (fun ms w => Forall firm_name ms /\ w = zip_uri vc ((cs ++ [n]) ++ ms)) (zip_uri vc (cs ++ [n])) n fl); auto.
  - discriminate.
  - intros ms w [_ ->]. reflexivity.
  - split; [constructor|now rewrite app_nil_r].
  - apply zip_last. now apply firm_ok.
  - intros. now apply y_ret.
  - apply fm_ispart.
  - apply fm_ispart.
  - intros. apply fm_ispart.
  - intros. now apply y_ret.
  - intros. apply fm_list.
  - intros ms w k w' [Fm ->] Fk E. split; [apply Forall_app; auto|]. rewrite zip_div in E; [injection E as <-; now rewrite app_assoc|exact Av|]. rewrite <- app_assoc. apply (Gd (ms ++ [k])). apply Forall_app; auto.
  - intros ms w [Fm ->]. split; [exact Fm|]. rewrite !zip_path; [|now apply Gd|exact G]. rewrite (abs_under (cs ++ [n]) ms Ne). apply under_rest.
  - intros. apply fm_fetch.
Qed.
