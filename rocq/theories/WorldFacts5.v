(** Archives as source of WorldFacts2.v. *)
From Coq Require Import Lia Sorted.
From Verif Require Import Str Exc Utf8 UriParse BaseUri StrFacts SpecUri Mem SpecMem Generic SpecGen World.
From Verif Require Import UriFacts2 UriFacts3 MemFacts MemFacts5 MemFacts6 MemFacts7 MemUri MemFacts10 GenFacts1 GenFacts3 GenFacts8.
From Verif Require Import Misc Zip SpecZip SpecWorld ZipFacts ZipFacts2 LocalFacts1 LocalFacts4 WorldFacts1 WorldFacts2.

Local Notation joined := (join_with [cSlash]).
Local Notation B := zip_backend.
Local Notation rd := (fun u => zip_read u (Some (lit "rb"))).

Section Source.
Variables (v : str) (ms : list member) (L : list (list str)) (cs : list str).
Hypothesis Hv : auth_ok (Connector v).
Hypothesis Pr : proper ms L.
Hypothesis Ncs : cs <> [].
Record zsrc (T : ftree) (s : zst) : Prop := {
  zs_handle : exists h, z_handle s = Some h /\ zh_members h = ms;
  zs_disk : z_disk s = DZip ms;
  zs_tree : forall r x, T r = Some x <-> archived ms L (cs ++ r) x }.
Definition zus (r : list str) : uri := zip_uri v (cs ++ r).
Lemma L_good t : In t L -> t <> [] /\ good_path t.
Proof. intros H. destruct (pr_ok _ _ Pr t H) as (A & Q & C). split; [exact A|now split]. Qed.
Lemma member_stored p : is_member ms p -> exists d, stored ms p d.
Proof.
  unfold is_member. clear. induction ms as [|[n d] l IH]; [easy|]. intros H.
  destruct (in_dec (list_eq_dec N.eq_dec) p (map fst l)) as [I|I].
  - destruct (IH I) as (e & l1 & l2 & -> & N). exists e, ((n, d) :: l1), l2. now split.
  - destruct H as [H|H]; [|contradiction]. cbn in H. subst. exists d, [], l. now split.
Qed.
Lemma archived_some p : (exists x, archived ms L p x) <-> exists b, In (p ++ b) L.
Proof.
  split.
  - intros ([d|] & H); [exists []; rewrite app_nil_r; apply H|]. destruct H as (b & _ & H). now exists b.
  - intros (b & H). destruct b as [|c b]; [|exists None; exists (c :: b); now split]. rewrite app_nil_r in H.
    destruct (member_stored (abs_path p)) as (d & S); [|now exists (Some d)]. unfold is_member. rewrite (pr_names _ _ Pr). now apply in_map.
Qed.
Section One.
Variables (T : ftree) (s : zst) (r : list str).
Hypothesis k : zsrc T s.
Lemma zs_some : T r <> None <-> exists b, In ((cs ++ r) ++ b) L.
Proof.
  rewrite <- archived_some. destruct (T r) as [x|] eqn:E; split; try easy.
  - intros _. exists x. now apply k.
  - intros (x & H). apply k in H. congruence.
Qed.
Lemma zs_good : T r <> None -> good_path (cs ++ r).
Proof. intros H. apply zs_some in H as (b & I). destruct (L_good _ I) as (_ & G). now apply good_app in G. Qed.
Lemma zs_ne : cs ++ r <> [].
Proof. now destruct cs. Qed.
Lemma zs_path : T r <> None -> u_path (zus r) = abs_path (cs ++ r).
Proof. intros H. now apply zip_path, zs_good. Qed.
Lemma zs_noroot : T r <> None -> u_path (zus r) <> root.
Proof.
  intros H. rewrite zs_path by auto. destruct (zs_good H) as [G _]. pose proof zs_ne as N. destruct (cs ++ r) as [|c l]; [easy|].
  inversion G as [|? ? Gc _]; subst. intros X. cbn in X. injection X as X. apply app_eq_nil in X as [-> _]. now apply name_ne in Gc.
Qed.
Lemma zs_member : T r <> None -> is_member ms (u_path (zus r)) <-> In (cs ++ r) L.
Proof.
  intros H. rewrite zs_path by auto. unfold is_member. rewrite (pr_names _ _ Pr), in_map_iff. split.
  - intros (t & X & I). destruct (L_good t I) as (Nt & Gt). apply abs_inj in X; [now subst|apply Gt|now apply zs_good|auto|apply zs_ne].
  - intros I. now exists (cs ++ r).
Qed.
Lemma zs_below : T r <> None -> (exists m, is_member ms m /\ below (u_path (zus r)) m) <-> exists b, b <> [] /\ In ((cs ++ r) ++ b) L.
Proof.
  intros H. destruct (zs_handle T s k) as (h & _ & Eh). rewrite <- Eh, zs_path by auto. apply below_dir; [apply L_good|rewrite Eh; apply Pr|now apply zs_good|apply zs_ne].
Qed.
Lemma zs_kind : T r = Some None <-> exists b, b <> [] /\ In ((cs ++ r) ++ b) L.
Proof. apply (zs_tree T s k r None). Qed.
End One.
Lemma zip_source : source B rd zus zsrc.
Proof.
  constructor.
  - intros T s r n k H. apply (zs_some T s _ k) in H as (b & I). apply (zs_kind T s _ k). exists ([n] ++ b). split; [easy|]. now rewrite !app_assoc in *.
  - intros T s r k H. destruct (zs_good T s r k H) as [G _]. now apply Forall_app in G.
  - intros T s r n k H. unfold zus. rewrite app_assoc. apply zip_div; auto. rewrite <- app_assoc. now apply (zs_good T s).
  - intros T s r k H. rewrite (zs_path T s r k H). pose proof (zs_good T s r k H) as G. unfold zus. rewrite app_nil_r, zip_path by now apply good_app in G.
    now apply skip_source.
  - reflexivity.
  - intros T s r k H. destruct (zs_handle T s k) as (h & Eh & Em). cbn [zip_backend b_exists]. destruct (exists_run s h Eh (zus r)) as (b & -> & X).
    repeat f_equal. apply X. right. rewrite Em. apply (zs_some T s r k) in H as H'. destruct H' as ([|c b'] & I).
    + left. apply (zs_member T s r k H). now rewrite app_nil_r in I.
    + right. apply (zs_below T s r k H). now exists (c :: b').
  - intros T s r k H. destruct (zs_handle T s k) as (h & Eh & Em). cbn [zip_backend b_isdir]. destruct (isdir_run s h Eh (zus r)) as (b & -> & X).
    repeat f_equal. rewrite Em, (zs_below T s r k H), <- (zs_kind T s r k) in X. pose proof (zs_noroot T s r k H) as Nr. destruct (T r) as [[d|]|]; [|now apply X; right|easy].
    destruct b; [|reflexivity]. destruct X as [X _]. destruct (X eq_refl) as [Y|Y]; [|discriminate]. contradiction.
  - intros T s r d k H. assert (Hn : T r <> None) by congruence. destruct (zs_handle T s k) as (h & Eh & Em). cbn [zip_backend b_isfile].
    destruct (isfile_run s h Eh (zus r)) as (b & -> & X); [now apply (zs_noroot T s)|]. repeat f_equal. apply X. rewrite Em. apply (zs_member T s r k Hn).
    apply (zs_tree T s k) in H. apply H.
  - reflexivity.
  - intros T s r k H. assert (Hn : T r <> None) by congruence. destruct (zs_handle T s k) as (h & Eh & Em). pose proof (zs_disk T s k) as Ed.
    destruct (listdir_T v L s h L_good Eh) with (c := cs ++ r) as (l & R & Sl & X).
    + congruence.
    + rewrite Em. apply Pr.
    + now apply (zs_good T s).
    + right. now apply (zs_kind T s r k).
    + exists l. split; [exact R|]. split; [exact Sl|]. intros n. rewrite X, (zs_some T s _ k). split; intros (b & I); exists b; now rewrite <- !app_assoc in *.
  - intros T s r d k H. assert (Hn : T r <> None) by congruence. exists (fresh_h ms). split.
    + rewrite (read_run s (zus r) (Some (lit "rb")) ms); [| |reflexivity|apply k].
      * rewrite (zs_path T s r k Hn). apply (zs_tree T s k) in H. destruct H as [_ H]. apply lookup_stored in H. now rewrite H.
      * destruct (zs_handle T s k) as (h & Eh & Em). unfold knows. rewrite Eh. left. rewrite Em. apply k.
    + constructor; [now eexists|reflexivity|apply k].
Qed.
End Source.
