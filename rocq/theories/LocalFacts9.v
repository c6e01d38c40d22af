(** Programs: each call simulates. *)
From Verif Require Import Str Exc Utf8 UriParse BaseUri StrFacts UriFacts SpecUri UriFacts2 UriFacts3.
From Verif Require Import Mem SpecMem MemFacts MemFacts2 MemFacts3 MemFacts9 MemFacts10 MemUri.
From Verif Require Import Generic SpecGen GenFacts1 GenFacts2 GenFacts3 Fnmatch.
From Verif Require Import Posix Local SpecLocal LocalFacts1 LocalFacts2 LocalFacts3 LocalFacts4 LocalFacts5 Program.

Lemma at_mem {A} cs (k : uri -> M mst A) s : good_path cs -> at_path (lit "memory://") cs k s = k (mem_uri cs) s.
Proof. intros G. unfold at_path. change (lit "memory://" ++ abs_path cs) with (mem_text cs). now rewrite mem_uri_eq by apply G. Qed.
Lemma at_loc {A} cs (k : uri -> M pst A) x : plain_path cs -> at_path (lit "file://") cs k x = k (file_uri cs) x.
Proof. intros G. unfold at_path. change (lit "file://" ++ abs_path cs) with (file_text cs). now rewrite file_uri_eq by apply G. Qed.
Definition same (a b : value) (_ : mst) : Prop := a = b.
Lemma place_path u v : same_place u v -> u_path u = u_path v.
Proof.
  intros (cs & Hm & Hf). rewrite (mem_at_eq _ _ Hm), (file_at_eq _ _ Hf), good_path_path, file_path by (now apply (mem_at_good _ _ Hm)). reflexivity.
Qed.

Section Call.
Variables (s : mst) (x : pst).
Hypothesis T : twin s x.
Lemma at_sim {A B} (R : A -> B -> mst -> Prop) cs k k' : plain_path cs -> sim R (k (mem_uri cs) s) (k' (file_uri cs) x) ->
  sim R (at_path (lit "memory://") cs k s) (at_path (lit "file://") cs k' x).
Proof. intros G H. rewrite at_mem, at_loc; auto using plain_good. Qed.
Lemma ret_sim {A B} (Q : A -> B -> mst -> Prop) (f : A -> value) (g : B -> value) m l :
  (forall a b s', Q a b s' -> f a = g b) -> sim Q (m s) (l x) -> sim same ((let! r <- m; ret (f r)) s) ((let! r <- l; ret (g r)) x).
Proof. intros H I. eapply sim_bind; [exact I|]. intros a b s' x' T' E. apply sim_ret; auto. now apply (H a b s'). Qed.
Lemma seq_sim {A B} (Q : A -> B -> mst -> Prop) (m : M mst A) (l : M pst B) v :
  sim Q (m s) (l x) -> sim same ((m ;; ret v) s) ((l ;; ret v) x).
Proof. intros I. eapply sim_bind; [exact I|]. intros a b s' x' T' E. apply sim_ret; auto. reflexivity. Qed.

Lemma call_sim c : fits c (view s) -> sim same (mem_call c s) (loc_call c x).
Proof.
  destruct c as [cs|cs|cs|cs|cs|cs|fuel cs|fuel rc cs|fuel td fl cs|cs pat|cs|cs ds|cs ds|fuel rc ig fl ca cb]; intros F; cbn [fits] in F;
    unfold mem_call, loc_call; cbn [run_call].
  - apply at_sim; auto. eapply ret_sim; [|apply (u_exists_sim s x T cs F)]. intros a b s' (-> & -> & _). reflexivity.
  - apply at_sim; auto. eapply ret_sim; [|apply (u_isfile_sim s x T cs F)]. intros a b s' (-> & -> & _). reflexivity.
  - apply at_sim; auto. eapply ret_sim; [|apply (u_isdir_sim s x T cs F)]. intros a b s' (-> & -> & _). reflexivity.
  - apply at_sim; auto. eapply ret_sim; [|apply (u_islink_sim s x T cs F)]. intros a b s' (-> & -> & _). reflexivity.
  - apply at_sim; auto. eapply ret_sim; [|apply hook_sim; auto; apply (listdir_sim s x T cs F)]. intros a b s' (-> & _). reflexivity.
  - destruct F as [F N]. apply at_sim; auto. eapply seq_sim. apply hook_sim; auto. now apply (mkdir_sim s x T cs F).
  - apply at_sim; auto. eapply seq_sim. now apply u_makedirs_sim.
  - destruct F as [F N]. apply at_sim; auto. eapply seq_sim. now apply remove_sim.
  - apply at_sim; auto. eapply ret_sim; [|now apply u_walk_sim]. intros a b s' (H & _). f_equal.
    induction H as [|p q a b (H1 & H2 & H3) H IH]; [reflexivity|]. cbn [map]. rewrite IH, H2, H3, (place_path _ _ H1). reflexivity.
  - apply at_sim; auto. eapply ret_sim; [|now apply glob_sim]. intros a b s' (H & _). f_equal.
    induction H as [|p q a b H1 H IH]; [reflexivity|]. cbn [map]. now rewrite IH, (place_path _ _ H1).
  - apply at_sim; auto. eapply (ret_sim (fun a b _ => a = b)); [now intros a b s' ->|].
    unfold mem_read. pose proof (read_sim s x T cs F) as H. unfold sim in *. unfold bind.
    destruct (read_all (mem_uri cs) (Some (lit "rb")) s) as [[v|e] s']; auto.
    destruct H as (b & x' & E & T' & -> & _). cbn. exists b, x'. auto.
  - destruct F as [F N]. apply at_sim; auto. apply (seq_sim (fun _ _ _ => True)).
    unfold mem_write. pose proof (write_sim s x T cs F ds N) as H. unfold sim in *. unfold bind.
    destruct (write_all (mem_uri cs) (lit "wb") (map VBytes ds) s) as [[v|e] s']; [|exact H].
    destruct H as (b & x' & E & T' & H'). cbn. exists b, x'. split; [exact E|]. split; [exact T'|]. exact I.
  - destruct F as (F & d & mt & mo & E & Nd). apply at_sim; auto. apply (seq_sim (fun _ _ _ => True)).
    unfold mem_append. pose proof (append_sim s x T cs F ds) as H. unfold sim in *. unfold bind.
    destruct (write_all (mem_uri cs) (lit "ab") (map VBytes ds) s) as [[v|e] s'].
    + destruct H as (b & x' & E' & T' & H'); [intros; congruence..|]. cbn. exists b, x'. split; [exact E'|]. split; [exact T'|]. exact I.
    + apply H; congruence.
  - destruct F as (Fa & Fb & Fi & Fr). apply at_sim; auto. apply at_sim; auto. eapply seq_sim. destruct rc.
    + destruct (Fr eq_refl) as (N & Ht & U). now apply copy_dir_sim.
    + now apply copy_file_sim.
Qed.
End Call.

Lemma run_sim p : forall s x, twin s x -> all_fit p s -> ~ In (Raise AttributeError) (fst (mem_run p s)) ->
  fst (mem_run p s) = fst (loc_run p x) /\ twin (snd (mem_run p s)) (snd (loc_run p x)).
Proof.
  induction p as [|c p IH]; intros s x T F N; [now split|]. destruct F as [F Fp].
  pose proof (call_sim s x T c F) as H. unfold mem_run, loc_run in *. cbn [run] in *. unfold mem_call, loc_call in *.
  destruct (run_call mem_backend (lit "memory://") mem_read mem_write mem_append c s) as [r s']. cbn [snd] in Fp.
  assert (Nr : r <> Raise AttributeError /\ ~ In (Raise AttributeError) (fst (run mem_backend (lit "memory://") mem_read mem_write mem_append p s'))).
  { destruct (run mem_backend (lit "memory://") mem_read mem_write mem_append p s') as [l s'']. cbn [fst In] in *. tauto. }
  destruct Nr as [Nr Np].
  assert (E : exists x', run_call loc_backend (lit "file://") loc_read_all loc_write_all loc_append_all c x = (r, x') /\ twin s' x').
  { unfold sim in H. destruct r as [v|e].
    - destruct H as (v' & x' & E & T' & Ev). unfold same in Ev. subst v'. eauto.
    - destruct e; eauto. tauto. }
  destruct E as (x' & -> & T'). specialize (IH s' x' T' Fp Np).
  destruct (run mem_backend _ _ _ _ p s') as [l s'']. destruct (run loc_backend _ _ _ _ p x') as [l' x'']. cbn [fst snd] in *.
  destruct IH as [<- IH]. auto.
Qed.
