(** makedirs on arbitrary URIs, with arbitrary callbacks. *)
From Verif Require Import Str Exc Utf8 UriParse BaseUri StrFacts Mem SpecMem MemOps Generic SpecGen UriOps.
From Verif Require Import MemFacts MemFacts2 MemFacts3 MemFacts4 MemFacts5 MemFacts6 MemFacts9 MemUri GenFacts1 GenFacts9.
Local Notation B := mem_backend.

(** Old entries stay, new ones are empty directories. *)
Definition only_dirs (t t' : tree) : Prop :=
  forall p, t' p = t p \/ (t p = None /\ is_edir (t' p)).
Lemma only_dirs_refl t : only_dirs t t. Proof. now left. Qed.
Lemma only_dirs_trans t1 t2 t3 : only_dirs t1 t2 -> only_dirs t2 t3 -> only_dirs t1 t3.
Proof.
  intros A C p. destruct (A p) as [E|[E D]], (C p) as [E'|[E' D']]; rewrite ?E' in *; auto.
Qed.
Lemma place_free_none s u p : place (view s) u (Free p) -> view s p = None.
Proof. intros H. now inversion H. Qed.
Lemma mkdir_any s u r s' : wf s -> mem_mkdir u s = (r, s') -> wf s' /\ only_dirs (view s) (view s').
Proof.
  intros W. rewrite mkdir_make. destruct (place_total s u) as [sl P]. destruct sl as [|p|p|e].
  - rewrite (make_top s u _ P). intros E. injection E as _ <-. split; auto using only_dirs_refl.
  - destruct (make_free s W u (fun s => NDir [] (m_now s) 0) p P) as (s1 & E & W1 & [P1 P2] & _).
    { intros es Ee. now injection Ee as <-. }
    rewrite E. intros X. injection X as _ <-. split; auto. intros x.
    destruct (list_eq_dec (list_eq_dec N.eq_dec) x p) as [->|N]; [|left; now apply P2].
    right. split; [now apply (place_free_none s u)|]. rewrite P1. cbn. now do 2 eexists.
  - rewrite (make_taken s W u _ p P). intros E. injection E as _ <-. split; auto using only_dirs_refl.
  - rewrite (make_noplace s W u _ e P). intros E. injection E as _ <-. split; auto using only_dirs_refl.
Qed.
Lemma hooked_pure {A} name u (m : M mst A) s r s' : (forall s, snd (m s) = s) -> hooked B name u m s = (r, s') -> s' = s.
Proof.
  intros P. unfold hooked, bind. pose proof (pure_hook u (lit name) s) as H. cbn [b_hook mem_backend].
  destruct (mem_hook u (lit name) s) as [[x|e] s1]; cbn in H; subst s1; [|intros E; now injection E as _ <-].
  intros E. now rewrite <- (P s), E.
Qed.
Theorem makedirs_keeps fuel : forall u s r s', wf s -> fs_makedirs B fuel u s = (r, s') ->
  wf s' /\ only_dirs (view s) (view s').
Proof.
  induction fuel as [|fuel IH]; intros u s r s' W; cbn [fs_makedirs].
  - intros E. injection E as _ <-. split; auto using only_dirs_refl.
  - unfold bind at 1, u_isdir at 1. destruct (hooked B "isdir" u (b_isdir B u) s) as [x s1] eqn:E1.
    apply hooked_pure in E1; [|apply pure_isdir]. subst s1.
    destruct x as [[|]|e]; try (intros E; injection E as _ <-; split; auto using only_dirs_refl).
    unfold bind at 1, lift. destruct (u_split u) as [[hd tl]|e]; [|intros E; injection E as _ <-; split; auto using only_dirs_refl].
    cbn [fst snd]. unfold bind at 1, u_isdir. destruct (hooked B "isdir" hd (b_isdir B hd) s) as [x s1] eqn:E1.
    apply hooked_pure in E1; [|apply pure_isdir]. subst s1.
    destruct x as [pd|e]; [|intros E; injection E as _ <-; split; auto using only_dirs_refl].
    unfold bind at 1.
    destruct ((if pd then ret tt else fs_makedirs B fuel hd) s) as [x s1] eqn:E1.
    assert (X : wf s1 /\ only_dirs (view s) (view s1)).
    { destruct pd; [injection E1 as _ <-; split; auto using only_dirs_refl|eapply IH; eauto]. }
    destruct X as [W1 O1]. destruct x as [x|e]; [|intros E; injection E as _ <-; auto].
    destruct tl as [|c tl]; [intros E; injection E as _ <-; auto|].
    unfold u_mkdir, hooked, bind. cbn [b_hook mem_backend]. pose proof (pure_hook u (lit "mkdir") s1) as H.
    destruct (mem_hook u (lit "mkdir") s1) as [[y|e] s2]; cbn in H; subst s2; [|intros E; injection E as _ <-; auto].
    intros E. destruct (mkdir_any s1 u r s' W1 E) as [W2 O2]. split; auto. eapply only_dirs_trans; eauto.
Qed.
Theorem makedirs_keeps_u fuel u s r s' : wf s -> u_makedirs B fuel u s = (r, s') -> wf s' /\ only_dirs (view s) (view s').
Proof.
  intros W. unfold u_makedirs, hooked, bind. cbn [b_hook mem_backend]. pose proof (pure_hook u (lit "makedirs") s) as H.
  destruct (mem_hook u (lit "makedirs") s) as [[y|e] s2]; cbn in H; subst s2; [now apply makedirs_keeps|].
  intros E. injection E as _ <-. split; auto using only_dirs_refl.
Qed.
