(** Local trees and the memory file systems that mirror them. *)
From Coq Require Import Lia.
From Verif Require Import Str Exc Utf8 UriParse BaseUri StrFacts UriFacts SpecUri UriFacts2 UriFacts3.
From Verif Require Import Mem SpecMem MemOps MemFacts MemFacts2 MemFacts3 MemFacts4 MemFacts5 MemFacts7 MemFacts9 MemFacts10 MemUri.
From Verif Require Import Generic SpecGen GenFacts1 GenFacts2 GenFacts3.
From Verif Require Import Misc Posix Local SpecLocal LocalFacts1 LocalFacts2 LocalFacts3 LocalFacts6 LocalFacts7 LocalFacts10.

Lemma ordinary_mirror x : ordinary x -> exists s, reachable s /\ silent s /\ mirrors s x /\ m_next s <= length (p_tree x).
Proof. intros [A B C]. now apply (mirror_exists (length (p_tree x))). Qed.
Definition seen (e : option entry) : option (option (list N)) :=
  match e with Some (EFile d _ _) => Some (Some d) | Some (EDir _ _) => Some None | _ => None end.
Lemma content_dir x p : content x p = Some None <-> is_dir_at x p.
Proof. unfold content, is_dir_at. destruct (pget p (p_tree x)) as [[]|]; split; try discriminate; try (intros (? & ? & ?); congruence); eauto. Qed.
Lemma content_file x p : (exists d, content x p = Some (Some d)) <-> is_file_at x p.
Proof.
  unfold content, is_file_at. destruct (pget p (p_tree x)) as [[]|]; split; try (intros (? & ?); discriminate); try (intros (? & ? & ? & ?); congruence); eauto.
Qed.

Section Mirror.
Variables (s : mst) (x : pst).
Hypothesis T : twin s x.
Local Notation t := (view s).
Let W : wf s := tw_wf _ _ T.
Lemma content_seen p : content x p = seen (t p).
Proof.
  pose proof (mi_same _ _ (tw_mirror _ _ T) p) as S. unfold content.
  destruct (t p) as [[]|]; destruct (pget p (p_tree x)) as [[]|]; cbn in *; try easy. now rewrite S.
Qed.
Lemma tw_dir p : is_edir (t p) <-> is_dir_at x p.
Proof.
  rewrite <- content_dir, content_seen. split.
  - intros (mt & mo & E). now rewrite E.
  - destruct (t p) as [[]|] eqn:E; try discriminate. intros _. do 2 eexists. reflexivity.
Qed.
Lemma tw_file p d : content x p = Some (Some d) <-> exists mt mo, t p = Some (EFile d mt mo).
Proof.
  rewrite content_seen. split.
  - destruct (t p) as [[]|] eqn:E; try discriminate. intros [= ->]. eauto.
  - intros (mt & mo & E). now rewrite E.
Qed.
Lemma tw_none p : t p = None <-> pget p (p_tree x) = None.
Proof.
  pose proof (mi_same _ _ (tw_mirror _ _ T) p) as S. destruct (t p) as [[]|]; destruct (pget p (p_tree x)) as [[]|]; cbn in *; try easy; split; congruence.
Qed.
Lemma tw_nolink p : ~ is_elink (t p).
Proof. pose proof (mi_same _ _ (tw_mirror _ _ T) p) as S. intros (tg & mt & mo & E). rewrite E in S. exact S. Qed.
Lemma twin_ordinary : ordinary x.
Proof.
  split.
  - split.
    + apply (tw_dir []). now apply root_dir.
    + intros p n H. apply (tw_dir p). apply (parent_dir s p n). now rewrite tw_none.
    + apply (mi_nodup _ _ (tw_mirror _ _ T)).
  - intros p tg E. pose proof (mi_same _ _ (tw_mirror _ _ T) p) as S. rewrite E in S. destruct (t p) as [[]|]; easy.
  - intros p H. apply (mi_names _ _ (tw_mirror _ _ T)). now rewrite tw_none.
Qed.
Lemma tw_leads p q : plain_path p -> leads t p (Found q) -> q = p /\ t p <> None.
Proof.
  intros G L. pose proof (look s x T p true G) as K. unfold leads in *.
  inversion K as [e e' A1 A2 A3 A4 E|init n A1 A2 A3 A4 A5 E|init n A1 A2 A3 E|init n A1 A2 A3 E]; cbn [app] in *.
  - pose proof (leads_det (m_heap s) (m_next s) W _ _ _ L A4) as X. injection X as ->. split; congruence.
  - pose proof (leads_det (m_heap s) (m_next s) W _ _ _ L A5). discriminate.
  - pose proof (leads_det (m_heap s) (m_next s) W _ _ _ L A3). discriminate.
  - pose proof (leads_det (m_heap s) (m_next s) W _ _ _ L A2). discriminate.
Qed.
Lemma tw_entry p : t p <> None -> leads t p (Found p).
Proof. intros H. apply resolves_entry; auto. destruct (mi_kind s x T p H); auto. Qed.
Lemma tw_to_dir p : plain_path p -> to_dir t p <-> is_dir_at x p.
Proof.
  intros G. rewrite <- tw_dir. split.
  - intros (q & L & D). destruct (tw_leads p q G L) as [-> _]. exact D.
  - intros D. exists p. split; auto. apply tw_entry. destruct D as (? & ? & ->). discriminate.
Qed.
Lemma tw_dest n q q' : plain_path q -> goes_to x n q q' -> copy_dest t n q q'.
Proof. intros G [[D ->]|[D ->]]; [left|right]; rewrite tw_to_dir; auto. Qed.
Lemma tw_placed i n : plain_path (i ++ [n]) -> is_dir_at x i -> placed t (i ++ [n]) i n.
Proof.
  intros G D. apply (tw_dir i) in D. exists i. split; auto. split; [now apply plain_good|].
  split; [now apply (fresh_dir (m_heap s) (m_next s))|]. split; auto. apply tw_entry. destruct D as (? & ? & ->). discriminate.
Qed.
Lemma tw_writable q : plain_path q -> is_file_at x q \/ free_at x q -> writable t (mem_uri q) q.
Proof.
  intros G [F|(E & i & n & -> & D)].
  - apply content_file in F as [d F]. apply tw_file in F as (mt & mo & F). apply wr_file; [|now exists d, mt, mo].
    exists q. split; [now apply mem_addr, plain_good|]. apply tw_entry. congruence.
  - apply (tw_dir i) in D. apply wr_free, (pl_free _ _ i n i); auto; [now apply mem_addr, plain_good| |now apply tw_none].
    apply tw_entry. destruct D as (? & ? & ->). discriminate.
Qed.
Lemma tw_gap j b : is_dir_at x j -> (forall n b', b = n :: b' -> pget (j ++ [n]) (p_tree x) = None) -> gap t (j ++ b) j b.
Proof.
  intros D H. apply (tw_dir j) in D. exists j. split; auto. split; [apply tw_entry; destruct D as (? & ? & ->); discriminate|]. split; auto.
  intros n b' E. apply tw_none. eauto.
Qed.
End Mirror.

(** The file name of the source is no problem in the destination. *)
Lemma plain_join x i n q q' : plain_path (i ++ [n]) -> plain_path q -> plain_path q' -> goes_to x n q q' -> sound x ->
  forall i' n', i ++ [n] = i' ++ [n'] -> plain_path (q ++ [n']).
Proof.
  intros Gp Gq Gq' H So i' n' E. apply snoc_inj in E as [<- <-]. destruct H as [[_ ->]|[D ->]]; auto.
  destruct q as [|c q]; [exfalso; apply D; apply (so_root x So)|]. split.
  - apply Forall_app. split; [apply Gq|]. constructor; [|constructor]. destruct Gp as [Gp _]. apply Forall_app in Gp as [_ Gp]. now inversion Gp.
  - intros c' cs' Ec r. cbn in Ec. injection Ec as <- _. apply (pp_first _ Gq c q eq_refl).
Qed.
