(** remove() on the memory backend. *)
From Verif Require Import Str Exc Utf8 UriParse BaseUri StrFacts Utf8Facts SpecUri Mem SpecMem MemOps Generic SpecGen.
From Verif Require Import UriFacts2 UriFacts3 MemFacts MemFacts2 MemFacts3 MemFacts4 MemFacts5 MemFacts6 MemFacts7 MemFacts8 MemFacts9 MemUri MemFacts10 MemFacts11 GenFacts1.
From Coq Require Import Sorted.

Local Notation B := mem_backend.

Lemma mem_str cs : exists x, u_str (mem_uri cs) = Ok x.
Proof. eexists. reflexivity. Qed.

Section S.
Variable s : mst.
Variable W : wf s.
Variable Q : silent s.
Local Notation t := (view s).
Variables (init : list str) (n : str).
Local Notation cs := (init ++ [n]).
Variable G : good_path cs.
Variable F : fresh_last t init n.

Lemma snoc_regular : regular t (mem_uri cs) cs.
Proof. apply mem_regular; auto. intros i m E. apply snoc_inj in E as [<- <-]. exact F. Qed.

Lemma exists_found q : leads t cs (Found q) -> mem_exists (mem_uri cs) s = (Ok true, s).
Proof.
  intros L. rewrite (exists_spec s W _ cs _ (mem_addr _ G) L). unfold quiet.
  destruct (leads_phys (m_heap s) (m_next s) W cs q L) as (i & P & _). now rewrite P.
Qed.
Lemma isfile_found q : leads t cs (Found q) -> is_efile (t q) -> mem_isfile (mem_uri cs) s = (Ok true, s).
Proof.
  intros L (dd & mt & mo & D). rewrite (isfile_spec s W _ cs _ (mem_addr _ G) L). unfold quiet.
  destruct (efile_node s q dd mt mo D) as (i & f & P & E & _). rewrite P. now rewrite E.
Qed.

Section Dir.
Variable d : list str.
Hypothesis L : leads t init (Found d).
Hypothesis D : is_edir (t d).
Local Notation p := (d ++ [n]).

Lemma taken_place : t p <> None -> place t (mem_uri cs) (Taken p).
Proof. intros N. eapply pl_taken; eauto. now apply mem_addr. Qed.

Lemma run_islink : mem_islink (mem_uri cs) s = (Ok (entry_is_link (t p)), s).
Proof. apply (islink_found s W (mem_uri cs) init n d); auto. now apply mem_addr. Qed.

Lemma run_removefile : t p <> None ->
  exists s', mem_removefile (mem_uri cs) s = (Ok tt, s') /\ wf s' /\ cut_at t (view s') p /\ same_rest s s'.
Proof.
  intros N. destruct (removefile_taken s W (mem_uri cs) cs p) as (s' & E & W' & C & R & _); eauto using snoc_regular, taken_place.
Qed.

Lemma leads_self : is_efile (t p) \/ is_edir (t p) -> leads t cs (Found p).
Proof. intros H. now apply (leads_snoc_plain (m_heap s)). Qed.

Lemma run_removedir_empty : is_edir (t p) -> (forall m, t (p ++ [m]) = None) ->
  exists s', mem_removedir (mem_uri cs) s = (Ok tt, s') /\ wf s' /\ cut_at t (view s') p /\ same_rest s s'.
Proof.
  intros Dp N. assert (Np : t p <> None) by (destruct Dp as (? & ? & ->); discriminate).
  destruct (removedir_empty s W (mem_uri cs) cs p p) as (s' & E & W' & C & R & _); eauto using snoc_regular, taken_place.
  apply leads_self. now right.
Qed.

(** remove() of a link or file. *)
Lemma remove_leaf fuel rc : is_efile (t p) \/ is_elink (t p) ->
  exists s', u_remove B fuel rc (mem_uri cs) s = (Ok tt, s') /\ wf s' /\ cut_at t (view s') p /\ same_rest s s'.
Proof.
  intros H. unfold u_remove. rewrite run_hooked by auto.
  assert (N : t p <> None) by (destruct H as [(? & ? & ? & ->)|(? & ? & ? & ->)]; discriminate).
  destruct (run_removefile N) as (s' & E & X). exists s'. split; [|exact X].
  erewrite bind_ok by exact run_islink. destruct H as [Hf|(tg & mt & mo & ->)]; [|exact E].
  assert (Lp : leads t cs (Found p)) by (apply leads_self; auto).
  destruct Hf as (dd & mt & mo & Ef). rewrite Ef. cbn [entry_is_link].
  assert (Ie : is_efile (t p)) by (rewrite Ef; now repeat eexists).
  erewrite bind_ok by (now apply exists_found with (q := p)). cbn [negb].
  erewrite bind_ok; [|apply (isdir_file s W _ p); auto; intros (a & b & Hd); congruence].
  cbn match.   erewrite bind_ok by (now apply isfile_found with (q := p)). exact E.
Qed.
Lemma remove_dir_prefix fuel rc : is_edir (t p) ->
  u_remove B fuel rc (mem_uri cs) s = (if rc then remove_dir_recursively B fuel (mem_uri cs) else mem_removedir (mem_uri cs)) s.
Proof.
  intros Dp. unfold u_remove. rewrite run_hooked by auto.
  assert (Lp : leads t cs (Found p)) by (apply leads_self; auto).
  erewrite bind_ok by exact run_islink. destruct Dp as (mt & mo & Ed). rewrite Ed. cbn [entry_is_link].
  erewrite bind_ok by (now apply exists_found with (q := p)). cbn [negb].
  erewrite bind_ok; [|apply (isdir_found s W _ p); auto; rewrite Ed; now repeat eexists]. reflexivity.
Qed.
Lemma remove_empty fuel : is_edir (t p) -> (forall m, t (p ++ [m]) = None) ->
  exists s', u_remove B fuel false (mem_uri cs) s = (Ok tt, s') /\ wf s' /\ cut_at t (view s') p /\ same_rest s s'.
Proof. intros Dp N. rewrite remove_dir_prefix by auto. now apply run_removedir_empty. Qed.
Lemma remove_full fuel m : is_edir (t p) -> t (p ++ [m]) <> None ->
  u_remove B fuel false (mem_uri cs) s = (Raise (OSError ENOTEMPTY), s).
Proof.
  intros Dp N. rewrite remove_dir_prefix by auto.
  assert (Np : t p <> None) by (destruct Dp as (? & ? & ->); discriminate).
  apply (removedir_full s W (mem_uri cs) cs p p m); auto using snoc_regular, taken_place. apply leads_self. now right.
Qed.
Lemma remove_absent fuel rc : t p = None -> u_remove B fuel rc (mem_uri cs) s = (Raise FileDoesNotExistError, s).
Proof.
  intros N. unfold u_remove. rewrite run_hooked by auto. erewrite bind_ok by exact run_islink. rewrite N. cbn [entry_is_link].
  assert (Lp : leads t cs Missing) by (eapply rs_app; eauto; now constructor).
  erewrite bind_ok; [|rewrite exists_spec with (cs := cs) (o := Missing); auto using mem_addr; reflexivity]. cbn [negb].
  destruct (mem_str cs) as [x Ex]. erewrite bind_ok by (now apply lift_ok, Ex). reflexivity.
Qed.
End Dir.

(** Nothing there, not even the directory. *)
Lemma remove_missing fuel rc : leads t cs Missing -> (forall p, ~ place t (mem_uri cs) (Taken p)) ->
  u_remove B fuel rc (mem_uri cs) s = (Raise FileDoesNotExistError, s).
Proof.
  intros Lm Np. destruct (leads_total (m_heap s) init) as [o Lo].
  destruct (outcome_cases o) as [[d ->]|Nf].
  - destruct (edir_dec (t d)) as [D|D].
    + apply remove_absent with (d := d); auto. destruct (t (d ++ [n])) eqn:E; auto.
      exfalso. apply (Np (d ++ [n])). apply taken_place; auto. congruence.
    + exfalso. assert (X : leads t cs NotDir) by (eapply rs_app; eauto; now constructor).
      pose proof (leads_det (m_heap s) (m_next s) W _ _ _ Lm X). discriminate.
  - unfold u_remove. rewrite run_hooked by auto.
    erewrite bind_ok; [|rewrite islink_fail with (o := o) (o' := Missing) (init := init) (n := n); auto using mem_addr; reflexivity].
    cbn match.     erewrite bind_ok; [|rewrite exists_spec with (cs := cs) (o := Missing); auto using mem_addr; reflexivity]. cbn [negb].
    destruct (mem_str cs) as [x Ex]. erewrite bind_ok by (now apply lift_ok, Ex). reflexivity.
Qed.
End S.
