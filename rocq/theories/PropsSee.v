(** Property C151: everything in the tree can be seen.  C89 says that a program sees nothing but the tree, the time and
    what the callbacks do; here: two states that no program tells apart have the same tree and the same time. *)
From Verif Require Import Str Exc Utf8 UriParse BaseUri StrFacts SpecUri Mem SpecMem MemOps Generic SpecGen Fnmatch UriOps Prog.
From Verif Require Import MemFacts MemFacts2 MemFacts9 MemUri GenFacts1 GenFacts9 GenFacts10 PropsMem PropsGeneric PropsExact SeeFacts.
Local Open Scope string_scope.
Local Open Scope list_scope.

(** A program of six calls: it makes the link /l to the root, and asks for the attributes, the target and the content
    of /l/p, and for the attributes of /l itself. *)
Definition peek (l : str) (p : list str) : prog (list (res answer)) :=
  Call (CUri 0 (USymlink (mem_uri []) (mem_uri [l]))) (fun _ =>
  Call (CUri 0 (UInfo (mem_uri (l :: p)) (match p with [] => true | _ => false end))) (fun r1 =>
  Call (CUri 0 (UReadlink (mem_uri (l :: p)))) (fun r2 =>
  Call (CUri 0 (UInfo (mem_uri [l]) false)) (fun r3 =>
  Call (COpen (mem_uri (l :: p)) (Some (lit "rb"))) (fun r4 =>
  Call (CRead 0 (-1)) (fun r5 => Done [r1; r2; r3; r4; r5])))))).
(** What it gets for an entry *)
Definition told (t : Z) (e : option entry) (r : list (res answer)) : Prop :=
  exists r1 r2 r4 r5, r = [r1; r2; Ok (AInfo (mkBunch t 0 8)); r4; r5] /\
  match e with
  | None => r1 = Raise (OSError ENOENT)
  | Some (EFile data mt mo) => r1 = Ok (AInfo (mkBunch mt mo (N.of_nat (length data)))) /\ r2 = Raise (OSError EINVAL) /\ r4 = Ok AUnit /\ r5 = Ok (AVal (VBytes data))
  | Some (EDir mt mo) => r1 = Ok (AInfo (mkBunch mt mo 0)) /\ r2 = Raise (OSError EINVAL) /\ r4 = Raise AttributeError
  | Some (ELink tg mt mo) => r1 = Ok (AInfo (mkBunch mt mo 8)) /\ r2 = Ok (ALink tg)
  end.
Lemma told_same t t' e e' r : told t e r -> told t' e' r -> e = e' /\ t = t'.
Proof.
  intros (r1 & r2 & r4 & r5 & -> & H) (q1 & q2 & q4 & q5 & E & H'). injection E as <- <- <- <- <-.
  split; [|reflexivity]. destruct e as [[]|], e' as [[]|]; try reflexivity; intuition congruence.
Qed.
Lemma on_ok o σ a s' : ask 0 o (fst σ) = (a, s') -> do_call (CUri 0 o) σ = (a, (s', snd σ)).
Proof. intros E. cbn. unfold on_state. now rewrite E. Qed.
Lemma ask_of {A} (f : A -> answer) (m : M mst A) s r s' : m s = (r, s') -> answered f m s = (rmap f r, s').
Proof. intros E. unfold answered, bind. rewrite E. now destruct r. Qed.

Lemma readlink_pure u s : snd (do_call (CUri 0 (UReadlink u)) (s, [])) = (s, []).
Proof.
  assert (P : pure (answered ALink (hooked mem_backend "readlink" u (mem_readlink u)))).
  { apply pure_bind; [|intros ?; apply pure_ret]. apply pure_bind; [|intros ?; apply pure_readlink]. apply pure_hook. }
  specialize (P s). cbn [do_call]. unfold on_state. cbn [fst ask]. destruct (answered _ _ s) as [r s']. cbn in *. now subst.
Qed.
Section Peek.
Variables (s : mst) (l : str).
Hypotheses (W : wf s) (Si : silent s) (Ll : slashless l) (Lh : hd_error l = Some 65%N) (Lf : view s [l] = None).
Lemma peek_tells init n : is_edir (view s init) -> Forall slashless (init ++ [n]) -> n <> l -> told (m_now s) (view s (init ++ [n])) (fst (run (peek l (init ++ [n])) (s, []))).
Proof.
  intros D F N. destruct (link_made s l W Si Ll Lh Lf) as (s' & E & W' & Si' & N' & Pu).
  unfold peek. cbn [run fst snd]. rewrite (on_ok _ (s, []) (Ok AUnit) s') by (exact (ask_of (fun _ => AUnit) _ _ _ _ E)). cbn [run fst snd].
  replace (match init ++ [n] with [] => true | _ => false end) with false by now destruct init.
  rewrite (on_ok _ (s', []) _ s') by (exact (ask_of AInfo _ _ _ _ (see_info s l Ll Lh Lf s' W' Si' Pu init n D F N))). cbn [run fst snd].
  destruct (view s (init ++ [n])) as [e|] eqn:V.
  - rewrite (on_ok _ (s', []) _ s') by (exact (ask_of ALink _ _ _ _ (see_target s l Ll Lh Lf s' W' Si' Pu init n e D F N V))). cbn [run fst snd].
    rewrite (on_ok _ (s', []) _ s') by (exact (ask_of AInfo _ _ _ _ (see_link s l Ll Lh s' W' Si' Pu))). cbn [run do_call fst snd].
    destruct e as [data mt mo|mt mo|tg mt mo].
    + destruct (see_data s l Ll Lh Lf s' W' Si' Pu init n data mt mo F N D V) as (hd & s2 & s3 & O & R).
      rewrite O. cbn. unfold on_handle, on_state. cbn. rewrite (ask_of AVal _ _ _ _ R). cbn. eexists _, _, _, _. split; [reflexivity|]. repeat split.
    + rewrite (see_dir s l Ll Lh Lf s' W' Si' Pu (init ++ [n])); [|now exists mt, mo|exact F]. cbn. eexists _, _, _, _. split; [reflexivity|]. repeat split.
    + destruct (u_open _ _ s') as [[hd|x] s2]; cbn; [unfold on_handle, on_state; cbn; destruct (answered AVal _ s2)|]; cbn; eexists _, _, _, _; (split; [reflexivity|]); repeat split.
  - destruct (do_call (CUri 0 (UReadlink (mem_uri (l :: init ++ [n])))) (s', [])) as [r2 σ2] eqn:E2. cbn [run fst snd].
    pose proof (readlink_pure (mem_uri (l :: init ++ [n])) s') as Pr. rewrite E2 in Pr. cbn in Pr.
    subst σ2.
    rewrite (on_ok _ (s', []) _ s') by (exact (ask_of AInfo _ _ _ _ (see_link s l Ll Lh s' W' Si' Pu))). cbn [run fst snd].
    destruct (do_call (COpen (mem_uri (l :: init ++ [n])) _) (s', [])) as [r4 σ4]. cbn [run fst snd]. destruct (do_call (CRead 0 (-1)) σ4) as [r5 σ5]. cbn. eexists _, _, _, _. split; reflexivity.
Qed.
Lemma peek_root : exists r1 r2 r4 r5, fst (run (peek l []) (s, [])) = [r1; r2; Ok (AInfo (mkBunch (m_now s) 0 8)); r4; r5] /\
  r1 = match view s [] with Some e => Ok (AInfo (bunch_of e)) | None => Raise (OSError ENOENT) end.
Proof.
  destruct (link_made s l W Si Ll Lh Lf) as (s' & E & W' & Si' & N' & Pu).
  unfold peek. cbn [run fst snd]. rewrite (on_ok _ (s, []) (Ok AUnit) s') by (exact (ask_of (fun _ => AUnit) _ _ _ _ E)). cbn [run fst snd].
  rewrite (on_ok _ (s', []) _ s') by (exact (ask_of AInfo _ _ _ _ (see_root s l Ll Lh s' W' Si' Pu))). cbn [run fst snd].
  destruct (do_call (CUri 0 (UReadlink (mem_uri [l]))) (s', [])) as [r2 σ2] eqn:E2. cbn [run fst snd].
  pose proof (readlink_pure (mem_uri [l]) s') as Pr. rewrite E2 in Pr. cbn in Pr.
  subst σ2.
  rewrite (on_ok _ (s', []) _ s') by (exact (ask_of AInfo _ _ _ _ (see_link s l Ll Lh s' W' Si' Pu))). cbn [run fst snd].
  destruct (do_call (COpen (mem_uri [l]) _) (s', [])) as [r4 σ4]. cbn [run fst snd]. destruct (do_call (CRead 0 (-1)) σ4) as [r5 σ5]. cbn. eexists _, _, _, _. split; [reflexivity|].
  now destruct (view s []).
Qed.
End Peek.

Lemma none_there s l : ~ In l (names_in (m_heap s root_id)) -> view s [l] = None.
Proof.
  intros H. unfold view, tree_of. cbn. destruct (m_heap s root_id) as [|es mt mo|]; auto. destruct (dget l es) as [j|] eqn:G; [|reflexivity].
  exfalso. apply H. cbn. apply dget_In in G. now apply (in_map fst) in G.
Qed.

(** ** C151 *)
(** Two states that no program tells apart have the same tree and the same time. *)
Theorem C151_seen s1 s2 : reachable s1 -> reachable s2 -> silent s1 -> silent s2 ->
  (forall p : prog (list (res answer)), fst (run p (s1, [])) = fst (run p (s2, []))) -> same_tree (view s1) (view s2) /\ m_now s1 = m_now s2.
Proof.
  intros R1 R2 S1 S2 H. pose proof (reachable_wf _ R1) as W1. pose proof (reachable_wf _ R2) as W2.
  assert (Fresh : forall n, exists l, slashless l /\ hd_error l = Some 65%N /\ view s1 [l] = None /\ view s2 [l] = None /\ n <> l).
  { intros n. destruct (new_name (n :: names_in (m_heap s1 root_id) ++ names_in (m_heap s2 root_id))) as (l & Lh & Ll & Ln). exists l.
    split; [exact Ll|]. split; [exact Lh|]. split; [apply none_there; intros K; apply Ln; right; apply in_or_app; auto|].
    split; [apply none_there; intros K; apply Ln; right; apply in_or_app; auto|]. intros ->. apply Ln. now left. }
  assert (Root : view s2 [] = view s1 [] /\ m_now s1 = m_now s2).
  { destruct (Fresh []) as (l & Ll & Lh & F1 & F2 & _). destruct (peek_root s1 l W1 S1 Ll Lh F1) as (a1 & a2 & a4 & a5 & E1 & A1).
    destruct (peek_root s2 l W2 S2 Ll Lh F2) as (b1 & b2 & b4 & b5 & E2 & B1). rewrite H, E2 in E1.
    destruct (root_edir s1 W1) as (mt & mo & D1), (root_edir s2 W2) as (mt' & mo' & D2). rewrite D1 in *. rewrite D2 in *. subst a1 b1. cbn in E1. injection E1 as -> -> _ -> _ _. now split. }
  split; [|apply Root]. intros p. induction p as [|n init IH] using rev_ind; [apply Root|].
  assert (Out : view s1 (init ++ [n]) = None -> view s2 (init ++ [n]) = None -> view s2 (init ++ [n]) = view s1 (init ++ [n])) by congruence.
  assert (Dec : is_edir (view s1 init) \/ ~ is_edir (view s1 init)).
  { destruct (view s1 init) as [[| |]|]; try (right; intros (? & ? & X); discriminate X). left. now eexists _, _. }
  destruct Dec as [D|D].
  2:{ apply Out.
    - destruct (view s1 (init ++ [n])) eqn:V; [|reflexivity]. destruct D. apply (tree_parent (m_heap s1) init n). unfold view in V. rewrite V. discriminate.
    - destruct (view s2 (init ++ [n])) eqn:V; [|reflexivity]. destruct D. rewrite <- IH. apply (tree_parent (m_heap s2) init n). unfold view in V. rewrite V. discriminate. }
  assert (Sl : Forall slashless (init ++ [n]) \/ ~ Forall slashless (init ++ [n])).
  { destruct (Forall_dec (fun c => ~ In cSlash c)) with (l := init ++ [n]) as [X|X]; [|now left|now right].
    intros c. destruct (in_dec N.eq_dec cSlash c); [right; tauto|now left]. }
  destruct Sl as [Sl|Sl].
  2:{ apply Out.
    - destruct (view s1 (init ++ [n])) eqn:V; [|reflexivity]. destruct Sl. apply (reachable_slashless s1 R1). rewrite V. discriminate.
    - destruct (view s2 (init ++ [n])) eqn:V; [|reflexivity]. destruct Sl. apply (reachable_slashless s2 R2). rewrite V. discriminate. }
  destruct (Fresh n) as (l & Ll & Lh & F1 & F2 & N). pose proof (peek_tells s1 l W1 S1 Ll Lh F1 init n D Sl N) as T1.
  rewrite <- IH in D. pose proof (peek_tells s2 l W2 S2 Ll Lh F2 init n D Sl N) as T2. rewrite H in T1. symmetry. now apply (told_same _ _ _ _ _ T1 T2).
Qed.

(** With C89: when the callbacks are the same and raise nothing, the tree and the time are exactly what can be seen. *)
Theorem C151_exactly s1 s2 : reachable s1 -> reachable s2 -> silent s1 -> silent s2 -> (forall q, callback_at s1 q = callback_at s2 q) ->
  ((forall X (p : prog X), fst (run p (s1, [])) = fst (run p (s2, []))) <-> (same_tree (view s1) (view s2) /\ m_now s1 = m_now s2)).
Proof.
  intros R1 R2 S1 S2 C. split.
  - intros H. apply C151_seen; auto.
  - intros [T N] X p. now apply C89_no_program_tells.
Qed.
(** An entry of the root with an empty name: made through a link to the root that is gone again.  No path without a link
    leads to it, and the two trees differ nowhere else. *)
Definition hidden : mst := run_ops [OpMkdir (U ["b"]); OpSymlink (U []) (U ["l"]); OpMkdir (mem_uri [lit "l"; []]); OpRemovefile (U ["l"])] (init_mem 5 0).
Definition plainly : mst := run_ops [OpMkdir (U ["b"])] (init_mem 5 0).
Example C151_witness : reachable hidden /\ reachable plainly /\ silent hidden /\ silent plainly /\
  view hidden [[]] = Some (EDir 5 0) /\ view plainly [[]] = None /\ m_now hidden = m_now plainly /\
  (forall q, callback_at hidden q = callback_at plainly q) /\
  nth_error (fst (run (peek (lit "A") [[]]) (hidden, []))) 0 = Some (Ok (AInfo (mkBunch 5 0 0))) /\
  nth_error (fst (run (peek (lit "A") [[]]) (plainly, []))) 0 = Some (Raise (OSError ENOENT)).
Proof.
  split; [now eexists _, _, _|]. split; [now eexists _, _, _|]. split; [intros p cb u n []|]. split; [intros p cb u n []|].
  split; [vm_compute; reflexivity|]. split; [vm_compute; reflexivity|]. split; [vm_compute; reflexivity|]. split; [intros q; vm_compute; reflexivity|].
  split; vm_compute; reflexivity.
Qed.
(** The other direction: the two histories of C89 meet the hypotheses, and so does what they have in common. *)
Example C151_exactly_witness : reachable hist1 /\ reachable hist2 /\ silent hist1 /\ silent hist2 /\ (forall q, callback_at hist1 q = callback_at hist2 q) /\
  (forall X (p : prog X), fst (run p (hist1, [])) = fst (run p (hist2, []))) /\
  view hist1 (P ["a"; "f"]) = Some (EFile (lit "xy") 5 0) /\
  fst (run (peek (lit "A") (P ["a"; "f"])) (hist1, [])) =
    [Ok (AInfo (mkBunch 5 0 2)); Raise (OSError EINVAL); Ok (AInfo (mkBunch 5 0 8)); Ok AUnit; Ok (AVal (VBytes (lit "xy")))].
Proof.
  destruct C89_witness as (R1 & R2 & T & N & C & _). assert (S1 : silent hist1) by (intros p cb u n []). assert (S2 : silent hist2) by (intros p cb u n []).
  split; [exact R1|]. split; [exact R2|]. split; [exact S1|]. split; [exact S2|]. split; [exact C|]. split; [apply C151_exactly; auto|]. split; vm_compute; reflexivity.
Qed.
Print Assumptions C151_seen.
Print Assumptions C151_exactly.
