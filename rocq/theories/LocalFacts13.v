(** Deciding whether a program fits, for the examples. *)
From Verif Require Import Str Exc Utf8 UriParse BaseUri StrFacts UriFacts SpecUri UriFacts2 UriFacts3.
From Verif Require Import Mem SpecMem MemFacts MemFacts2 MemFacts3 MemFacts4 MemFacts5 MemFacts7 MemFacts9 MemFacts10 MemUri.
From Verif Require Import Generic SpecGen GenFacts1 GenFacts2 GenFacts3.
From Verif Require Import Misc Posix Local SpecLocal Program LocalFacts1 LocalFacts2 LocalFacts3 LocalFacts6 LocalFacts7 LocalFacts9 LocalFacts11.

Definition name_b (n : str) : bool :=
  negb (str_eqb n []) && forallb (fun c => negb (existsb (N.eqb c) (cSlash :: meta))) n && negb (contains (lit "((") n) &&
  negb (existsb (N.eqb 0) n) && negb (str_eqb n (lit ".")) && negb (str_eqb n (lit "..")) && negb (prefixb [cColon] n).
Definition plain_b (cs : list str) : bool :=
  forallb name_b cs && match cs with [] => true | c :: _ => negb (prefixb [cDot] c) end.
Lemma name_b_ok n : name_b n = true -> plain_name n.
Proof.
  unfold name_b. rewrite !andb_true_iff, !negb_true_iff. intros ((((((H1 & H2) & H3) & H4) & H5) & H6) & H7). split.
  - split.
    + intros ->. now rewrite str_eqb_refl in H1.
    + intros c I J. rewrite forallb_forall in H2. apply H2 in J. apply negb_true_iff in J.
      assert (X : existsb (N.eqb c) (cSlash :: meta) = true) by (apply existsb_exists; exists c; split; auto; apply N.eqb_refl). congruence.
    + now apply contains_no.
  - intros I. assert (X : existsb (N.eqb 0) n = true) by (apply existsb_exists; exists 0%N; split; auto). congruence.
  - intros ->. now rewrite str_eqb_refl in H5.
  - intros ->. now rewrite str_eqb_refl in H6.
  - intros r ->. assert (X : prefixb [cColon] (cColon :: r) = true) by (apply prefixb_spec; now exists r). congruence.
Qed.
Lemma plain_b_ok cs : plain_b cs = true -> plain_path cs.
Proof.
  unfold plain_b. rewrite andb_true_iff. intros [H1 H2]. split.
  - apply Forall_forall. intros n I. rewrite forallb_forall in H1. now apply name_b_ok, H1.
  - intros c cs' -> r ->. apply negb_true_iff in H2.
    assert (X : prefixb [cDot] (cDot :: r) = true) by (apply prefixb_spec; now exists r). congruence.
Qed.
Definition unpadded_b (n : str) : bool := match n with [] => true | c :: _ => negb (is_space c) && negb (is_space (last n 0%N)) end.
Lemma unpadded_b_ok n : unpadded_b n = true -> unpadded n.
Proof.
  intros H c r [ -> | -> ]; cbn [unpadded_b] in H.
  - apply andb_true_iff in H as [H _]. now apply negb_true_iff.
  - assert (X : unpadded_b (r ++ [c]) = true -> negb (is_space (last (r ++ [c]) 0%N)) = true) by (destruct r; cbn [app unpadded_b]; intros Y; apply andb_true_iff in Y; tauto).
    apply X in H. rewrite last_snoc in H. now apply negb_true_iff.
Qed.
Definition fits_b (c : call) (x : pst) : bool :=
  match c with
  | CExists cs | CIsfile cs | CIsdir cs | CIslink cs | CListdir cs | CMakedirs _ cs | CWalk _ _ _ cs | CGlob cs _ | CRead cs => plain_b cs
  | CMkdir cs | CRemove _ _ cs | CWrite cs _ => plain_b cs && match cs with [] => false | _ => true end
  | CAppend cs _ => plain_b cs && match content x cs with Some (Some (_ :: _)) => true | _ => false end
  | CCopy _ recursive _ _ ca cb =>
      plain_b ca && plain_b cb && match ca with [] => negb recursive | _ => plain_b (cb ++ [last ca []]) end &&
      (negb recursive || (forallb (fun qe => forallb unpadded_b (fst qe)) (p_tree x) && forallb unpadded_b cb))
  end.
Lemma fits_b_ok s x c : twin s x -> fits_b c x = true -> fits c (view s).
Proof.
  intros T. destruct c; cbn [fits_b fits]; rewrite ?andb_true_iff; try (now apply plain_b_ok).
  - intros [H1 H2]. split; [now apply plain_b_ok|]. now destruct cs.
  - intros [H1 H2]. split; [now apply plain_b_ok|]. now destruct cs.
  - intros [H1 H2]. split; [now apply plain_b_ok|]. now destruct cs.
  - intros [H1 H2]. split; [now apply plain_b_ok|]. destruct (content x cs) as [[[|b d]|]|] eqn:E; try discriminate.
    apply (tw_file s x T) in E as (mt & mo & E). exists (b :: d), mt, mo. split; [exact E|discriminate].
  - intros [[[H1 H2] H3] H4]. split; [now apply plain_b_ok|]. split; [now apply plain_b_ok|]. split.
    + intros i n ->. apply plain_b_ok. rewrite last_snoc in H3. now destruct (i ++ [n]) eqn:E; [now destruct i|].
    + intros ->. cbn [negb orb] in H4. split; [now destruct ca|]. apply andb_true_iff in H4 as [H4 H5]. rewrite forallb_forall in H4. split.
      * intros q Hq. rewrite (tw_none s x T) in Hq. destruct (pget q (p_tree x)) as [e|] eqn:E; [|easy].
        apply pget_in in E; [|apply T]. apply H4 in E. cbn [fst] in E. apply Forall_forall. intros n I. rewrite forallb_forall in E. now apply unpadded_b_ok, E.
      * apply Forall_forall. intros n I. rewrite forallb_forall in H5. now apply unpadded_b_ok, H5.
Qed.
Fixpoint all_fit_b (p : list call) (x : pst) : bool :=
  match p with
  | [] => true
  | c :: p' => fits_b c x && all_fit_b p' (snd (loc_call c x))
  end.
Lemma all_fit_ok p : forall s x, twin s x -> all_fit_b p x = true -> ~ In (Raise AttributeError) (fst (mem_run p s)) -> all_fit p s.
Proof.
  induction p as [|c p IH]; intros s x T H N; [exact I|]. cbn [all_fit_b all_fit] in *. apply andb_true_iff in H as [H1 H2].
  pose proof (fits_b_ok s x c T H1) as F. split; auto. pose proof (call_sim s x T c F) as S. unfold sim, same in S.
  unfold mem_run in *. cbn [run] in N. fold mem_call in N. destruct (mem_call c s) as [r s']. cbn [snd].
  assert (Nr : r <> Raise AttributeError /\ ~ In (Raise AttributeError) (fst (run mem_backend (lit "memory://") mem_read mem_write mem_append p s'))).
  { destruct (run mem_backend (lit "memory://") mem_read mem_write mem_append p s') as [l s'']. cbn [fst In] in *. tauto. }
  destruct Nr as [Nr Np].
  assert (E : exists r' x', loc_call c x = (r', x') /\ twin s' x').
  { destruct r as [v|e]; [destruct S as (v' & x' & E & T' & _); eauto|]. destruct e; try (destruct S as (x' & E & T'); eauto). tauto. }
  destruct E as (r' & x' & E & T'). rewrite E in H2. now apply (IH s' x').
Qed.
