(** walk() as a loop over a list of directories, for any backend. *)
From Verif Require Import Str Exc Utf8 UriParse BaseUri StrFacts Mem SpecMem Generic SpecGen.
From Verif Require Import UriFacts2 UriFacts3 GenFacts1 GenFacts4 GenFacts5.
From Coq Require Import Sorted.

(** [J L s]: state [s] may occur after the directories [L] have been dealt with; [mk] writes the URI of a path. *)
Section Walk.
Context {St : Type}.
Variable B : backend St.
Variable mk : list str -> uri.
Variable J : list (list str) -> St -> Prop.
Variable cs : list str.
Variable follow : bool.
Variable ok : list str -> Prop.
Variable kids : list str -> list str.
Variables isd isl : list str -> bool.
Variable keep : list str -> list str.
Local Notation ds := (ds kids isd).
Local Notation fs := (fs kids isd).
Local Notation enter := (enter follow isl keep).
Local Notation roots := (roots follow isl keep).
Local Notation fits := (fits follow isl keep).

Hypothesis Hnames : forall L s r, J L s -> ok r -> b_listdir B (mk (cs ++ r)) s = (Ok (kids r), s) /\ sort_strs (kids r) = kids r.
Hypothesis Hdiv : forall r n, ok r -> In n (kids r) -> u_div (mk (cs ++ r)) n = Ok (mk ((cs ++ r) ++ [n])).
Hypothesis Hdir : forall L s r n, J L s -> ok r -> In n (kids r) -> b_isdir B (mk ((cs ++ r) ++ [n])) s = (Ok (isd (r ++ [n])), s).
Hypothesis Hlink : forall L s r n, J L s -> ok r -> In n (kids r) -> u_islink B (mk ((cs ++ r) ++ [n])) s = (Ok (isl (r ++ [n])), s).
Hypothesis Hok : forall r n, ok r -> In n (enter r) -> ok (r ++ [n]).
Hypothesis Hkeep : forall r n, ok r -> In n (keep r) -> In n (kids r).

Lemma kinds_eq L s r : J L s -> ok r -> kinds B (mk (cs ++ r)) (kids r) s = (Ok (ds r, fs r), s).
Proof.
  intros Hs Hr. unfold GenFacts4.ds, GenFacts4.fs.
  assert (X : forall l, incl l (kids r) -> kinds B (mk (cs ++ r)) l s = (Ok (filter (fun n => isd (r ++ [n])) l, filter (fun n => negb (isd (r ++ [n]))) l), s)).
  { induction l as [|n l IH]; intros Hl; [reflexivity|]. assert (Hn : In n (kids r)) by (apply Hl; now left).
    cbn [kinds]. erewrite bind_ok by (apply lift_ok, Hdiv; auto). erewrite bind_ok by (apply (Hdir L); auto).
    erewrite bind_ok by (apply IH; intros m Hm; apply Hl; now right). cbn [filter fst snd]. now destruct (isd (r ++ [n])). }
  apply X, incl_refl.
Qed.

Section Body.
Context {Acc : Type}.
Variable td : bool.
Variable body : Acc -> uri -> list str -> list str -> M St (Acc * list str).
Variable rs : list (list str).
Hypothesis Hbody : forall L r R s a, rs = L ++ r :: R -> J L s -> ok r ->
  match body a (mk (cs ++ r)) (ds r) (fs r) s with
  | (Ok ad, s') => J (L ++ [r]) s' /\ (td = true -> snd ad = keep r)
  | (Raise _, _) => True
  end.
Hypothesis Hbu : td = false -> forall r, keep r = ds r.

Definition step (a : Acc) (r : list str) : M St Acc :=
  let! ad <- body a (mk (cs ++ r)) (ds r) (fs r); ret (fst ad).
Lemma step_keeps a L r R s : rs = L ++ r :: R -> ok r -> J L s ->
  match step a r s with (Ok _, s') => J (L ++ [r]) s' | _ => True end.
Proof.
  intros E Hr Hs. unfold step, bind. specialize (Hbody L r R s a E Hs Hr). destruct (body _ _ _ _ _) as [[ad|e] s']; auto.
  cbn. apply Hbody.
Qed.
Lemma fold_keeps l : forall a L R s, rs = L ++ l ++ R -> Forall ok l -> J L s ->
  match foldM step a l s with (Ok _, s') => J (L ++ l) s' | _ => True end.
Proof.
  induction l as [|r l IH]; intros a L R s E F Hs; [rewrite app_nil_r; exact Hs|]. inversion F; subst x l0. rewrite foldM_cons. unfold bind.
  pose proof (step_keeps a L r (l ++ R) s E H1 Hs) as K. destruct (step a r s) as [[a'|e] s']; auto.
  specialize (IH a' (L ++ [r]) R s'). rewrite <- app_assoc in IH. cbn [app] in IH. specialize (IH E H2 K).
  rewrite <- app_assoc in IH. exact IH.
Qed.
Lemma roots_ok : forall fuel r, ok r -> Forall ok (roots td fuel r).
Proof.
  induction fuel as [|f IH]; intros r Hr; [constructor|]. cbn [GenFacts4.roots].
  assert (Bl : Forall ok (concat (map (fun n => roots td f (r ++ [n])) (enter r)))).
  { apply Forall_concat, Forall_map, Forall_forall. intros n Hn. apply IH. now apply Hok. }
  destruct td; [now constructor|]. apply Forall_app. auto.
Qed.

Definition desc (f : nat) (r : list str) (a : Acc) (name : str) : M St Acc :=
  let! path <- lift (u_div (mk (cs ++ r)) name);
  let! l <- u_islink B path;
  if negb l || follow then walk_gen B f td follow body a path else ret a.

Lemma fuse : forall fuel r a s L R, rs = L ++ roots td fuel r ++ R -> J L s -> ok r -> fits fuel r ->
  walk_gen B fuel td follow body a (mk (cs ++ r)) s = foldM step a (roots td fuel r) s.
Proof.
  induction fuel as [|f IH]; intros r a s L R Ers Hs Hr Hf; [easy|].
  cbn [walk_gen]. destruct (Hnames L s r Hs Hr) as [En Sn].
  erewrite bind_ok by exact En. rewrite Sn. erewrite bind_ok by (now apply (kinds_eq L)). cbn [fst snd].
  assert (D : forall l, (forall n, In n l -> In n (keep r)) -> forall a s L R,
     rs = L ++ concat (map (fun n => roots td f (r ++ [n])) (filter (fun n => negb (isl (r ++ [n])) || follow) l)) ++ R -> J L s ->
     foldM (desc f r) a l s
     = foldM step a (concat (map (fun n => roots td f (r ++ [n])) (filter (fun n => negb (isl (r ++ [n])) || follow) l))) s).
  { induction l as [|n l IHl]; intros Hl a0 s0 L0 R0 E0 H0; [reflexivity|]. rewrite foldM_cons.
    assert (Kn : In n (kids r)) by (apply Hkeep; auto; apply Hl; now left).
    assert (En' : desc f r a0 n s0 = (if negb (isl (r ++ [n])) || follow then walk_gen B f td follow body a0 (mk (cs ++ (r ++ [n]))) else ret a0) s0).
    { unfold desc. rewrite app_assoc. erewrite bind_ok by (apply lift_ok, Hdiv; auto).
      erewrite bind_ok by (apply (Hlink L0); auto). reflexivity. }
    cbn [filter] in E0 |- *. destruct (negb (isl (r ++ [n])) || follow) eqn:Ef.
    - cbn [map concat] in E0 |- *. rewrite foldM_app. unfold bind. rewrite En'.
      assert (Ie : In n (enter r)) by (apply filter_In; split; auto; apply Hl; now left).
      rewrite <- app_assoc in E0. rewrite (IH _ _ _ L0 _ E0); auto.
      pose proof (fold_keeps (roots td f (r ++ [n])) a0 L0 _ s0 E0 (roots_ok f _ (Hok _ _ Hr Ie)) H0) as K.
      destruct (foldM step a0 _ s0) as [[a1|e] s1]; auto.
      apply (IHl (fun m Hm => Hl m (or_intror Hm)) a1 s1 (L0 ++ roots td f (r ++ [n])) R0); auto.
      rewrite <- app_assoc. exact E0.
    - unfold bind. rewrite En'. unfold ret. apply (IHl (fun m Hm => Hl m (or_intror Hm)) a0 s0 L0 R0); auto. }
  fold (desc f r). cbn [GenFacts4.roots] in Ers.
  destruct td eqn:Etd.
  - (* top-down *)
    cbn [GenFacts4.roots]. rewrite foldM_cons. unfold step at 1. unfold bind. cbn [app] in Ers.
    pose proof (Hbody L r _ s a Ers Hs Hr) as Hb. destruct (body a (mk (cs ++ r)) (ds r) (fs r) s) as [[ad|e] s'] eqn:Eb; auto.
    destruct Hb as [H' K]. unfold ret at 1 2. rewrite K by auto.
    unfold GenFacts4.enter. rewrite <- (D (keep r)) with (L := L ++ [r]) (R := R); auto.
    + now destruct (foldM (desc f r) (fst ad) (keep r) s') as [[a1|e1] s1].
    + rewrite <- app_assoc. exact Ers.
  - cbn [GenFacts4.roots]. rewrite foldM_app. erewrite bind_ok by reflexivity. cbn [fst snd].
    rewrite <- (Hbu eq_refl). fold (desc f r). unfold bind. rewrite <- app_assoc in Ers.
    unfold GenFacts4.enter. rewrite <- (D (keep r)) with (L := L) (R := [r] ++ R); auto.
    destruct (foldM (desc f r) a (keep r) s) as [[a1|e1] s1]; auto.
    rewrite (Hbu eq_refl). rewrite foldM_cons. unfold step, bind.
    now destruct (body a1 (mk (cs ++ r)) (ds r) (fs r) s1) as [[ad|e] s'].
Qed.
End Body.
End Walk.
