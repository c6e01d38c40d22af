(** A part of a memory file system, and the file system without the rest: lookups *)
From Coq Require Import Lia.
From Verif Require Import Str Exc StrFacts UriParse BaseUri Mem SpecUri SpecMem MemFacts MemFacts2 SpecApart.
Open Scope nat_scope.

Section Part.
Variable K : str -> bool.
Hypothesis tops : top_names K.
Variable h : nat -> node.
Variable next : nat.
Hypothesis W : wfh h next.
(** The node is below one of the names. *)
Definition inside (i : nat) : Prop := exists c p, K c = true /\ phys h root_id (c :: p) = Some i.
Lemma inside_pos i : inside i -> root_id < i < next.
Proof.
  intros (c & p & _ & E). cbn [phys] in E. destruct (h root_id) as [f|es mt mo|tg mt mo] eqn:H; try discriminate. destruct (dget c es) as [j|] eqn:D; [|discriminate].
  apply dget_In in D. pose proof (wf_child _ _ W root_id es mt mo c j (wf_pos _ _ W) H D) as [A B]. pose proof (phys_lt h next p j i W B E). unfold root_id in *. lia.
Qed.
Lemma inside_root i : inside i -> i <> root_id. Proof. intros H. apply inside_pos in H. lia. Qed.
Variable h' : nat -> node.
Hypothesis nodes : forall i, i <> root_id -> h' i = h i.
Hypothesis roots : forall es mt mo, h root_id = NDir es mt mo -> exists es' mt' mo', h' root_id = NDir es' mt' mo' /\ forall n, K n = true -> dget n es' = dget n es.
Hypothesis links : forall i target mt mo, inside i -> h i = NLink target mt mo -> leads_in K target.
Lemma inside_node i : inside i -> h' i = h i. Proof. intros H. now apply nodes, inside_root. Qed.
(** A node to start from: below, or the root where the next name is one of the names. *)
Definition start (i : nat) (n : str) : Prop := inside i \/ i = root_id /\ K n = true.
Lemma start_kid i n es mt mo j : start i n -> h i = NDir es mt mo -> dget n es = Some j -> inside j.
Proof.
  intros [(c & p & Kc & E)|[-> Kn]] H D.
  - exists c, (p ++ [n]). split; [exact Kc|]. change (c :: p ++ [n]) with ((c :: p) ++ [n]). rewrite phys_snoc, E, H. exact D.
  - exists n, []. split; [exact Kn|]. cbn [phys]. now rewrite H, D.
Qed.
Lemma start_same i n : start i n ->
  (exists es mt mo es' mt' mo', h i = NDir es mt mo /\ h' i = NDir es' mt' mo' /\ dget n es' = dget n es) \/ (dir_entries (h i) = None /\ h' i = h i).
Proof.
  intros [I|[-> Kn]].
  - rewrite (inside_node i I). destruct (h i) as [f|es mt mo|tg mt mo]; [now right| |now right]. left. do 6 eexists. repeat split; reflexivity.
  - destruct (wf_root _ _ W) as (es & mt & mo & H). destruct (roots es mt mo H) as (es' & mt' & mo' & H' & D). left. exists es, mt, mo, es', mt', mo'. auto.
Qed.
Definition sinside (o : option nat) : Prop := forall i, o = Some i -> inside i.
(** The node before last: below, or the root if there is one step only. *)
Definition pinside (prev : option nat) (steps : list str) : Prop :=
  forall i, prev = Some i -> inside i \/ i = root_id /\ exists n, steps = [n] /\ K n = true.

Section Loop.
Variable throw : bool.
Variables ch ch' : nat -> str -> bool -> res (option nat).
Hypothesis chs : forall i n b, start i n -> ch' i n b = ch i n b /\ forall o, ch i n b = Ok o -> sinside o.
Lemma loop_on f l : forall steps prev cur, sinside cur ->
  steps_loop h' throw ch' f l prev cur steps = steps_loop h throw ch f l prev cur steps /\
  forall p c, steps_loop h throw ch f l prev cur steps = Ok (p, c) -> sinside c /\ (steps = [] /\ p = prev \/ sinside p).
Proof.
  induction steps as [|n steps IH]; intros prev cur I; cbn [steps_loop].
  - split; [reflexivity|]. intros p c E. injection E as <- <-. split; [exact I|now left].
  - destruct cur as [i|]; [|split; [reflexivity|discriminate]]. specialize (I i eq_refl).
    assert (S : start i n) by now left. destruct (start_same i n S) as [(es & mt & mo & es' & mt' & mo' & H & H' & D)|[H H']].
    + rewrite H, H'. unfold dhas. rewrite D. destruct (dget n es) as [j|] eqn:Dn.
      * destruct (chs i n (if str_eqb n l then f else true) S) as [E Q]. rewrite E. destruct (ch i n _) as [o|e]; cbn [rbind]; [|split; [reflexivity|discriminate]].
        destruct (IH (Some i) o (Q o eq_refl)) as [E' Q']. split; [exact E'|]. intros p c Ep. destruct (Q' p c Ep) as [A B]. split; [exact A|]. right.
        destruct B as [[_ ->]|B]; [|exact B]. intros k Ek. injection Ek as <-. exact I.
      * destruct throw; (split; [reflexivity|]); [discriminate|]. intros p c E. injection E as <- <-. split; [discriminate|right; discriminate].
    + rewrite H'. destruct (h i); try discriminate H; split; (reflexivity || discriminate).
Qed.
Lemma loop_top f l n steps : K n = true ->
  steps_loop h' throw ch' f l None (Some root_id) (n :: steps) = steps_loop h throw ch f l None (Some root_id) (n :: steps) /\
  forall p c, steps_loop h throw ch f l None (Some root_id) (n :: steps) = Ok (p, c) -> sinside c /\ pinside p (n :: steps).
Proof.
  intros Kn. cbn [steps_loop]. assert (S : start root_id n) by (right; now split).
  destruct (start_same root_id n S) as [(es & mt & mo & es' & mt' & mo' & H & H' & D)|[H H']].
  - rewrite H, H'. unfold dhas. rewrite D. destruct (dget n es) as [j|] eqn:Dn.
    + destruct (chs root_id n (if str_eqb n l then f else true) S) as [E Q]. rewrite E. destruct (ch root_id n _) as [o|e]; cbn [rbind]; [|split; [reflexivity|discriminate]].
      destruct (loop_on f l steps (Some root_id) o (Q o eq_refl)) as [E' Q']. split; [exact E'|]. intros p c Ep. destruct (Q' p c Ep) as [A B]. split; [exact A|].
      destruct B as [[-> ->]|B]; intros k Ek; [|left; now apply B]. injection Ek as <-. right. split; [reflexivity|]. now exists n.
    + destruct throw; (split; [reflexivity|]); [discriminate|]. intros p c E. injection E as <- <-. split; [discriminate|]. intros k. discriminate.
  - rewrite H'. destruct (h root_id); try discriminate H; split; (reflexivity || discriminate).
Qed.
End Loop.

Lemma leads_in_path target p : leads_in K target -> mem_path target = Ok p -> p <> [] /\ exists n rest, steps_of p = n :: rest /\ K n = true.
Proof.
  intros L E. assert (N : p <> []).
  { intros ->. destruct (L [] (proj2 (addr_nil target) E)) as (c & cs' & X & _). discriminate X. }
  split; [exact N|]. destruct (steps_of p) as [|n rest] eqn:S.
  - assert (A : addr target []). { apply addr_path. exists p. split; [exact E|]. right. now split. } destruct (L [] A) as (c & cs' & X & _). discriminate X.
  - exists n, rest. split; [reflexivity|]. assert (A : addr target (n :: rest)). { apply addr_cons. exists p. auto. }
    destruct (L _ A) as (c & cs' & X & Kc). injection X as -> ->. exact Kc.
Qed.
Lemma child_on throw k : forall i n b, start i n ->
  child h' throw k i n b = child h throw k i n b /\ forall o, child h throw k i n b = Ok o -> sinside o.
Proof.
  induction k as [|k IH]; intros i n b S; cbn [child];
    (destruct (start_same i n S) as [(es & mt & mo & es' & mt' & mo' & H & H' & D)|[H H']];
      [|rewrite H'; destruct (h i); try discriminate H; split; (reflexivity || discriminate)]);
    rewrite H, H', D; (destruct (dget n es) as [j|] eqn:Dn; [|split; [reflexivity|]; intros o E; injection E as <-; intros x; discriminate]);
    pose proof (start_kid i n es mt mo j S H Dn) as Ij; rewrite (inside_node j Ij);
    (destruct (h j) as [f|es2 mt2 mo2|tg mt2 mo2] eqn:Hj;
      [split; [reflexivity|]; intros o E; injection E as <-; intros x Ex; injection Ex as <-; exact Ij
      |split; [reflexivity|]; intros o E; injection E as <-; intros x Ex; injection Ex as <-; exact Ij|]);
    (destruct b; [|split; [reflexivity|]; intros o E; injection E as <-; intros x Ex; injection Ex as <-; exact Ij]).
  - split; [reflexivity|discriminate].
  - destruct (mem_path tg) as [p|e] eqn:Ep; cbn [rbind]; [|split; [reflexivity|discriminate]].
    destruct (leads_in_path tg p (links j tg mt2 mo2 Ij Hj) Ep) as (N & m & rest & St & Km). destruct p as [|x p]; [easy|].
    cbv zeta. rewrite St. destruct (loop_top throw (child h throw k) (child h' throw k) IH true (last (m :: rest) []) m rest Km) as [E Q]. rewrite E.
    destruct (steps_loop h throw (child h throw k) true (last (m :: rest) []) None (Some root_id) (m :: rest)) as [[pp cc]|e] eqn:L; cbn [rbind snd]; [|split; [reflexivity|discriminate]].
    destruct (Q pp cc eq_refl) as [Qc _]. destruct cc as [y|]; [|split; [reflexivity|]; intros o Eo; injection Eo as <-; intros z; discriminate].
    specialize (Qc y eq_refl). rewrite (inside_node y Qc). destruct (is_link (h y)); split; try reflexivity; try discriminate. intros o Eo. injection Eo as <-. intros z Ez. injection Ez as <-. exact Qc.
Qed.
Lemma prev_on throw f n steps : K n = true ->
  get_node_prev h' throw (n :: steps) f = get_node_prev h throw (n :: steps) f /\
  forall p c, get_node_prev h throw (n :: steps) f = Ok (p, c) -> sinside c /\ pinside p (n :: steps).
Proof. intros Kn. apply loop_top; [|exact Kn]. intros i m b S. now apply child_on. Qed.
Lemma get_on throw f n steps : K n = true ->
  get_node h' throw (n :: steps) f = get_node h throw (n :: steps) f /\ forall c, get_node h throw (n :: steps) f = Ok c -> sinside c.
Proof.
  intros Kn. destruct (prev_on throw f n steps Kn) as [E Q]. unfold get_node. rewrite E. split; [reflexivity|].
  destruct (get_node_prev h throw (n :: steps) f) as [[p c]|e]; cbn [rbind snd]; [|discriminate]. intros c' Ec. injection Ec as <-. now apply (Q p c).
Qed.
End Part.
