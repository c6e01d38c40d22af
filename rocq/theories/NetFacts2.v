(** What is done to the file system of one connection, and to that file system alone. *)
From Verif Require Import Str Exc Utf8 UriParse BaseUri StrFacts Mem MemOps Generic Fnmatch UriOps Prog Registry SpecReg RegFacts RegFacts2 Net Pair SpecNet NetFacts.

Section Names.
(** A kind of names: with every name come those made of some of its characters. *)
Variable Nq : str -> Prop.
Hypothesis Nsub : forall s t, Nq t -> (forall c, In c s -> In c t) -> Nq s.
Definition tidy_node (n : node) : Prop := match n with NDir es _ _ => forall m j, In (m, j) es -> Nq m | _ => True end.
Definition tidyq (s : mst) : Prop := forall i, tidy_node (m_heap s i).

(** Computations that keep the names tidy, the clock and the table of locks *)
Definition neat {A} (Q : A -> Prop) (m : M mst A) : Prop :=
  forall s, tidyq s -> tidyq (snd (m s)) /\ m_now (snd (m s)) = m_now s /\ m_epoch (snd (m s)) = m_epoch s /\ forall x, fst (m s) = Ok x -> Q x.
Lemma neat_weak {A} (Q Q' : A -> Prop) m : neat Q m -> (forall x, Q x -> Q' x) -> neat Q' m.
Proof. intros H W s t. destruct (H s t) as (A1 & A2 & A3 & A4). auto 6. Qed.
Lemma neat_any {A} (Q : A -> Prop) m : neat Q m -> neat any m.
Proof. intros H. apply (neat_weak Q); [exact H|]. now intros. Qed.
Lemma neat_bind {A B} (Q : A -> Prop) (Q' : B -> Prop) m k : neat Q m -> (forall x, Q x -> neat Q' (k x)) -> neat Q' (bind m k).
Proof.
  intros H K s t. destruct (H s t) as (A1 & A2 & A3 & A4). unfold bind. destruct (m s) as [[x|e] s1]; cbn [fst snd] in *.
  - destruct (K x (A4 x eq_refl) s1 A1) as (B1 & B2 & B3 & B4). split; [exact B1|]. split; [congruence|]. split; [congruence|exact B4].
  - split; [exact A1|]. split; [exact A2|]. split; [exact A3|]. discriminate.
Qed.
Lemma neat_same {A} (Q : A -> Prop) (f : mst -> res A) : (forall s x, tidyq s -> f s = Ok x -> Q x) -> neat Q (fun s => (f s, s)).
Proof. intros H s t. cbn. split; [exact t|]. split; [reflexivity|]. split; [reflexivity|]. intros x. now apply H. Qed.
Lemma neat_ret {A} (Q : A -> Prop) x : Q x -> neat Q (ret x).
Proof. intros q. apply (neat_same Q (fun _ => Ok x)). intros s y _ E. now injection E as <-. Qed.
Lemma neat_raise {A} (Q : A -> Prop) e : neat Q (raise e).
Proof. apply (neat_same Q (fun _ => Raise e)). discriminate. Qed.
Lemma neat_lift {A} (Q : A -> Prop) r : (forall x, r = Ok x -> Q x) -> neat Q (lift r).
Proof. intros H. apply (neat_same Q (fun _ => r)). intros s x _. apply H. Qed.
Lemma neat_lift_any {A} (r : res A) : neat any (lift r). Proof. apply neat_lift. now intros. Qed.
Lemma neat_if {A} (Q : A -> Prop) (b : bool) m m' : neat Q m -> neat Q m' -> neat Q (if b then m else m'). Proof. now destruct b. Qed.
Lemma neat_get_node i : neat tidy_node (get_node_obj i).
Proof. apply (neat_same tidy_node (fun s => Ok (m_heap s i))). intros s x t E. injection E as <-. apply t. Qed.
Lemma neat_get : neat any get. Proof. apply (neat_same any (fun s => Ok s)). now intros. Qed.
Lemma neat_upd i n : tidy_node n -> neat any (upd i n).
Proof.
  intros tn s t. cbn. split; [|now intros]. intros j. cbn. unfold heap_set. destruct (Nat.eqb j i); [exact tn|]. apply t.
Qed.
Lemma neat_alloc n : tidy_node n -> neat any (alloc n).
Proof.
  intros tn s t. cbn. split; [|now intros]. intros j. cbn. unfold heap_set. destruct (Nat.eqb j (m_next s)); [exact tn|]. apply t.
Qed.
Lemma neat_lookup u f th : neat any (lookup u f th). Proof. apply (neat_same any (fun s => get_node_for_path (m_heap s) th u f)). now intros. Qed.
Lemma neat_lookup_node u f : neat any (lookup_node u f).
Proof. apply (neat_bind any); [apply neat_lookup|]. intros o _. apply neat_lift_any. Qed.
Lemma neat_parent p : neat any (parent_node p).
Proof. apply (neat_bind any); [apply neat_same; now intros|]. intros o _. apply neat_lift_any. Qed.
Lemma neat_has i n : neat any (node_has i n).
Proof. apply (neat_bind tidy_node); [apply neat_get_node|]. intros [| |] _; try apply neat_raise. now apply neat_ret. Qed.
Lemma dset_in (n : str) (i : nat) es m j : In (m, j) (dset n i es) -> m = n \/ exists j', In (m, j') es.
Proof.
  induction es as [|[k v] es IH]; cbn [dset]; [intros [E|[]]; left; now injection E|]. destruct (str_eqb n k); intros [E|I].
  - injection E as <- <-. right. exists v. now left.
  - right. exists j. now right.
  - injection E as <- <-. right. exists v. now left.
  - destruct (IH I) as [->|[j' I']]; [now left|]. right. exists j'. now right.
Qed.
Lemma ddel_in (n : str) (es : dict nat) m j : In (m, j) (ddel n es) -> In (m, j) es.
Proof. induction es as [|[k v] es IH]; cbn [ddel]; [easy|]. destruct (str_eqb n k); [now right|]. intros [E|I]; [now left|right; auto]. Qed.
Lemma neat_create p n i : Nq n -> neat any (create_child p n i).
Proof.
  intros q. apply (neat_bind tidy_node); [apply neat_get_node|]. intros [f|es mt mo|t mt mo] tn; try apply neat_raise. apply neat_upd.
  intros m j I. destruct (dset_in _ _ _ _ _ I) as [->|[j' I']]; [exact q|exact (tn m j' I')].
Qed.
Lemma neat_del p n : neat any (del_child p n).
Proof.
  apply (neat_bind tidy_node); [apply neat_get_node|]. intros [f|es mt mo|t mt mo] tn; try apply neat_raise. apply neat_if; [|apply neat_raise]. apply neat_upd.
  intros m j I. exact (tn m j (ddel_in _ _ _ _ I)).
Qed.
Lemma tidy_attrs n mt mo : tidy_node n -> tidy_node (set_attrs n mt mo). Proof. now destruct n. Qed.
Lemma last_step p : Nq p -> Nq (last (steps_of p) []).
Proof.
  intros q. destruct (steps_of p) as [|w l] eqn:E; [apply (Nsub _ _ q); intros c []|]. apply (Nsub _ _ q). intros d I. apply (piece_in cSlash p (last (w :: l) [])); [|exact I].
  unfold steps_of in E. rewrite E. clear. revert w. induction l as [|v l IH]; intros w; [now left|]. right. apply IH.
Qed.
Definition clear_path (u : uri) : Prop := Nq (u_path u).
Lemma neat_path u : clear_path u -> neat Nq (lift (mem_path u)).
Proof.
  intros q. apply neat_lift. intros p. unfold mem_path, clear_path in *. destruct (u_path u) as [|c w]; [discriminate|]. destruct (N.eqb c cSlash); [|discriminate].
  intros E. injection E as <-. apply (Nsub _ _ q). intros d I. now right.
Qed.
Lemma neat_path_any u : neat any (lift (mem_path u)). Proof. apply neat_lift_any. Qed.

Lemma neat_hook u n : neat any (mem_hook u n).
Proof.
  apply (neat_bind any); [apply neat_lift_any|]. intros p _ s t.
  destruct (dget p (m_cbs s)) as [[cb|]|]; [destruct (cb u n)| |]; cbn; (split; [exact t|]; now intros).
Qed.
Ltac by_cases := intros s t; repeat match goal with |- context [match ?x with _ => _ end] => destruct x end; cbn; (split; [exact t|]; now intros).
Lemma neat_exists u : neat any (mem_exists u).
Proof. apply (neat_bind any); [apply neat_lift_any|]. intros [|c p] _; [now apply neat_ret|]. by_cases. Qed.
Lemma neat_isfile u : neat any (mem_isfile u).
Proof. apply (neat_bind any); [apply neat_lift_any|]. intros [|c p] _; [now apply neat_ret|]. by_cases. Qed.
Lemma neat_isdir u : neat (fun _ => u_path u <> []) (mem_isdir u).
Proof.
  intros s t. unfold mem_isdir, bind, lift, mem_path. destruct (u_path u) as [|c w]; [cbn; split; [exact t|]; now intros|].
  destruct (N.eqb c cSlash); [|cbn; split; [exact t|]; split; [auto|]; split; [auto|]; discriminate].
  destruct w as [|d w]; [cbn; split; [exact t|]; split; [auto|]; split; [auto|]; discriminate|].
  repeat match goal with |- context [match ?x with _ => _ end] => destruct x end; cbn; (split; [exact t|]; split; [auto|]; split; [auto|]; discriminate).
Qed.
Lemma neat_islink u : neat any (mem_islink u).
Proof.
  apply (neat_bind any); [apply neat_lift_any|]. intros [|c p] _; [now apply neat_ret|]. apply (neat_bind any); [apply neat_lookup|]. intros [i|] _; [|now apply neat_ret].
  apply (neat_bind tidy_node); [apply neat_get_node|]. intros n _. now apply neat_ret.
Qed.
Lemma neat_listdir u : neat (Forall Nq) (mem_listdir u).
Proof.
  apply (neat_bind any); [apply neat_lift_any|]. intros p _. apply (neat_bind any); [apply neat_same; now intros|]. intros o _.
  apply (neat_bind any); [apply neat_lift_any|]. intros i _. apply (neat_bind tidy_node); [apply neat_get_node|]. intros [f|es mt mo|tg mt mo] tn; try apply neat_raise.
  apply neat_ret. apply sorted_in. apply Forall_forall. intros m I. apply in_map_iff in I as ([m' j] & <- & I). exact (tn m' j I).
Qed.
Lemma neat_removefile u : neat any (mem_removefile u).
Proof.
  apply (neat_bind any); [apply neat_lift_any|]. intros p _. apply (neat_bind any); [apply neat_same; now intros|]. intros [[i|] o] _; [apply neat_del|now apply neat_ret].
Qed.
Lemma neat_removedir u : neat any (mem_removedir u).
Proof.
  apply (neat_bind any); [apply neat_lift_any|]. intros p _. apply (neat_bind any); [apply neat_same; now intros|]. intros [[i|] o] _; [|now apply neat_ret].
  apply (neat_bind any); [apply neat_same; now intros|]. intros o' _. apply (neat_bind any); [apply neat_lift_any|]. intros j _.
  apply (neat_bind tidy_node); [apply neat_get_node|]. intros [f|[|e es] mt mo|tg mt mo] _; try apply neat_raise. apply neat_del.
Qed.
Lemma neat_mkdir u : clear_path u -> neat any (mem_mkdir u).
Proof.
  intros q. apply (neat_bind Nq); [now apply neat_path|]. intros [|c p] np; [now apply neat_ret|]. apply (neat_bind any); [apply neat_parent|]. intros nd _.
  apply (neat_bind any); [apply neat_has|]. intros b _. apply neat_if; [apply neat_raise|]. apply (neat_bind any); [apply neat_get|]. intros s _.
  apply (neat_bind any); [now apply neat_alloc|]. intros i _. apply neat_create. now apply last_step.
Qed.
Lemma neat_symlink t u : clear_path u -> neat any (mem_symlink t u).
Proof.
  intros q. apply (neat_bind Nq); [now apply neat_path|]. intros [|c p] np; [now apply neat_ret|]. apply (neat_bind any); [apply neat_parent|]. intros nd _.
  apply (neat_bind any); [apply neat_has|]. intros b _. apply neat_if; [apply neat_raise|]. apply (neat_bind any); [apply neat_get|]. intros s _.
  apply (neat_bind any); [now apply neat_alloc|]. intros i _. apply neat_create. now apply last_step.
Qed.
Lemma neat_readlink u : neat any (mem_readlink u).
Proof.
  apply (neat_bind any); [apply neat_lift_any|]. intros [|c p] _; [apply neat_raise|]. apply (neat_bind any); [apply neat_lookup_node|]. intros i _.
  apply (neat_bind tidy_node); [apply neat_get_node|]. intros [f|es mt mo|tg mt mo] _; try apply neat_raise. now apply neat_ret.
Qed.
Lemma neat_info u f : neat any (mem_info u f).
Proof. apply (neat_bind any); [apply neat_lookup_node|]. intros i _. apply (neat_bind tidy_node); [apply neat_get_node|]. intros n _. now apply neat_ret. Qed.
Lemma neat_set_info u mo mt f : neat any (mem_set_info u mo mt f).
Proof. apply (neat_bind any); [apply neat_lookup_node|]. intros i _. apply (neat_bind tidy_node); [apply neat_get_node|]. intros n tn. apply neat_upd. now apply tidy_attrs. Qed.
Lemma neat_mtime u : neat any (mem_mtime u).
Proof. apply (neat_bind any); [apply neat_lookup_node|]. intros i _. apply (neat_bind tidy_node); [apply neat_get_node|]. intros n _. now apply neat_ret. Qed.
Lemma neat_copystat u v : neat any (mem_copystat u v).
Proof.
  apply (neat_bind any); [apply neat_lookup_node|]. intros i _. apply (neat_bind any); [apply neat_lookup_node|]. intros j _.
  apply (neat_bind tidy_node); [apply neat_get_node|]. intros n _. apply (neat_bind tidy_node); [apply neat_get_node|]. intros d td. apply neat_upd. now apply tidy_attrs.
Qed.
Lemma neat_isexec u m : neat any (mem_isexec u m).
Proof. apply (neat_bind any); [apply neat_info|]. intros b _. now apply neat_ret. Qed.
Lemma neat_set_exec u m : neat any (mem_set_exec u m).
Proof. apply (neat_bind any); [apply neat_info|]. intros b _. apply neat_set_info. Qed.
Lemma neat_manip_mtime u t : neat any (mem_manip_mtime u t).
Proof. apply (neat_bind any); [apply neat_lookup_node|]. intros i _. apply (neat_bind tidy_node); [apply neat_get_node|]. intros n tn. apply neat_upd. now apply tidy_attrs. Qed.
Lemma neat_manip_callback u cb : neat any (mem_manip_callback u cb).
Proof. apply (neat_bind any); [apply neat_lift_any|]. intros p _ s t. cbn. split; [exact t|]. now intros. Qed.

(** Files *)
Lemma neat_get_file i : neat any (get_file i).
Proof. apply (neat_bind tidy_node); [apply neat_get_node|]. intros [f|es mt mo|tg mt mo] _; try apply neat_raise. now apply neat_ret. Qed.
Lemma neat_set_file i d p t f : neat any (set_file i d p t f). Proof. now apply neat_upd. Qed.
Lemma neat_file_read i z : neat any (file_read i z).
Proof. apply (neat_bind any); [apply neat_get_file|]. intros f _. destruct (bio_read (f_data f) (f_pos f) z) as [o q]. apply (neat_bind any); [apply neat_set_file|]. intros _ _. now apply neat_ret. Qed.
Lemma neat_file_write i d : neat any (file_write i d).
Proof. apply (neat_bind any); [apply neat_get_file|]. intros f _. destruct (bio_write (f_data f) (f_pos f) d) as [o q]. apply (neat_bind any); [apply neat_get|]. intros s _. apply neat_set_file. Qed.
Lemma neat_file_seek i a b : neat any (file_seek i a b).
Proof. apply (neat_bind any); [apply neat_get_file|]. intros f _. apply (neat_bind any); [apply neat_lift_any|]. intros p _. apply neat_set_file. Qed.
Lemma neat_file_readline i : neat any (file_readline i).
Proof. apply (neat_bind any); [apply neat_get_file|]. intros f _. apply (neat_bind any); [apply neat_set_file|]. intros _ _. now apply neat_ret. Qed.
Lemma neat_h_read h z : neat any (h_read h z).
Proof. apply neat_if; [apply neat_raise|]. apply (neat_bind any); [apply neat_file_read|]. intros b _. apply neat_lift_any. Qed.
Lemma neat_h_write h v : neat any (h_write h v).
Proof. apply (neat_bind any); [apply neat_lift_any|]. intros [s|b] _; [apply neat_raise|apply neat_file_write]. Qed.
Lemma neat_h_tell h : neat any (h_tell h).
Proof. apply (neat_bind any); [apply neat_get_file|]. intros f _. now apply neat_ret. Qed.
Lemma neat_h_truncate h p : neat any (h_truncate h p).
Proof. apply (neat_bind any); [apply neat_get_file|]. intros f _. apply neat_if; [apply neat_raise|]. apply (neat_bind any); [apply neat_set_file|]. intros _ _. now apply neat_ret. Qed.
Lemma neat_h_close h : neat any (h_close h).
Proof. apply (neat_bind any); [apply neat_get_file|]. intros f _. apply neat_set_file. Qed.
Lemma neat_h_readline h : neat any (h_readline h).
Proof. apply (neat_bind any); [apply neat_file_readline|]. intros b _. apply neat_lift_any. Qed.
Lemma neat_h_next h : neat any (h_next h).
Proof. apply (neat_bind any); [apply neat_file_readline|]. intros [|c b] _; [now apply neat_ret|]. apply (neat_bind any); [apply neat_lift_any|]. intros v _. now apply neat_ret. Qed.
Lemma neat_reset i : neat any (file_reset i).
Proof. apply (neat_bind any); [apply neat_get_file|]. intros f _. apply (neat_bind any); [apply neat_get|]. intros s _. now apply neat_upd. Qed.
Lemma neat_open_read u b : neat any (open_for_read u b).
Proof. apply (neat_bind any); [apply neat_lookup_node|]. intros i _. apply (neat_bind any); [apply neat_file_seek|]. intros _ _. now apply neat_ret. Qed.
Lemma neat_open_append u b : neat any (open_for_append u b).
Proof.
  apply (neat_bind any); [apply neat_lookup_node|]. intros i _. apply (neat_bind any); [apply neat_get_file|]. intros f _.
  apply (neat_bind any); [apply neat_file_seek|]. intros _ _. now apply neat_ret.
Qed.
Lemma neat_open_write u b : clear_path u -> neat any (open_for_write u b).
Proof.
  intros q. apply (neat_bind Nq); [now apply neat_path|]. intros p np. apply (neat_bind any); [apply neat_parent|]. intros nd _.
  apply (neat_bind any); [apply neat_has|]. intros pr _. apply neat_if.
  - apply (neat_bind any); [apply neat_same; now intros|]. intros o _. apply (neat_bind any); [apply (neat_same any (fun s => Ok (match o with Some c => is_dir (m_heap s c) | None => false end))); now intros|].
    intros d _. apply neat_if; [apply neat_raise|]. apply (neat_bind any); [apply neat_lift_any|]. intros cnd _. apply (neat_bind any); [apply neat_reset|]. intros _ _. now apply neat_ret.
  - apply (neat_bind any); [apply neat_get|]. intros s _. apply (neat_bind any); [now apply neat_alloc|]. intros i _.
    apply (neat_bind any); [apply neat_create; now apply last_step|]. intros _ _. now apply neat_ret.
Qed.
Lemma neat_mem_open u o : clear_path u -> neat any (mem_open u o).
Proof.
  intros q. unfold mem_open. apply neat_if; [apply neat_open_read|]. destruct o as [o|]; [|apply neat_raise]. apply neat_if; [now apply neat_open_write|].
  apply neat_if; [apply neat_open_append|apply neat_raise].
Qed.
Lemma neat_open u o : clear_path u -> neat any (u_open u o).
Proof. intros q. apply (neat_bind any); [apply neat_hook|]. intros _ _. now apply neat_mem_open. Qed.
Lemma neat_copyfileobj f : forall i o b, neat any (copyfileobj f i o b).
Proof.
  induction f as [|f IH]; intros i o b; cbn [copyfileobj]; [apply neat_raise|]. apply (neat_bind any); [apply neat_h_read|].
  intros [[|c s]|[|c s]] _; try (now apply neat_ret); (apply (neat_bind any); [apply neat_h_write|]; intros _ _; apply IH).
Qed.
Lemma neat_content u v : clear_path u -> clear_path v -> neat any (mem_copy_content u v).
Proof.
  intros p q. apply (neat_bind any); [now apply neat_open|]. intros i _. apply (neat_bind any); [now apply neat_open|]. intros o _.
  apply (neat_bind any); [apply neat_get_file|]. intros f _. apply neat_copyfileobj.
Qed.
Lemma neat_hash f : forall h d, neat any (hash_blocks f h d).
Proof.
  induction f as [|f IH]; intros h d; cbn [hash_blocks]; [apply neat_raise|]. apply (neat_bind any); [apply neat_h_read|].
  intros [s|[|c s]] _; [apply neat_raise|now apply neat_ret|apply IH].
Qed.
Lemma neat_md5 {D} (H : list N -> D) u : clear_path u -> neat any (u_md5 H u).
Proof.
  intros q. apply (neat_bind any); [apply neat_hook|]. intros _ _. apply (neat_bind any); [now apply neat_open|]. intros h _.
  apply (neat_bind any); [apply neat_get_file|]. intros f _. apply (neat_bind any); [apply neat_hash|]. intros bs _. now apply neat_ret.
Qed.
End Names.

Lemma tidy_nodes s : tidy s <-> tidyq noq s.
Proof.
  split; intros H i.
  - unfold tidy_node. destruct (m_heap s i) eqn:E; auto. intros m j. exact (H i _ _ _ E m j).
  - intros es mt mo E m j I. specialize (H i). unfold tidy_node in H. rewrite E in H. exact (H m j I).
Qed.
