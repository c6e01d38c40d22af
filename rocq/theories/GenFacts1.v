(** Running the generic operations on the memory backend: dispatch, makedirs. *)
From Verif Require Import Str Exc Utf8 UriParse BaseUri StrFacts Utf8Facts SpecUri Mem SpecMem MemOps Generic SpecGen.
From Verif Require Import UriFacts2 UriFacts3 MemFacts MemFacts2 MemFacts3 MemFacts4 MemFacts5 MemFacts6 MemFacts7 MemFacts8 MemFacts9 MemUri MemFacts10 MemFacts11.
From Coq Require Import Sorted.

Lemma bind_ok {S A B} (m : M S A) (k : A -> M S B) s a s' : m s = (Ok a, s') -> bind m k s = k a s'.
Proof. intros H. unfold bind. now rewrite H. Qed.
Lemma bind_raise {S A B} (m : M S A) (k : A -> M S B) s e s' : m s = (Raise e, s') -> bind m k s = (Raise e, s').
Proof. intros H. unfold bind. now rewrite H. Qed.
Lemma lift_ok {S A} (r : res A) a (s : S) : r = Ok a -> lift r s = (Ok a, s).
Proof. now intros ->. Qed.
Lemma ret_ok {S A} (a : A) (s : S) : ret a s = (Ok a, s).
Proof. reflexivity. Qed.

Local Notation B := mem_backend.

Lemma silent_hook s u cs name : silent s -> addr u cs -> mem_hook u name s = (Ok tt, s).
Proof.
  intros Q A. unfold mem_hook. destruct (addr_some _ _ A) as [p P].
  rewrite (bind_ok _ _ _ p s) by now apply lift_ok.
  destruct (dget p (m_cbs s)) as [[cb|]|] eqn:E; auto.
  apply dget_In in E. now rewrite (Q _ _ u name E).
Qed.
Lemma silent_rest s s' : silent s -> same_rest s s' -> silent s'.
Proof. intros Q (_ & _ & _ & E) p cb u f. rewrite E. apply Q. Qed.
Lemma silent_mem s cs name : silent s -> good_path cs -> mem_hook (mem_uri cs) name s = (Ok tt, s).
Proof. intros Q G. apply (silent_hook s _ cs); auto using mem_addr. Qed.

Lemma run_hooked {A} s cs name (m : M mst A) : silent s -> good_path cs -> hooked B name (mem_uri cs) m s = m s.
Proof. intros Q G. unfold hooked. rewrite (bind_ok _ _ s tt s); auto. now apply silent_mem. Qed.

Section S.
Variable s : mst.
Variable W : wf s.
Variable Q : silent s.
Local Notation t := (view s).

Lemma isdir_found cs q : good_path cs -> leads t cs (Found q) -> is_edir (t q) -> mem_isdir (mem_uri cs) s = (Ok true, s).
Proof.
  intros G L D. rewrite (isdir_spec s W _ cs _ (mem_addr _ G) L). unfold quiet.
  destruct (leads_phys (m_heap s) (m_next s) W cs q L) as (i & P & _). rewrite P.
  destruct (tree_dir (m_heap s) q i P D) as (es & mt & mo & E). now rewrite E.
Qed.
Lemma isdir_file cs q : good_path cs -> leads t cs (Found q) -> ~ is_edir (t q) -> mem_isdir (mem_uri cs) s = (Ok false, s).
Proof.
  intros G L D. rewrite (isdir_spec s W _ cs _ (mem_addr _ G) L). unfold quiet.
  destruct (leads_phys (m_heap s) (m_next s) W cs q L) as (i & P & _). rewrite P.
  destruct (m_heap s i) eqn:E; auto. destruct D. eapply (dir_tree (m_heap s)); eauto.
Qed.
Lemma isdir_none cs o : good_path cs -> leads t cs o -> o = Missing \/ o = Loop -> mem_isdir (mem_uri cs) s = (Ok false, s).
Proof. intros G L D. rewrite (isdir_spec s W _ cs _ (mem_addr _ G) L). now destruct D; subst. Qed.
Lemma isdir_raise cs o : good_path cs -> leads t cs o -> In o [Dead; NotDir; BadLink] -> exists e, mem_isdir (mem_uri cs) s = (Raise e, s).
Proof.
  intros G L D. rewrite (isdir_spec s W _ cs _ (mem_addr _ G) L).
  cbn in D. destruct D as [<-|[<-|[<-|[]]]]; cbn; eauto.
Qed.

(** ** makedirs *)
Lemma leads_gap cs d b : gap t cs d b -> b <> [] -> leads t cs Missing.
Proof.
  intros (a & -> & L & D & N) Hb. destruct b as [|n b]; [easy|].
  eapply leads_app; eauto. constructor; auto. now apply (N n b).
Qed.
End S.

Lemma dirs_added_nil t t' d now : same_tree t t' -> dirs_added t t' d [] now.
Proof.
  intros E. split.
  - intros b1 b2 H N. symmetry in H. now apply app_eq_nil in H as [-> _].
  - intros q _. apply E.
Qed.
Lemma dirs_added_grows t t' d b now : (forall b1 b2, b = b1 ++ b2 -> b1 <> [] -> t (d ++ b1) = None) ->
  dirs_added t t' d b now -> grows t t'.
Proof.
  intros N [A E] p e H. exists e. split; [|apply same_kind_refl]. rewrite E; auto.
  intros b1 b2 -> Hb ->. now rewrite (N b1 b2) in H.
Qed.
Lemma dirs_added_snoc t t1 t2 d b n now : dirs_added t t1 d b now -> put_at t1 t2 (d ++ b ++ [n]) (EDir now 0) ->
  dirs_added t t2 d (b ++ [n]) now.
Proof.
  intros [A E] [P1 P2]. split.
  - intros b1 b2 H Hn. destruct (snoc_cases b2) as [->|(x & y & ->)].
    + rewrite app_nil_r in H. subst b1. exact P1.
    + rewrite app_assoc in H. apply snoc_inj in H as [-> ->].
      rewrite P2; [now apply (A b1 x)|]. intros H. apply app_inv_head in H.
      apply (f_equal (@length _)) in H. rewrite !app_length in H. cbn in H. lia.
  - intros q H. rewrite P2.
    + apply E. intros b1 b2 -> Hn. apply (H b1 (b2 ++ [n])); auto. now rewrite app_assoc.
    + apply (H (b ++ [n]) []); [now rewrite app_nil_r|]. now destruct b.
Qed.

Lemma gap_none s cs d b : gap (view s) cs d b -> forall b1 b2, b = b1 ++ b2 -> b1 <> [] -> view s (d ++ b1) = None.
Proof.
  intros (a & _ & _ & _ & N) b1 b2 -> Hb. destruct b1 as [|n b1]; [easy|].
  change (n :: b1) with ([n] ++ b1). rewrite app_assoc. apply below_none. now apply (N n (b1 ++ b2)).
Qed.

Lemma rs_app t k d0 init rest0 d o :
  resolves t k d0 init (Found d) -> resolves t k d rest0 o -> resolves t k d0 (init ++ rest0) o.
Proof.
  intros R. remember (Found d) as o' eqn:Eo. revert d Eo.
  induction R as
    [k d0|k d0 x rest Hx|k d0 x rest Hd0 Hm|k d0 x rest o' Hd0 Hr R IH|d0 x rest Hd0 Hl
    |k d0 x rest target mt mo Hd0 Hl Ha|k d0 x rest target mt mo cs q o' Hd0 Hl Ha R1 IH1 R2 IH2
    |k d0 x target mt mo cs Hd0 Hl Ha R IH|k d0 x m rest target mt mo cs Hd0 Hl Ha R IH
    |k d0 x rest target mt mo cs o' Hd0 Hl Ha R IH Ho]; intros d Eo H; try discriminate.
  - injection Eo as <-. cbn. auto.
  - cbn. apply rs_step; eauto.
  - cbn. eapply rs_link; eauto.
  - subst o'. cbn in Ho. intuition discriminate.
Qed.
(** After the directories are added, the path leads through them. *)
Lemma added_leads t t' a d b now : leads t a (Found d) -> is_edir (t d) -> grows t t' -> dirs_added t t' d b now ->
  forall b1 b2, b = b1 ++ b2 -> leads t' (a ++ b1) (Found (d ++ b1)) /\ is_edir (t' (d ++ b1)).
Proof.
  intros L D G [A _] b1. induction b1 as [|n b1 IH] using rev_ind; intros b2 E.
  - rewrite !app_nil_r. split; [eapply leads_grows; eauto|]. eapply kind_dir; [|exact D]. intros e He. now apply G.
  - destruct (IH ([n] ++ b2)) as [L1 D1]; [now rewrite E, <- app_assoc|].
    assert (D2 : is_edir (t' (d ++ b1 ++ [n]))) by (do 2 eexists; apply (A (b1 ++ [n]) b2); auto; now destruct b1).
    split; auto. rewrite app_assoc. rewrite (app_assoc d). eapply rs_app; eauto.
    constructor; auto; [right; now rewrite <- app_assoc|constructor].
Qed.

Lemma run_mkdir_free s cs init n d : wf s -> cs = init ++ [n] -> good_path cs -> leads (view s) init (Found d) -> is_edir (view s d) ->
  view s (d ++ [n]) = None ->
  exists s', mem_mkdir (mem_uri cs) s = (Ok tt, s') /\ wf s' /\ put_at (view s) (view s') (d ++ [n]) (EDir (m_now s) 0) /\ same_rest s s'.
Proof.
  intros W -> G L D N. rewrite mkdir_make.
  destruct (make_free s W (mem_uri (init ++ [n])) (fun s => NDir [] (m_now s) 0) (d ++ [n])) as (s' & E & W' & P & R & _).
  - eapply pl_free; eauto. now apply mem_addr.
  - intros es Ee. now injection Ee as <-.
  - exists s'. auto.
Qed.

Lemma makedirs_gap b : forall s cs d fuel, wf s -> silent s -> good_path cs -> gap (view s) cs d b -> (length b < fuel)%nat ->
  exists s', fs_makedirs B fuel (mem_uri cs) s = (Ok tt, s') /\ wf s' /\ same_rest s s' /\
    dirs_added (view s) (view s') d b (m_now s).
Proof.
  induction b as [|n b IH] using rev_ind; intros s cs d fuel W Q G Gp F.
  - destruct fuel as [|fuel]; [cbn in F; lia|]. destruct Gp as (a & -> & L & D & _). rewrite app_nil_r in *.
    exists s. cbn [fs_makedirs]. split; [|split; [|split]]; auto using same_rest_refl.
    + unfold u_isdir. erewrite bind_ok; [|rewrite run_hooked by auto; now apply (isdir_found s W a d)]. reflexivity.
    + apply dirs_added_nil. intros q. reflexivity.
  - rewrite app_length in F. cbn in F. destruct fuel as [|fuel]; [lia|].
    destruct Gp as (a & -> & L & D & N). pose proof G as G0. rewrite app_assoc in G. pose proof (good_app _ _ G) as Gi.
    assert (Gp : gap (view s) (a ++ b) d b).
    { exists a. repeat split; auto. intros x b' ->. now apply (N x (b' ++ [n])). }
    cbn [fs_makedirs]. unfold u_isdir. rewrite app_assoc.
    erewrite bind_ok; [|rewrite run_hooked by auto; apply (isdir_none s W _ Missing); auto; eapply (leads_gap s) with (d := d) (b := b ++ [n]);
      [exists a; split; [now rewrite app_assoc|auto]|now destruct b]].
    cbn match. erewrite bind_ok; [|apply lift_ok; apply mem_split; apply G]. cbn [fst snd].
    assert (X : exists s1, (let! pd <- hooked B "isdir" (mem_uri (a ++ b)) (b_isdir B (mem_uri (a ++ b)));
                            if pd then ret tt else fs_makedirs B fuel (mem_uri (a ++ b))) s = (Ok tt, s1) /\
                           wf s1 /\ same_rest s s1 /\ dirs_added (view s) (view s1) d b (m_now s)).
    { destruct (list_eq_dec (list_eq_dec N.eq_dec) b []) as [->|Hb].
      - exists s. rewrite app_nil_r in *. split; [|split; [|split]]; auto using same_rest_refl.
        + erewrite bind_ok; [|rewrite run_hooked by auto; now apply (isdir_found s W a d)]. reflexivity.
        + apply dirs_added_nil. intros q. reflexivity.
      - erewrite bind_ok; [|rewrite run_hooked by auto; apply (isdir_none s W _ Missing); auto; now apply (leads_gap s) with (d := d) (b := b)].
        apply IH; auto. lia. }
    destruct X as (s1 & E1 & W1 & R1 & A1).
    assert (Gr : grows (view s) (view s1)) by (eapply dirs_added_grows; [eapply gap_none; eauto|eauto]).
    destruct (added_leads _ _ a d b (m_now s) L D Gr A1 b []) as [L1 D1]; [now rewrite app_nil_r|].
    destruct (run_mkdir_free s1 ((a ++ b) ++ [n]) (a ++ b) n (d ++ b)) as (s2 & E2 & W2 & P2 & R2); auto.
    { rewrite <- app_assoc. destruct A1 as [_ A1]. rewrite A1.
      - apply (gap_none s (a ++ b ++ [n]) d (b ++ [n])) with (b2 := []); [|now rewrite app_nil_r|now destruct b].
        exists a. auto.
      - intros b1 b2 -> _ H. apply app_inv_head in H. apply (f_equal (@length _)) in H. rewrite !app_length in H. cbn in H. lia. }
    exists s2. split; [|split; [|split]]; auto.
    + unfold bind in E1 |- *. destruct (hooked B "isdir" (mem_uri (a ++ b)) (b_isdir B (mem_uri (a ++ b))) s) as [[pd|] s'] eqn:E; [|discriminate].
      cbn beta. rewrite E1. destruct n as [|c n]; [exfalso; apply (name_ne [] (good_name (a ++ b) [] [] G)); reflexivity|].
      unfold u_mkdir. rewrite run_hooked; auto. apply (silent_rest s); auto.
    + eapply same_rest_trans; eauto.
    + eapply dirs_added_snoc; [exact A1|]. rewrite <- app_assoc in P2. destruct R1 as (Hnow & _). now rewrite Hnow in P2.
Qed.

Lemma root_dir s : wf s -> is_edir (view s []).
Proof. intros W. destruct (wf_root _ _ W) as (es & mt & mo & E). exists mt, mo. unfold view, tree_of. cbn. now rewrite E. Qed.

Lemma run_mkdir_taken s cs init n d : wf s -> cs = init ++ [n] -> good_path cs -> leads (view s) init (Found d) -> is_edir (view s d) ->
  view s (d ++ [n]) <> None -> mem_mkdir (mem_uri cs) s = (Raise (OSError EEXIST), s).
Proof.
  intros W -> G L D N. rewrite mkdir_make. apply (make_taken s W) with (p := d ++ [n]).
  eapply pl_taken; eauto. now apply mem_addr.
Qed.

(** Either the missing directories can be created, or nothing happens. *)
Lemma makedirs_other cs : forall s fuel, wf s -> silent s -> good_path cs -> (forall d b, ~ gap (view s) cs d b) ->
  exists e, fs_makedirs B fuel (mem_uri cs) s = (Raise e, s).
Proof.
  induction cs as [|n init IH] using rev_ind; intros s fuel W Q G NG.
  { exfalso. apply (NG [] []). exists []. split; [reflexivity|]. split; [constructor|]. split; [|discriminate].
    apply (root_dir s W). }
  destruct fuel as [|fuel]; [exists OutOfFuel; reflexivity|].
  pose proof (good_app _ _ G) as Gi. cbn [fs_makedirs]. unfold u_isdir.
  destruct (leads_total (m_heap s) (init ++ [n])) as [o L].
  destruct (leads_total (m_heap s) init) as [oi Li].
  assert (Up : mem_isdir (mem_uri (init ++ [n])) s = (Ok false, s) -> exists e,
    (let! d <- hooked B "isdir" (mem_uri (init ++ [n])) (b_isdir B (mem_uri (init ++ [n])));
     if d then ret tt
     else let! pt <- lift (u_split (mem_uri (init ++ [n])));
          let! pd <- hooked B "isdir" (fst pt) (b_isdir B (fst pt));
          (if pd then ret tt else fs_makedirs B fuel (fst pt)) ;;
          match snd pt with [] => ret tt | _ => u_mkdir B (mem_uri (init ++ [n])) end) s = (Raise e, s)).
  { intros Ed. erewrite bind_ok; [|rewrite run_hooked by auto; exact Ed]. cbn match.
    erewrite bind_ok; [|apply lift_ok; apply mem_split; apply G]. cbn [fst snd].
    destruct (outcome_cases oi) as [[d ->]|Nf].
    - destruct (edir_dec (view s d)) as [D|D].
      + erewrite bind_ok; [|rewrite run_hooked by auto; now apply (isdir_found s W init d)].
        destruct (view s (d ++ [n])) eqn:E.
        * exists (OSError EEXIST). erewrite bind_ok by reflexivity.
          destruct n as [|c n]; [exfalso; apply (name_ne [] (good_name init [] [] G)); reflexivity|].
          unfold u_mkdir. rewrite run_hooked by auto. apply (run_mkdir_taken s) with (init := init) (n := c :: n) (d := d); auto. congruence.
        * exfalso. apply (NG d [n]). exists init. repeat split; auto. intros x b0 E0. injection E0 as <- _. exact E.
      + exfalso. assert (Ln : leads (view s) (init ++ [n]) NotDir) by (eapply rs_app; eauto; now constructor).
        rewrite (isdir_spec s W _ _ _ (mem_addr _ G) Ln) in Ed. discriminate.
    - destruct oi as [q| | | | |]; [now destruct (Nf q)| | | | |].
      + erewrite bind_ok; [|rewrite run_hooked by auto; now apply (isdir_none s W init Missing); auto].
        destruct (IH s fuel W Q Gi) as [e Ee].
        { intros d b (a & -> & La & D & N). apply (NG d (b ++ [n])). exists a. split; [now rewrite app_assoc|]. repeat split; auto.
          intros x b' E. destruct b as [|y b]; [|injection E as <- _; now apply (N y b)].
          exfalso. rewrite app_nil_r in Li. pose proof (leads_det (m_heap s) (m_next s) W _ _ _ La Li). discriminate. }
        exists e. erewrite bind_raise by exact Ee. reflexivity.
      + destruct (isdir_raise s W init Dead Gi Li) as [e Ee]; [cbn; auto|]. exists e.
        erewrite bind_raise; [reflexivity|]. now rewrite run_hooked.
      + destruct (isdir_raise s W init NotDir Gi Li) as [e Ee]; [cbn; auto|]. exists e.
        erewrite bind_raise; [reflexivity|]. now rewrite run_hooked.
      + erewrite bind_ok; [|rewrite run_hooked by auto; now apply (isdir_none s W init Loop); auto].
        destruct (IH s fuel W Q Gi) as [e Ee].
        { intros d b Gp. destruct b as [|x b].
          - destruct Gp as (a & -> & La & D & N). rewrite app_nil_r in Li.
            pose proof (leads_det (m_heap s) (m_next s) W _ _ _ La Li). discriminate.
          - assert (Lm : leads (view s) init Missing) by (eapply (leads_gap s); [exact Gp|discriminate]).
            pose proof (leads_det (m_heap s) (m_next s) W _ _ _ Lm Li). discriminate. }
        exists e. erewrite bind_raise by exact Ee. reflexivity.
      + destruct (isdir_raise s W init BadLink Gi Li) as [e Ee]; [cbn; auto|]. exists e.
        erewrite bind_raise; [reflexivity|]. now rewrite run_hooked. }
  destruct o as [q| | | | |].
  - destruct (edir_dec (view s q)) as [D|D].
    + exfalso. apply (NG q []). exists (init ++ [n]). split; [now rewrite app_nil_r|]. repeat split; auto. discriminate.
    + apply Up. now apply (isdir_file s W _ q).
  - apply Up. now apply (isdir_none s W _ Missing); auto.
  - destruct (isdir_raise s W _ Dead G L) as [e Ee]; [cbn; auto|]. exists e. erewrite bind_raise; [reflexivity|]. now rewrite run_hooked.
  - destruct (isdir_raise s W _ NotDir G L) as [e Ee]; [cbn; auto|]. exists e. erewrite bind_raise; [reflexivity|]. now rewrite run_hooked.
  - apply Up. now apply (isdir_none s W _ Loop); auto.
  - destruct (isdir_raise s W _ BadLink G L) as [e Ee]; [cbn; auto|]. exists e. erewrite bind_raise; [reflexivity|]. now rewrite run_hooked.
Qed.

(** All directories on the way to a directory. *)
Lemma dirs_on_way t cs q : leads t cs (Found q) -> is_edir (t q) ->
  forall pre post, cs = pre ++ post -> exists d, leads t pre (Found d) /\ is_edir (t d).
Proof.
  intros L D pre post ->. destruct (resolves_split _ _ _ _ _ _ L) as (d & A & R).
  exists d. split; auto. destruct post as [|n post]; [inversion R; now subst|]. inversion R; subst; auto.
Qed.

Theorem makedirs_ok s cs d b : wf s -> silent s -> good_path cs -> gap (view s) cs d b ->
  forall fuel, (length b < fuel)%nat ->
  exists s', u_makedirs B fuel (mem_uri cs) s = (Ok tt, s') /\ dirs_added (view s) (view s') d b (m_now s) /\
    wf s' /\ same_rest s s' /\
    (forall p e, view s p = Some e -> view s' p = Some e) /\
    (forall pre post, cs = pre ++ post -> exists q, leads (view s') pre (Found q) /\ is_edir (view s' q)) /\
    forall fuel', (0 < fuel')%nat -> u_makedirs B fuel' (mem_uri cs) s' = (Ok tt, s').
Proof.
  intros W Q G Gp fuel F. destruct (makedirs_gap b s cs d fuel W Q G Gp F) as (s' & E & W' & R & A).
  pose proof (gap_none _ _ _ _ Gp) as Hn. assert (Gr := dirs_added_grows _ _ _ _ _ Hn A).
  destruct Gp as (a & -> & L & D & N).
  destruct (added_leads _ _ a d b (m_now s) L D Gr A b []) as [L1 D1]; [now rewrite app_nil_r|].
  assert (Way := dirs_on_way _ _ _ L1 D1).
  exists s'. split; [unfold u_makedirs; rewrite run_hooked; auto|]. split; [exact A|]. split; [exact W'|]. split; [exact R|].
  split; [|split; [exact Way|]].
  - intros p e H. destruct A as [A1 A2]. rewrite A2; auto. intros b1 b2 Eb Hb ->. rewrite (Hn b1 b2) in H; auto. discriminate.
  - intros [|fuel'] F'; [lia|]. unfold u_makedirs. assert (Q' := silent_rest _ _ Q R). rewrite run_hooked by auto.
    cbn [fs_makedirs]. unfold u_isdir. erewrite bind_ok; [|rewrite run_hooked by auto; now apply (isdir_found s' W' _ (d ++ b))].
    reflexivity.
Qed.
