(** md5, glob and makedirs on the memory backend with their exceptions. *)
From Verif Require Import Str Exc Utf8 UriParse BaseUri StrFacts Utf8Facts SpecUri Mem SpecMem SpecHandle SpecExact SpecCopy Generic SpecGen.
From Verif Require Import MemFacts MemFacts2 MemFacts3 MemFacts4 MemFacts5 MemFacts6 MemFacts7 MemFacts9 MemUri MemFacts10 HandleFacts GenFacts1 GenFacts6 GenFacts10 ExactFacts ExactFacts2 ExactFacts3 CopyFacts CopyFacts2.
Local Notation B := mem_backend.

Lemma resolves_fail_app t k d a o b : resolves t k d a o -> In o [Dead; NotDir; Loop; BadLink] -> resolves t k d (a ++ b) o.
Proof.
  induction 1 as
    [k d0|k d0 x rest Hx|k d0 x rest Hd0 Hm|k d0 x rest o' Hd0 Hr R IH|d0 x rest Hd0 Hl
    |k d0 x rest target mt mo Hd0 Hl Ha|k d0 x rest target mt mo cs q o' Hd0 Hl Ha R1 IH1 R2 IH2
    |k d0 x target mt mo cs Hd0 Hl Ha R IH|k d0 x m rest target mt mo cs Hd0 Hl Ha R IH
    |k d0 x rest target mt mo cs o' Hd0 Hl Ha R IH Ho]; intros I; cbn [app].
  - cbn in I. intuition discriminate.
  - now constructor.
  - cbn in I. intuition discriminate.
  - apply rs_step; auto.
  - now constructor.
  - eapply rs_badlink; eauto.
  - eapply rs_link; eauto.
  - cbn in I. intuition discriminate.
  - eapply rs_link_dead; eauto.
  - eapply rs_link_fails; eauto.
Qed.

Section S.
Variable s : mst.
Hypothesis W : wf s.
Hypothesis Q : silent s.
Let t := view s.

Lemma run_md5 {D} (H : list N -> D) u r : opening t (m_now s) (Some (lit "rb")) u r ->
  match r with
  | Refused e => u_md5 H u s = (Raise e, s)
  | Opens _ start _ => exists s', u_md5 H u s = (Ok (H (o_data start)), s') /\ wf s' /\ same_rest s s' /\ same_tree t (view s')
  end.
Proof.
  intros O. assert (F := run_opening s W Q _ _ _ O). unfold u_md5. destruct O as [cs r A R|N].
  - destruct r as [e|q start mode]; cbn [open_fact] in F.
    + rewrite (bind_ok _ _ s tt s) by now apply silent_hook with cs. now rewrite (bind_raise _ _ s e s) by exact F.
    + inversion R; subst; try discriminate. match goal with L : leads _ _ _, T : _ = Some _ |- _ => exact (md5_spec H s u _ _ _ _ W Q (ex_intro _ cs (conj A L)) T) end.
  - apply bind_raise. now apply nowhere_hook.
Qed.

Lemma run_glob_loop (m : str -> str -> bool) u pat l : forall acc,
  foldM (fun res f => if m f pat then let! p <- lift (u_div u f); ret (res ++ [p]) else ret res) acc l s =
    (match all_ok (u_div u) (filter (fun n => m n pat) l) with Ok ys => Ok (acc ++ ys) | Raise e => Raise e end, s).
Proof.
  induction l as [|n l IH]; intros acc; cbn [foldM filter].
  - cbn. now rewrite app_nil_r.
  - destruct (m n pat).
    + unfold bind at 1, bind at 1, lift. cbn [all_ok]. destruct (u_div u n) as [y|e]; [|reflexivity]. cbn [ret]. rewrite IH.
      destruct (all_ok (u_div u) (filter (fun n0 => m n0 pat) l)); [|reflexivity]. now rewrite <- app_assoc.
    + unfold bind at 1. cbn [ret]. apply IH.
Qed.

End S.

Lemma makedirs_exact cs : forall s fuel o, wf s -> silent s -> good_path cs -> leads (view s) cs o -> (forall d b, ~ gap (view s) cs d b) -> (length cs < fuel)%nat ->
  fs_makedirs B fuel (mem_uri cs) s = (Raise (mk_exc o), s).
Proof.
  induction cs as [|n init IH] using rev_ind; intros s fuel o W Q G L NG F.
  { exfalso. apply (NG [] []). exists []. split; [reflexivity|]. split; [constructor|]. split; [|discriminate]. apply (root_dir s W). }
  destruct fuel as [|fuel]; [lia|]. rewrite app_length in F. cbn in F. pose proof (good_app _ _ G) as Gi. cbn [fs_makedirs]. unfold u_isdir.
  assert (Ed := exact_isdir s W _ _ _ (mem_addr _ G) L).
  assert (Down : test_rule (view s) is_dir_e o = Ok false ->
    (let! d <- hooked B "isdir" (mem_uri (init ++ [n])) (b_isdir B (mem_uri (init ++ [n])));
     if d then ret tt
     else let! pt <- lift (u_split (mem_uri (init ++ [n])));
          let! pd <- hooked B "isdir" (fst pt) (b_isdir B (fst pt));
          (if pd then ret tt else fs_makedirs B fuel (fst pt)) ;;
          match snd pt with [] => ret tt | _ => u_mkdir B (mem_uri (init ++ [n])) end) s = (Raise (OSError EEXIST), s)).
  { intros T. rewrite T in Ed. erewrite bind_ok; [|rewrite run_hooked by auto; exact Ed]. cbn match.
    erewrite bind_ok; [|apply lift_ok; apply mem_split; apply G]. cbn [fst snd].
    destruct (leads_total (m_heap s) init) as [oi Li]. assert (Ei := exact_isdir s W _ _ _ (mem_addr _ Gi) Li).
    assert (Bad : In oi [Dead; NotDir; Loop; BadLink] -> oi = o) by (intros I; apply (leads_det (m_heap s) (m_next s) W (init ++ [n])); [now apply resolves_fail_app|exact L]).
    assert (Rec : test_rule (view s) is_dir_e oi = Ok false -> mk_exc oi = OSError EEXIST -> (forall d, oi <> Found d) ->
      (let! pd <- hooked B "isdir" (mem_uri init) (b_isdir B (mem_uri init));
       (if pd then ret tt else fs_makedirs B fuel (mem_uri init)) ;;
       match n with [] => ret tt | _ => u_mkdir B (mem_uri (init ++ [n])) end) s = (Raise (OSError EEXIST), s)).
    { intros Ti Xi Nf. rewrite Ti in Ei. erewrite bind_ok; [|rewrite run_hooked by auto; exact Ei]. cbn match. erewrite bind_raise; [reflexivity|].
      rewrite <- Xi. apply IH; auto; [|lia]. intros d b (a & -> & La & D & N). apply (NG d (b ++ [n])). exists a. split; [now rewrite app_assoc|]. split; [exact La|]. split; [exact D|].
      intros x b' E. destruct b as [|y b]; [|injection E as <- _; now apply (N y b)].
      exfalso. rewrite app_nil_r in Li. apply (Nf d). exact (leads_det (m_heap s) (m_next s) W _ _ _ Li La). }
    destruct oi as [d| | | | |].
    - destruct (edir_dec (view s d)) as [D|D].
      + erewrite bind_ok; [|rewrite run_hooked by auto; now apply (isdir_found s W init d)].
        destruct (view s (d ++ [n])) eqn:E.
        * erewrite bind_ok by reflexivity.
          destruct n as [|c n]; [exfalso; apply (name_ne [] (good_name init [] [] G)); reflexivity|].
          unfold u_mkdir. rewrite run_hooked by auto. apply (run_mkdir_taken s) with (init := init) (n := c :: n) (d := d); auto. congruence.
        * exfalso. apply (NG d [n]). exists init. repeat split; auto. intros x b0 E0. injection E0 as <- _. exact E.
      + exfalso. assert (Ln : leads (view s) (init ++ [n]) NotDir) by (eapply rs_app; eauto; now constructor).
        pose proof (leads_det (m_heap s) (m_next s) W _ _ _ L Ln) as ->. discriminate T.
    - apply Rec; auto; discriminate.
    - rewrite <- Bad in T by (cbn; auto). discriminate T.
    - rewrite <- Bad in T by (cbn; auto). discriminate T.
    - apply Rec; auto; discriminate.
    - rewrite <- Bad in T by (cbn; auto 6). discriminate T. }
  destruct o as [q| | | | |]; cbn [mk_exc]; try (apply Down; reflexivity); try (erewrite bind_raise; [reflexivity|]; rewrite run_hooked by auto; exact Ed).
  apply Down. cbn [test_rule] in *. destruct (leads_real _ _ W _ _ L) as [(a & b & c & K)|K].
  - unfold view. now rewrite K.
  - exfalso. apply (NG q []). exists (init ++ [n]). split; [now rewrite app_nil_r|]. repeat split; auto. discriminate.
Qed.
