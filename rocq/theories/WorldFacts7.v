(** The states before and after, for the theorems of PropsWorld.v. *)
From Coq Require Import Lia Sorted.
From Verif Require Import Str Exc UriParse BaseUri StrFacts SpecUri Mem SpecMem Generic SpecGen World SpecWorld.
From Verif Require Import UriFacts2 UriFacts3 UriFacts5 UriFacts4 MemFacts MemFacts2 MemFacts5 MemFacts7 MemUri GenFacts1 GenFacts3 LocalFacts1 LocalFacts11.
From Verif Require Import Misc Posix Local SpecLocal Zip SpecZip ZipFacts ZipFacts2 WorldFacts1 WorldFacts2 WorldFacts3 WorldFacts4 WorldFacts5 WorldFacts6.

(** ** Memory *)
Local Notation mT := mem_below.
Lemma mT_seen s p : mem_content s p = seen (view s p).
Proof. unfold mem_content, seen. now destruct (view s p) as [[]|]. Qed.
Lemma msrc_start s cs : wf s -> silent s -> (forall r, ~ is_elink (view s (cs ++ r))) -> (forall r, view s (cs ++ r) <> None -> good_path (cs ++ r)) ->
  msrc s cs (mT s cs) s.
Proof.
  intros W Q N G. assert (Rs : same_rest s s) by now repeat split.
  constructor; auto. intros r H. apply G. unfold mem_below in H. rewrite mT_seen in H. now apply seen_some.
Qed.
Lemma msrc_same s cs s' : (forall r, ~ is_elink (view s (cs ++ r))) -> msrc s cs (mT s cs) s' -> same_tree (view s) (view s').
Proof.
  intros N k q. destruct (below_dec cs q) as [[r ->]|Nb].
  - destruct (mT s cs r) as [c|] eqn:E.
    + apply (ms_in s cs _ s' k). congruence.
    + pose proof (ms_tree s cs _ s' k r) as E'. rewrite E in E'. unfold mem_below in E. rewrite mT_seen in E.
      assert (X : view s (cs ++ r) = None). { destruct (view s (cs ++ r)) eqn:Ev; auto. exfalso. apply (seen_some (Some e)); [rewrite <- Ev; apply N|easy|exact E]. }
      assert (Y : view s' (cs ++ r) = None). { destruct (view s' (cs ++ r)) eqn:Ev; auto. exfalso. apply (seen_some (Some e)); [rewrite <- Ev; apply k|easy|now symmetry]. }
      congruence.
  - now apply (ms_out s cs _ s' k).
Qed.
Lemma msrc_cut s cs T s' : msrc s cs T s' -> (forall r, T r = None) -> cut_at (view s) (view s') cs.
Proof.
  intros k N. split.
  - intros r. pose proof (ms_tree s cs T s' k r) as E. rewrite N in E.
    destruct (view s' (cs ++ r)) eqn:Ev; auto. exfalso. apply (seen_some (Some e)); [rewrite <- Ev; apply k|easy|now symmetry].
  - intros q Hq. apply (ms_out s cs T s' k). exact Hq.
Qed.
Lemma mdst_start s : wf s -> silent s -> mdst s (view s) s.
Proof. intros W Q. constructor; auto. now repeat split. Qed.

(** ** Local files *)
Local Notation lT := loc_below.
Lemma content_none x p : (forall tg, pget p (p_tree x) <> Some (PLink tg)) -> content x p = None -> pget p (p_tree x) = None.
Proof. unfold content. intros N H. destruct (pget p (p_tree x)) as [[| |tg]|]; try easy. now destruct (N tg). Qed.
Lemma lsrc_start x cs : sound x -> (forall r tg, pget (cs ++ r) (p_tree x) <> Some (PLink tg)) -> (forall r, pget (cs ++ r) (p_tree x) <> None -> plain_path (cs ++ r)) ->
  lsrc x cs (lT x cs) x.
Proof.
  intros So N G. constructor; auto. intros r H. apply G. unfold loc_below, content in H. now destruct (pget (cs ++ r) (p_tree x)).
Qed.
Lemma lsrc_same x cs x' : (forall r tg, pget (cs ++ r) (p_tree x) <> Some (PLink tg)) -> lsrc x cs (lT x cs) x' -> loc_same x x'.
Proof.
  intros N k. split; [|apply k]. intros q. destruct (below_dec cs q) as [[r ->]|Nb].
  - destruct (lT x cs r) as [c|] eqn:E.
    + apply (ls_in x cs _ x' k). congruence.
    + pose proof (ls_tree x cs _ x' k r) as E'. rewrite E in E'. rewrite !content_none; auto. intros tg. apply (ls_nolink x cs _ x' k).
  - now apply (ls_out x cs _ x' k).
Qed.
Lemma lsrc_cut x cs T x' : lsrc x cs T x' -> (forall r, T r = None) -> loc_cut x x' cs.
Proof.
  intros k N. split; [|split; [|apply k]].
  - intros r. apply content_none; [intros tg; apply (ls_nolink x cs T x' k)|]. now rewrite <- (ls_tree x cs T x' k), N.
  - apply (ls_out x cs T x' k).
Qed.
Lemma ldst_start x : sound x -> ldst x (loc_tree x) x.
Proof. intros So. constructor; auto; now repeat split. Qed.

(** ** Archives *)
Lemma zsrc_start s ms L cs T : connected s ms -> (forall r c, T r = Some c <-> archived ms L (cs ++ r) c) -> zsrc ms L cs T s.
Proof.
  intros (R & H & D) A. apply reachable_knows in R. unfold knows in R. destruct (z_handle s) as [h|] eqn:Eh; [|easy].
  constructor; auto. exists h. split; auto. destruct R as [R|[R _]]; congruence.
Qed.

(** ** Putting it together *)
Lemma zip_last v cs n : name_ok n -> u_last (zip_uri v (cs ++ [n])) = n.
Proof.
  intros H. apply (last_of_text _ (lit "zip://" ++ auth_text (Connector v) ++ flat_map (fun c => cSlash :: c) cs)); auto.
  unfold zip_uri, made. cbn [u_uri]. unfold zip_text. now rewrite abs_path_snoc, <- !app_assoc.
Qed.
Lemma only_put x x' p e : ldst x (put (loc_tree x) p e) x' -> only x x' p (Some e).
Proof.
  intros k. split; [|split; [|apply k]].
  - rewrite <- (ld_tree x _ x' k). unfold put. now rewrite path_eqb_refl.
  - intros q Hq. rewrite <- (ld_tree x _ x' k). unfold put. now rewrite path_eqb_neq.
Qed.
Lemma mem_put_one s s' p e : mdst s (put (view s) p e) s' -> put_at (view s) (view s') p e.
Proof.
  intros k. split.
  - rewrite <- (md_tree s _ s' k). unfold put. now rewrite path_eqb_refl.
  - intros q Hq. rewrite <- (md_tree s _ s' k). unfold put. now rewrite path_eqb_neq.
Qed.
Lemma transferred_ext {E} (D D1 D2 : list str -> option E) new T ig d b : (forall q, D1 q = D2 q) -> transferred D D1 new T ig d b -> transferred D D2 new T ig d b.
Proof.
  intros X (A1 & A2 & A3 & A4). split; [|split; [|split]].
  - intros. rewrite <- X. now apply A1.
  - intros. rewrite <- X. now apply A2.
  - intros. rewrite <- X. now apply (A3 b1 b2).
  - intros. rewrite <- X. now apply A4.
Qed.
Lemma file_nolink s cs d mt mo : view s cs = Some (EFile d mt mo) -> (forall r, ~ is_elink (view s (cs ++ r))) /\ (forall r, view s (cs ++ r) <> None -> r = []).
Proof.
  intros E. assert (X : forall r, view s (cs ++ r) <> None -> r = []).
  { intros r. induction r as [|n r IH] using rev_ind; auto. intros H. rewrite app_assoc in H. pose proof (view_up s _ _ H) as Dr.
    assert (Y : r = []) by (apply IH; destruct Dr as (? & ? & ->); discriminate). subst. rewrite app_nil_r in Dr. rewrite E in Dr. now destruct Dr as (? & ? & ?). }
  split; auto. intros r (t & a & b & H). rewrite (X r) in H by congruence. rewrite app_nil_r, E in H. discriminate.
Qed.
Lemma lfile_nolink x cs d mo mt : sound x -> pget cs (p_tree x) = Some (PFile d mo mt) ->
  (forall r tg, pget (cs ++ r) (p_tree x) <> Some (PLink tg)) /\ (forall r, pget (cs ++ r) (p_tree x) <> None -> r = []).
Proof.
  intros So E. assert (X : forall r, pget (cs ++ r) (p_tree x) <> None -> r = []).
  { intros r. induction r as [|n r IH] using rev_ind; auto. intros H. rewrite app_assoc in H. destruct (so_up x So _ _ H) as (a & b & Dr).
    assert (Y : r = []) by (apply IH; congruence). subst. rewrite app_nil_r in Dr. congruence. }
  split; auto. intros r tg H. rewrite (X r) in H by congruence. rewrite app_nil_r in H. congruence.
Qed.
Lemma snoc_ne (cs : list str) n : cs ++ [n] <> []. Proof. now destruct cs. Qed.
Lemma mT0 s cs : mT s cs [] = mem_content s cs. Proof. unfold mem_below. now rewrite app_nil_r. Qed.
Lemma lT0 x cs : lT x cs [] = content x cs. Proof. unfold loc_below. now rewrite app_nil_r. Qed.
Lemma mus0 cs : mus cs [] = mem_uri cs. Proof. unfold mus. now rewrite app_nil_r. Qed.
Lemma lus0 cs : lus cs [] = file_uri cs. Proof. unfold lus. now rewrite app_nil_r. Qed.
Lemma zus0 v cs : zus v cs [] = zip_uri v cs. Proof. unfold zus. now rewrite app_nil_r. Qed.
Lemma mlast cs n : good_path (cs ++ [n]) -> u_last (mus (cs ++ [n]) []) = n.
Proof. intros G. rewrite mus0. apply mem_last. now apply good_name in G. Qed.
Lemma llast cs n : plain_path (cs ++ [n]) -> u_last (lus (cs ++ [n]) []) = n.
Proof. intros G. rewrite lus0. apply file_last. apply pp_names, Forall_app in G as [_ G]. inversion G; subst. now apply pn_name. Qed.
Lemma new_loc x : loc_new x None = PDir (ndirmode x) (p_now x) /\ forall d, loc_new x (Some d) = rewritten x None d.
Proof. now split. Qed.
Lemma new_mem s : mem_new s None = EDir (m_now s) 0 /\ forall d, mem_new s (Some d) = (fun (_ : option entry) d => EFile d (m_now s) 0) None d.
Proof. now split. Qed.

(** The four ways *)
Lemma mem_loc_way s x cs : cs <> [] -> contract mem_loc (mus cs) file_uri plain_path is_pdir is_plink (PDir (ndirmode x) (p_now x)) (rewritten x) (K12 (msrc s cs) (ldst x)).
Proof. intros N. apply contract12; [reflexivity|reflexivity|now apply mem_source|apply loc_target]. Qed.
Lemma loc_mem_way s x cs : cs <> [] -> contract mem_loc (lus cs) mem_uri good_path mem_dir mem_link (EDir (m_now s) 0) (fun _ d => EFile d (m_now s) 0) (K21 (lsrc x cs) (mdst s)).
Proof. intros N. apply contract21; [reflexivity|reflexivity|now apply loc_source|apply mem_target]. Qed.
Lemma zip_mem_way s v ms L cs : auth_ok (Connector v) -> proper ms L -> cs <> [] ->
  contract zip_mem (zus v cs) mem_uri good_path mem_dir mem_link (EDir (m_now s) 0) (fun _ d => EFile d (m_now s) 0) (K12 (zsrc ms L cs) (mdst s)).
Proof. intros A P N. apply contract12; [reflexivity|reflexivity|now apply zip_source|apply mem_target]. Qed.
Lemma zip_loc_way x v ms L cs : auth_ok (Connector v) -> proper ms L -> cs <> [] ->
  contract zip_file (zus v cs) file_uri plain_path is_pdir is_plink (PDir (ndirmode x) (p_now x)) (rewritten x) (K12 (zsrc ms L cs) (ldst x)).
Proof. intros A P N. apply contract12; [reflexivity|reflexivity|now apply zip_source|apply loc_target]. Qed.

