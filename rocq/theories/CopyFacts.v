(** The rules of SpecExact.v and SpecCopy.v depend on the contents of the tree only. *)
From Verif Require Import Str Exc Utf8 UriParse BaseUri StrFacts SpecUri Mem SpecMem SpecHandle SpecExact SpecCopy.
From Verif Require Import MemFacts MemFacts2 MemFacts3 MemFacts4 MemFacts5 MemFacts6 MemFacts7 MemFacts9.

Lemma same_tree_sym t t' : same_tree t t' -> same_tree t' t. Proof. intros S q. symmetry. apply S. Qed.

Section T.
Variables t t' : tree.
Hypothesis E : same_tree t t'.
Lemma leads_same cs o : leads t cs o -> leads t' cs o.
Proof. apply leads_shape, same_shape_same, E. Qed.
Lemma leads_same' cs o : leads t' cs o -> leads t cs o.
Proof. apply leads_shape, same_shape_same, same_tree_sym, E. Qed.
Lemma fresh_same init n : fresh_last t init n -> fresh_last t' init n.
Proof. intros F pre post d X L. rewrite E. apply (F pre post d X). now apply leads_same'. Qed.
Lemma spots_same cs sp : spots t cs sp -> spots t' cs sp.
Proof.
  destruct 1 as [|init n d F L D T|init n d F L D T|init n d F L D|init n o o' F L No L'|pre n post d L K].
  - constructor.
  - apply sp_entry; try rewrite E; auto using fresh_same, leads_same.
  - apply sp_absent; try rewrite E; auto using fresh_same, leads_same.
  - apply sp_notdir with d; try rewrite E; auto using fresh_same, leads_same.
  - apply sp_lost with o; auto using fresh_same, leads_same.
  - apply sp_same_name with d; try rewrite E; auto using leads_same.
Qed.
Lemma reaches_same cs f r : reaches t cs f r -> reaches t' cs f r.
Proof. destruct 1; econstructor; eauto using leads_same, spots_same. Qed.
Lemma test_same f o : test_rule t' f o = test_rule t f o.
Proof. destruct o; cbn; auto. now rewrite E. Qed.
Lemma link_same sp : link_rule t' sp = link_rule t sp.
Proof. destruct sp; cbn; auto. now rewrite E. Qed.
Lemma target_same r : target_rule t' r = target_rule t r.
Proof. destruct r; cbn; auto. now rewrite E. Qed.
Lemma attr_same f r : attr_rule t' f r = attr_rule t f r.
Proof. destruct r; cbn; auto. now rewrite E. Qed.
Lemma removefile_same l sp : removefile_rule t' l sp = removefile_rule t l sp.
Proof. destruct sp as [[|c p]| |]; cbn [removefile_rule]; auto. now rewrite E. Qed.
Lemma removedir_same l cs f : removedir_rule t l cs f -> removedir_rule t' l cs f.
Proof.
  destruct 1 as [|init n o L No|init n q d L L0 T|init n q d o L L0 T L1 No|init n q d r L L0 L1 F|init n q d r m L L0 L1 D T|init n q d r L L0 L1 D T].
  - constructor.
  - apply rd_lost; auto using leads_same.
  - apply rd_absent with q d; try rewrite E; auto using leads_same.
  - apply rd_stuck with q d; try rewrite E; auto using leads_same.
  - apply rd_file with q d r; try rewrite E; auto using leads_same.
  - apply rd_full with q d r m; try rewrite E; auto using leads_same.
  - apply rd_empty with q r; try rewrite E; auto using leads_same. intros m. now rewrite E.
Qed.
Lemma open_rule_same now m cs r : open_rule t now m cs r -> open_rule t' now m cs r.
Proof.
  destruct 1 as [q d mt mo O L T|q d mt mo O1 O2 O3 L T|q O L T|o O L No|init n d O1 O2 E' L D T|q O1 O2 L F|q O1 O2 L F|init n d o O1 O2 E' L D T L' No|init n d O1 O2 E' L D|init n o O1 O2 E' L No|O1 O2 O3].
  - apply or_read; try rewrite E; auto using leads_same.
  - apply or_append; try rewrite E; auto using leads_same.
  - apply or_dir with q; try rewrite E; auto using leads_same.
  - apply or_lost; auto using leads_same.
  - apply or_new with init; try rewrite E; auto using leads_same.
  - apply or_file; try rewrite E; auto using leads_same.
  - apply or_isdir with q; try rewrite E; auto using leads_same.
  - apply or_dead with init n d; try rewrite E; auto using leads_same.
  - apply or_nodir with init n d; try rewrite E; auto using leads_same.
  - apply or_noway with init n; auto using leads_same.
  - now apply or_mode.
Qed.
Lemma place_same u sl : place t u sl -> place t' u sl.
Proof. apply place_shape, same_shape_same, E. Qed.
Lemma tests_same f u r : tests t f u r -> tests t' f u r.
Proof. destruct 1; [|now constructor]. rewrite <- test_same. apply te_path with cs; auto using leads_same. Qed.
Lemma links_same u r : links t u r -> links t' u r.
Proof. destruct 1; [|now constructor]. rewrite <- link_same. apply lk_path with cs; auto using spots_same. Qed.
Lemma unlinks_same u f : unlinks t u f -> unlinks t' u f.
Proof. destruct 1; [|now constructor]. rewrite <- removefile_same. apply ul_path with cs; auto using spots_same. Qed.
Lemma goes_same u f r : goes t u f r -> goes t' u f r.
Proof. destruct 1; [|now constructor]. apply go_path with cs; auto using reaches_same. Qed.
Lemma opening_same now m u r : opening t now m u r -> opening t' now m u r.
Proof. destruct 1; [|now constructor]. apply op_path with cs; auto using open_rule_same. Qed.
Lemma changes_same f r a a' : same_tree a a' -> changes t f r a -> changes t' f r a'.
Proof.
  intros Ea. destruct 1 as [e x S|x S|p e x [P1 P2]|p x [P1 P2]].
  - constructor. intros q. now rewrite Ea, E, S.
  - constructor. intros q. now rewrite Ea, E, S.
  - constructor. split; [now rewrite Ea|]. intros q N. rewrite Ea, E. auto.
  - constructor. split; [intros r; now rewrite Ea|]. intros q N. rewrite Ea, E. auto.
Qed.
Lemma remove_rule_same u cs f : remove_rule t u cs f -> remove_rule t' u cs f.
Proof.
  destruct 1 as [sp e S L|sp sp' S L S'|sp o e S L K T|sp o S L K O|sp q f S L K D R|sp q sp' S L K F S'].
  - apply rm_unknown with sp; try rewrite link_same; auto using spots_same.
  - rewrite <- removefile_same. apply rm_link with sp; try rewrite link_same; auto using spots_same.
  - apply rm_lost with sp o; try rewrite link_same; try rewrite test_same; auto using spots_same, leads_same.
  - apply rm_missing with sp o; try rewrite link_same; auto using spots_same, leads_same.
  - apply rm_dir with sp q; try rewrite link_same; try rewrite E; auto using spots_same, leads_same, removedir_same.
  - rewrite <- removefile_same. apply rm_file with sp q; try rewrite link_same; try rewrite E; auto using spots_same, leads_same.
Qed.
Lemma removes_same u f : removes t u f -> removes t' u f.
Proof. destruct 1; [|now constructor]. apply rm_path with cs; auto using remove_rule_same. Qed.
End T.
