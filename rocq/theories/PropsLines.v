(** C31 from every position of the file, and for readline and readlines. *)
From Verif Require Import Str Exc Utf8 UriParse BaseUri StrFacts Utf8Facts SpecUri Mem Lines SpecMem SpecFile MemOps.
From Verif Require Import UriFacts2 UriFacts3 MemFacts MemFacts2 MemFacts3 MemFacts4 MemFacts5 MemFacts6 MemFacts7 MemFacts8 MemFacts9 MemUri MemFacts10 MemFacts11 PropsMem.

Lemma readlines_same fuel : forall h s, h_readlines fuel h s = h_lines fuel h s.
Proof.
  induction fuel as [|fuel IH]; intros h s; [reflexivity|]. cbn [h_readlines h_lines]. unfold h_next, bind, lift.
  destruct (file_readline (h_node h) s) as [[[|c b]|e] s1]; try reflexivity. destruct (proxy_decode h (c :: b)) as [v|e]; [|reflexivity].
  cbn [ret]. now rewrite IH.
Qed.
Lemma decode_some c b t : utf8_decode (c :: b) = Ok t -> t <> [].
Proof.
  unfold utf8_decode. cbn [length decode_fuel]. destruct (dec_step c b); [|discriminate].
  destruct (decode_fuel _ rest) as [t'|]; [|discriminate]. cbn [rbind]. intros [= <-]. discriminate.
Qed.
Lemma readline_same fuel : forall h s, h_readline_all fuel h s = h_lines fuel h s.
Proof.
  induction fuel as [|fuel IH]; intros h s; [reflexivity|]. cbn [h_readline_all h_lines]. unfold h_readline, h_next, bind, lift.
  destruct (file_readline (h_node h) s) as [[b|e] s1]; [|reflexivity]. unfold proxy_decode. destruct (h_binary h).
  - destruct b as [|c b]; [reflexivity|]. cbn [ret]. now rewrite IH.
  - destruct b as [|c b]; [reflexivity|]. destruct (utf8_decode (c :: b)) as [t|e] eqn:D; [|reflexivity]. cbn [rbind ret].
    destruct t as [|x t]; [now apply decode_some in D|]. now rewrite IH.
Qed.

(** The ways to read lines *)
Inductive reads_lines (fuel : nat) : (handle -> M mst (list pyval)) -> Prop :=
| rl_iter : reads_lines fuel (h_lines fuel)
| rl_readlines : reads_lines fuel (h_readlines fuel)
| rl_readline : reads_lines fuel (h_readline_all fuel).
Lemma reads_same fuel way h s : reads_lines fuel way -> way h s = h_lines fuel h s.
Proof. intros []; [reflexivity|apply readlines_same|apply readline_same]. Qed.
(** h = u.open(m); h.seek(p); the lines from there *)
Definition lines_from (u : uri) (m : option str) (p : N) (way : handle -> M mst (list pyval)) : M mst (list pyval) :=
  let! hd <- mem_open u m; h_seek hd (Z.of_N p) 0 ;; way hd.

Lemma seek_run s i f p : m_heap s i = NFile f -> exists s', file_seek i (Z.of_N p) 0 s = (Ok tt, s') /\ file_upd s s' i f (fset f (f_data f) (N.to_nat p) (f_mtime f)).
Proof.
  intros E. pose proof (run_seek s i f E (Z.of_N p) 0) as K. unfold bio_seek in K. change (0 =? 0)%Z with true in K. cbv iota in K.
  replace (Z.of_N p <? 0)%Z with false in K by (symmetry; apply Z.ltb_ge; apply N2Z.is_nonneg). replace (Z.to_nat (Z.of_N p)) with (N.to_nat p) in K by lia. exact K.
Qed.
Theorem C31_from s u q data mt mo m p fuel : reachable s -> denotes (view s) u (Found q) -> view s q = Some (EFile data mt mo) ->
  has_char 114 m = true -> has_char 98 m = true -> (length data < fuel)%nat ->
  exists ls, is_lines (skipn (N.to_nat p) data) ls /\
    forall way, reads_lines fuel way -> exists s', lines_from u (Some m) p way s = (Ok (map VBytes ls), s') /\ same_tree (view s) (view s').
Proof.
  intros R D E A B F. pose proof (reachable_wf s R) as W. exists (split_lines fuel (skipn (N.to_nat p) data)).
  assert (L : (length (skipn (N.to_nat p) data) < fuel)%nat) by (rewrite skipn_length; lia). split; [now apply split_lines_spec|]. intros way Wy.
  destruct (open_read s W u true q data mt mo D E) as (s1 & hd & f & E1 & Eh & Op & D1 & P1 & _ & _ & T1).
  destruct (seek_run s1 (h_node hd) f p) as (s2 & E2 & U2); [apply Op|].
  destruct (h_lines_spec (h_node hd) fuel s2 _ true (fu_new _ _ _ _ _ U2)) as (s3 & pos & E3 & U3).
  { cbn [fset f_pos f_data]. now rewrite D1. }
  exists s3. split.
  - unfold lines_from. rewrite mem_open_read, B by auto. unfold bind. rewrite E1, Eh. unfold h_seek. cbn [h_node]. rewrite E2, (reads_same fuel way _ _ Wy), E3.
    cbn [fset f_pos f_data]. now rewrite D1.
  - eapply same_tree_trans; [exact T1|]. eapply same_tree_trans; eapply file_upd_quiet; try exact U2; try exact U3; reflexivity.
Qed.
Theorem C31_from_text s u q t b pre mt mo m fuel : reachable s -> denotes (view s) u (Found q) ->
  view s q = Some (EFile (pre ++ b) mt mo) -> text_ok t -> utf8_encode t = Ok b ->
  match m with None => True | Some o => has_char 114 o = true /\ has_char 98 o = false end -> (length t < fuel)%nat ->
  exists ls, is_lines t ls /\
    forall way, reads_lines fuel way -> exists s', lines_from u m (N.of_nat (length pre)) way s = (Ok (map VStr ls), s') /\ same_tree (view s) (view s').
Proof.
  intros R D E Ht Eb Hm F. pose proof (reachable_wf s R) as W. rewrite encode_enc in Eb by auto. injection Eb as <-.
  exists (split_lines fuel t). split; [now apply split_lines_spec|]. intros way Wy.
  destruct (open_read s W u false q _ mt mo D E) as (s1 & hd & f & E1 & Eh & Op & D1 & P1 & _ & _ & T1).
  destruct (seek_run s1 (h_node hd) f (N.of_nat (length pre))) as (s2 & E2 & U2); [apply Op|].
  destruct (h_lines_text (h_node hd) fuel s2 _ true t (fu_new _ _ _ _ _ U2)) as (s3 & pos & E3 & U3); auto.
  { cbn [fset f_pos f_data]. rewrite D1, Nat2N.id, skipn_app, skipn_all, Nat.sub_diag. reflexivity. }
  exists s3. split.
  - unfold lines_from. rewrite mem_open_read by (destruct m; tauto).
    replace (match m with Some o => has_char 98 o | None => false end) with false by (destruct m; [symmetry; apply Hm|auto]).
    unfold bind. rewrite E1, Eh. unfold h_seek. cbn [h_node]. now rewrite E2, (reads_same fuel way _ _ Wy), E3.
  - eapply same_tree_trans; [exact T1|]. eapply same_tree_trans; eapply file_upd_quiet; try exact U2; try exact U3; reflexivity.
Qed.
Print Assumptions C31_from.
Print Assumptions C31_from_text.
(** from the second character; beyond the end *)
Example C31_from_witness :
  fst (lines_from (U ["d"; "f"]%string) (Some (lit "rb")) 2 (h_readlines 20) demo) = Ok [VBytes (lit "llo" ++ [10%N]); VBytes (lit "world")] /\
  fst (lines_from (U ["d"; "f"]%string) None 6 (h_readline_all 20) demo) = Ok [VStr (lit "world")] /\
  fst (lines_from (U ["d"; "f"]%string) None 60 (h_lines 20) demo) = Ok [].
Proof. repeat split; vm_compute; reflexivity. Qed.
