(** C144: what a zip archive does not support. *)
From Coq Require Import String.
From Verif Require Import Str Exc UriParse BaseUri Mem Generic Fnmatch Plug SpecPlug PlugFacts PlugFacts2 Zip PropsPlug.
Local Open Scope string_scope.
Local Open Scope list_scope.
Section ZipProps.
Context {F V : Type}.
Variables (op : uri -> option str -> M zst F) (rd : F -> N -> M zst V) (wr : F -> V -> M zst unit) (ex : F -> M zst unit).
Variables (truthy : V -> bool) (bytes_of : V -> option (list N)) (fnm : str -> str -> bool).
Notation run := (run_pop truthy bytes_of fnm (zip_class op rd wr ex)).
Definition same_disk (d : disk) (s : zst) : Prop := z_disk s = d /\ flushed s.
Lemma ispart_disk u k d : sound (same_disk d) (fun _ => True) (zip_ispart u k).
Proof. intros s i. unfold zip_ispart. destruct (str_eqb _ _); [auto|]. destruct (z_handle s); auto. Qed.
Lemma reopen_disk d : sound (same_disk d) (fun _ => True) (open_zip None).
Proof.
  intros s [D Fl]. split; [|auto]. unfold open_zip, bind, close_zip. destruct (z_handle s) as [h|] eqn:E.
  - unfold flushed in Fl. rewrite E in Fl. destruct (zh_open h) eqn:O; cbn [andb] in Fl; [rewrite Fl|]; unfold zipfile_r; cbn [z_disk z_handle];
      destruct (z_disk s) eqn:Q; cbn [snd]; (split; [cbn; congruence|]); unfold flushed; cbn; rewrite ?E, ?O; auto.
  - unfold zipfile_r. destruct (z_disk s) eqn:Q; cbn [snd]; (split; [cbn; congruence|]); unfold flushed; cbn; rewrite ?E; auto.
Qed.
Lemma listdir_disk u d : sound (same_disk d) (fun _ => True) (zip_listdir u).
Proof.
  intros s i. split; [|auto]. unfold zip_listdir. destruct (z_disk s) eqn:Q; [exact i| |].
  - unfold bind at 1. destruct (z_handle s) eqn:E; [unfold ret|].
    + unfold bind, zip_isdir. pose proof (proj1 (ispart_disk u (fun k => match k with KDir => true | _ => false end) d s i)) as J.
      destruct (zip_ispart u _ s) as [[[]|e] s']; cbn [fst snd negb] in *; auto. destruct (z_handle s'); auto.
    + pose proof (proj1 (reopen_disk d s i)) as J. destruct (open_zip None s) as [[[]|e] s']; cbn [snd] in *; auto.
      unfold bind, zip_isdir. pose proof (proj1 (ispart_disk u (fun k => match k with KDir => true | _ => false end) d s' J)) as J2.
      destruct (zip_ispart u _ s') as [[[]|e] s'']; cbn [fst snd negb] in *; auto. destruct (z_handle s''); auto.
  - unfold bind at 1. destruct (z_handle s) eqn:E; [unfold ret|].
    + unfold bind, zip_isdir. pose proof (proj1 (ispart_disk u (fun k => match k with KDir => true | _ => false end) d s i)) as J.
      destruct (zip_ispart u _ s) as [[[]|e] s']; cbn [fst snd negb] in *; auto. destruct (z_handle s'); auto.
    + pose proof (proj1 (reopen_disk d s i)) as J. destruct (open_zip None s) as [[[]|e] s']; cbn [snd] in *; auto.
      unfold bind, zip_isdir. pose proof (proj1 (ispart_disk u (fun k => match k with KDir => true | _ => false end) d s' J)) as J2.
      destruct (zip_ispart u _ s') as [[[]|e] s'']; cbn [fst snd negb] in *; auto. destruct (z_handle s''); auto.
Qed.
Theorem C144_unchanged n o s : no_members o -> flushed s -> z_disk (snd (run n o s)) = z_disk s /\ flushed (snd (run n o s)).
Proof.
  intros N Fl. apply (C141_invariant truthy bytes_of fnm (same_disk (z_disk s))); [|now split].
  intros m q. unfold keeps_inv. destruct m; cbn [sound_method zip_class o_hook o_open o_listdir o_removefile o_removedir o_mkdir o_exists o_isfile o_isdir o_isexec o_set_exec o_supports o_islink
    o_readlink o_symlink o_info o_sync o_mtime o_copystat o_lock o_manipulate o_internal_copy o_switch o_update o_log o_log_by_time if_given]; try exact Logic.I;
    try (intros; intros s' i; split; [exact i|auto]; fail);
    try (intros; first [apply listdir_disk | apply ispart_disk]; fail);
    exfalso; destruct o; try contradiction; cbn [needs] in q; repeat match goal with b : bool |- _ => destruct b end; cbn in q; intuition discriminate.
Qed.
Theorem C144_raises n s u v m i fl o a b k :
  run n (PMkdir u) s = (Raise NotImplementedError, s) /\ run n (PIsexec u m) s = (Raise NotImplementedError, s) /\
  run n (PSetExec u m) s = (Raise NotImplementedError, s) /\ run n (PMtime u) s = (Raise NotImplementedError, s) /\
  run n (PInfo u i fl) s = (Raise NotImplementedError, s) /\ run n (PSync u v o) s = (Raise NotImplementedError, s) /\
  run n (PCopystat u v) s = (Raise NotImplementedError, s) /\ run n (PReadlink u) s = (Raise OperationIsNotSupportedOnPlatform, s) /\
  run n (PSymlink u v) s = (Raise OperationIsNotSupportedOnPlatform, s) /\ run n (PLock u a b) s = (Raise AttributeError, s) /\
  run n (PManipulate u k) s = (Raise AttributeError, s) /\ run n (PIslink u) s = (Ok (RBool false), s).
Proof. repeat split. Qed.
Theorem C144_remove n r u s x : fst (run n (PRemove r u) s) <> Ok x.
Proof.
  cbn [run_pop]. unfold ans, u_remove, hooked. cbn [class_backend b_hook b_islink b_exists b_isdir b_isfile b_removefile b_removedir]. unfold c_hook, c_islink, c_exists, c_isdir, c_isfile, c_removefile,
    c_removedir, c_supports. cbn [zip_class o_hook o_islink o_supports o_exists o_isdir o_isfile o_removefile o_removedir].
  unfold bind at 1. unfold bind at 1. unfold ret at 1. unfold bind at 1. unfold bind at 1. cbn [ret negb]. unfold ret at 1.
  unfold bind at 1. unfold zip_exists, zip_isdir, zip_isfile, zip_ispart.
  destruct (str_eqb (u_path u) [cSlash]) eqn:P.
  - cbn [negb]. unfold bind at 1. rewrite ?P. destruct r; [|discriminate].
    unfold remove_dir_recursively. cbn [b_islink b_removefile b_removedir class_backend]. unfold bind at 1.
    destruct (walk_gen _ _ _ _ _ _ _ s) as [[y|e] s']; [|discriminate]. discriminate.
  - destruct (z_handle s) as [h|] eqn:Hh; [|discriminate].
    destruct (existsb (fun n0 => match compare_path_strings (u_path u) n0 with KNone => false | _ => true end) (m_names (zh_members h))) eqn:X; cbn [negb].
    + unfold bind at 1. rewrite ?P, ?Hh. destruct (existsb (fun n0 => match compare_path_strings (u_path u) n0 with KDir => true | _ => false end) (m_names (zh_members h))) eqn:D.
      * destruct r; [|discriminate]. unfold remove_dir_recursively. cbn [b_islink b_removefile b_removedir class_backend]. unfold bind at 1.
        destruct (walk_gen _ _ _ _ _ _ _ s) as [[y|e] s']; [|discriminate]. discriminate.
      * unfold bind at 1. rewrite ?P, ?Hh. destruct (existsb (fun n0 => match compare_path_strings (u_path u) n0 with KFile => true | _ => false end) (m_names (zh_members h))) eqn:G; [discriminate|].
        exfalso. apply existsb_exists in X as (y & I & Y). destruct (compare_path_strings (u_path u) y) eqn:C; [discriminate| |].
        -- assert (T : existsb (fun n0 => match compare_path_strings (u_path u) n0 with KDir => true | _ => false end) (m_names (zh_members h)) = true) by (apply existsb_exists; exists y; rewrite C; auto). congruence.
        -- assert (T : existsb (fun n0 => match compare_path_strings (u_path u) n0 with KFile => true | _ => false end) (m_names (zh_members h)) = true) by (apply existsb_exists; exists y; rewrite C; auto). congruence.
    + unfold bind, lift. destruct (u_str u); discriminate.
Qed.
End ZipProps.
Print Assumptions C144_unchanged.
Print Assumptions C144_raises.
Print Assumptions C144_remove.

(** The class has the methods Zip.v says the backend has. *)
Theorem C144_class {F V} op rd wr ex (truthy : V -> bool) n u v :
  let b := class_backend truthy (@zip_class F V op rd wr ex) n in
  (forall s, b_exists b u s = b_exists zip_backend u s) /\ (forall s, b_isfile b u s = b_isfile zip_backend u s) /\ (forall s, b_isdir b u s = b_isdir zip_backend u s) /\
  (forall s, b_islink b u s = b_islink zip_backend u s) /\ (forall s, b_listdir b u s = b_listdir zip_backend u s) /\ (forall s, b_removefile b u s = b_removefile zip_backend u s) /\
  (forall s, b_removedir b u s = b_removedir zip_backend u s) /\ (forall s, b_mkdir b u s = b_mkdir zip_backend u s) /\ (forall s, b_symlink b u v s = b_symlink zip_backend u v s) /\
  (forall s, b_readlink b u s = b_readlink zip_backend u s) /\ (forall s, b_copystat b u v s = b_copystat zip_backend u v s).
Proof. repeat split. Qed.
Print Assumptions C144_class.

Definition zdemo : zst := mkZ (DZip [(lit "/d/a", [1%N; 2%N]); (lit "/b", [])]) (Some (mkZH false [(lit "/d/a", [1%N; 2%N]); (lit "/b", [])] false true)).
Definition ZU0 (t : string) : uri := match mk_uri UZip (lit t) cSlash [] with Ok u => u | Raise _ => mkUri UBase [] 0%N (mkParsed None None [] [] None [] None None None 0 []) [] None None end.
Example C144_witness :
  let run := run_pop (fun b : bool => b) (fun _ => None) fnmatch (@zip_class unit bool (fun _ _ => ret tt) (fun _ _ => ret true) (fun _ _ => ret tt) (fun _ => ret tt)) in
  flushed zdemo /\
  run 9 (PRemove false (ZU0 "zip://((/z.zip))/b")) zdemo = (Raise NotImplementedError, zdemo) /\
  run 9 (PRemove true (ZU0 "zip://((/z.zip))/d")) zdemo = (Raise NotImplementedError, zdemo) /\
  fst (run 9 (PWalk true true (ZU0 "zip://((/z.zip))/")) zdemo) = Ok (RWalk [(ZU0 "zip://((/z.zip))/", [lit "d"], [lit "b"]); (ZU0 "zip://((/z.zip))/d", [], [lit "a"])]).
Proof. repeat split; vm_compute; reflexivity. Qed.
