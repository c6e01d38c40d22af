(** Property C107: the complete rule for moving local files and links, between any two URIs; with it C88 in full. *)
From Verif Require Import Str Exc Utf8 UriParse BaseUri StrFacts Utf8Facts SpecUri SpecParse SpecNames NamesFacts Mem SpecMem Generic UriOps.
From Verif Require Import UriFacts2 UriFacts3 MemUri PropsMem.
From Verif Require Import Misc Posix Local SpecLocal LocalFacts1 LocalFacts6 LocalFacts12 LocalFacts14 LocalFacts15 PropsLocal2.
From Verif Require Import SpecPosix PosixFacts PosixFacts2 PosixFacts3 PropsPosix SpecMove MoveFacts MoveFacts2.
Open Scope string_scope.
Open Scope list_scope.

(** ** C107 *)
(** For all URIs [u] and [v], whatever [v] is and leads to; [u] is no directory, and the texts of links are not empty. *)
Theorem C107_move x u v : sound x -> leaf_seen x u -> moves x u v (fst (loc_move u v x)) (snd (loc_move u v x)).
Proof. apply moves_run. Qed.
Print Assumptions C107_move.
(** The rule allows nothing else. *)
Theorem C107_one x u v r x1 : sound x -> leaf_seen x u -> moves x u v r x1 -> fst (loc_move u v x) = r /\ alike (snd (loc_move u v x)) x1.
Proof. intros So L M. exact (moves_det _ _ _ _ _ _ _ (moves_run x u v So L) M). Qed.
Print Assumptions C107_one.
(** A move that works carries exactly one entry to a place that was free or held a file or link. *)
Theorem C107_carried x u v x' : sound x -> leaf_seen x u -> loc_move u v x = (Ok tt, x') -> exists t p e, goes x u v t /\ sees x false u (Is p e) /\ ~ slash_end t /\
  ((exists d n, put_at x t (Free d n) /\ carried x x' p (d ++ [n]) e) \/ (exists q f, put_at x t (Is q f) /\ p <> q /\ (forall mo mt, f <> PDir mo mt) /\ carried x x' p q e) \/
   (put_at x t (Is p e) /\ x' = x)).
Proof.
  intros So L E. pose proof (moves_run x u v So L) as M. rewrite E in M. cbn [fst snd] in M.
  inversion M as [t p e d n y G Sn Pu N C|t p e q f y G Sn Pu N Ne C|t p e f G Sn Pu N| | | | | | | |]; subst.
  - exists t, p, e. split; auto. split; auto. split; auto. left. eauto.
  - exists t, p, e. split; auto. split; auto. split; auto. right. left. exists q, f. split; auto. split; auto. split; auto.
    intros mo mt ->. destruct G as [w i t H T Nu Nt Tk].
    assert (D : is_pdir (PDir mo mt) = false).
    { apply (dir_not_there x w t q (PDir mo mt) i u); auto; [|now apply put_iff]. intros _. rewrite slash_end_iff in N. now destruct (slashed t). }
    discriminate.
  - exists t, p, e. split; auto. split; auto. split; auto. right. right. split; auto.
    assert (f = e) as <-; auto. apply put_iff, looked_spot in Pu. apply sees_spot in Sn. unfold entry_at in *. congruence.
Qed.
Print Assumptions C107_carried.
(** A link at the destination is replaced, not followed, unless it leads to a directory. *)
Theorem C107_over_link x u v p e q t : sound x -> leaf_seen x u -> ~ has_nul u -> sees x false u (Is p e) -> sees x false v (Is q (PLink t)) -> ~ dir_seen x v -> p <> q ->
  fst (loc_move u v x) = Ok tt /\ carried x (snd (loc_move u v x)) p q e.
Proof.
  intros So L Nu Su Sv Nd Ne. assert (T : ~ trailing v).
  { intros T. apply (link_not_dir x q t); [exact (sees_spot _ _ _ _ Sv)|now apply (sees_trailing x false v q (PLink t))]. }
  assert (A : put_at x (u_path v) (Is q (PLink t))). { apply aims_plain in Sv; auto. apply aims_iff in Sv. apply put_iff. now apply looked_iff. }
  assert (S : ~ slash_end (u_path v)) by (rewrite slash_end_iff; rewrite (not_slashed v T); discriminate).
  assert (G : goes x u v (u_path v)).
  { apply go_to with v false; auto; [apply hd_as; tauto|apply tg_at; auto; now apply path_iff| |now intros [? _]].
    apply nul_out. destruct (has_char 0 (u_path v)) eqn:H; auto. apply sees_iff in Sv. unfold plook in Sv. rewrite H in Sv. discriminate. }
  pose proof (moves_run x u v So L) as M. apply moves_kinds in M.
  destruct M as [(t' & G' & o & Sn & K)|[(w & i & t' & H & T' & _ & K)|(e' & H & _)]].
  - pose proof (goes_det _ _ _ _ _ G G') as <-. pose proof (sees_det _ _ _ _ _ Su Sn) as <-. destruct K as [(e' & Ab & _)|(p' & e' & E & b & P & K)]; [inversion Ab; discriminate|].
    injection E as <- <-. pose proof (put_det _ _ _ _ A P) as <-. destruct K as [(X & _)|(_ & -> & [[X _]|[_ C]])]; easy.
  - destruct (goes_head _ _ _ _ _ _ _ G H T') as (-> & ? & ? & ?). exfalso. tauto.
  - destruct (goes_not _ _ _ _ _ G H).
Qed.
Print Assumptions C107_over_link.
(** Whatever is moved: when it raises, nothing has changed. *)
Theorem C107_raises x u v e x' : sound x -> loc_move u v x = (Raise e, x') -> x' = x.
Proof. apply move_raises. Qed.
Print Assumptions C107_raises.

(** /d/f over the link /z, which leads to nothing; into /m, a link to a directory; the link /l into /d/e; onto itself by another name; over a directory; onto "/n/"; a loop *)
Example C107_witness : sound loc20 /\ leaf_seen loc20 (U "/m/f") /\ leaf_seen loc20 (U "/l") /\ leaf_seen loc20 (U "/o") /\
  (let r := loc_move (U "/m/f") (U "/z") loc20 in fst r = Ok tt /\ pget (P ["z"]) (p_tree (snd r)) = Some (PFile (lit "one") 420 6) /\ pget (P ["d"; "f"]) (p_tree (snd r)) = None /\ pget (P ["d"; "new"]) (p_tree (snd r)) = None) /\
  (let r := loc_move (U "/z") (U "/m") loc20 in fst r = Ok tt /\ pget (P ["d"; "z"]) (p_tree (snd r)) = Some (PLink (lit "d/new")) /\ pget (P ["z"]) (p_tree (snd r)) = None) /\
  (let r := loc_move (U "/l") (U "/d/e") loc20 in fst r = Ok tt /\ pget (P ["d"; "e"; "l"]) (p_tree (snd r)) = Some (PLink (lit "d"))) /\
  loc_move (U "/l/f") (U "/d/e/../f") loc20 = (Ok tt, loc20) /\
  loc_move (U "/d/f") (U "/n/") loc20 = (Raise (OSError EISDIR), loc20) /\ loc_move (U "/l") (U "/n/") loc20 = (Raise (OSError ENOENT), loc20) /\
  loc_move (U "/o") (U "/n/f") loc20 = (Raise (OSError ENOENT), loc20) /\ loc_move (U "/o/f") (U "/n") loc20 = (Raise (OSError ELOOP), loc20) /\
  (let x := snd (loc_mkdir (U "/d/o") loc20) in loc_move (U "/o") (U "/d") x = (Raise ShutilError, x)).
Proof.
  split; [apply loc20_sound|].
  assert (Q : forall u, match plook loc20 false (u_path u) with Ok (At _ (PFile _ _ _)) => True | Ok (At _ (PLink (c :: r))) => has_char 0 (c :: r) = false | _ => False end -> leaf_seen loc20 u).
  { intros u H. split; [intros p mo mt S|intros p t S]; apply sees_iff in S; cbn [answer] in S; rewrite S in H; [easy|]. destruct t; [easy|]. split; [easy|exact (proj1 (nul_out _) H)]. }
  do 3 (split; [apply Q; vm_compute; auto|]). clear Q. cbv zeta.
  do 3 (split; [vm_compute; repeat split|]). repeat (split; [vm_compute; reflexivity|]). vm_compute. reflexivity.
Qed.

(** ** C88 *)
(** A link that is moved: the link itself, with its text, is at the destination afterwards, or it raises and nothing changed. *)
Theorem C88_link x u v p s : sound x -> s <> [] -> ~ In 0%N s -> sees x false u (Is p (PLink s)) ->
  (exists e, loc_move u v x = (Raise e, x)) \/
  (exists t x', loc_move u v x = (Ok tt, x') /\ goes x u v t /\
    ((exists d n, put_at x t (Free d n) /\ carried x x' p (d ++ [n]) (PLink s)) \/
     (exists q f, put_at x t (Is q f) /\ p <> q /\ (forall mo mt, f <> PDir mo mt) /\ carried x x' p q (PLink s)) \/
     (put_at x t (Is p (PLink s)) /\ x' = x))).
Proof.
  intros So Ns Zs S. assert (L : leaf_seen x u).
  { split; [intros p' mo mt S'|intros p' t S']; pose proof (sees_det _ _ _ _ _ S S') as E; try discriminate. injection E as <- <-. auto. }
  destruct (loc_move u v x) as [[[]|e] x'] eqn:E.
  - right. destruct (C107_carried x u v x' So L E) as (t & p' & e & G & S' & _ & K). pose proof (sees_det _ _ _ _ _ S S') as Q. injection Q as <- <-. eauto 6.
  - left. exists e. now apply move_raises in E as ->.
Qed.
Print Assumptions C88_link.
Example C88_link_witness : sound loc20 /\ sees loc20 false (U "/m") (Is (P ["m"]) (PLink (lit "/l/../l//"))) /\ dir_seen loc20 (U "/m") /\
  fst (loc_move (U "/m") (U "/z") loc20) = Ok tt /\ pget (P ["z"]) (p_tree (snd (loc_move (U "/m") (U "/z") loc20))) = Some (PLink (lit "/l/../l//")) /\
  goes loc20 (U "/m") (U "/l/e") (lit "/l/e/m") /\ pget (P ["d"; "e"; "m"]) (p_tree (snd (loc_move (U "/m") (U "/l/e") loc20))) = Some (PLink (lit "/l/../l//")).
Proof.
  split; [apply loc20_sound|]. split; [apply sees_iff; vm_compute; reflexivity|]. split; [exists (P ["d"]), 493%Z, 5%Z; apply sees_iff; vm_compute; reflexivity|].
  do 2 (split; [vm_compute; reflexivity|]). split; [|vm_compute; reflexivity].
  assert (Dm : dir_seen loc20 (U "/m")) by (exists (P ["d"]), 493%Z, 5%Z; apply sees_iff; vm_compute; reflexivity).
  assert (De : dir_seen loc20 (U "/l/e")) by (exists (P ["d"; "e"]), 493%Z, 7%Z; apply sees_iff; vm_compute; reflexivity).
  apply go_to with (U "/l/e/m") false.
  - eapply hd_in; [exact Dm|exact De|apply splits_iff; vm_compute; reflexivity|apply joins_iff; vm_compute; reflexivity].
  - apply tg_at; [|apply paths_iff; vm_compute; reflexivity]. intros (p & mo & mt & H). apply sees_iff in H. vm_compute in H. discriminate.
  - rewrite nul_iff. vm_compute. discriminate.
  - apply nul_out. vm_compute. reflexivity.
  - now intros [? _].
Qed.
