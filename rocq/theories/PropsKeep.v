(** Property C152: exactly which paths, names and suffixes a URI keeps.  The specification is SpecKeep.v (and [usable_name],
    [path_text] and [has_group] of SpecUri.v). *)
From Verif Require Import Str Exc StrFacts UriParse BaseUri SpecUri UriFacts UriFacts2 UriFacts3 UriFacts4 UriFacts6 UriFacts7 SpecKeep KeepFacts.

(** A path that is used as it is *)
Theorem C152_path p ex : kw_ok ex -> (exists u, URI p cSlash ex = Ok u /\ u_path u = p) <-> left_alone p /\ kept_start p.
Proof.
  intros Hk. split.
  - intros (u & U & P). apply mk_path in U as (s & S & E). rewrite E in P. now apply (kept_forward p _ s eq_refl S).
  - intros [H1 H2]. now apply kept_back.
Qed.
(** A path that gets a ./ in front and is kept otherwise *)
Theorem C152_relative p ex : kw_ok ex -> (exists u, URI p cSlash ex = Ok u /\ u_path u = lit "./" ++ p) <->
  left_alone p /\ (forall r, p <> cSlash :: r) /\ forall r, p <> cDot :: r.
Proof.
  intros Hk. split.
  - intros (u & U & P). apply mk_path in U as (s & S & E). rewrite E in P. now apply (relative_forward p _ s eq_refl S).
  - intros (H1 & H2 & H3). now apply relative_back.
Qed.
(** A name in the root of a memory file system *)
Theorem C152_name n u : n <> [] -> free_of [cSlash] n -> URI (lit "memory:///") cSlash [] = Ok u ->
  (exists r, u_div u n = Ok r /\ u_path r = cSlash :: n) <-> usable_name n.
Proof.
  intros Hn Hs U. assert (E : u = mem_dir (lit "memory:///") [cSlash]) by (vm_compute in U; injection U as <-; reflexivity). rewrite E.
  assert (K : (exists r, u_div (mem_dir (lit "memory:///") [cSlash]) n = Ok r /\ u_path r = [] ++ cSlash :: n) <-> inner_name n /\ ([] = @nil N -> forall x, n <> cDot :: x)).
  { apply name_iff; auto; [intros c _ []|intros x y; destruct x; discriminate|discriminate]. }
  cbn [app] in K. rewrite K. split.
  - intros [[Hb Ht Hg] Hd]. constructor; auto. intros c [<-|[<-|[]]]; [apply Hs|apply Hb]; now left.
  - intros [_ Hsb Ht Hg Hd]. split; [constructor; auto|auto]. intros c [<-|[]]. apply Hsb. cbn. auto.
Qed.
(** A name in another directory: here it may begin with a dot *)
Theorem C152_below P n u : dir_path P -> URI (lit "memory://" ++ P) cSlash [] = Ok u ->
  (exists r, u_div u n = Ok r /\ u_path r = P ++ cSlash :: n) <-> inner_name n.
Proof.
  intros [Hf Hg (c & r & Hs & Hc) He] U.
  assert (Hs' : exists x, P = cSlash :: x) by eauto. rewrite (dir_uri P u Hf Hg Hs' U).
  rewrite (name_iff _ P P n); auto.
  - split; [tauto|]. intros H. split; auto. rewrite Hs. discriminate.
  - apply rstrip_id. destruct (rev P) as [|z l] eqn:E; [exact I|]. cbn. unfold is_slash. destruct (N.eqb_spec z cSlash) as [->|]; auto.
    exfalso. apply (He (rev l)). rewrite <- (rev_involutive P), E. reflexivity.
  - intros x E. rewrite Hs in E. cbn in E. injection E as E _. auto.
Qed.
(** The same in local directories; a name in the root must not begin with a colon either (it would be a drive letter) *)
Theorem C152_local_root n ex u : kw_ok ex -> n <> [] -> free_of [cSlash] n -> URI [cSlash] cSlash ex = Ok u ->
  (exists r, u_div u n = Ok r /\ u_path r = cSlash :: n) <-> usable_name n /\ forall x, n <> cColon :: x.
Proof.
  intros Hk Hn Hs U. rewrite (loc_uri [cSlash] u ex Hk (or_introl eq_refl) U).
  pose proof (local_iff (lit "file" ++ lit "://" ++ [cSlash]) [cSlash] [] ex n Hk eq_refl) as K. cbn [app] in K. cbn [app]. rewrite K; auto; [|intros c _ []]. split.
  - intros [[Hb Ht Hg] Hd]. split; [|intros x; now apply Hd]. constructor; auto; [|intros x; now apply Hd]. intros c [<-|[<-|[]]]; [apply Hs|apply Hb]; now left.
  - intros [[_ Hsb Ht Hg Hd] Hc]. split; [constructor; auto; intros c [<-|[]]; apply Hsb; cbn; auto|]. intros _ x. auto.
Qed.
Theorem C152_local_below P n ex u : kw_ok ex -> local_dir P -> free_of [cSlash] n -> URI P cSlash ex = Ok u ->
  (exists r, u_div u n = Ok r /\ u_path r = P ++ cSlash :: n) <-> inner_name n.
Proof.
  intros Hk HP Hn U. rewrite (loc_uri P u ex Hk (or_intror HP) U). pose proof HP as [[Hf Hg (c & r & Hs & Hc) He] Hu Hd].
  rewrite (local_iff _ P P ex n Hk); auto.
  - split; [tauto|]. intros H. split; auto. rewrite Hs. discriminate.
  - apply rstrip_id. destruct (rev P) as [|z l] eqn:E; [exact I|]. cbn. unfold is_slash. destruct (N.eqb_spec z cSlash) as [->|]; auto.
    exfalso. apply (He (rev l)). rewrite <- (rev_involutive P), E. reflexivity.
Qed.
Theorem C152_suffix P x u : dir_path P -> URI (lit "memory://" ++ P) cSlash [] = Ok u ->
  (exists r, u_add u x = Ok r /\ u_path r = P ++ x) <-> suffix_of P x.
Proof.
  intros [Hf Hg (c & r & Hs & Hc) He] U.
  assert (Hs' : exists x, P = cSlash :: x) by eauto. rewrite (dir_uri P u Hf Hg Hs' U), (suffix_iff _ P x eq_refl Hs').
  assert (Hf' : free_of [cQuest; cHash] P) by (intros z Hz; apply Hf; cbn in *; tauto).
  unfold path_as_is. rewrite (path_text_app P x Hf'). split.
  - intros (Ht & Hb & Hn & _). constructor; auto. intros z [<-|[]] K. apply Hb. apply in_app_iff. auto.
  - intros [Hb Ht Hn]. repeat split; auto.
    + rewrite in_app_iff. intros [H|H]; [revert H; apply Hf; cbn; auto|revert H; apply Hb; now left].
    + intros y E. rewrite Hs in E. cbn in E. injection E as E _. auto.
Qed.

Ltac away := let c := fresh in let H1 := fresh in let H2 := fresh in
  intros c H1 H2; cbn in H1, H2; intuition (subst; discriminate).
(** A path with one half of a group, one with a # in it, one of a hidden directory below the working directory; relative ones *)
Example C152_path_witness : (left_alone (lit "/srv/a((b/C#") -> False) /\ left_alone (lit "/srv/a((b/C#1?") /\ kept_start (lit "/srv/a((b/C#1?") /\
  left_alone (lit "./.git") /\ kept_start (lit "./.git") /\ left_alone (lit "src/x..y") /\
  (exists u, URI (lit "/srv/a((b/C#1?") cSlash [] = Ok u /\ u_path u = lit "/srv/a((b/C#1?").
Proof.
  assert (L : left_alone (lit "/srv/a((b/C#1?")).
  { constructor; try away; try (now apply contains_no).
    - change (path_text (lit "/srv/a((b/C" ++ cHash :: lit "1?")). apply pt_hash; [away|discriminate|away].
    - apply find_no_group. reflexivity. }
  assert (K : kept_start (lit "/srv/a((b/C#1?")) by (eapply ks_root; [reflexivity|discriminate]).
  split; [|split; [exact L|split; [exact K|split; [|split; [|split]]]]].
  - intros [H _ _ _ _]. apply fixed_text_path in H. discriminate.
  - constructor; try away; try (now apply contains_no); [apply pt_plain; away|apply find_no_group; reflexivity].
  - eapply ks_dot; [reflexivity|now left].
  - constructor; try away; try (now apply contains_no); [apply pt_plain; away|apply find_no_group; reflexivity].
  - apply C152_path; auto. constructor; [constructor|intros k _ []].
Qed.
Example C152_below_witness : dir_path (lit "/a/.b") /\ inner_name (lit ".x((y") /\ ~ inner_name (lit "a?b") /\ suffix_of (lit "/a/.b") (lit ".txt") /\
  ~ suffix_of (lit "/a(") (lit "(x))") /\ dir_path (lit "/a(") /\
  exists u r, URI (lit "memory:///a/.b") cSlash [] = Ok u /\ u_div u (lit ".x((y") = Ok r /\ u_path r = lit "/a/.b/.x((y".
Proof.
  assert (D : dir_path (lit "/a/.b")).
  { constructor; [away|now apply contains_no|do 2 eexists; split; [reflexivity|discriminate]|]. intros r E. apply (f_equal (@rev N)) in E. rewrite rev_app_distr in E. discriminate. }
  assert (I1 : inner_name (lit ".x((y")).
  { constructor; [away|apply pt_plain; away|apply find_no_group; reflexivity]. }
  split; [exact D|split; [exact I1|split; [|split; [|split; [|split]]]]].
  - intros [_ H _]. apply fixed_text_path in H. discriminate.
  - constructor; [away|apply pt_plain; away|apply find_no_group; reflexivity].
  - intros [_ _ H]. apply H. exists (lit "/a"), (lit "x"), []. split; [reflexivity|]. cbn. intuition discriminate.
  - constructor; [away|now apply contains_no|do 2 eexists; split; [reflexivity|discriminate]|]. intros r E. apply (f_equal (@rev N)) in E. rewrite rev_app_distr in E. discriminate.
  - repeat eexists; vm_compute; reflexivity.
Qed.
Example C152_local_witness : local_dir (lit "/srv/x y") /\ ~ (usable_name (lit ":a") /\ forall x, lit ":a" <> cColon :: x) /\ usable_name (lit ":a") /\
  exists u r, URI (lit "/") cSlash [] = Ok u /\ u_div u (lit ":a") = Ok r /\ u_path r = lit "//a".
Proof.
  split; [|split; [|split]].
  - constructor; [|now apply contains_no|discriminate].
    constructor; [away|now apply contains_no|do 2 eexists; split; [reflexivity|discriminate]|]. intros r E. apply (f_equal (@rev N)) in E. rewrite rev_app_distr in E. discriminate.
  - intros [_ H]. now apply (H (lit "a")).
  - constructor; [discriminate|away|apply pt_plain; away|apply find_no_group; reflexivity|discriminate].
  - repeat eexists; vm_compute; reflexivity.
Qed.

Print Assumptions C152_path.
Print Assumptions C152_relative.
Print Assumptions C152_name.
Print Assumptions C152_below.
Print Assumptions C152_local_root.
Print Assumptions C152_local_below.
Print Assumptions C152_suffix.
