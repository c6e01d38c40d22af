(** Property C62: the memory backend and local files give the same answers.  Program.v says what a program
    is, SpecLocal.v when two file systems hold the same files.  Local files are those of Posix.v. *)
From Verif Require Import Str Exc Utf8 UriParse BaseUri StrFacts Utf8Facts SpecUri Mem SpecMem MemOps Generic SpecGen UriOps.
From Verif Require Import UriFacts2 UriFacts3 MemFacts MemFacts2 MemFacts3 MemFacts4 MemFacts6 MemFacts9 MemUri MemFacts10 PropsMem.
From Verif Require Import GenFacts1 GenFacts2 GenFacts3 Enum PropsGeneric.
From Verif Require Import Posix Local SpecLocal Program LocalFacts1 LocalFacts2 LocalFacts3 LocalFacts4 LocalFacts9 LocalFacts10 LocalFacts11 LocalFacts13.

(** ** Concrete states *)
Definition mem0 : mst := init_mem 5 0.
Definition loc0 : pst := mkP [([], PDir 493 5)] [] 5 18.
Lemma start_mirrors : mirrors mem0 loc0.
Proof.
  apply mirror_root.
  - intros [|c q] N; [easy|]. reflexivity.
  - exists 493%Z, 5%Z. reflexivity.
  - repeat constructor. intros [].
Qed.
Lemma start_silent : silent mem0. Proof. intros p cb u n []. Qed.
Lemma start_twin : twin mem0 loc0.
Proof. split; [apply reachable_wf, reachable_init|apply start_silent|apply start_mirrors]. Qed.

(** ** C62 *)
(** Partial: the calls that [fits] describes, and programs during which the memory backend does not raise
    AttributeError (C62_attribute_refuted); without links. *)
Theorem C62_programs_partial p s x : reachable s -> silent s -> mirrors s x -> all_fit p s ->
  ~ In (Raise AttributeError) (fst (mem_run p s)) ->
  fst (mem_run p s) = fst (loc_run p x) /\ mirrors (snd (mem_run p s)) (snd (loc_run p x)).
Proof.
  intros R Q Mi F N. destruct (run_sim p s x) as [E T]; auto; [split; auto; now apply reachable_wf|]. split; auto. apply T.
Qed.
Print Assumptions C62_programs_partial.
(** One call: the same value or the same exception, and again the same files. *)
Theorem C62_call_partial c s x : reachable s -> silent s -> mirrors s x -> fits c (view s) -> agree eq (mem_call c s) (loc_call c x).
Proof.
  intros R Q Mi F. assert (T : twin s x) by (split; auto; now apply reachable_wf). pose proof (call_sim s x T c F) as H.
  unfold sim, agree, same in *. destruct (mem_call c s) as [[v|e] s'].
  - destruct H as (v' & x' & E & T' & Ev). exists v', x'. split; auto. split; auto. apply T'.
  - destruct e; auto; destruct H as (x' & E & T'); exists x'; (split; [exact E|apply T']).
Qed.
Print Assumptions C62_call_partial.
Definition trip62 : list call := 
  [CWrite (P ["f"]) [lit "a"]; CAppend (P ["f"]) [lit "b"; lit "c"]; CRead (P ["f"]); CMakedirs 9 (P ["a"; "b"]);
   CCopy 9 false [] true (P ["f"]) (P ["a"; "b"]); CListdir []; CWalk 9 true false []; CGlob [] (lit "?");
   CCopy 9 true [] true (P ["a"]) (P ["c"]); CRemove 9 true (P ["a"]); CRead (P ["c"; "b"; "f"]); CListdir (P ["zz"]); CMkdir (P ["f"])]%string.
Example C62_witness : reachable mem0 /\ silent mem0 /\ mirrors mem0 loc0 /\ all_fit trip62 mem0 /\ ~ In (Raise AttributeError) (fst (mem_run trip62 mem0)) /\
  fst (loc_run trip62 loc0) =
    [Ok Nothing; Ok Nothing; Ok (Content (lit "abc")); Ok Nothing; Ok Nothing; Ok (Names [lit "a"; lit "f"]);
     Ok (Listing [(lit "/", [lit "a"], [lit "f"]); (lit "/a", [lit "b"], []); (lit "/a/b", [], [lit "f"])]); Ok (Places [lit "/a"; lit "/f"]);
     Ok Nothing; Ok Nothing; Ok (Content (lit "abc")); Raise (OSError ENOENT); Raise (OSError EEXIST)].
Proof.
  split; [apply reachable_init|]. split; [apply start_silent|]. split; [apply start_mirrors|].
  assert (N : ~ In (Raise AttributeError) (fst (mem_run trip62 mem0))) by (vm_compute; intuition discriminate).
  split; [apply (all_fit_ok _ mem0 loc0); [apply start_twin|vm_compute; reflexivity|exact N]|]. split; [exact N|vm_compute; reflexivity].
Qed.

(** What the condition [fits] leaves out is different on the two sides.  Both start empty. *)
Definition both (p : list call) : list (res value) * list (res value) := (fst (mem_run p mem0), fst (loc_run p loc0)).
(** Creating, writing and removing the root *)
Theorem C62_root_refuted :
  both [CMkdir []] = ([Ok Nothing], [Raise (OSError EEXIST)]) /\
  both [CWrite [] [lit "a"]; CListdir []] = ([Ok Nothing; Ok (Names [[]])], [Raise (OSError EISDIR); Ok (Names [])]) /\
  both [CRemove 9 false []] = ([Ok Nothing], [Raise (OSError EBUSY)]).
Proof. repeat split; vm_compute; reflexivity. Qed.
Print Assumptions C62_root_refuted.
(** Appending to a missing file, and to an empty one *)
Theorem C62_append_refuted :
  both [CAppend (P ["f"]%string) [lit "b"]; CRead (P ["f"]%string)] =
    ([Raise (OSError ENOENT); Raise (OSError ENOENT)], [Ok Nothing; Ok (Content (lit "b"))]) /\
  both [CWrite (P ["f"]%string) []; CAppend (P ["f"]%string) [lit "b"]; CRead (P ["f"]%string)] =
    ([Ok Nothing; Ok Nothing; Ok (Content (0%N :: lit "b"))], [Ok Nothing; Ok Nothing; Ok (Content (lit "b"))]).
Proof. repeat split; vm_compute; reflexivity. Qed.
Print Assumptions C62_append_refuted.
(** The AttributeErrors of the memory backend: a path through a file, a file where a directory is needed, and the
    other way round.  Nothing here is outside [fits]. *)
Theorem C62_attribute_refuted :
  let p := [CWrite (P ["f"]%string) []; CExists (P ["f"; "x"]%string); CListdir (P ["f"]%string); CWrite (P ["f"; "x"]%string) [];
            CMakedirs 9 (P ["f"; "x"]%string); CMkdir (P ["d"]%string); CRead (P ["d"]%string)] in
  all_fit_b p loc0 = true /\
  both p = ([Ok Nothing; Raise AttributeError; Raise AttributeError; Raise AttributeError; Raise AttributeError; Ok Nothing; Raise AttributeError],
            [Ok Nothing; Ok (Truth false); Raise (OSError ENOTDIR); Raise (OSError ENOTDIR); Raise (OSError EEXIST); Ok Nothing; Raise (OSError EISDIR)]).
Proof. repeat split; vm_compute; reflexivity. Qed.
Print Assumptions C62_attribute_refuted.
(** '.' and '..' are names like any other in memory. *)
Theorem C62_dots_refuted :
  both [CMakedirs 9 (P ["d"; "."]%string); CListdir (P ["d"]%string)] =
    ([Ok Nothing; Ok (Names [lit "."])], [Raise (OSError EEXIST); Ok (Names [])]).
Proof. repeat split; vm_compute; reflexivity. Qed.
Print Assumptions C62_dots_refuted.
