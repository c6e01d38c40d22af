(** Copying and moving between two connections, for all backends that meet a contract. *)
From Coq Require Import Lia Permutation Sorted.
From Verif Require Import Str Exc UriParse BaseUri StrFacts SpecUri Mem Generic SpecGen.
From Verif Require Import MemFacts MemFacts5 MemFacts6 MemFacts7 MemFacts10 GenFacts1 GenFacts3 GenFacts4 GenFacts5 GenFacts8 Misc Posix LocalFacts1 LocalFacts2.

Local Notation joined := (join_with [cSlash]).

(** A tree without links: directories and files with their contents. *)
Definition ftree := list str -> option (option (list N)).
Definition f_isdir (e : option (option (list N))) : bool := match e with Some None => true | _ => false end.
Definition f_isfile (e : option (option (list N))) : bool := match e with Some (Some _) => true | _ => false end.

Section Contract.
Context {S E : Type}.
Variable w : backend S.
(** The URIs of the source, by paths below its top; those of the destination, by paths. *)
Variables us ud : list str -> uri.
Variable good : list str -> Prop.
Variables isd isl : E -> bool.
Variable ndir : E.
Variable nfile : option E -> list N -> E.
Variable K : ftree -> (list str -> option E) -> S -> Prop.
Definition dirE (e : option E) : bool := match e with Some e => isd e | None => false end.
Definition linkE (e : option E) : bool := match e with Some e => isl e | None => false end.
Definition put (D : list str -> option E) (p : list str) (e : E) (q : list str) : option E := if path_eqb q p then Some e else D q.
(** The tests answer for such a path. *)
Definition askable (D : list str -> option E) (cs : list str) : Prop :=
  (exists e, D cs = Some e /\ isl e = false) \/ exists d n b, cs = d ++ n :: b /\ dirE (D d) = true /\ D (d ++ [n]) = None.

Record contract : Prop := {
  c_isd : forall e, isd e = true -> isl e = false;
  c_ndir : isd ndir = true;
  c_nfile : forall o d, isd (nfile o d) = false;
  c_upT : forall T D s r n, K T D s -> T (r ++ [n]) <> None -> T r = Some None;
  c_upD : forall T D s p n, K T D s -> D (p ++ [n]) <> None -> dirE (D p) = true;
  (* source *)
  c_nameT : forall T D s r, K T D s -> T r <> None -> Forall name_ok r;
  c_divT : forall T D s r n, K T D s -> T (r ++ [n]) <> None -> u_div (us r) n = Ok (us (r ++ [n]));
  c_pathT : forall T D s r, K T D s -> T r <> None -> skipn (length (u_path (us [])) + 1) (u_path (us r)) = joined r;
  c_hookT : forall T D s r n, K T D s -> T r <> None -> b_hook w (us r) n s = (Ok tt, s);
  c_existsT : forall T D s r, K T D s -> T r <> None -> b_exists w (us r) s = (Ok true, s);
  c_isdirT : forall T D s r, K T D s -> T r <> None -> b_isdir w (us r) s = (Ok (f_isdir (T r)), s);
  c_isfileT : forall T D s r d, K T D s -> T r = Some (Some d) -> b_isfile w (us r) s = (Ok true, s);
  c_islinkT : forall T D s r, K T D s -> T r <> None -> b_islink w (us r) s = (Ok false, s);
  c_listT : forall T D s r, K T D s -> T r = Some None -> exists l, b_listdir w (us r) s = (Ok l, s) /\ StronglySorted slt l /\
    forall n, In n l <-> T (r ++ [n]) <> None;
  (* destination *)
  c_good : forall a b, good (a ++ b) -> good a;
  c_gname : forall p n, good (p ++ [n]) -> n <> [];
  c_divD : forall p r, good (p ++ r) -> r <> [] -> u_div (ud p) (joined r) = Ok (ud (p ++ r));
  c_splitD : forall p n, good (p ++ [n]) -> u_split (ud (p ++ [n])) = Ok (ud p, n);
  c_hookD : forall T D s p n, K T D s -> good p -> b_hook w (ud p) n s = (Ok tt, s);
  c_isdirD : forall T D s p, K T D s -> good p -> askable D p -> b_isdir w (ud p) s = (Ok (dirE (D p)), s);
  c_mkdirD : forall T D s p n, K T D s -> good (p ++ [n]) -> dirE (D p) = true -> D (p ++ [n]) = None ->
    exists s', b_mkdir w (ud (p ++ [n])) s = (Ok tt, s') /\ K T (put D (p ++ [n]) ndir) s';
  c_content : forall T D s r d p n, K T D s -> T r = Some (Some d) -> good (p ++ [n]) -> dirE (D p) = true -> dirE (D (p ++ [n])) = false ->
    linkE (D (p ++ [n])) = false ->
    exists s', b_copy_content w (us r) (ud (p ++ [n])) s = (Ok tt, s') /\ K T (put D (p ++ [n]) (nfile (D (p ++ [n])) d)) s' }.

Hypothesis C : contract.

Lemma divD1 p n : good (p ++ [n]) -> u_div (ud p) n = Ok (ud (p ++ [n])).
Proof. intros G. change n with (joined [n]) at 1. now apply (c_divD C). Qed.
Lemma run_hookT {A} T D s r name (m : M S A) : K T D s -> T r <> None -> hooked w name (us r) m s = m s.
Proof. intros k H. unfold hooked. now rewrite (bind_ok _ _ _ _ _ (c_hookT C T D s r (lit name) k H)). Qed.
Lemma run_hookD {A} T D s p name (m : M S A) : K T D s -> good p -> hooked w name (ud p) m s = m s.
Proof. intros k H. unfold hooked. now rewrite (bind_ok _ _ _ _ _ (c_hookD C T D s p (lit name) k H)). Qed.
Lemma u_isdirD T D s p : K T D s -> good p -> askable D p -> u_isdir w (ud p) s = (Ok (dirE (D p)), s).
Proof. intros k G A. unfold u_isdir. rewrite (run_hookD T D) by auto. now apply (c_isdirD C T). Qed.

Lemma put_same D p e : put D p e p = Some e.
Proof. unfold put. now rewrite path_eqb_refl. Qed.
Lemma put_other D p e q : q <> p -> put D p e q = D q.
Proof. intros N. unfold put. now rewrite path_eqb_neq. Qed.
Lemma goneD T D s p r : K T D s -> D p = None -> D (p ++ r) = None.
Proof.
  intros k N. induction r as [|n r IH] using rev_ind; [now rewrite app_nil_r|]. rewrite app_assoc.
  destruct (D ((p ++ r) ++ [n])) eqn:X; auto. assert (Y : D ((p ++ r) ++ [n]) <> None) by congruence.
  apply (c_upD C T D s (p ++ r) n k) in Y. rewrite IH in Y. discriminate.
Qed.
Lemma goneT T D s r z : K T D s -> f_isdir (T r) = false -> z <> [] -> T (r ++ z) = None.
Proof.
  intros k N. induction z as [|n z IH] using rev_ind; [easy|]. intros _. rewrite app_assoc.
  destruct (T ((r ++ z) ++ [n])) eqn:X; auto. assert (Y : T ((r ++ z) ++ [n]) <> None) by congruence.
  apply (c_upT C T D s (r ++ z) n k) in Y. destruct z as [|m z]; [rewrite app_nil_r in Y; rewrite Y in N; discriminate|].
  rewrite IH in Y by easy. discriminate.
Qed.

Lemma ask_dir D p : dirE (D p) = true -> askable D p.
Proof. intros H. left. destruct (D p) as [e|]; [|discriminate]. exists e. split; auto. now apply (c_isd C). Qed.

(** ** makedirs *)
Definition dirs_new (D D' : list str -> option E) (d b : list str) : Prop :=
  (forall b1 b2, b = b1 ++ b2 -> b1 <> [] -> D' (d ++ b1) = Some ndir) /\
  (forall q, (forall b1 b2, b = b1 ++ b2 -> b1 <> [] -> q <> d ++ b1) -> D' q = D q).
Lemma snoc_prefix (b b1 b2 : list str) n : b ++ [n] = b1 ++ b2 -> b2 = [] /\ b1 = b ++ [n] \/ exists b2', b2 = b2' ++ [n] /\ b = b1 ++ b2'.
Proof.
  destruct (snoc_cases b2) as [->|(b2' & m & ->)]; [rewrite app_nil_r; auto|]. rewrite app_assoc. intros X. apply snoc_inj in X as [-> ->]. eauto.
Qed.
Lemma mk_ok T b : forall D s d fuel, K T D s -> good (d ++ b) -> dirE (D d) = true ->
  (forall n b', b = n :: b' -> D (d ++ [n]) = None) -> (length b < fuel)%nat ->
  exists D' s', fs_makedirs w fuel (ud (d ++ b)) s = (Ok tt, s') /\ K T D' s' /\ dirs_new D D' d b.
Proof.
  induction b as [|n b IH] using rev_ind; intros D s d fuel k G Dd Nb L; (destruct fuel as [|f]; [lia|]); cbn [fs_makedirs].
  - rewrite app_nil_r in *. erewrite bind_ok by (apply (u_isdirD T D s d); auto; now apply ask_dir).
    rewrite Dd. exists D, s. split; [reflexivity|]. split; auto. split; [|auto]. intros [|x b1] b2 X Y; [easy|discriminate].
  - rewrite app_length in L. cbn [length] in L.
    assert (NN : forall b1 b2, b ++ [n] = b1 ++ b2 -> b1 <> [] -> D (d ++ b1) = None).
    { intros [|x b1] b2 X Y; [easy|]. change (x :: b1) with ([x] ++ b1). rewrite app_assoc. apply (goneD T D s); auto.
      apply (Nb x (b1 ++ b2)). exact X. }
    assert (As : forall b1 b2, b ++ [n] = b1 ++ b2 -> askable D (d ++ b1)).
    { intros [|x b1] b2 X; [rewrite app_nil_r; now apply ask_dir|]. right. exists d, x, b1. split; auto. split; auto.
      apply (Nb x (b1 ++ b2)). exact X. }
    erewrite bind_ok by (apply (u_isdirD T D s); auto; apply (As (b ++ [n]) []); now rewrite app_nil_r).
    rewrite (NN (b ++ [n]) []) by (rewrite ?app_nil_r; auto; now destruct b). cbn [dirE].
    rewrite app_assoc in *. erewrite bind_ok by (apply lift_ok, (c_splitD C); auto). cbn [fst snd].
    assert (Gb : good (d ++ b)) by now apply (c_good C _ [n]).
    erewrite bind_ok by (apply (u_isdirD T D s); auto; apply (As b [n]); auto).
    assert (X : exists D1 s1, (if dirE (D (d ++ b)) then ret tt else fs_makedirs w f (ud (d ++ b))) s = (Ok tt, s1) /\ K T D1 s1 /\ dirs_new D D1 d b).
    { destruct b as [|x b].
      - rewrite app_nil_r, Dd. exists D, s. split; [reflexivity|]. split; auto. split; [|auto]. intros [|y b1] b2 X Y; [easy|discriminate].
      - rewrite (NN (x :: b) [n]) by easy. cbn [dirE]. apply IH; auto; [|cbn [length] in *; lia].
        intros m b' X. injection X as -> ->. apply (Nb m (b' ++ [n])). reflexivity. }
    destruct X as (D1 & s1 & R1 & k1 & A1 & A2). erewrite bind_ok by exact R1.
    assert (Nn : n <> []) by now apply (c_gname C (d ++ b)). destruct n as [|c n]; [easy|].
    assert (Db : dirE (D1 (d ++ b)) = true).
    { destruct b as [|x b]; [rewrite app_nil_r, A2; auto; intros [|y b1] b2 X Y; [easy|discriminate]|].
      rewrite (A1 (x :: b) []) by (rewrite ?app_nil_r; easy). apply (c_ndir C). }
    assert (Dn : D1 ((d ++ b) ++ [c :: n]) = None).
    { rewrite A2; [rewrite <- app_assoc; apply (NN (b ++ [c :: n]) []); rewrite ?app_nil_r; auto; now destruct b|].
      intros b1 b2 -> Y X. rewrite <- !app_assoc in X. apply app_inv_head in X. apply (f_equal (@length _)) in X.
      rewrite !app_length in X. cbn [length] in X. lia. }
    unfold u_mkdir. rewrite (run_hookD T D1) by auto.
    destruct (c_mkdirD C T D1 s1 (d ++ b) (c :: n) k1 G Db Dn) as (s2 & R2 & k2).
    exists (put D1 ((d ++ b) ++ [c :: n]) ndir), s2. split; [exact R2|]. split; [exact k2|]. split.
    + intros b1 b2 X Y. apply snoc_prefix in X as [[-> ->]|(b2' & -> & ->)]; [rewrite app_assoc; apply put_same|].
      rewrite put_other; [now apply (A1 b1 b2')|]. rewrite <- !app_assoc. intros X. apply app_inv_head in X.
      apply (f_equal (@length _)) in X. rewrite !app_length in X. cbn [length] in X. lia.
    + intros q X. rewrite put_other; [apply A2|].
      * intros b1 b2 -> Y. apply (X b1 (b2 ++ [c :: n])); auto. now rewrite app_assoc.
      * rewrite <- app_assoc. apply (X (b ++ [c :: n]) []); [now rewrite app_nil_r|now destruct b].
Qed.
Lemma mk1 T D s p n fuel : K T D s -> good (p ++ [n]) -> dirE (D p) = true -> D (p ++ [n]) = None -> (1 < fuel)%nat ->
  exists D' s', u_makedirs w fuel (ud (p ++ [n])) s = (Ok tt, s') /\ K T D' s' /\ D' (p ++ [n]) = Some ndir /\ forall q, q <> p ++ [n] -> D' q = D q.
Proof.
  intros k G Dp N L. unfold u_makedirs. rewrite (run_hookD T D) by auto.
  destruct (mk_ok T [n] D s p fuel k G Dp) as (D' & s' & R & k' & A1 & A2).
  { intros m b' X. injection X as <- <-. exact N. } { exact L. }
  exists D', s'. split; auto. split; auto. split; [now apply (A1 [n] [])|]. intros q Hq. apply A2.
  intros [|x b1] b2 X Y; [easy|]. injection X as <- X. symmetry in X. apply app_eq_nil in X as [-> _]. exact Hq.
Qed.

(** ** One directory *)
Variable ignore : list str.
Definition image1 (T : ftree) (r : list str) (n : str) : option E :=
  match T (r ++ [n]) with
  | Some None => if str_in n ignore then None else Some ndir
  | Some (Some d) => Some (nfile None d)
  | None => None
  end.
Definition filled (D D' : list str -> option E) (p : list str) (l : list str) (f : str -> option E) : Prop :=
  (forall n, In n l -> D' (p ++ [n]) = f n) /\ (forall q, (forall n, In n l -> q <> p ++ [n]) -> D' q = D q).
Lemma filled_cons D D1 D' p n l f : ~ In n l -> D1 (p ++ [n]) = f n -> (forall q, q <> p ++ [n] -> D1 q = D q) -> filled D1 D' p l f -> filled D D' p (n :: l) f.
Proof.
  intros Nn E1 E2 [A1 A2]. split.
  - intros m [<-|Hm]; [|auto]. rewrite A2; auto. intros x Hx X. apply snoc_inj in X as [_ <-]. contradiction.
  - intros q Hq. rewrite A2 by (intros m Hm; apply Hq; now right). apply E2, Hq. now left.
Qed.
Variable T : ftree.
Variable cd : list str.
Variable fuel : nat.
Variable fl : bool.
Hypothesis Gd : forall r, T r <> None -> good (cd ++ r).
Hypothesis Fu : (1 < fuel)%nat.
Hypothesis Pad : forall r, T r = Some None -> Forall unpadded r.

Lemma gd2 r n : T (r ++ [n]) <> None -> good ((cd ++ r) ++ [n]).
Proof. intros H. rewrite <- app_assoc. now apply Gd. Qed.
Definition wdir_step (r : list str) (ds : list str) (folder : str) : M S (list str) :=
  if str_in folder ignore then ret (remove_first folder ds)
  else
    let! ddir <- lift (u_div (ud (cd ++ r)) folder);
    let! srcp <- lift (u_div (us r) folder);
    let! l <- u_islink w srcp;
    (if l && negb fl then copy_link w srcp ddir else u_makedirs w fuel ddir) ;;
    ret ds.
Definition wfile_step (r : list str) (fname : str) : M S unit :=
  let! srcf <- lift (u_div (us r) fname);
  let! destf <- lift (u_div (ud (cd ++ r)) fname);
  copy_entry w fl false srcf destf.
Lemma wdirs_loop r : forall l D s acc, K T D s -> dirE (D (cd ++ r)) = true -> NoDup l ->
  (forall n, In n l -> T (r ++ [n]) = Some None /\ D ((cd ++ r) ++ [n]) = None) ->
  exists D' s', foldM (wdir_step r) acc l s
    = (Ok (fold_left (fun a n => if str_in n ignore then remove_first n a else a) l acc), s') /\ K T D' s' /\
    filled D D' (cd ++ r) l (image1 T r).
Proof.
  induction l as [|n l IH]; intros D s acc k Dr Nd Hl; [exists D, s; split; [reflexivity|]; split; auto; split; [easy|auto]|].
  rewrite foldM_cons. inversion Nd as [|? ? Nn Nd']; subst. destruct (Hl n (or_introl eq_refl)) as (Tn & Dn).
  assert (X : exists D1 s1, wdir_step r acc n s = (Ok (if str_in n ignore then remove_first n acc else acc), s1) /\ K T D1 s1 /\
    D1 ((cd ++ r) ++ [n]) = image1 T r n /\ forall q, q <> (cd ++ r) ++ [n] -> D1 q = D q).
  { unfold wdir_step, image1. rewrite Tn. destruct (str_in n ignore); [exists D, s; split; [reflexivity|]; auto|].
    assert (Tne : T (r ++ [n]) <> None) by congruence.
    erewrite bind_ok by (apply lift_ok, divD1, gd2; auto). erewrite bind_ok by (apply lift_ok, (c_divT C T D s); auto).
    unfold u_islink. erewrite bind_ok by (rewrite (run_hookT T D) by auto; now apply (c_islinkT C T D)). cbn [andb].
    destruct (mk1 T D s (cd ++ r) n fuel k (gd2 r n Tne) Dr Dn Fu) as (D1 & s1 & R1 & k1 & A1 & A2).
    erewrite bind_ok by exact R1. exists D1, s1. auto. }
  destruct X as (D1 & s1 & R1 & k1 & A1 & A2). erewrite bind_ok by exact R1.
  destruct (IH D1 s1 (if str_in n ignore then remove_first n acc else acc) k1) as (D2 & s2 & R2 & k2 & F2); auto.
  - rewrite A2; auto. rewrite <- app_assoc. intros X. apply app_inv_head in X. destruct r; [discriminate|].
    apply (f_equal (@length _)) in X. rewrite app_length in X. cbn [length] in X. lia.
  - intros m Hm. destruct (Hl m (or_intror Hm)) as (Tm & Dm). split; auto. rewrite A2; auto. intros X. apply snoc_inj in X as [_ <-]. contradiction.
  - exists D2, s2. split; auto. split; auto. eapply filled_cons; eauto.
Qed.
Lemma wfiles_loop r : forall l D s, K T D s -> dirE (D (cd ++ r)) = true -> NoDup l ->
  (forall n, In n l -> f_isfile (T (r ++ [n])) = true /\ D ((cd ++ r) ++ [n]) = None) ->
  exists D' s', mapM_ (wfile_step r) l s = (Ok tt, s') /\ K T D' s' /\ filled D D' (cd ++ r) l (image1 T r).
Proof.
  induction l as [|n l IH]; intros D s k Dr Nd Hl; [exists D, s; split; [reflexivity|]; split; auto; split; [easy|auto]|].
  cbn [mapM_]. inversion Nd as [|? ? Nn Nd']; subst. destruct (Hl n (or_introl eq_refl)) as (Tn & Dn).
  assert (X : exists D1 s1, wfile_step r n s = (Ok tt, s1) /\ K T D1 s1 /\
    D1 ((cd ++ r) ++ [n]) = image1 T r n /\ forall q, q <> (cd ++ r) ++ [n] -> D1 q = D q).
  { unfold wfile_step, image1. destruct (T (r ++ [n])) as [[d|]|] eqn:Et; try discriminate.
    assert (Tne : T (r ++ [n]) <> None) by congruence.
    erewrite bind_ok by (apply lift_ok, (c_divT C T D s); auto). erewrite bind_ok by (apply lift_ok, divD1, gd2; auto).
    unfold copy_entry, u_islink. erewrite bind_ok by (rewrite (run_hookT T D) by auto; now apply (c_islinkT C T D)). cbn [andb].
    destruct (c_content C T D s (r ++ [n]) d (cd ++ r) n k Et (gd2 r n Tne) Dr) as (s1 & R1 & k1); [now rewrite Dn|now rewrite Dn|].
    rewrite Dn in k1. erewrite bind_ok by exact R1. eexists _, s1. split; [reflexivity|]. split; [exact k1|]. split; [apply put_same|].
    intros q. apply put_other. }
  destruct X as (D1 & s1 & R1 & k1 & A1 & A2). erewrite bind_ok by exact R1.
  destruct (IH D1 s1 k1) as (D2 & s2 & R2 & k2 & F2); auto.
  - rewrite A2; auto. rewrite <- app_assoc. intros X. apply app_inv_head in X. destruct r; [discriminate|].
    apply (f_equal (@length _)) in X. rewrite app_length in X. cbn [length] in X. lia.
  - intros m Hm. destruct (Hl m (or_intror Hm)) as (Tm & Dm). split; auto. rewrite A2; auto. intros X. apply snoc_inj in X as [_ <-]. contradiction.
  - exists D2, s2. split; auto. split; auto. eapply filled_cons; eauto.
Qed.
Definition tdirs (r l : list str) : list str := filter (fun n => f_isdir (T (r ++ [n]))) l.
Definition tfiles (r l : list str) : list str := filter (fun n => negb (f_isdir (T (r ++ [n])))) l.
Definition kept1 (n : str) : bool := negb (str_in n ignore).
Lemma wstep_ok r l D s : K T D s -> T r = Some None -> StronglySorted slt l -> (forall n, In n l <-> T (r ++ [n]) <> None) ->
  dirE (D (cd ++ r)) = true -> (forall n, D ((cd ++ r) ++ [n]) = None) ->
  exists D' s', copy_step w fuel ignore fl false (length (u_path (us [])) + 1) (ud cd) (us r) (tdirs r l) (tfiles r l) s
     = (Ok (filter kept1 (tdirs r l)), s') /\ K T D' s' /\
     (forall n, D' ((cd ++ r) ++ [n]) = image1 T r n) /\ (forall q, (forall n, q <> (cd ++ r) ++ [n]) -> D' q = D q).
Proof.
  intros k Tr Sl Il Dr Dn. unfold copy_step. assert (Tne : T r <> None) by congruence.
  rewrite (c_pathT C T D s r k Tne).
  assert (Nr : Forall name_ok r) by now apply (c_nameT C T D s). rewrite joined_strip by auto.
  assert (Eb : (match joined r with [] => ret (ud cd) | _ :: _ => lift (u_div (ud cd) (joined r)) end) s = (Ok (ud (cd ++ r)), s)).
  { destruct (list_eq_dec (list_eq_dec N.eq_dec) r []) as [->|Nn]; [now rewrite app_nil_r|].
    pose proof (joined_ne r Nr Nn) as Nj. destruct (joined r) eqn:Ej; [easy|]. rewrite <- Ej. apply lift_ok, (c_divD C); auto. }
  erewrite bind_ok by exact Eb. fold (wdir_step r). fold (wfile_step r).
  assert (NK : NoDup l) by now apply slt_NoDup.
  destruct (wdirs_loop r (tdirs r l) D s (tdirs r l) k Dr) as (D1 & s1 & R1 & k1 & A1 & A2).
  { now apply NoDup_filter. }
  { intros n Hn. apply filter_In in Hn as [Hn Ed]. split; auto. destruct (T (r ++ [n])) as [[d|]|]; try discriminate. reflexivity. }
  erewrite bind_ok by exact R1. rewrite left_over.
  destruct (wfiles_loop r (tfiles r l) D1 s1 k1) as (D2 & s2 & R2 & k2 & B1 & B2).
  { rewrite A2; auto. intros n _. rewrite <- app_assoc. intros X. apply app_inv_head in X. apply (f_equal (@length _)) in X.
    rewrite app_length in X. cbn [length] in X. lia. }
  { now apply NoDup_filter. }
  { intros n Hn. apply filter_In in Hn as [Hn Ed]. split.
    - apply Il in Hn. destruct (T (r ++ [n])) as [[d|]|]; easy.
    - rewrite A2; auto. intros m Hm X. apply snoc_inj in X as [_ <-]. apply filter_In in Hm as [_ Hm]. now rewrite Hm in Ed. }
  erewrite bind_ok by exact R2. exists D2, s2. split; [reflexivity|]. split; auto. split.
  - intros n. destruct (in_dec (list_eq_dec N.eq_dec) n l) as [Hn|Hn].
    + destruct (f_isdir (T (r ++ [n]))) eqn:Ed.
      * rewrite B2; [apply A1, filter_In; auto|]. intros m Hm X. apply snoc_inj in X as [_ <-]. apply filter_In in Hm as [_ Hm]. now rewrite Ed in Hm.
      * apply B1, filter_In. now rewrite Ed.
    + unfold image1. assert (X : T (r ++ [n]) = None) by (destruct (T (r ++ [n])) eqn:X; auto; exfalso; apply Hn, Il; congruence).
      rewrite X, B2, A2; auto; intros m Hm Y; apply snoc_inj in Y as [_ <-]; apply filter_In in Hm as [Hm _]; auto.
  - intros q Hq. rewrite B2, A2; auto.
Qed.

(** ** The whole tree *)
Fixpoint keptb (r z : list str) : bool :=
  match z with
  | [] => true
  | n :: z' => negb (f_isdir (T (r ++ [n])) && str_in n ignore) && keptb (r ++ [n]) z'
  end.
Definition look_of (e : option (option (list N))) : option E :=
  match e with Some None => Some ndir | Some (Some d) => Some (nfile None d) | None => None end.
Definition image (r z : list str) : option E := if keptb r z then look_of (T (r ++ z)) else None.
Lemma image_one r n : image r [n] = image1 T r n.
Proof.
  unfold image, image1. cbn [keptb]. rewrite andb_true_r. destruct (T (r ++ [n])) as [[d|]|]; cbn [f_isdir andb negb]; auto.
  destruct (str_in n ignore); reflexivity.
Qed.
Local Notation body := (fun (_ : unit) root dirs files =>
  let! ds <- copy_step w fuel ignore fl false (length (u_path (us [])) + 1) (ud cd) root dirs files; ret (tt, ds)).
Lemma wkinds D s r : K T D s -> forall l, (forall n, In n l -> T (r ++ [n]) <> None) -> kinds w (us r) l s = (Ok (tdirs r l, tfiles r l), s).
Proof.
  intros k. induction l as [|n l IH]; intros Hl; [reflexivity|]. cbn [kinds].
  assert (Tn : T (r ++ [n]) <> None) by (apply Hl; now left).
  erewrite bind_ok by (apply lift_ok, (c_divT C T D s); auto). erewrite bind_ok by (apply (c_isdirT C T D); auto).
  erewrite bind_ok by (apply IH; intros m Hm; apply Hl; now right). unfold ret, tdirs, tfiles. cbn [filter fst snd].
  now destruct (f_isdir (T (r ++ [n]))).
Qed.
Lemma wwalk : forall f r D s, K T D s -> T r = Some None -> (forall z, T (r ++ z) <> None -> (length z < f)%nat) ->
  dirE (D (cd ++ r)) = true -> (forall z, z <> [] -> D ((cd ++ r) ++ z) = None) ->
  exists D' s', walk_gen w f true fl body tt (us r) s = (Ok tt, s') /\ K T D' s' /\
    (forall z, z <> [] -> D' ((cd ++ r) ++ z) = image r z) /\ (forall q, (forall z, z <> [] -> q <> (cd ++ r) ++ z) -> D' q = D q).
Proof.
  induction f as [|f IH]; intros r D s k Tr Hf Dr Dn.
  { specialize (Hf []). rewrite app_nil_r, Tr in Hf. assert (0 < 0)%nat by now apply Hf. lia. }
  cbn [walk_gen]. destruct (c_listT C T D s r k Tr) as (l & Rl & Sl & Il). erewrite bind_ok by exact Rl.
  rewrite (sort_id _ Sl). erewrite bind_ok by (apply (wkinds D s r k); intros n; apply Il). cbn [fst snd].
  destruct (wstep_ok r l D s k Tr Sl Il Dr) as (D1 & s1 & R1 & k1 & A1 & A2); [intros n; now apply Dn|].
  erewrite bind_ok by (erewrite bind_ok by exact R1; reflexivity). cbn [fst snd].
  (* the directories entered *)
  assert (Loop : forall L Dx sx, K T Dx sx -> NoDup L -> (forall n, In n L -> T (r ++ [n]) = Some None /\ str_in n ignore = false) ->
    (forall n, In n L -> dirE (Dx (cd ++ r ++ [n])) = true /\ forall z, z <> [] -> Dx ((cd ++ r ++ [n]) ++ z) = None) ->
    exists D' s', foldM (fun a name => let! path <- lift (u_div (us r) name); let! lk <- u_islink w path;
        if negb lk || fl then walk_gen w f true fl body a path else ret a) tt L sx = (Ok tt, s') /\ K T D' s' /\
      (forall n z, In n L -> z <> [] -> D' ((cd ++ r ++ [n]) ++ z) = image (r ++ [n]) z) /\
      (forall q, (forall n z, In n L -> z <> [] -> q <> (cd ++ r ++ [n]) ++ z) -> D' q = Dx q)).
  { induction L as [|n L IHL]; intros Dx sx kx Nd HT HD; [exists Dx, sx; split; [reflexivity|]; split; auto; split; [easy|auto]|].
    rewrite foldM_cons. inversion Nd as [|? ? Nn Nd']; subst. destruct (HT n (or_introl eq_refl)) as [Tn In_]. destruct (HD n (or_introl eq_refl)) as [Dn1 Dn2].
    assert (Tne : T (r ++ [n]) <> None) by congruence.
    destruct (IH (r ++ [n]) Dx sx kx Tn) as (D2 & s2 & R2 & k2 & B1 & B2); auto.
    { intros z Hz. rewrite <- app_assoc in Hz. apply Hf in Hz. cbn [length app] in Hz. lia. }
    erewrite bind_ok.
    2:{ erewrite bind_ok by (apply lift_ok, (c_divT C T Dx sx); auto).
        unfold u_islink. erewrite bind_ok by (rewrite (run_hookT T Dx) by auto; now apply (c_islinkT C T Dx)). cbn [negb orb]. exact R2. }
    assert (Far : forall m z1 z2, m <> n -> (cd ++ r ++ [m]) ++ z1 <> (cd ++ r ++ [n]) ++ z2).
    { intros m z1 z2 Nm X. rewrite <- !app_assoc in X. do 2 apply app_inv_head in X. injection X as X _. contradiction. }
    destruct (IHL D2 s2 k2 Nd') as (D3 & s3 & R3 & k3 & C1 & C2).
    { intros m Hm. apply HT. now right. }
    { intros m Hm. assert (Nm : m <> n) by (intros ->; contradiction). destruct (HD m (or_intror Hm)) as [H1 H2]. split.
      - rewrite B2; auto. intros z _. rewrite <- (app_nil_r (cd ++ r ++ [m])). now apply Far.
      - intros z Hz. rewrite B2; auto. }
    exists D3, s3. split; [exact R3|]. split; auto. split.
    - intros m z [<-|Hm] Hz; [|auto]. rewrite C2; [auto|]. intros m z' Hm _. apply not_eq_sym, Far. intros ->. contradiction.
    - intros q Hq. rewrite C2; [apply B2|]; intros; apply Hq; auto; [now left|now right]. }
  destruct (Loop (filter kept1 (tdirs r l)) D1 s1 k1) as (D2 & s2 & R2 & k2 & B1 & B2).
  { apply NoDup_filter, NoDup_filter. now apply slt_NoDup. }
  { intros n Hn. apply filter_In in Hn as [Hn Ek]. apply filter_In in Hn as [_ Ed]. split.
    - destruct (T (r ++ [n])) as [[d|]|]; try discriminate. reflexivity.
    - unfold kept1 in Ek. now destruct (str_in n ignore). }
  { intros n Hn. apply filter_In in Hn as [Hn Ek]. apply filter_In in Hn as [_ Ed]. rewrite !app_assoc. split.
    - rewrite A1. unfold image1. destruct (T (r ++ [n])) as [[d|]|]; try discriminate. unfold kept1 in Ek. destruct (str_in n ignore); [discriminate|]. apply (c_ndir C).
    - intros z Hz. rewrite A2; [rewrite <- app_assoc; now apply Dn|]. intros m X. rewrite <- (app_assoc (cd ++ r)) in X. apply app_inv_head in X.
      destruct z; [easy|]. discriminate. }
  erewrite bind_ok by exact R2. exists D2, s2. split; [reflexivity|]. split; auto.
  assert (Out : forall q, (forall n z, z <> [] -> q <> (cd ++ r) ++ n :: z) -> D2 q = D1 q).
  { intros q Hq. apply B2. intros n z _ Hz. rewrite <- !app_assoc. cbn [app]. rewrite app_assoc. now apply Hq. }
  split.
  - intros z Hz. destruct z as [|n z]; [easy|]. destruct z as [|m z].
    + rewrite image_one, Out; [apply A1|]. intros n' z' Hz' X. apply app_inv_head in X. injection X as _ X. now subst.
    + destruct (in_dec (list_eq_dec N.eq_dec) n (filter kept1 (tdirs r l))) as [Hn|Hn].
      * change (n :: m :: z) with ([n] ++ m :: z) at 1. rewrite !app_assoc. rewrite <- (app_assoc cd). rewrite B1 by easy.
        unfold image. cbn [keptb]. apply filter_In in Hn as [Hn Ek]. unfold kept1 in Ek. destruct (str_in n ignore); [discriminate|].
        rewrite andb_false_r. cbn [negb andb]. replace ((r ++ [n]) ++ m :: z) with (r ++ n :: m :: z) by (now rewrite <- app_assoc). reflexivity.
      * rewrite B2.
        -- rewrite A2; [rewrite Dn by easy|]. 2:{ intros n' X. apply app_inv_head in X. discriminate. }
           unfold image. cbn [keptb]. destruct (f_isdir (T (r ++ [n]))) eqn:Ed.
           ++ assert (Ei : str_in n ignore = true).
              { destruct (str_in n ignore) eqn:X; auto. exfalso. apply Hn, filter_In. unfold kept1. rewrite X. split; auto.
                apply filter_In. split; auto. apply Il. intros Y. rewrite Y in Ed. discriminate. }
              rewrite Ei. reflexivity.
           ++ assert (X : T (r ++ n :: m :: z) = None) by (change (n :: m :: z) with ([n] ++ m :: z); rewrite app_assoc; now apply (goneT T D s)).
              rewrite X. cbn [look_of].
              match goal with |- None = (if ?x then _ else _) => destruct x end; reflexivity.
        -- intros n' z' Hn' Hz' X. rewrite <- !app_assoc in X. do 2 apply app_inv_head in X. injection X as -> _. contradiction.
  - intros q Hq. rewrite Out; [apply A2|]; intros; apply Hq; easy.
Qed.

(** ** [copy] with recursive *)
Theorem copy_tree_ok D s ct d b :
  opt_eqb (u_scheme (us [])) (u_scheme (ud ct)) = false ->
  K T D s -> T [] = Some None -> (forall r, T r <> None -> (length r < fuel)%nat) -> (length b < fuel)%nat ->
  good ct -> askable D ct ->
  cd = (if dirE (D ct) then ct ++ [u_last (us [])] else ct) ->
  cd = d ++ b -> b <> [] -> dirE (D d) = true -> (forall n b', b = n :: b' -> D (d ++ [n]) = None) ->
  exists D' s', u_copy w fuel true ignore fl (us []) (ud ct) s = (Ok tt, s') /\ K T D' s' /\
    (forall r, D' (cd ++ r) = image [] r) /\
    (forall b1 b2, b = b1 ++ b2 -> b1 <> [] -> b2 <> [] -> D' (d ++ b1) = Some ndir) /\
    (forall q, (forall b1 b2, b = b1 ++ b2 -> b1 <> [] -> q <> d ++ b1) -> (forall r, q <> cd ++ r) -> D' q = D q).
Proof.
  intros Es k Tr Hf Hb Gt At Ec Edb Nb Dd Nn. unfold u_copy. assert (Tne : T [] <> None) by congruence.
  rewrite (run_hookT T D) by auto. unfold fs_copy. rewrite Es.
  unfold u_exists. erewrite bind_ok by (rewrite (run_hookT T D) by auto; now apply (c_existsT C T D)). cbn [negb].
  unfold u_isdir at 1. erewrite bind_ok by (rewrite (run_hookT T D) by auto; now apply (c_isdirT C T D)). rewrite Tr. cbn [f_isdir negb].
  erewrite bind_ok by (now apply (u_isdirD T D)).
  assert (Gc : good cd) by (rewrite <- (app_nil_r cd); now apply Gd).
  erewrite bind_ok with (a := ud cd).
  2:{ destruct (dirE (D ct)); [apply lift_ok; rewrite Ec; apply divD1; now rewrite <- Ec|now rewrite Ec]. }
  unfold u_islink. erewrite bind_ok by (rewrite (run_hookT T D) by auto; now apply (c_islinkT C T D)). cbn [andb].
  destruct (mk_ok T b D s d fuel k) as (D1 & s1 & R1 & k1 & A1 & A2); auto. { now rewrite <- Edb. }
  unfold u_makedirs. erewrite bind_ok by (rewrite (run_hookD T D) by auto; rewrite Edb at 1; exact R1).
  erewrite bind_ok by (apply (c_hookT C T D1); auto).
  destruct (wwalk fuel [] D1 s1 k1 Tr) as (D2 & s2 & R2 & k2 & B1 & B2); auto.
  { rewrite app_nil_r, Edb, (A1 b []); auto; [apply (c_ndir C)|now rewrite app_nil_r]. }
  { intros z Hz. rewrite app_nil_r, A2.
    - rewrite Edb. destruct b as [|n b']; [easy|]. rewrite <- app_assoc. cbn [app]. change (n :: b' ++ z) with ([n] ++ b' ++ z). rewrite app_assoc.
      apply (goneD T D s); auto. now apply (Nn n b').
    - intros b1 b2 -> _ X. rewrite Edb, <- !app_assoc in X. apply app_inv_head in X. apply (f_equal (@length _)) in X.
      rewrite !app_length in X. destruct z; [easy|]. cbn [length] in X. lia. }
  exists D2, s2. split; [exact R2|]. split; auto. rewrite app_nil_r in B1, B2.
  assert (Bb : forall b1 b2, b = b1 ++ b2 -> b1 <> [] -> D2 (d ++ b1) = Some ndir).
  { intros b1 b2 E0 N1. rewrite B2; [now apply (A1 b1 b2)|]. intros z Hz X. rewrite Edb, E0, <- !app_assoc in X. apply app_inv_head in X.
    apply (f_equal (@length _)) in X. rewrite !app_length in X. destruct z; [easy|]. cbn [length] in X. lia. }
  split; [|split].
  - intros [|n r].
    + rewrite app_nil_r. unfold image. cbn [keptb app]. rewrite Tr. cbn [look_of]. rewrite Edb. apply (Bb b []); auto. now rewrite app_nil_r.
    + now apply B1.
  - intros b1 b2 E0 N1 _. now apply (Bb b1 b2).
  - intros q H1 H2. rewrite B2; [now apply A2|]. intros z _. apply H2.
Qed.

(** ** [copy] of a single file *)
Theorem copy_file_ok D s ct d p n :
  opt_eqb (u_scheme (us [])) (u_scheme (ud ct)) = false ->
  K T D s -> T [] = Some (Some d) -> good ct -> askable D ct ->
  cd = (if dirE (D ct) then ct ++ [u_last (us [])] else ct) -> cd = p ++ [n] -> dirE (D p) = true -> dirE (D cd) = false -> linkE (D cd) = false ->
  exists s', u_copy w fuel false ignore fl (us []) (ud ct) s = (Ok tt, s') /\ K T (put D cd (nfile (D cd) d)) s'.
Proof.
  intros Es k Tr Gt At Ec Ep Dp Dc Lc. unfold u_copy. assert (Tne : T [] <> None) by congruence.
  rewrite (run_hookT T D) by auto. unfold fs_copy. rewrite Es.
  unfold u_exists. erewrite bind_ok by (rewrite (run_hookT T D) by auto; now apply (c_existsT C T D)). cbn [negb].
  unfold u_isfile at 1. erewrite bind_ok by (rewrite (run_hookT T D) by auto; now apply (c_isfileT C T D s [] d)). cbn [negb].
  erewrite bind_ok by (now apply (u_isdirD T D)).
  assert (Gc : good cd) by (rewrite <- (app_nil_r cd); now apply Gd).
  erewrite bind_ok with (a := ud cd).
  2:{ destruct (dirE (D ct)); [apply lift_ok; rewrite Ec; apply divD1; now rewrite <- Ec|now rewrite Ec]. }
  unfold copy_entry, u_islink. erewrite bind_ok by (rewrite (run_hookT T D) by auto; now apply (c_islinkT C T D)). cbn [andb].
  destruct (c_content C T D s [] d p n k Tr) as (s1 & R1 & k1); auto. { now rewrite <- Ep. } { now rewrite <- Ep. } { now rewrite <- Ep. }
  rewrite <- Ep in R1, k1. erewrite bind_ok by exact R1. now exists s1.
Qed.
End Contract.

(** ** Removing the source *)
Definition cutT (T : ftree) (p : list str) : ftree := fun q => if path_eqb q p then None else T q.
Lemma cutT_same T p : cutT T p p = None.
Proof. unfold cutT. now rewrite path_eqb_refl. Qed.
Lemma cutT_other T p q : q <> p -> cutT T p q = T q.
Proof. intros N. unfold cutT. now rewrite path_eqb_neq. Qed.

Section Remove.
Context {S E : Type}.
Variables (w : backend S) (us ud : list str -> uri) (good : list str -> Prop) (isd isl : E -> bool) (ndir : E) (nfile : option E -> list N -> E).
Variable K : ftree -> (list str -> option E) -> S -> Prop.
Record removal : Prop := {
  r_isfile : forall T D s r, K T D s -> T r <> None -> b_isfile w (us r) s = (Ok (f_isfile (T r)), s);
  r_rmfile : forall T D s r d, K T D s -> T r = Some (Some d) -> exists s', b_removefile w (us r) s = (Ok tt, s') /\ K (cutT T r) D s';
  r_rmdir : forall T D s r, K T D s -> T r = Some None -> (forall n, T (r ++ [n]) = None) ->
    exists s', b_removedir w (us r) s = (Ok tt, s') /\ K (cutT T r) D s' }.
Hypothesis C : contract w us ud good isd isl ndir nfile K.
Hypothesis R : removal.

Definition cleared (T T' : ftree) (r : list str) (l : list str) : Prop :=
  (forall n, In n l -> T' (r ++ [n]) = None) /\ (forall q, (forall n, In n l -> q <> r ++ [n]) -> T' q = T q).
Lemma cleared_cons T T' r n l : ~ In n l -> cleared (cutT T (r ++ [n])) T' r l -> cleared T T' r (n :: l).
Proof.
  intros Nn [A1 A2]. split.
  - intros m [<-|Hm]; [|auto]. rewrite A2; [apply cutT_same|]. intros x Hx X. apply snoc_inj in X as [_ <-]. contradiction.
  - intros q Hq. rewrite A2 by (intros m Hm; apply Hq; now right). apply cutT_other, Hq. now left.
Qed.
Lemma rm_files D r : forall l T s, K T D s -> NoDup l -> (forall n, In n l -> f_isfile (T (r ++ [n])) = true) ->
  exists T' s', mapM_ (fun n => let! p <- lift (u_div (us r) n); b_removefile w p) l s = (Ok tt, s') /\ K T' D s' /\ cleared T T' r l.
Proof.
  induction l as [|n l IH]; intros T s k Nd Hl; [exists T, s; split; [reflexivity|]; split; auto; split; [easy|auto]|].
  cbn [mapM_]. inversion Nd as [|? ? Nn Nd']; subst. pose proof (Hl n (or_introl eq_refl)) as Tn.
  destruct (T (r ++ [n])) as [[d|]|] eqn:Et; try discriminate.
  destruct (r_rmfile R T D s (r ++ [n]) d k Et) as (s1 & R1 & k1).
  erewrite bind_ok. 2:{ erewrite bind_ok by (apply lift_ok, (c_divT _ _ _ _ _ _ _ _ _ C T D s); auto; congruence). exact R1. }
  destruct (IH _ s1 k1 Nd') as (T2 & s2 & R2 & k2 & F2).
  - intros m Hm. rewrite cutT_other; [apply Hl; now right|]. intros X. apply snoc_inj in X as [_ <-]. contradiction.
  - exists T2, s2. split; auto. split; auto. now apply cleared_cons.
Qed.
Lemma rm_dirs D r : forall l T s, K T D s -> NoDup l ->
  (forall n, In n l -> T (r ++ [n]) = Some None /\ forall m, T ((r ++ [n]) ++ [m]) = None) ->
  exists T' s', mapM_ (fun n => let! d <- lift (u_div (us r) n); let! l <- b_islink w d; if l then b_removefile w d else b_removedir w d) l s = (Ok tt, s') /\
    K T' D s' /\ cleared T T' r l.
Proof.
  induction l as [|n l IH]; intros T s k Nd Hl; [exists T, s; split; [reflexivity|]; split; auto; split; [easy|auto]|].
  cbn [mapM_]. inversion Nd as [|? ? Nn Nd']; subst. destruct (Hl n (or_introl eq_refl)) as [Tn Te].
  destruct (r_rmdir R T D s (r ++ [n]) k Tn Te) as (s1 & R1 & k1).
  assert (Tne : T (r ++ [n]) <> None) by congruence.
  erewrite bind_ok.
  2:{ erewrite bind_ok by (apply lift_ok, (c_divT _ _ _ _ _ _ _ _ _ C T D s); auto).
      erewrite bind_ok by (apply (c_islinkT _ _ _ _ _ _ _ _ _ C T D); auto). exact R1. }
  destruct (IH _ s1 k1 Nd') as (T2 & s2 & R2 & k2 & F2).
  - intros m Hm. destruct (Hl m (or_intror Hm)) as [H1 H2]. split.
    + rewrite cutT_other; auto. intros X. apply snoc_inj in X as [_ <-]. contradiction.
    + intros x. rewrite cutT_other; auto. intros X. apply (f_equal (@length _)) in X. rewrite !app_length in X. cbn [length] in X. lia.
  - exists T2, s2. split; auto. split; auto. now apply cleared_cons.
Qed.
Local Notation rbody := (fun (_ : unit) root dirs files =>
       mapM_ (fun n => let! p <- lift (u_div root n); b_removefile w p) files ;;
       mapM_ (fun n => let! d <- lift (u_div root n);
                       let! l <- b_islink w d;
                       if l then b_removefile w d else b_removedir w d) dirs ;;
       ret (tt, dirs)).
Lemma rwalk D : forall f r T s, K T D s -> T r = Some None -> (forall z, T (r ++ z) <> None -> (length z < f)%nat) ->
  exists T' s', walk_gen w f false false rbody tt (us r) s = (Ok tt, s') /\ K T' D s' /\
    (forall z, z <> [] -> T' (r ++ z) = None) /\ (forall q, (forall z, z <> [] -> q <> r ++ z) -> T' q = T q).
Proof.
  induction f as [|f IH]; intros r T s k Tr Hf.
  { specialize (Hf []). rewrite app_nil_r, Tr in Hf. assert (0 < 0)%nat by now apply Hf. lia. }
  cbn [walk_gen]. destruct (c_listT _ _ _ _ _ _ _ _ _ C T D s r k Tr) as (l & Rl & Sl & Il). erewrite bind_ok by exact Rl.
  rewrite (sort_id _ Sl). erewrite bind_ok by (apply (wkinds _ _ _ _ _ _ _ _ _ C T D s r k); intros n; apply Il). cbn [fst snd].
  unfold ret at 1. unfold bind at 1. cbn [fst snd].
  assert (NK : NoDup l) by now apply slt_NoDup.
  assert (Loop : forall L Tx sx, K Tx D sx -> NoDup L -> (forall n, In n L -> Tx (r ++ [n]) = Some None) ->
    (forall n z, In n L -> Tx ((r ++ [n]) ++ z) <> None -> (length z < f)%nat) ->
    exists T' s', foldM (fun a name => let! path <- lift (u_div (us r) name); let! lk <- u_islink w path;
        if negb lk || false then walk_gen w f false false rbody a path else ret a) tt L sx = (Ok tt, s') /\ K T' D s' /\
      (forall n z, In n L -> z <> [] -> T' ((r ++ [n]) ++ z) = None) /\
      (forall q, (forall n z, In n L -> z <> [] -> q <> (r ++ [n]) ++ z) -> T' q = Tx q)).
  { induction L as [|n L IHL]; intros Tx sx kx Nd HT HD; [exists Tx, sx; split; [reflexivity|]; split; auto; split; [easy|auto]|].
    rewrite foldM_cons. inversion Nd as [|? ? Nn Nd']; subst. pose proof (HT n (or_introl eq_refl)) as Tn.
    assert (Tne : Tx (r ++ [n]) <> None) by congruence.
    destruct (IH (r ++ [n]) Tx sx kx Tn) as (T2 & s2 & R2 & k2 & B1 & B2). { intros z. apply HD. now left. }
    erewrite bind_ok.
    2:{ erewrite bind_ok by (apply lift_ok, (c_divT _ _ _ _ _ _ _ _ _ C Tx D sx); auto).
        unfold u_islink. erewrite bind_ok by (rewrite (run_hookT _ _ _ _ _ _ _ _ _ C Tx D) by auto; now apply (c_islinkT _ _ _ _ _ _ _ _ _ C Tx D)). cbn [negb orb]. exact R2. }
    assert (Far : forall m z1 z2, m <> n -> (r ++ [m]) ++ z1 <> (r ++ [n]) ++ z2).
    { intros m z1 z2 Nm X. rewrite <- !app_assoc in X. apply app_inv_head in X. injection X as X _. contradiction. }
    destruct (IHL T2 s2 k2 Nd') as (T3 & s3 & R3 & k3 & C1 & C2).
    { intros m Hm. assert (Nm : m <> n) by (intros ->; contradiction). rewrite B2; [apply HT; now right|].
      intros z _. rewrite <- (app_nil_r (r ++ [m])). now apply Far. }
    { intros m z Hm. assert (Nm : m <> n) by (intros ->; contradiction). rewrite B2; [apply HD; now right|]. intros z' _. now apply Far. }
    exists T3, s3. split; [exact R3|]. split; auto. split.
    - intros m z [<-|Hm] Hz; [|auto]. rewrite C2; [auto|]. intros m z' Hm _. apply not_eq_sym, Far. intros ->. contradiction.
    - intros q Hq. rewrite C2; [apply B2|]; intros; apply Hq; auto; [now left|now right]. }
  destruct (Loop (tdirs T r l) T s k) as (T1 & s1 & R1 & k1 & A1 & A2).
  { now apply NoDup_filter. }
  { intros n Hn. apply filter_In in Hn as [_ Ed]. destruct (T (r ++ [n])) as [[d|]|]; try discriminate. reflexivity. }
  { intros n z _ Hz. rewrite <- app_assoc in Hz. apply Hf in Hz. cbn [length app] in Hz. lia. }
  erewrite bind_ok by exact R1.
  assert (Same : forall n, T1 (r ++ [n]) = T (r ++ [n])).
  { intros n. apply A2. intros m z _ Hz X. rewrite <- app_assoc in X. apply app_inv_head in X. injection X as _ X. now subst. }
  destruct (rm_files D r (tfiles T r l) T1 s1 k1) as (T2 & s2 & R2 & k2 & B1 & B2).
  { now apply NoDup_filter. }
  { intros n Hn. apply filter_In in Hn as [Hn Ed]. rewrite Same. apply Il in Hn. destruct (T (r ++ [n])) as [[d|]|]; easy. }
  assert (Apart : forall n m, In n (tdirs T r l) -> In m (tfiles T r l) -> n <> m).
  { intros n m Hn Hm <-. apply filter_In in Hn as [_ Hn]. apply filter_In in Hm as [_ Hm]. now rewrite Hn in Hm. }
  destruct (rm_dirs D r (tdirs T r l) T2 s2 k2) as (T3 & s3 & R3 & k3 & C1 & C2).
  { now apply NoDup_filter. }
  { intros n Hn. split.
    - rewrite B2; [rewrite Same|]. { apply filter_In in Hn as [_ Ed]. destruct (T (r ++ [n])) as [[d|]|]; try discriminate. reflexivity. }
      intros m Hm X. apply snoc_inj in X as [_ X]. now apply (Apart n m).
    - intros m. rewrite B2; [now apply A1|]. intros x _ X. apply (f_equal (@length _)) in X. rewrite !app_length in X. cbn [length] in X. lia. }
  erewrite bind_ok by (erewrite bind_ok by exact R2; erewrite bind_ok by exact R3; reflexivity).
  exists T3, s3. split; [reflexivity|]. split; auto.
  assert (Out : forall q, (forall n, q <> r ++ [n]) -> T3 q = T1 q) by (intros q Hq; rewrite C2, B2; auto).
  split.
  - intros z Hz. destruct z as [|n z]; [easy|]. destruct z as [|m z].
    + destruct (in_dec (list_eq_dec N.eq_dec) n (tdirs T r l)) as [Hd|Hd]; [auto|].
      rewrite C2. 2:{ intros m Hm X. apply snoc_inj in X as [_ <-]. contradiction. }
      destruct (in_dec (list_eq_dec N.eq_dec) n (tfiles T r l)) as [Hfi|Hfi]; [auto|].
      rewrite B2. 2:{ intros m Hm X. apply snoc_inj in X as [_ <-]. contradiction. }
      rewrite Same. destruct (T (r ++ [n])) eqn:X; auto. exfalso. assert (Hn : In n l) by (apply Il; congruence).
      destruct (f_isdir (T (r ++ [n]))) eqn:Ed; [apply Hd|apply Hfi]; apply filter_In; rewrite Ed; auto.
    + rewrite Out. 2:{ intros n' X. apply app_inv_head in X. discriminate. }
      destruct (in_dec (list_eq_dec N.eq_dec) n (tdirs T r l)) as [Hd|Hd].
      * change (n :: m :: z) with ([n] ++ m :: z). rewrite app_assoc. now apply A1.
      * rewrite A2. 2:{ intros n' z' Hn' Hz' X. rewrite <- app_assoc in X. apply app_inv_head in X. injection X as -> _. contradiction. }
        change (n :: m :: z) with ([n] ++ m :: z). rewrite app_assoc. apply (goneT _ _ _ _ _ _ _ _ _ C T D s); auto; [|easy].
        destruct (f_isdir (T (r ++ [n]))) eqn:Ed; auto. exfalso. apply Hd, filter_In. split; auto. apply Il. intros Y. rewrite Y in Ed. discriminate.
  - intros q Hq. rewrite Out; [apply A2|].
    + intros n z _ _. rewrite <- app_assoc. now apply Hq.
    + intros n. now apply Hq.
Qed.
Theorem remove_ok T D s fuel rc :
  K T D s -> T [] <> None -> (forall r, T r <> None -> (length r < fuel)%nat) -> (f_isdir (T []) = true -> rc = true) ->
  exists T' s', u_remove w fuel rc (us []) s = (Ok tt, s') /\ K T' D s' /\ forall r, T' r = None.
Proof.
  intros k Tr Hf Hrc. unfold u_remove. rewrite (run_hookT _ _ _ _ _ _ _ _ _ C T D) by auto.
  erewrite bind_ok by (apply (c_islinkT _ _ _ _ _ _ _ _ _ C T D); auto). cbv beta iota.
  erewrite bind_ok by (apply (c_existsT _ _ _ _ _ _ _ _ _ C T D); auto). cbn [negb].
  erewrite bind_ok by (apply (c_isdirT _ _ _ _ _ _ _ _ _ C T D); auto).
  destruct (T []) as [[d|]|] eqn:Et; [| |easy]; cbn [f_isdir].
  - assert (Tr' : T [] <> None) by congruence.
    erewrite bind_ok by (apply (r_isfile R T D); auto). rewrite Et. cbn [f_isfile].
    destruct (r_rmfile R T D s [] d k Et) as (s1 & R1 & k1). exists (cutT T []), s1. split; [exact R1|]. split; auto.
    intros [|n r]; [apply cutT_same|]. rewrite cutT_other by easy. change (n :: r) with ([] ++ n :: r).
    apply (goneT _ _ _ _ _ _ _ _ _ C T D s); auto; [now rewrite Et|easy].
  - rewrite Hrc by reflexivity. unfold remove_dir_recursively.
    destruct (rwalk D fuel [] T s k Et Hf) as (T1 & s1 & R1 & k1 & A1 & A2). erewrite bind_ok by exact R1.
    assert (E1 : T1 [] = Some None) by (rewrite A2; auto; intros [|z0 z] Hz; easy).
    assert (Tr' : T1 [] <> None) by congruence.
    erewrite bind_ok by (apply (c_islinkT _ _ _ _ _ _ _ _ _ C T1 D); auto).
    destruct (r_rmdir R T1 D s1 [] k1 E1) as (s2 & R2 & k2). { intros n. now apply (A1 [n]). }
    exists (cutT T1 []), s2. split; [exact R2|]. split; auto.
    intros [|n r]; [apply cutT_same|]. rewrite cutT_other by easy. now apply (A1 (n :: r)).
Qed.

(** ** [move] *)
Lemma image_all T r z : image ndir nfile [] T r z = look_of ndir nfile (T (r ++ z)).
Proof.
  unfold image. assert (X : forall z r, keptb [] T r z = true). { clear. induction z as [|n z IH]; intros r; [reflexivity|]. cbn [keptb str_in existsb]. now rewrite andb_false_r, IH. }
  now rewrite X.
Qed.
Theorem move_tree_ok T D s fuel cd ct d b :
  (forall r, T r <> None -> good (cd ++ r)) -> (1 < fuel)%nat -> (forall r, T r = Some None -> Forall unpadded r) ->
  opt_eqb (u_scheme (us [])) (u_scheme (ud ct)) = false ->
  K T D s -> T [] = Some None -> (forall r, T r <> None -> (length r < fuel)%nat) -> (length b < fuel)%nat ->
  good ct -> askable isd isl D ct ->
  cd = (if dirE isd (D ct) then ct ++ [u_last (us [])] else ct) ->
  cd = d ++ b -> b <> [] -> dirE isd (D d) = true -> (forall n b', b = n :: b' -> D (d ++ [n]) = None) ->
  exists T' D' s', fs_move w fuel (us []) (ud ct) s = (Ok tt, s') /\ K T' D' s' /\ (forall r, T' r = None) /\
    (forall r, D' (cd ++ r) = look_of ndir nfile (T r)) /\
    (forall b1 b2, b = b1 ++ b2 -> b1 <> [] -> b2 <> [] -> D' (d ++ b1) = Some ndir) /\
    (forall q, (forall b1 b2, b = b1 ++ b2 -> b1 <> [] -> q <> d ++ b1) -> (forall r, q <> cd ++ r) -> D' q = D q).
Proof.
  intros Gd Fu Pad Es k Tr Hf Hb Gt At Ec Edb Nb Dd Nn.
  destruct (copy_tree_ok w us ud good isd isl ndir nfile K C [] T cd fuel true Gd Fu Pad D s ct d b) as (D1 & s1 & R1 & k1 & A1 & A2 & A3); auto.
  assert (Tne : T [] <> None) by congruence.
  destruct (remove_ok T D1 s1 fuel true k1 Tne Hf) as (T2 & s2 & R2 & k2 & B); auto.
  exists T2, D1, s2. split.
  - unfold fs_move. unfold u_isfile. erewrite bind_ok by (rewrite (run_hookT _ _ _ _ _ _ _ _ _ C T D) by auto; now apply (r_isfile R T D)).
    rewrite Tr. cbn [f_isfile]. erewrite bind_ok by exact R1. exact R2.
  - split; auto. split; auto. split; auto. intros r. rewrite A1. now rewrite image_all.
Qed.
Theorem move_file_ok T D s fuel cd ct c p n :
  (forall r, T r <> None -> good (cd ++ r)) -> (0 < fuel)%nat ->
  opt_eqb (u_scheme (us [])) (u_scheme (ud ct)) = false ->
  K T D s -> T [] = Some (Some c) -> good ct -> askable isd isl D ct ->
  cd = (if dirE isd (D ct) then ct ++ [u_last (us [])] else ct) -> cd = p ++ [n] -> dirE isd (D p) = true -> dirE isd (D cd) = false -> linkE isl (D cd) = false ->
  exists T' s', fs_move w fuel (us []) (ud ct) s = (Ok tt, s') /\ K T' (put D cd (nfile (D cd) c)) s' /\ (forall r, T' r = None).
Proof.
  intros Gd Fu Es k Tr Gt At Ec Ep Dp Dc Lc.
  destruct (copy_file_ok w us ud good isd isl ndir nfile K C [] T cd fuel true Gd D s ct c p n) as (s1 & R1 & k1); auto.
  assert (Tne : T [] <> None) by congruence.
  destruct (remove_ok T (put D cd (nfile (D cd) c)) s1 fuel false k1 Tne) as (T2 & s2 & R2 & k2 & B).
  { intros [|m r] Hr; [exact Fu|]. exfalso. apply Hr. change (m :: r) with ([] ++ m :: r).
    apply (goneT _ _ _ _ _ _ _ _ _ C T D s); auto; [now rewrite Tr|easy]. }
  { rewrite Tr. discriminate. }
  exists T2, s2. split; auto.
  unfold fs_move. unfold u_isfile. erewrite bind_ok by (rewrite (run_hookT _ _ _ _ _ _ _ _ _ C T D) by auto; now apply (r_isfile R T D)).
  rewrite Tr. cbn [f_isfile]. erewrite bind_ok by exact R1. exact R2.
Qed.
End Remove.
