(** Proofs about functionals. *)
From Coq Require Import String Ascii ZArith Bool Arith Lia List.
From Verif Require Import Base OdLemmas Names ExprModel Expr_Spec Expr_Proofs Expr_More FunctionalModel.
Import ListNotations.
Set Implicit Arguments.

(** *** dictionaries keyed by sets *)

Lemma seteq_refl l : seteq_str l l = true.
Proof. apply seteq_str_iff. split; apply incl_refl. Qed.

Lemma seteq_sym l m : seteq_str l m = seteq_str m l.
Proof.
  destruct (seteq_str m l) eqn:E.
  - apply seteq_str_iff. apply seteq_str_iff in E. tauto.
  - apply not_true_iff_false. intros H. apply seteq_str_iff in H.
    rewrite <- not_true_iff_false in E. apply E. apply seteq_str_iff. tauto.
Qed.

Lemma seteq_trans l m n : seteq_str l m = true -> seteq_str m n = true -> seteq_str l n = true.
Proof.
  rewrite !seteq_str_iff. intros [A B] [C D]. split; eapply incl_tran; eauto.
Qed.

Lemma seteq_left l m n : seteq_str l m = true -> seteq_str l n = seteq_str m n.
Proof.
  intros H. destruct (seteq_str m n) eqn:E.
  - eapply seteq_trans; eauto.
  - apply not_true_iff_false. intros H'. rewrite <- not_true_iff_false in E. apply E.
    rewrite seteq_sym in H. eapply seteq_trans; eauto.
Qed.

Section SetDict.
Context {A : Type}.
Implicit Types d : list (list string * A).

Lemma set_put_new d k a : set_mem d k = false -> set_put d k a = d ++ [(k, a)].
Proof.
  unfold set_mem. induction d as [|[k' a'] d IH]; cbn; [auto|].
  destruct (seteq_str k k'); [discriminate|]. intros H. rewrite IH; auto.
Qed.

Lemma set_get_put_eq d k k' a : seteq_str k k' = true -> set_get (set_put d k' a) k = Some a.
Proof.
  intros H. induction d as [|[k2 a2] d IH]; cbn; [rewrite H; auto|].
  destruct (seteq_str k' k2) eqn:E; cbn; rewrite (seteq_left _ _ k2 H), E; auto.
Qed.

Lemma set_get_put_ne d k k' a : seteq_str k k' = false -> set_get (set_put d k' a) k = set_get d k.
Proof.
  intros H. induction d as [|[k2 a2] d IH]; cbn; [rewrite H; auto|].
  destruct (seteq_str k' k2) eqn:E; cbn.
  - rewrite seteq_sym in E. rewrite (seteq_sym k k2).
    rewrite (seteq_left _ _ k E), (seteq_sym k' k), H. auto.
  - destruct (seteq_str k k2); auto.
Qed.

Lemma set_mem_put d k k' a : set_mem (set_put d k' a) k = seteq_str k k' || set_mem d k.
Proof.
  unfold set_mem. destruct (seteq_str k k') eqn:E; cbn.
  - rewrite set_get_put_eq; auto.
  - rewrite set_get_put_ne; auto.
Qed.

Lemma set_put_len_old d k a : set_mem d k = true -> length (set_put d k a) = length d.
Proof.
  unfold set_mem. induction d as [|[k' a'] d IH]; cbn; [discriminate|].
  destruct (seteq_str k k'); cbn; auto.
Qed.

Lemma set_put_put d k a b : set_put (set_put d k a) k b = set_put d k b.
Proof.
  induction d as [|[k' a'] d IH]; cbn; [rewrite seteq_refl; auto|].
  destruct (seteq_str k k') eqn:E; cbn; rewrite E; [auto|rewrite IH; auto].
Qed.

Lemma set_get_in d k a : set_get d k = Some a -> exists k', seteq_str k k' = true /\ In (k', a) d.
Proof.
  induction d as [|[k' a'] d IH]; cbn; [discriminate|].
  destruct (seteq_str k k') eqn:E.
  - intros H. inversion H; subst. exists k'. auto.
  - intros H. destruct (IH H) as [k2 [H1 H2]]. exists k2. auto.
Qed.

Lemma set_get_app d e k :
  set_get (d ++ e) k = match set_get d k with Some a => Some a | None => set_get e k end.
Proof.
  induction d as [|[k' a'] d IH]; cbn; auto. destruct (seteq_str k k'); auto.
Qed.

Lemma set_mem_seteq d k k' : seteq_str k k' = true -> set_mem d k = set_mem d k'.
Proof.
  intros H. unfold set_mem. induction d as [|[k2 a2] d IH]; cbn; auto.
  rewrite (seteq_left _ _ k2 H). destruct (seteq_str k' k2); auto.
Qed.

Lemma set_get_seteq d k k' : seteq_str k k' = true -> set_get d k = set_get d k'.
Proof.
  intros H. induction d as [|[k2 a2] d IH]; cbn; auto.
  rewrite (seteq_left _ _ k2 H). destruct (seteq_str k' k2); auto.
Qed.

End SetDict.

Section Functional.
Context {V : Type} (sub : V -> V -> V).
Implicit Types f : functional V.

(** *** the partials loop *)

Lemma drop_map_check inp ds : check_mapping (drop_map inp ds) = Ok tt.
Proof.
  unfold check_mapping, drop_map.
  assert (H1 : forall l : list string,
    existsb (fun kv : string * mval => is_other (snd kv)) (map (fun k => (k, MNone)) l) = false).
  { induction l; cbn; auto. }
  assert (H2 : forall l : list string, mapping_ints (map (fun k => (k, MNone)) l) = []).
  { induction l; cbn; auto. }
  rewrite H1, H2. reflexivity.
Qed.

(** One entry of the loop: what it becomes, or what is raised. *)
Definition one (inp : list string) (deps : list (list string * option (list string)))
    (k : list string) (x : fentry V) : fentry V * result unit :=
  if no_map (entry_order x) then
    match set_get deps k with
    | None => (x, Err KeyError)
    | Some None => match inp with [] => entry_set_order x [] | _ => (x, Err TypeError) end
    | Some (Some ds) => entry_set_order x (drop_map inp ds)
    end
  else (x, Ok tt).

Lemma set_partials_cons inp deps k (x : fentry V) rest done :
  set_partials inp deps ((k, x) :: rest) done
  = let (x', r) := one inp deps k x in
    match r with
    | Err e => ((k, x') :: rest, done ++ [k], Err e)
    | Ok _ => let '(fs, ps, r') := set_partials inp deps rest (done ++ [k]) in ((k, x') :: fs, ps, r')
    end.
Proof.
  cbn [set_partials]. unfold one. destruct (no_map (entry_order x)); [|reflexivity].
  destruct (set_get deps k) as [[ds|]|]; [reflexivity| |reflexivity].
  destruct inp; reflexivity.
Qed.

Lemma set_partials_ok inp deps (funcs : list (list string * fentry V)) done fs ps :
  set_partials inp deps funcs done = (fs, ps, Ok tt) ->
  Forall2 (fun kx kx' => fst kx = fst kx' /\ one inp deps (fst kx) (snd kx) = (snd kx', Ok tt)) funcs fs /\
  ps = done ++ map fst funcs.
Proof.
  revert done fs ps. induction funcs as [|[k x] rest IH]; intros done fs ps H.
  - cbn in H. inversion H. rewrite app_nil_r. auto.
  - rewrite set_partials_cons in H. destruct (one inp deps k x) as [x' [[]|e]] eqn:O.
    + destruct (set_partials inp deps rest (done ++ [k])) as [[fs1 ps1] r1] eqn:R.
      inversion H; subst. destruct (IH _ _ _ R) as [F P]. split.
      * constructor; [cbn; auto|exact F].
      * rewrite P, <- app_assoc. reflexivity.
    + inversion H.
Qed.

Lemma set_partials_keys inp deps (funcs : list (list string * fentry V)) done fs ps r :
  set_partials inp deps funcs done = (fs, ps, r) -> map fst fs = map fst funcs.
Proof.
  revert done fs ps r. induction funcs as [|[k x] rest IH]; intros done fs ps r H.
  - cbn in H. inversion H. auto.
  - rewrite set_partials_cons in H. destruct (one inp deps k x) as [x' [[]|e]] eqn:O.
    + destruct (set_partials inp deps rest (done ++ [k])) as [[fs1 ps1] r1] eqn:R.
      inversion H; subst. cbn. f_equal. eapply IH; eauto.
    + inversion H; subst. reflexivity.
Qed.

(** *** what add_func does to the dependences *)

Lemma add_checks_deps f out inp x :
  fl_deps (fst (add_checks f out inp x)) = fl_deps f \/
  exists i, fl_deps (fst (add_checks f out inp x)) = set_put (fl_deps f) out (Some i).
Proof.
  unfold add_checks.
  destruct (entry_iconic x && negb (Nat.eqb (length out) 1 && subset_str out (fl_out f))); [left; reflexivity|].
  destruct inp as [i|].
  - right. exists i. destruct (negb (subset_str out (fl_out f))); [reflexivity|].
    destruct (negb (subset_str i (fl_inp f))); [reflexivity|].
    match goal with |- context [set_partials ?a ?b ?c ?d] => destruct (set_partials a b c d) as [[fs ps] r] end.
    reflexivity.
  - destruct x as [e|id sy o]; [left; reflexivity|]. right. exists (dedup_str sy).
    destruct (negb (subset_str out (fl_out f))); [reflexivity|].
    destruct (negb (subset_str (dedup_str sy) (fl_inp f))); [reflexivity|].
    match goal with |- context [set_partials ?a ?b ?c ?d] => destruct (set_partials a b c d) as [[fs ps] r] end.
    reflexivity.
Qed.

Lemma add_func_deps f spec g out inp :
  parse_spec spec = Ok (out, inp) -> set_mem (fl_deps f) out = false ->
  exists i, fl_deps (fst (add_func f spec g)) = fl_deps f ++ [(out, i)].
Proof.
  intros P M. unfold add_func. rewrite P, M.
  assert (E : forall i, set_put (fl_deps f) out i = fl_deps f ++ [(out, i)])
    by (intros i; apply set_put_new; auto).
  destruct (make_entry g) as [x|err]; [|cbn; exists inp; apply E].
  cbn [fl_iconic with_funcs with_deps].
  assert (K : forall f2, fl_deps f2 = set_put (fl_deps f) out inp ->
    exists i, fl_deps (fst (add_checks f2 out inp x)) = fl_deps f ++ [(out, i)]).
  { intros f2 D. destruct (add_checks_deps f2 out inp x) as [H|[i H]]; rewrite H, D.
    - exists inp. apply E.
    - exists (Some i). rewrite set_put_put. apply E. }
  destruct (fl_iconic f) as [b|].
  - destruct (Bool.eqb b (entry_iconic x)).
    + apply K. reflexivity.
    + cbn. exists inp. apply E.
  - apply K. reflexivity.
Qed.

Lemma add_func_known f spec g out inp :
  parse_spec spec = Ok (out, inp) -> set_mem (fl_deps f) out = true ->
  add_func f spec g = (f, Err AssertionError).
Proof. intros P M. unfold add_func. rewrite P, M. reflexivity. Qed.

Lemma add_func_grows f spec g :
  exists d, fl_deps (fst (add_func f spec g)) = fl_deps f ++ d.
Proof.
  destruct (parse_spec spec) as [[out inp]|err] eqn:P.
  - destruct (set_mem (fl_deps f) out) eqn:M.
    + rewrite (add_func_known _ _ g P M). exists []. rewrite app_nil_r. reflexivity.
    + destruct (add_func_deps f spec g P M) as [i H]. eauto.
  - unfold add_func. rewrite P. exists []. rewrite app_nil_r. reflexivity.
Qed.

Lemma add_all_grows f l : exists d, fl_deps (add_all f l) = fl_deps f ++ d.
Proof.
  revert f. induction l as [|[s g] l IH]; intros f; cbn.
  - exists []. rewrite app_nil_r. reflexivity.
  - destruct (add_func_grows f s g) as [d1 H1]. destruct (IH (fst (add_func f s g))) as [d2 H2].
    exists (d1 ++ d2). unfold add_all in H2. rewrite H2, H1, app_assoc. reflexivity.
Qed.

Lemma set_mem_app {A} (d e : list (list string * A)) k : set_mem (d ++ e) k = set_mem d k || set_mem e k.
Proof. unfold set_mem. rewrite set_get_app. destruct (set_get d k); reflexivity. Qed.

Lemma registered_forever f spec g out inp l spec' inp' g' :
  parse_spec spec = Ok (out, inp) -> set_mem (fl_deps f) out = false ->
  parse_spec spec' = Ok (out, inp') ->
  fl_len (fst (add_func f spec g)) = S (fl_len f) /\
  add_func (add_all (fst (add_func f spec g)) l) spec' g'
  = (add_all (fst (add_func f spec g)) l, Err AssertionError).
Proof.
  intros P M P'. destruct (add_func_deps f spec g P M) as [i H]. split.
  - unfold fl_len. rewrite H, app_length. cbn. lia.
  - eapply add_func_known; eauto. destruct (add_all_grows (fst (add_func f spec g)) l) as [d D].
    rewrite D, H, !set_mem_app. unfold set_mem at 2. cbn. rewrite seteq_refl.
    rewrite orb_true_r. reflexivity.
Qed.

(** *** accepted functions *)

Lemma add_checks_ok f out inp x :
  snd (add_checks f out inp x) = Ok tt ->
  exists ins, (forall i, inp = Some i -> ins = i) /\
    incl out (fl_out f) /\ incl ins (fl_inp f) /\
    fl_deps (fst (add_checks f out inp x)) = set_put (fl_deps f) out (Some ins) /\
    exists fs, set_partials (fl_inp f) (set_put (fl_deps f) out (Some ins)) (fl_funcs f) []
                 = (fs, map fst (fl_funcs f), Ok tt) /\
      fst (add_checks f out inp x)
      = with_partials (with_funcs (with_deps f (set_put (fl_deps f) out (Some ins))) fs) (map fst (fl_funcs f)).
Proof.
  unfold add_checks.
  destruct (entry_iconic x && negb (Nat.eqb (length out) 1 && subset_str out (fl_out f))); [discriminate|].
  assert (K : forall ins,
    snd (if negb (subset_str out (fl_out f)) then (with_deps f (set_put (fl_deps f) out (Some ins)), Err AssertionError)
         else if negb (subset_str ins (fl_inp f)) then (with_deps f (set_put (fl_deps f) out (Some ins)), Err AssertionError)
         else let '(fs, ps, r) := set_partials (fl_inp f) (fl_deps (with_deps f (set_put (fl_deps f) out (Some ins))))
                  (fl_funcs (with_deps f (set_put (fl_deps f) out (Some ins)))) [] in
              (with_partials (with_funcs (with_deps f (set_put (fl_deps f) out (Some ins))) fs) ps, r)) = Ok tt ->
    incl out (fl_out f) /\ incl ins (fl_inp f) /\
    exists fs, set_partials (fl_inp f) (set_put (fl_deps f) out (Some ins)) (fl_funcs f) []
                 = (fs, map fst (fl_funcs f), Ok tt) /\
      (if negb (subset_str out (fl_out f)) then (with_deps f (set_put (fl_deps f) out (Some ins)), Err AssertionError)
         else if negb (subset_str ins (fl_inp f)) then (with_deps f (set_put (fl_deps f) out (Some ins)), Err AssertionError)
         else let '(fs, ps, r) := set_partials (fl_inp f) (fl_deps (with_deps f (set_put (fl_deps f) out (Some ins))))
                  (fl_funcs (with_deps f (set_put (fl_deps f) out (Some ins)))) [] in
              (with_partials (with_funcs (with_deps f (set_put (fl_deps f) out (Some ins))) fs) ps, r))
      = (with_partials (with_funcs (with_deps f (set_put (fl_deps f) out (Some ins))) fs) (map fst (fl_funcs f)), Ok tt)).
  { intros ins. destruct (subset_str out (fl_out f)) eqn:S1; [|discriminate].
    destruct (subset_str ins (fl_inp f)) eqn:S2; [|discriminate]. cbn [negb].
    cbn [fl_deps fl_funcs with_deps].
    destruct (set_partials (fl_inp f) (set_put (fl_deps f) out (Some ins)) (fl_funcs f) []) as [[fs ps] r] eqn:SP.
    cbn [snd]. intros ->. apply subset_str_iff in S1. apply subset_str_iff in S2.
    do 2 (split; [auto|]). exists fs. pose proof (@set_partials_ok _ _ _ _ _ _ SP) as [_ ->]. auto. }
  destruct inp as [i|]; [|destruct x as [e|id sy o]; [discriminate|]].
  - intros H. destruct (K i H) as [A [B [fs [C D]]]]. exists i.
    split; [intros i' E; inversion E; auto|]. do 2 (split; [auto|]). rewrite D. cbn.
    split; [reflexivity|]. exists fs. auto.
  - intros H. destruct (K (dedup_str sy) H) as [A [B [fs [C D]]]]. exists (dedup_str sy).
    split; [discriminate|]. do 2 (split; [auto|]). rewrite D. cbn.
    split; [reflexivity|]. exists fs. auto.
Qed.

Lemma add_func_ok f spec g :
  snd (add_func f spec g) = Ok tt ->
  exists out inp x ins, parse_spec spec = Ok (out, inp) /\ make_entry g = Ok x /\
    set_mem (fl_deps f) out = false /\ (forall i, inp = Some i -> ins = i) /\
    incl out (fl_out f) /\ incl ins (fl_inp f) /\
    fl_deps (fst (add_func f spec g)) = fl_deps f ++ [(out, Some ins)] /\
    fl_out (fst (add_func f spec g)) = fl_out f /\ fl_inp (fst (add_func f spec g)) = fl_inp f /\
    fl_args (fst (add_func f spec g)) = fl_args f /\ fl_kwds (fst (add_func f spec g)) = fl_kwds f /\
    set_partials (fl_inp f) (fl_deps f ++ [(out, Some ins)]) (set_put (fl_funcs f) out x) []
      = (fl_funcs (fst (add_func f spec g)), fl_partials (fst (add_func f spec g)), Ok tt).
Proof.
  unfold add_func. destruct (parse_spec spec) as [[out inp]|err]; [|discriminate].
  destruct (set_mem (fl_deps f) out) eqn:M; [discriminate|].
  destruct (make_entry g) as [x|err]; [|discriminate].
  assert (K : forall f2, fl_out f2 = fl_out f -> fl_inp f2 = fl_inp f -> fl_args f2 = fl_args f ->
    fl_kwds f2 = fl_kwds f ->
    fl_deps f2 = set_put (fl_deps f) out inp -> fl_funcs f2 = set_put (fl_funcs f) out x ->
    snd (add_checks f2 out inp x) = Ok tt ->
    exists ins, (forall i, inp = Some i -> ins = i) /\
    incl out (fl_out f) /\ incl ins (fl_inp f) /\
    fl_deps (fst (add_checks f2 out inp x)) = fl_deps f ++ [(out, Some ins)] /\
    fl_out (fst (add_checks f2 out inp x)) = fl_out f /\ fl_inp (fst (add_checks f2 out inp x)) = fl_inp f /\
    fl_args (fst (add_checks f2 out inp x)) = fl_args f /\ fl_kwds (fst (add_checks f2 out inp x)) = fl_kwds f /\
    set_partials (fl_inp f) (fl_deps f ++ [(out, Some ins)]) (set_put (fl_funcs f) out x) []
      = (fl_funcs (fst (add_checks f2 out inp x)), fl_partials (fst (add_checks f2 out inp x)), Ok tt)).
  { intros f2 E1 E2 E3 E4 E5 E6 H. apply add_checks_ok in H.
    destruct H as [ins [H1 [H2 [H3 [H4 [fs [H5 H6]]]]]]]. exists ins.
    rewrite E1 in H2. rewrite E2 in H3, H5. rewrite E5, set_put_put, set_put_new in H4, H5 by auto.
    rewrite E6 in H5.
    do 4 (split; [auto|]). rewrite H6. cbn. do 4 (split; [auto|]). rewrite E6. exact H5. }
  cbn [fl_iconic with_funcs with_deps].
  destruct (fl_iconic f) as [b|].
  - destruct (Bool.eqb b (entry_iconic x)); [|discriminate].
    intros H. apply K in H; try reflexivity. destruct H as [ins H].
    exists out, inp, x, ins. do 3 (split; [auto|]). exact H.
  - intros H. apply K in H; try reflexivity. destruct H as [ins H].
    exists out, inp, x, ins. do 3 (split; [auto|]). exact H.
Qed.

(** *** delta functions are never accepted *)

Lemma in_set_put {A} (d : list (list string * A)) k a : exists k', In (k', a) (set_put d k a).
Proof.
  induction d as [|[k' a'] d [k2 IH]]; cbn; [eauto|].
  destruct (seteq_str k k'); [exists k'; left; auto|exists k2; right; auto].
Qed.

Lemma set_partials_in inp deps (funcs : list (list string * fentry V)) fs ps k x :
  set_partials inp deps funcs [] = (fs, ps, Ok tt) -> In (k, x) funcs ->
  exists x', one inp deps k x = (x', Ok tt) /\ In (k, x') fs.
Proof.
  intros H. apply set_partials_ok in H. destruct H as [F _]. intros IN.
  induction F as [|[k1 x1] [k2 x2] l l' [E O] F IH]; [destruct IN|]. cbn in *.
  destruct IN as [IN|IN].
  - inversion IN; subst. exists x2. auto.
  - destruct (IH IN) as [x' [A B]]. eauto.
Qed.

Lemma delta_never_added f spec s cargs ckw m :
  snd (add_func f spec (GExpr s cargs ckw None (Some m))) <> Ok tt.
Proof.
  intros H. apply add_func_ok in H.
  destruct H as [out [inp [x [ins [_ [ME [_ [_ [_ [_ [_ [_ [_ [_ [_ SP]]]]]]]]]]]]]]].
  cbn in ME. destruct (make_expression s cargs ckw None (Some m)) as [e|] eqn:MK; [|discriminate].
  inversion ME; subst. clear ME. apply make_expression_maps in MK. destruct MK as [_ [_ [_ [MM _]]]].
  destruct (in_set_put (fl_funcs f) out (EnExpr e)) as [k IN].
  destruct (@set_partials_in _ _ _ _ _ _ _ SP IN) as [x' [O _]].
  unfold one in O. cbn [entry_order] in O. rewrite MM in O. cbn [fst no_map] in O.
  destruct (set_get _ k) as [[ds|]|]; [| |discriminate].
  - cbn in O. rewrite MM in O. cbn in O. inversion O.
  - destruct (fl_inp f); [|inversion O]. cbn in O. rewrite MM in O. cbn in O. inversion O.
Qed.

(** *** functionals that can never be added to again *)

(** A registered function without an order, of which the inputs are not known, or
    with a delta mapping and depending on all inputs. *)
Definition stuck f : Prop :=
  exists k x, In (k, x) (fl_funcs f) /\ no_map (entry_order x) = true /\
    ((set_get (fl_deps f) k = Some None /\ fl_inp f <> [])
     \/ (exists e md ds, x = EnExpr e /\ snd (e_maps e) = Some md /\
           set_get (fl_deps f) k = Some (Some ds) /\ incl (fl_inp f) ds)).

Lemma drop_map_nil inp ds : incl inp ds -> drop_map inp ds = [].
Proof.
  intros H. unfold drop_map.
  assert (E : filter (fun k => negb (mem_str k ds)) inp = []).
  { induction inp as [|a inp IH]; cbn; auto.
    assert (M : mem_str a ds = true) by (apply mem_str_iff; apply H; left; auto).
    rewrite M. cbn. apply IH. intros y Hy. apply H. right. auto. }
  rewrite E. reflexivity.
Qed.

Definition blocked (inp : list string) (deps : list (list string * option (list string)))
    (k : list string) (x : fentry V) : Prop :=
  no_map (entry_order x) = true /\
    ((set_get deps k = Some None /\ inp <> [])
     \/ (exists e md ds, x = EnExpr e /\ snd (e_maps e) = Some md /\
           set_get deps k = Some (Some ds) /\ incl inp ds)).

Lemma one_blocked inp deps k x : blocked inp deps k x ->
  exists x' e, one inp deps k x = (x', Err e) /\ blocked inp deps k x'.
Proof.
  intros [NM B]. unfold one. rewrite NM. destruct B as [[G NE]|[e [md [ds [-> [D [G I]]]]]]]; rewrite G.
  - destruct inp as [|a inp]; [congruence|]. exists x, TypeError. split; [auto|].
    split; [auto|left; auto].
  - rewrite drop_map_nil by auto. cbn. rewrite D.
    eexists. eexists. split; [reflexivity|]. split; [reflexivity|]. right.
    eexists. exists md, ds. split; [reflexivity|]. cbn. auto.
Qed.

Lemma set_partials_blocked inp deps (funcs : list (list string * fentry V)) done fs ps r k x :
  In (k, x) funcs -> blocked inp deps k x ->
  set_partials inp deps funcs done = (fs, ps, r) ->
  (exists e, r = Err e) /\ exists x', In (k, x') fs /\ blocked inp deps k x'.
Proof.
  revert done fs ps r. induction funcs as [|[k1 x1] rest IH]; intros done fs ps r IN B H; [destruct IN|].
  rewrite set_partials_cons in H. destruct IN as [IN|IN].
  - inversion IN; subst. destruct (one_blocked B) as [x' [e [O B']]]. rewrite O in H.
    inversion H; subst. split; [eauto|]. exists x'. split; [left; auto|auto].
  - destruct (one inp deps k1 x1) as [x' [[]|e]].
    + destruct (set_partials inp deps rest (done ++ [k1])) as [[fs1 ps1] r1] eqn:R.
      inversion H; subst. destruct (IH _ _ _ _ IN B R) as [E [x2 [H1 H2]]].
      split; [auto|]. exists x2. split; [right; auto|auto].
    + inversion H; subst. split; [eauto|]. exists x. split; [right; auto|auto].
Qed.

Lemma blocked_deps inp deps deps' k x :
  set_get deps' k = set_get deps k -> blocked inp deps k x -> blocked inp deps' k x.
Proof. intros E B. unfold blocked in *. rewrite E. exact B. Qed.

Lemma in_set_put_ne {A} (d : list (list string * A)) k a k' a' :
  seteq_str k' k = false -> In (k', a') d -> In (k', a') (set_put d k a).
Proof.
  intros NE. induction d as [|[k2 a2] d IH]; cbn; [tauto|]. intros [H|H].
  - inversion H; subst. rewrite seteq_sym, NE. left. auto.
  - destruct (seteq_str k k2); [right; auto|right; auto].
Qed.

Lemma add_checks_blocked f out inp x k y :
  In (k, y) (fl_funcs f) -> blocked (fl_inp f) (fl_deps f) k y -> seteq_str k out = false ->
  (exists e, snd (add_checks f out inp x) = Err e) /\
  fl_inp (fst (add_checks f out inp x)) = fl_inp f /\
  exists y', In (k, y') (fl_funcs (fst (add_checks f out inp x))) /\
    blocked (fl_inp f) (fl_deps (fst (add_checks f out inp x))) k y'.
Proof.
  intros IN B NE. unfold add_checks.
  destruct (entry_iconic x && negb (Nat.eqb (length out) 1 && subset_str out (fl_out f))).
  { cbn. split; [eauto|]. split; [auto|]. exists y. auto. }
  assert (K : forall ins,
    let r := (if negb (subset_str out (fl_out f)) then (with_deps f (set_put (fl_deps f) out (Some ins)), Err AssertionError)
         else if negb (subset_str ins (fl_inp f)) then (with_deps f (set_put (fl_deps f) out (Some ins)), Err AssertionError)
         else let '(fs, ps, r) := set_partials (fl_inp f) (fl_deps (with_deps f (set_put (fl_deps f) out (Some ins))))
                  (fl_funcs (with_deps f (set_put (fl_deps f) out (Some ins)))) [] in
              (with_partials (with_funcs (with_deps f (set_put (fl_deps f) out (Some ins))) fs) ps, r)) in
    (exists e, snd r = Err e) /\ fl_inp (fst r) = fl_inp f /\
    exists y', In (k, y') (fl_funcs (fst r)) /\ blocked (fl_inp f) (fl_deps (fst r)) k y').
  { intros ins r.
    assert (B1 : blocked (fl_inp f) (set_put (fl_deps f) out (Some ins)) k y).
    { eapply blocked_deps; [|exact B]. apply set_get_put_ne. auto. }
    unfold r. destruct (negb (subset_str out (fl_out f))).
    { cbn. split; [eauto|]. split; [auto|]. exists y. auto. }
    destruct (negb (subset_str ins (fl_inp f))).
    { cbn. split; [eauto|]. split; [auto|]. exists y. auto. }
    cbn [fl_deps fl_funcs with_deps].
    destruct (set_partials (fl_inp f) (set_put (fl_deps f) out (Some ins)) (fl_funcs f) []) as [[fs ps] r'] eqn:SP.
    destruct (@set_partials_blocked _ _ _ _ _ _ _ _ _ IN B1 SP) as [E [y' [I1 I2]]].
    cbn. split; [auto|]. split; [auto|]. exists y'. auto. }
  destruct inp as [i|]; [apply K|]. destruct x as [e|id sy o]; [|apply K].
  cbn. split; [eauto|]. split; [auto|]. exists y. auto.
Qed.

Lemma stuck_blocked f : stuck f <-> exists k x, In (k, x) (fl_funcs f) /\ blocked (fl_inp f) (fl_deps f) k x.
Proof. reflexivity. Qed.

Lemma set_get_mem {A} (d : list (list string * A)) k a : set_get d k = Some a -> set_mem d k = true.
Proof. intros H. unfold set_mem. rewrite H. reflexivity. Qed.

Lemma blocked_mem inp deps k x : blocked inp deps k x -> set_mem deps k = true.
Proof. intros [_ [[G _]|[e [md [ds [_ [_ [G _]]]]]]]]; eapply set_get_mem; eauto. Qed.

Lemma stuck_step f spec g :
  stuck f -> (exists e, snd (add_func f spec g) = Err e) /\ stuck (fst (add_func f spec g)).
Proof.
  rewrite stuck_blocked. intros [k [y [IN B]]]. unfold add_func.
  destruct (parse_spec spec) as [[out inp]|err]; [|cbn; split; [eauto|exists k, y; auto]].
  destruct (set_mem (fl_deps f) out) eqn:M; [cbn; split; [eauto|exists k, y; auto]|].
  assert (NE : seteq_str k out = false).
  { apply not_true_iff_false. intros E. pose proof (blocked_mem B) as H.
    rewrite (set_mem_seteq _ _ _ E), M in H. discriminate. }
  assert (B1 : blocked (fl_inp f) (set_put (fl_deps f) out inp) k y).
  { eapply blocked_deps; [|exact B]. apply set_get_put_ne. auto. }
  destruct (make_entry g) as [x|err]; [|cbn; split; [eauto|exists k, y; auto]].
  cbn [fl_iconic with_funcs with_deps].
  assert (IN1 : In (k, y) (set_put (fl_funcs f) out x)) by (apply in_set_put_ne; auto).
  assert (K : forall f2, fl_inp f2 = fl_inp f -> fl_deps f2 = set_put (fl_deps f) out inp ->
     fl_funcs f2 = set_put (fl_funcs f) out x ->
     (exists e, snd (add_checks f2 out inp x) = Err e) /\ stuck (fst (add_checks f2 out inp x))).
  { intros f2 E1 E2 E3. destruct (@add_checks_blocked f2 out inp x k y) as [H1 [H2 [y' [H3 H4]]]].
    - rewrite E3. auto.
    - rewrite E1, E2. auto.
    - auto.
    - split; [auto|]. exists k, y'. rewrite H2. auto. }
  destruct (fl_iconic f) as [b|].
  - destruct (Bool.eqb b (entry_iconic x)); [apply K; reflexivity|].
    cbn. split; [eauto|]. exists k, y. auto.
  - apply K; reflexivity.
Qed.

Lemma stuck_all f l : stuck f -> stuck (add_all f l).
Proof.
  revert f. induction l as [|[s g] l IH]; intros f H; cbn; [auto|].
  apply IH. apply stuck_step. auto.
Qed.

Lemma stuck_forever f l spec g : stuck f -> exists e, snd (add_func (add_all f l) spec g) = Err e.
Proof. intros H. apply stuck_step. apply stuck_all. auto. Qed.

(** Functions are registered under registered outputs. *)
Definition consistent f : Prop := forall k, set_mem (fl_funcs f) k = true -> set_mem (fl_deps f) k = true.

Lemma set_mem_keys {A B} (d : list (list string * A)) (e : list (list string * B)) k :
  map fst d = map fst e -> set_mem d k = set_mem e k.
Proof.
  unfold set_mem. revert e. induction d as [|[k1 a] d IH]; intros [|[k2 b] e] E; cbn in *; try discriminate; auto.
  inversion E; subst. destruct (seteq_str k k2); auto.
Qed.

Lemma add_checks_consistent f out inp x :
  consistent f -> set_mem (fl_deps f) out = true -> consistent (fst (add_checks f out inp x)).
Proof.
  intros C M k. specialize (C k).
  assert (D : set_mem (fl_deps (fst (add_checks f out inp x))) k = seteq_str k out || set_mem (fl_deps f) k).
  { destruct (add_checks_deps f out inp x) as [H|[i H]]; rewrite H.
    - destruct (seteq_str k out) eqn:E; [|auto]. rewrite (set_mem_seteq _ _ _ E). auto.
    - apply set_mem_put. }
  rewrite D.
  assert (F : set_mem (fl_funcs (fst (add_checks f out inp x))) k = set_mem (fl_funcs f) k).
  { unfold add_checks.
    destruct (entry_iconic x && negb (Nat.eqb (length out) 1 && subset_str out (fl_out f))); [auto|].
    assert (K : forall ins,
      set_mem (fl_funcs (fst (if negb (subset_str out (fl_out f)) then (with_deps f (set_put (fl_deps f) out (Some ins)), Err AssertionError)
         else if negb (subset_str ins (fl_inp f)) then (with_deps f (set_put (fl_deps f) out (Some ins)), Err AssertionError)
         else let '(fs, ps, r) := set_partials (fl_inp f) (fl_deps (with_deps f (set_put (fl_deps f) out (Some ins))))
                  (fl_funcs (with_deps f (set_put (fl_deps f) out (Some ins)))) [] in
              (with_partials (with_funcs (with_deps f (set_put (fl_deps f) out (Some ins))) fs) ps, r)))) k
      = set_mem (fl_funcs f) k).
    { intros ins. destruct (negb (subset_str out (fl_out f))); [auto|].
      destruct (negb (subset_str ins (fl_inp f))); [auto|]. cbn [fl_deps fl_funcs with_deps].
      destruct (set_partials _ _ _ _) as [[fs ps] r] eqn:SP. cbn. apply set_mem_keys.
      eapply set_partials_keys; eauto. }
    destruct inp as [i|]; [apply K|]. destruct x; [auto|apply K]. }
  rewrite F. intros H. rewrite (C H). apply orb_true_r.
Qed.

Lemma add_func_consistent f spec g : consistent f -> consistent (fst (add_func f spec g)).
Proof.
  intros C. unfold add_func. destruct (parse_spec spec) as [[out inp]|err]; [|auto].
  destruct (set_mem (fl_deps f) out) eqn:M; [auto|].
  destruct (make_entry g) as [x|err].
  2:{ cbn. intros k H. cbn in *. rewrite set_mem_put, (C k H). apply orb_true_r. }
  cbn [fl_iconic with_funcs with_deps].
  assert (K : forall f2, fl_deps f2 = set_put (fl_deps f) out inp -> fl_funcs f2 = set_put (fl_funcs f) out x ->
    consistent f2 /\ set_mem (fl_deps f2) out = true).
  { intros f2 E1 E2. split.
    - intros k. rewrite E1, E2, !set_mem_put. specialize (C k). destruct (seteq_str k out); cbn; auto.
    - rewrite E1, set_mem_put, seteq_refl. reflexivity. }
  destruct (fl_iconic f) as [b|].
  - destruct (Bool.eqb b (entry_iconic x)).
    + apply add_checks_consistent; apply K; reflexivity.
    + cbn. apply K; reflexivity.
  - apply add_checks_consistent; apply K; reflexivity.
Qed.

Lemma reachable_consistent out inp cargs ckw l : consistent (add_all (make_functional (V := V) out inp cargs ckw) l).
Proof.
  assert (G : forall l f, consistent f -> consistent (add_all f l)).
  { induction l0 as [|[s g] l0 IH]; intros f C; cbn; [auto|]. apply IH. apply add_func_consistent. auto. }
  apply G. intros k H. discriminate.
Qed.

(** A rejected function without inputs, or with a delta over all inputs, blocks
    the functional. *)
Lemma no_inputs_stuck f spec out s cargs ckw delta e :
  consistent f -> parse_spec spec = Ok (out, None) -> set_mem (fl_deps f) out = false ->
  make_expression s cargs ckw None delta = Ok e -> fl_inp f <> [] ->
  stuck (fst (add_func f spec (GExpr s cargs ckw None delta))) /\
  exists err, snd (add_func f spec (GExpr s cargs ckw None delta)) = Err err.
Proof.
  intros C P M MK NE. unfold add_func. rewrite P, M. cbn [make_entry]. rewrite MK. cbn [bind].
  cbn [fl_iconic with_funcs with_deps].
  pose proof (make_expression_maps _ _ _ _ _ MK) as [_ [_ [_ [MM _]]]].
  assert (MF : set_mem (fl_funcs f) out = false).
  { destruct (set_mem (fl_funcs f) out) eqn:E; [|auto]. apply C in E. congruence. }
  assert (IN : In (out, EnExpr e) (set_put (fl_funcs f) out (EnExpr e))).
  { rewrite set_put_new by auto. apply in_app_iff. right. left. auto. }
  assert (B : blocked (fl_inp f) (set_put (fl_deps f) out None) out (EnExpr e)).
  { split; [cbn; rewrite MM; auto|]. left. split; [|auto]. apply set_get_put_eq. apply seteq_refl. }
  destruct (fl_iconic f) as [[|]|]; cbn; (split; [|eauto]); exists out, (EnExpr e); auto.
Qed.

Lemma delta_stuck f spec out ins s cargs ckw m e :
  consistent f -> parse_spec spec = Ok (out, Some ins) -> set_mem (fl_deps f) out = false ->
  make_expression s cargs ckw None (Some m) = Ok e -> incl (fl_inp f) ins ->
  stuck (fst (add_func f spec (GExpr s cargs ckw None (Some m)))) /\
  exists err, snd (add_func f spec (GExpr s cargs ckw None (Some m))) = Err err.
Proof.
  intros C P M MK I.
  split.
  2:{ pose proof (@delta_never_added f spec s cargs ckw m) as H.
      destruct (snd (add_func f spec (GExpr s cargs ckw None (Some m)))) as [[]|err]; [congruence|eauto]. }
  unfold add_func. rewrite P, M. cbn [make_entry]. rewrite MK. cbn [bind].
  cbn [fl_iconic with_funcs with_deps].
  pose proof (make_expression_maps _ _ _ _ _ MK) as [_ [_ [_ [MM _]]]].
  assert (MF : set_mem (fl_funcs f) out = false).
  { destruct (set_mem (fl_funcs f) out) eqn:E; [|auto]. apply C in E. congruence. }
  assert (IN : In (out, EnExpr e) (set_put (fl_funcs f) out (EnExpr e))).
  { rewrite set_put_new by auto. apply in_app_iff. right. left. auto. }
  assert (B : blocked (fl_inp f) (set_put (fl_deps f) out (Some ins)) out (EnExpr e)).
  { split; [cbn; rewrite MM; auto|]. right. exists e, m, ins. rewrite MM.
    do 2 (split; [auto|]). split; [|auto]. apply set_get_put_eq. apply seteq_refl. }
  assert (K : forall f2, fl_inp f2 = fl_inp f -> fl_deps f2 = set_put (fl_deps f) out (Some ins) ->
     fl_funcs f2 = set_put (fl_funcs f) out (EnExpr e) -> stuck (fst (add_checks f2 out (Some ins) (EnExpr e)))).
  { intros f2 E1 E2 E3. unfold add_checks. cbn [entry_iconic andb]. rewrite E1, E2, set_put_put.
    destruct (negb (subset_str out (fl_out f2))); [apply stuck_blocked; exists out, (EnExpr e); cbn; rewrite ?E1, ?E3; auto|].
    destruct (negb (subset_str ins (fl_inp f))); [apply stuck_blocked; exists out, (EnExpr e); cbn; rewrite ?E1, ?E3; auto|].
    cbn [fl_deps fl_funcs with_deps]. rewrite E3.
    destruct (set_partials _ _ _ _) as [[fs ps] r] eqn:SP. cbn.
    destruct (@set_partials_blocked _ _ _ _ _ _ _ _ _ IN B SP) as [_ [x' [H1 H2]]].
    exists out, x'. cbn. rewrite E1. auto. }
  destruct (fl_iconic f) as [[|]|]; cbn [entry_iconic Bool.eqb].
  - cbn. exists out, (EnExpr e). auto.
  - apply K; reflexivity.
  - apply K; reflexivity.
Qed.

(** *** calls *)

Lemma make_set_order s cargs ckw (e : expression V) m id lk argc :
  s = ESingle (Fun id lk argc) ->
  make_expression s cargs ckw None None = Ok e -> check_mapping m = Ok tt ->
  make_expression s cargs ckw (Some m) None = Ok (fst (e_set_order e (Some m))).
Proof.
  intros -> M C. unfold make_expression in *. cbn in *. rewrite C. cbn.
  inversion M; subst. reflexivity.
Qed.

Lemma entry_after f spec out ins id lk argc cargs ckw f' :
  consistent f -> parse_spec spec = Ok (out, Some ins) ->
  add_func f spec (GExpr (ESingle (Fun id lk argc)) cargs ckw None None) = (f', Ok tt) ->
  exists e, make_expression (ESingle (Fun id lk argc)) cargs ckw (Some (drop_map (fl_inp f) ins)) None = Ok e /\
    set_get (fl_funcs f') out = Some (EnExpr e) /\ existsb (seteq_str out) (fl_partials f') = true /\
    fl_args f' = fl_args f /\ fl_kwds f' = fl_kwds f.
Proof.
  intros C P H. assert (H0 : snd (add_func f spec (GExpr (ESingle (Fun id lk argc)) cargs ckw None None)) = Ok tt)
    by (rewrite H; reflexivity).
  apply add_func_ok in H0. rewrite H in H0. cbn [fst] in H0.
  destruct H0 as [out' [inp' [x [ins' [P' [ME [M [EI [_ [_ [_ [_ [_ [EA [EK SP]]]]]]]]]]]]]]].
  rewrite P in P'. inversion P'; subst out' inp'. specialize (EI ins eq_refl). subst ins'. clear P'.
  cbn [make_entry] in ME.
  destruct (make_expression (ESingle (Fun id lk argc)) cargs ckw None None) as [e0|] eqn:MK; [|discriminate].
  inversion ME; subst x. clear ME.
  pose proof (make_expression_maps _ _ _ _ _ MK) as [_ [_ [_ [MM _]]]].
  assert (MF : set_mem (fl_funcs f) out = false).
  { destruct (set_mem (fl_funcs f) out) eqn:E; [|auto]. apply C in E. congruence. }
  rewrite set_put_new in SP by auto.
  pose proof (@set_partials_ok _ _ _ _ _ _ SP) as [F PS].
  exists (fst (e_set_order e0 (Some (drop_map (fl_inp f) ins)))).
  split; [eapply make_set_order; eauto; apply drop_map_check|].
  split; [|split; [|auto]].
  - (* the last entry of the loop *)
    apply Forall2_app_inv_l in F. destruct F as [l1 [l2 [F1 [F2 E]]]].
    inversion F2 as [|u [k x'] l l' HD F3 EQ1 EQ2]; subst l2. inversion F3; subst l'. subst u.
    cbn [fst snd] in HD. destruct HD as [<- O].
    unfold one in O. cbn [entry_order] in O. rewrite MM in O. cbn [fst no_map] in O.
    rewrite set_get_app in O.
    assert (GN : set_get (fl_deps f) out = None).
    { unfold set_mem in M. destruct (set_get (fl_deps f) out); [discriminate|auto]. }
    rewrite GN in O. cbn [set_get] in O. rewrite seteq_refl in O. cbn in O. rewrite MM in O. cbn in O.
    inversion O; subst x'. rewrite E, set_get_app.
    assert (GF : set_get l1 out = None).
    { assert (MK1 : map fst (fl_funcs f) = map fst l1).
      { clear -F1. induction F1 as [|[k1 x1] [k2 x2] l l' [E O] F IH]; cbn in *; [auto|]. subst. f_equal. auto. }
      pose proof (@set_mem_keys _ _ (fl_funcs f) l1 out MK1) as X. rewrite MF in X.
      unfold set_mem in X. destruct (set_get l1 out); [discriminate|auto]. }
    rewrite GF. cbn. rewrite seteq_refl. unfold e_set_order, set_order. rewrite MM. reflexivity.
  - rewrite PS. cbn [app]. rewrite map_app, existsb_app. cbn. rewrite seteq_refl.
    rewrite orb_true_r. reflexivity.
Qed.

(** Mappings that only drop. *)
Lemma drop_map_keys inp ds k : In k (od_keys (drop_map inp ds)) <-> In k inp /\ ~ In k ds.
Proof.
  unfold drop_map, od_keys. rewrite map_map. cbn. rewrite map_id, filter_In.
  rewrite negb_true_iff, mem_str_false. reflexivity.
Qed.

Lemma drop_map_vals inp ds k t : In (k, t) (drop_map inp ds) -> t = MNone.
Proof. unfold drop_map. rewrite in_map_iff. intros [k' [E _]]. inversion E. auto. Qed.

Lemma drop_map_apart inp ds : NoDup inp -> no_interference order_uses (drop_map inp ds).
Proof.
  unfold no_interference, drop_map. intros N. induction N as [|a l NI N IH]; cbn; [constructor|].
  destruct (negb (mem_str a ds)); [|exact IH]. cbn. constructor; [|exact IH].
  apply Forall_forall. intros [k t] H. apply in_map_iff in H. destruct H as [k' [E H]].
  inversion E; subst. apply filter_In in H. destruct H as [H _].
  unfold apart, order_uses. cbn. split; [intros j -> <-; contradiction|].
  split; [auto|discriminate].
Qed.

Lemma routed_drop inp ds args (kw : odict V) fa fk :
  routed order_uses order_value (drop_map inp ds) args kw fa fk ->
  fa = args /\
  forall j, od_get fk j = if mem_str j inp && negb (mem_str j ds) then None else od_get kw j.
Proof.
  intros [RL RP RK RN RG RR]. split.
  - assert (NI : forall k i, ~ In (k, MInt (Z.of_nat i)) (drop_map inp ds)).
    { intros k i H. apply drop_map_vals in H. discriminate. }
    apply (nth_ext fa args PNone PNone).
    + apply Nat.le_antisymm.
      * destruct (Nat.le_gt_cases (length fa) (length args)); [auto|].
        apply RL in H. destruct H as [H|[k [j [H _]]]]; [lia|]. apply NI in H. destruct H.
      * destruct (Nat.le_gt_cases (length args) (length fa)); [auto|].
        assert (X : length fa < length fa) by (apply RL; auto). lia.
    + intros n Hn. specialize (RK n Hn (fun k => NI k n)).
      apply nth_error_nth with (d := PNone) in RK. exact RK.
  - intros j. assert (NT : forall k', ~ In (k', MStr j) (drop_map inp ds)).
    { intros k' H. apply drop_map_vals in H. discriminate. }
    destruct (mem_str j inp && negb (mem_str j ds)) eqn:E.
    + apply andb_true_iff in E. destruct E as [E1 E2]. apply mem_str_iff in E1.
      apply negb_true_iff, mem_str_false in E2.
      assert (H : In j (od_keys (drop_map inp ds))) by (apply drop_map_keys; auto).
      unfold od_keys in H. apply in_map_iff in H. destruct H as [[k t] [E H]]. cbn in E. subst k.
      eapply RG; eauto. reflexivity.
    + apply RR; [|auto]. intros k H. unfold order_uses. intros ->.
      apply drop_map_keys in H. destruct H as [H1 H2]. apply mem_str_iff in H1.
      apply mem_str_false in H2. rewrite H1, H2 in E. discriminate.
Qed.

Lemma functional_call f spec out ins id lk argc cargs ckw f' iname args kwds :
  consistent f -> NoDup (fl_inp f) -> parse_spec spec = Ok (out, Some ins) ->
  add_func f spec (GExpr (ESingle (Fun id lk argc)) cargs ckw None None) = (f', Ok tt) ->
  parse_identifiers iname = Ok out ->
  (lk <> Lambda \/ argc <> 0) ->
  not_sole_dict (cargs ++ fl_args f ++ args) -> NoDup (od_keys ckw) -> NoDup (od_keys kwds) ->
  NoDup (od_keys (fl_kwds f)) ->
  (forall j, In j (fl_inp f) -> ~ In j ins ->
     In j (od_keys ckw) \/ In j (od_keys (fl_kwds f)) \/ In j (od_keys kwds)) ->
  exists fkw, fl_call sub f' iname args kwds = Ok (Some (Called id (cargs ++ fl_args f ++ args) fkw)) /\
    forall j, od_get fkw j
      = if mem_str j (fl_inp f) && negb (mem_str j ins) then None
        else match od_get kwds j with
             | Some v => Some v
             | None => match od_get (fl_kwds f) j with Some v => Some v | None => od_get ckw j end
             end.
Proof.
  intros C NI P H PI LK NS N1 N2 N3 SU.
  destruct (@entry_after _ _ _ _ _ _ _ _ _ _ C P H) as [e [ME [GE [EX [EA EK]]]]].
  unfold fl_call. rewrite PI. cbn [bind]. rewrite EX, GE, EA, EK.
  assert (G : e_getitem e KNone = Ok (Fun id lk argc) /\
    e_call sub e (fl_args f ++ args) (od_update (fl_kwds f) kwds)
    = e_item_call sub e KNone (fl_args f ++ args) (od_update (fl_kwds f) kwds)).
  { edestruct (@single_call V sub) as [A [B _]]; [reflexivity|exact ME|]. split; [exact A|exact B]. }
  destruct G as [G ->].
  assert (KW : forall j, od_get (od_update ckw (od_update (fl_kwds f) kwds)) j
    = match od_get kwds j with
      | Some v => Some v
      | None => match od_get (fl_kwds f) j with Some v => Some v | None => od_get ckw j end
      end).
  { intros j. rewrite od_get_update by (apply od_update_nodup; auto).
    rewrite od_get_update by auto. destruct (od_get kwds j); auto. }
  destruct (drop_map (fl_inp f) ins) as [|kv m0] eqn:DM.
  - (* nothing to drop: a plain call *)
    pose proof (make_expression_maps _ _ _ _ _ ME) as [_ [MA [MK [MM _]]]].
    unfold e_item_call. rewrite G. cbn [bind]. unfold e_call_item. rewrite MA, MK, MM.
    rewrite merge_not_sole by auto. cbn [fst snd no_map andb].
    rewrite (make_islambda _ _ _ _ _ _ ME G).
    assert (L : Nat.eqb (item_lambda (V := V) (Fun id lk argc)) 1 && Nat.eqb argc 0 = false).
    { destruct LK as [X|X]; [destruct lk; [congruence|reflexivity|reflexivity]|].
      apply Nat.eqb_neq in X. rewrite X. apply andb_false_r. }
    rewrite L. cbn [bind]. eexists. split; [reflexivity|]. intros j. rewrite KW.
    destruct (mem_str j (fl_inp f) && negb (mem_str j ins)) eqn:E; [|reflexivity].
    apply andb_true_iff in E. destruct E as [E1 E2]. apply mem_str_iff in E1.
    apply negb_true_iff, mem_str_false in E2.
    assert (X : In j (od_keys (drop_map (fl_inp f) ins))) by (apply drop_map_keys; auto).
    rewrite DM in X. destruct X.
  - assert (NEM : drop_map (fl_inp f) ins <> []) by (rewrite DM; discriminate). rewrite <- DM in ME. clear DM.
    edestruct (@order_call V sub (ESingle (Fun id lk argc)) cargs ckw (drop_map (fl_inp f) ins) e KNone
      id lk argc (fl_args f ++ args) (od_update (fl_kwds f) kwds)) as [fa [fk [E R]]].
    + exact ME.
    + exact NEM.
    + exact G.
    + exact NS.
    + auto.
    + apply drop_map_apart. auto.
    + intros k i X. apply drop_map_vals in X. discriminate.
    + intros k j X U. unfold order_uses in U. subst j. apply drop_map_keys in X. destruct X as [X1 X2].
      rewrite od_update_keys, od_update_keys. destruct (SU k X1 X2) as [Y|[Y|Y]]; auto.
    + rewrite E. cbn [bind]. apply routed_drop in R. destruct R as [-> R].
      exists fk. split; [reflexivity|]. intros j. rewrite R, KW. reflexivity.
Qed.

Lemma functional_call_missing f spec out ins id lk argc cargs ckw f' iname args kwds j :
  consistent f -> parse_spec spec = Ok (out, Some ins) ->
  add_func f spec (GExpr (ESingle (Fun id lk argc)) cargs ckw None None) = (f', Ok tt) ->
  parse_identifiers iname = Ok out ->
  not_sole_dict (cargs ++ fl_args f ++ args) -> NoDup (od_keys ckw) ->
  In j (fl_inp f) -> ~ In j ins ->
  ~ In j (od_keys ckw) -> ~ In j (od_keys (fl_kwds f)) -> ~ In j (od_keys kwds) ->
  exists err, fl_call sub f' iname args kwds = Err err.
Proof.
  intros C P H PI NS N1 J1 J2 J3 J4 J5.
  destruct (@entry_after _ _ _ _ _ _ _ _ _ _ C P H) as [e [ME [GE [EX [EA EK]]]]].
  unfold fl_call. rewrite PI. cbn [bind]. rewrite EX, GE, EA, EK.
  assert (G : e_getitem e KNone = Ok (Fun id lk argc) /\
    e_call sub e (fl_args f ++ args) (od_update (fl_kwds f) kwds)
    = e_item_call sub e KNone (fl_args f ++ args) (od_update (fl_kwds f) kwds)).
  { edestruct (@single_call V sub) as [A [B _]]; [reflexivity|exact ME|]. split; [exact A|exact B]. }
  destruct G as [G ->].
  destruct (@order_missing V sub (ESingle (Fun id lk argc)) cargs ckw (drop_map (fl_inp f) ins) e KNone
      id lk argc (fl_args f ++ args) (od_update (fl_kwds f) kwds) j ME G NS N1) as [err E].
  - apply drop_map_keys. split; [exact J1|exact J2].
  - exact J3.
  - rewrite od_update_keys. intros [X|X]; [exact (J4 X)|exact (J5 X)].
  - intros k' X. apply drop_map_vals in X. discriminate.
  - rewrite E. cbn. eauto.
Qed.

(** *** Dependence.add_func *)

Lemma dep_never out inp cargs ckw l spec g :
  let f := fold_left (fun f sg => fst (dep_add_func f (fst sg) (snd sg))) l
             (make_functional (V := V) out inp cargs ckw) in
  f = make_functional out inp cargs ckw /\ dep_add_func f spec g = (f, Err AssertionError).
Proof.
  cbv zeta.
  assert (E : fold_left (fun f sg => fst (dep_add_func f (fst sg) (snd sg))) l
             (make_functional (V := V) out inp cargs ckw) = make_functional out inp cargs ckw).
  { induction l as [|sg l IH]; cbn; [reflexivity|exact IH]. }
  rewrite E. split; reflexivity.
Qed.

End Functional.

Section Kinds.
Context {V : Type}.
Implicit Types f : functional V.

Lemma add_checks_iconic f out inp x : fl_iconic (fst (add_checks f out inp x)) = fl_iconic f.
Proof.
  unfold add_checks.
  destruct (entry_iconic x && negb (Nat.eqb (length out) 1 && subset_str out (fl_out f))); [auto|].
  destruct inp as [i|]; [|destruct x; [auto|]].
  - destruct (negb (subset_str out (fl_out f))); [auto|].
    destruct (negb (subset_str i (fl_inp f))); [auto|].
    destruct (set_partials _ _ _ _) as [[fs ps] r]. reflexivity.
  - destruct (negb (subset_str out (fl_out f))); [auto|].
    destruct (negb (subset_str (dedup_str symbols) (fl_inp f))); [auto|].
    destruct (set_partials _ _ _ _) as [[fs ps] r]. reflexivity.
Qed.

Lemma add_func_iconic f spec g b : fl_iconic f = Some b -> fl_iconic (fst (add_func f spec g)) = Some b.
Proof.
  intros E. unfold add_func. destruct (parse_spec spec) as [[out inp]|err]; [|auto].
  destruct (set_mem (fl_deps f) out); [auto|]. destruct (make_entry g) as [x|err]; [|auto].
  cbn [fl_iconic with_funcs with_deps]. rewrite E.
  destruct (Bool.eqb b (entry_iconic x)); [|auto]. rewrite add_checks_iconic. auto.
Qed.

Lemma add_all_iconic f l b : fl_iconic f = Some b -> fl_iconic (add_all f l) = Some b.
Proof.
  revert f. induction l as [|[s g] l IH]; intros f H; cbn; [auto|]. apply IH. apply add_func_iconic. auto.
Qed.

(** The first function that can be made fixes the kind of all later ones, even if
    it was itself rejected. *)
Lemma kind_fixed f spec g out inp x l spec' g' x' :
  parse_spec spec = Ok (out, inp) -> set_mem (fl_deps f) out = false ->
  make_entry g = Ok x -> fl_iconic f = None ->
  make_entry g' = Ok x' -> entry_iconic x' <> entry_iconic x ->
  exists err, snd (add_func (add_all (fst (add_func f spec g)) l) spec' g') = Err err.
Proof.
  intros P M ME NI ME' NE.
  assert (K : fl_iconic (fst (add_func f spec g)) = Some (entry_iconic x)).
  { unfold add_func. rewrite P, M, ME. cbn [fl_iconic with_funcs with_deps]. rewrite NI.
    rewrite add_checks_iconic. reflexivity. }
  apply add_all_iconic with (l := l) in K. set (f1 := add_all _ l) in *.
  unfold add_func. destruct (parse_spec spec') as [[out' inp']|err]; [|cbn; eauto].
  destruct (set_mem (fl_deps f1) out'); [cbn; eauto|]. rewrite ME'.
  cbn [fl_iconic with_funcs with_deps]. rewrite K.
  assert (E : Bool.eqb (entry_iconic x) (entry_iconic x') = false).
  { apply eqb_false_iff. congruence. }
  rewrite E. cbn. eauto.
Qed.

Lemma inputs_kept out inp cargs ckw l :
  let f := add_all (make_functional (V := V) out inp cargs ckw) l in
  fl_inp f = match inp with [] => out | _ => inp end /\ fl_out f = out /\ fl_args f = cargs /\ fl_kwds f = ckw.
Proof.
  cbv zeta.
  assert (K : forall f out inp x, fl_inp (fst (add_checks f out inp x)) = fl_inp f /\
     fl_out (fst (add_checks f out inp x)) = fl_out f /\
     fl_args (fst (add_checks f out inp x)) = fl_args f /\ fl_kwds (fst (add_checks f out inp x)) = fl_kwds f).
  { clear. intros f out inp x. unfold add_checks.
    destruct (entry_iconic x && negb (Nat.eqb (length out) 1 && subset_str out (fl_out f))); [auto|].
    destruct inp as [i|]; [|destruct x; [auto|]].
    - destruct (negb (subset_str out (fl_out f))); [auto|].
      destruct (negb (subset_str i (fl_inp f))); [auto|].
      destruct (set_partials _ _ _ _) as [[fs ps] r]. auto.
    - destruct (negb (subset_str out (fl_out f))); [auto|].
      destruct (negb (subset_str (dedup_str symbols) (fl_inp f))); [auto|].
      destruct (set_partials _ _ _ _) as [[fs ps] r]. auto. }
  assert (S : forall f spec g, fl_inp (fst (add_func f spec g)) = fl_inp f /\
     fl_out (fst (add_func f spec g)) = fl_out f /\
     fl_args (fst (add_func f spec g)) = fl_args f /\ fl_kwds (fst (add_func f spec g)) = fl_kwds f).
  { intros f spec g. unfold add_func. destruct (parse_spec spec) as [[o i]|err]; [|auto].
    destruct (set_mem (fl_deps f) o); [auto|]. destruct (make_entry g) as [x|err]; [|auto].
    cbn [fl_iconic with_funcs with_deps]. destruct (fl_iconic f) as [b|].
    - destruct (Bool.eqb b (entry_iconic x)); [|auto].
      match goal with |- context [add_checks ?h ?a ?c ?y] => exact (K h a c y) end.
    - match goal with |- context [add_checks ?h ?a ?c ?y] => exact (K h a c y) end. }
  assert (A : forall l f, fl_inp (add_all f l) = fl_inp f /\ fl_out (add_all f l) = fl_out f /\
     fl_args (add_all f l) = fl_args f /\ fl_kwds (add_all f l) = fl_kwds f).
  { induction l0 as [|[s g] l0 IH]; intros f; cbn; [auto|].
    destruct (IH (fst (add_func f s g))) as [A1 [A2 [A3 A4]]]. destruct (S f s g) as [S1 [S2 [S3 S4]]].
    unfold add_all in *. cbn in *. rewrite A1, A2, A3, A4, S1, S2, S3, S4. auto. }
  destruct (A l (make_functional out inp cargs ckw)) as [A1 [A2 [A3 A4]]].
  rewrite A1, A2, A3, A4. auto.
Qed.

End Kinds.
