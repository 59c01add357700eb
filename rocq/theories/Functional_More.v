(** The property theorems about functionals, proved from Functional_Proofs. *)
From Coq Require Import String Ascii ZArith Bool Arith Lia List.
From Verif Require Import Base OdLemmas Names ExprModel Expr_Spec Expr_More FunctionalModel
  Functional_Spec Functional_Proofs.
Import ListNotations.
Set Implicit Arguments.

Section More.
Context {V : Type} (sub : V -> V -> V).

Lemma registered_iff (f : functional V) out : registered f out <-> set_mem (fl_deps f) out = true.
Proof.
  unfold registered, set_mem. split.
  - intros [o [i [IN E]]]. induction (fl_deps f) as [|[k a] d IH]; [destruct IN|]. cbn.
    destruct (seteq_str out k) eqn:S; [reflexivity|]. destruct IN as [IN|IN]; [|auto].
    inversion IN; subst. exfalso. rewrite <- not_true_iff_false in S. apply S.
    apply seteq_str_iff. split; intros x Hx; apply E; auto.
  - intros H. destruct (set_get (fl_deps f) out) as [a|] eqn:G; [|discriminate].
    apply set_get_in in G. destruct G as [k [S IN]]. exists k, a. split; [auto|].
    apply seteq_str_iff in S. destruct S as [S1 S2]. intros s. split; intros Hs; [apply S2|apply S1]; auto.
Qed.

Lemma not_registered (f : functional V) out : ~ registered f out -> set_mem (fl_deps f) out = false.
Proof. rewrite registered_iff. apply not_true_is_false. Qed.

Lemma output_taken (f : functional V) spec g out inp :
  parse_spec spec = Ok (out, inp) -> ~ registered f out ->
  let f' := fst (add_func f spec g) in
  fl_len f' = S (fl_len f) /\ registered f' out /\
  forall l spec' inp' g', parse_spec spec' = Ok (out, inp') -> raises (add_all f' l) spec' g'.
Proof.
  intros P M. apply not_registered in M. cbv zeta.
  destruct (registered_forever f spec g [] spec g P M P) as [L _].
  split; [auto|]. split.
  - apply registered_iff. destruct (add_func_deps f spec g P M) as [i H]. rewrite H, set_mem_app.
    unfold set_mem at 2. cbn. rewrite seteq_refl. apply orb_true_r.
  - intros l spec' inp' g' P'. destruct (registered_forever f spec g l spec' g' P M P') as [_ H].
    exists AssertionError. rewrite H. reflexivity.
Qed.

Lemma accepted (f : functional V) spec g :
  snd (add_func f spec g) = Ok tt ->
  exists out inp ins, parse_spec spec = Ok (out, inp) /\ (forall i, inp = Some i -> ins = i) /\
    ~ registered f out /\ incl out (fl_out f) /\ incl ins (fl_inp f) /\
    fl_deps (fst (add_func f spec g)) = fl_deps f ++ [(out, Some ins)].
Proof.
  intros H. apply add_func_ok in H.
  destruct H as [out [inp [x [ins [P [_ [M [EI [I1 [I2 [D _]]]]]]]]]]].
  exists out, inp, ins. split; [auto|]. split; [auto|]. split; [|auto].
  rewrite registered_iff. congruence.
Qed.

Lemma unchanged_iff (f : functional V) spec g :
  fl_deps (fst (add_func f spec g)) = fl_deps f <->
  (exists e, parse_spec spec = Err e) \/
  (exists out inp, parse_spec spec = Ok (out, inp) /\ registered f out).
Proof.
  destruct (parse_spec spec) as [[out inp]|err] eqn:P.
  - destruct (set_mem (fl_deps f) out) eqn:M.
    + rewrite (add_func_known _ _ g P M). split; [|auto]. intros _. right. exists out, inp.
      split; [auto|]. apply registered_iff. auto.
    + destruct (add_func_deps f spec g P M) as [i H]. rewrite H. split.
      * intros E. apply (f_equal (@length _)) in E. rewrite app_length in E. cbn in E. lia.
      * intros [[e E]|[out' [inp' [E R]]]]; [discriminate|]. inversion E; subst.
        apply registered_iff in R. congruence.
  - unfold add_func. rewrite P. cbn. split; [|auto]. intros _. left. eauto.
Qed.

Lemma delta_raises (f : functional V) spec s cargs ckw m :
  raises f spec (GExpr s cargs ckw None (Some m)).
Proof.
  unfold raises. pose proof (@delta_never_added V f spec s cargs ckw m) as H.
  destruct (snd (add_func f spec (GExpr s cargs ckw None (Some m)))) as [[]|e]; [congruence|eauto].
Qed.

Lemma closed_no_inputs out inp fargs fkw l spec o s cargs ckw delta (e : expression V) :
  let f := after out inp fargs fkw l in
  let g := GExpr s cargs ckw None delta in
  parse_spec spec = Ok (o, None) -> ~ registered f o ->
  make_expression s cargs ckw None delta = Ok e -> inputs out inp <> [] ->
  raises f spec g /\ closed_forever (fst (add_func f spec g)).
Proof.
  intros f g P M MK NE. apply not_registered in M.
  destruct (@no_inputs_stuck V f spec o s cargs ckw delta e) as [S R]; auto.
  - apply reachable_consistent.
  - unfold f, after. destruct (inputs_kept out inp fargs fkw l) as [-> _]. exact NE.
  - split; [exact R|]. intros l' spec' g'. apply stuck_forever. exact S.
Qed.

Lemma closed_delta out inp fargs fkw l spec o ins s cargs ckw m (e : expression V) :
  let f := after out inp fargs fkw l in
  let g := GExpr s cargs ckw None (Some m) in
  parse_spec spec = Ok (o, Some ins) -> ~ registered f o ->
  make_expression s cargs ckw None (Some m) = Ok e -> incl (inputs out inp) ins ->
  raises f spec g /\ closed_forever (fst (add_func f spec g)).
Proof.
  intros f g P M MK I. apply not_registered in M.
  destruct (@delta_stuck V f spec o ins s cargs ckw m e) as [S R]; auto.
  - apply reachable_consistent.
  - unfold f, after. destruct (inputs_kept out inp fargs fkw l) as [-> _]. exact I.
  - split; [exact R|]. intros l' spec' g'. apply stuck_forever. exact S.
Qed.

Lemma call_all_inputs out inp fargs fkw l spec o ins id lk argc cargs ckw f' iname args kwds :
  let f := after out inp fargs fkw l in
  NoDup out -> NoDup inp -> parse_spec spec = Ok (o, Some ins) ->
  add_func f spec (GExpr (ESingle (Fun id lk argc)) cargs ckw None None) = (f', Ok tt) ->
  parse_identifiers iname = Ok o ->
  (lk <> Lambda \/ argc <> 0) ->
  not_sole_dict (cargs ++ fargs ++ args) -> NoDup (od_keys ckw) -> NoDup (od_keys kwds) ->
  NoDup (od_keys fkw) ->
  (forall j, In j (inputs out inp) -> ~ In j ins ->
     In j (od_keys ckw) \/ In j (od_keys fkw) \/ In j (od_keys kwds)) ->
  exists kw, fl_call sub f' iname args kwds = Ok (Some (Called id (cargs ++ fargs ++ args) kw)) /\
    forall j,
      (In j (inputs out inp) /\ ~ In j ins -> od_get kw j = None) /\
      (~ (In j (inputs out inp) /\ ~ In j ins) ->
         od_get kw j = match od_get kwds j with
                       | Some v => Some v
                       | None => match od_get fkw j with Some v => Some v | None => od_get ckw j end
                       end).
Proof.
  intros f N1 N2 P H PI LK NS K1 K2 K3 SU.
  destruct (inputs_kept out inp fargs fkw l) as [I1 [_ [I3 I4]]].
  change (add_all (make_functional out inp fargs fkw) l) with f in I1, I3, I4.
  destruct (@functional_call V sub f spec o ins id lk argc cargs ckw f' iname args kwds) as [kw [E R]]; auto.
  - apply reachable_consistent.
  - rewrite I1. destruct inp; auto.
  - rewrite I3. auto.
  - rewrite I4. auto.
  - rewrite I1, I4. exact SU.
  - rewrite I3 in E. rewrite I1, I4 in R. exists kw. split; [exact E|]. intros j. rewrite R.
    change (match inp with [] => out | _ :: _ => inp end) with (inputs out inp).
    destruct (mem_str j (inputs out inp)) eqn:E1; destruct (mem_str j ins) eqn:E2; cbn [andb negb].
    + apply mem_str_iff in E2. split; [tauto|reflexivity].
    + apply mem_str_iff in E1. apply mem_str_false in E2. split; [reflexivity|tauto].
    + apply mem_str_false in E1. split; [tauto|reflexivity].
    + apply mem_str_false in E1. split; [tauto|reflexivity].
Qed.

Lemma call_missing_input out inp fargs fkw l spec o ins id lk argc cargs ckw f' iname args kwds j :
  let f := after out inp fargs fkw l in
  parse_spec spec = Ok (o, Some ins) ->
  add_func f spec (GExpr (ESingle (Fun id lk argc)) cargs ckw None None) = (f', Ok tt) ->
  parse_identifiers iname = Ok o ->
  not_sole_dict (cargs ++ fargs ++ args) -> NoDup (od_keys ckw) ->
  In j (inputs out inp) -> ~ In j ins ->
  ~ In j (od_keys ckw) -> ~ In j (od_keys fkw) -> ~ In j (od_keys kwds) ->
  exists err, fl_call sub f' iname args kwds = Err err.
Proof.
  intros f P H PI NS K1 J1 J2 J3 J4 J5.
  destruct (inputs_kept out inp fargs fkw l) as [I1 [_ [I3 I4]]].
  change (add_all (make_functional out inp fargs fkw) l) with f in I1, I3, I4.
  apply (@functional_call_missing V sub f spec o ins id lk argc cargs ckw f' iname args kwds j); auto.
  - apply reachable_consistent.
  - rewrite I3. auto.
  - rewrite I1. exact J1.
  - rewrite I4. auto.
Qed.

Lemma kind_fixed_raises (f : functional V) spec g out inp x l spec' g' x' :
  parse_spec spec = Ok (out, inp) -> ~ registered f out ->
  make_entry g = Ok x -> fl_iconic f = None ->
  make_entry g' = Ok x' -> entry_iconic x' <> entry_iconic x ->
  raises (add_all (fst (add_func f spec g)) l) spec' g'.
Proof. intros P M. apply not_registered in M. apply (kind_fixed f spec g l spec' g' P M). Qed.

End More.
