(** Property theorems about fields of independent random variables (C118-C121, C137). *)
From Coq Require Import String ZArith Reals Lra Lia Bool Arith List.
From Verif Require Import Base Num Tensor PScales PScales_Spec Distr PDModel PD_Spec PD_Simple_Spec PD_Examples VariableModel
  Var_Spec RVModel RV_Spec FieldModel Field_Spec RFModel RF_Spec RF_Thm RF_Single_Spec RF_Single.
Import ListNotations.
Local Open Scope R_scope.

(** C118: a field of variables without probability of its own treats them as
    independent: called with a value for every variable it returns the distribution
    with an axis for each array, whose probability at every position is the product
    of what the variables' own distributions give there. *)
Theorem C118_independent :
  forall (F : Fmt R) (TR : Trunc R) (vs : list (rv R)) (values : odict (fentry R))
    (x : nat -> fval R) (a : nat -> values_in R) (r : nat -> rnd R) (A : nat -> tensor (pyval R)),
  printable F -> vs <> [] -> named_apart (names_of vs) -> scales_ok vs -> (forall v, In v vs -> callable v) ->
  NoDup (od_keys values) -> incl (od_keys values) (names_of vs) ->
  (forall i v, nth_error vs i = Some v -> evaluates v values (x i) (a i) (r i) (A i)) ->
  let L := filter (needs_axis values) (names_of vs) in
  exists f p own, make_rf vs = Ok f /\ rf_call f values r = Ok p /\ valid_pd p L /\
    od_keys (p_marg p) = names_of vs /\ p_cond p = [] /\ length own = length vs /\
    (forall i v, nth_error vs i = Some v -> exists q, nth_error own i = Some q /\ rv_call v (a i) (r i) = Ok q /\
       valid_pd q (filter (needs_axis values) [rv_name v]) /\ variable p (rv_name v) = variable q (rv_name v)) /\
    forall s, in_bounds p L s -> floored values vs own s -> prob_at p L s = joint_of values vs own s.
Proof. exact (@call_joint). Qed.
Print Assumptions C118_independent.

Example C118_instance :
  printable fmt_ex /\ ex_vs <> [] /\ named_apart (names_of ex_vs) /\ scales_ok ex_vs /\ (forall v, In v ex_vs -> callable v) /\
  let values := [("d", One FNone); ("c", One (FNum (PB true)))]%string : odict (fentry R) in
  NoDup (od_keys values) /\ incl (od_keys values) (names_of ex_vs) /\
  (forall r i v, nth_error ex_vs i = Some v ->
    evaluates v values (if i =? 0 then FNone else FNum (PB true))%nat
      (if i =? 0 then VNone else VGiven [PB true] true)%nat r
      (if (i =? 0)%nat then of_list (PF 0%R) [PI 1; PI 2; PI 3] else tscalar (PB true))) /\
  filter (needs_axis values) (names_of ex_vs) = ["d"%string].
Proof.
  split; [exact ex_printable|]. split; [discriminate|]. split; [apply ex_apart|]. split; [apply ex_scales|]. split; [apply ex_scales|].
  exact ex_call.
Qed.

(** C119: propose without a proposal of its own is the call with every name
    followed by the suffix (here for a suffix that does not turn a name into
    another variable's). *)
Theorem C119_propose :
  forall (F : Fmt R) (TR : Trunc R) (vs : list (rv R)) (values : odict (fentry R))
    (x : nat -> fval R) (a : nat -> values_in R) (r : nat -> rnd R) (A : nat -> tensor (pyval R)) (suf : string),
  printable F -> vs <> [] -> named_apart (names_of vs) -> scales_ok vs -> (forall v, In v vs -> callable v) ->
  NoDup (od_keys values) -> incl (od_keys values) (names_of vs) ->
  (forall i v, nth_error vs i = Some v -> evaluates v values (x i) (a i) (r i) (A i)) ->
  let new := fun k => (k ++ suf)%string in
  named_apart (map new (names_of vs)) ->
  (forall k k', In k (names_of vs) -> In k' (names_of vs) -> new k <> k') ->
  let L := filter (needs_axis values) (names_of vs) in
  exists f p own, make_rf vs = Ok f /\ rf_propose f values suf r = Ok p /\ valid_pd p (map new L) /\
    od_keys (p_marg p) = map new (names_of vs) /\ p_cond p = [] /\ length own = length vs /\
    (forall i v, nth_error vs i = Some v -> exists q, nth_error own i = Some q /\ rv_call v (a i) (r i) = Ok q /\
       valid_pd q (filter (needs_axis values) [rv_name v]) /\ variable p (new (rv_name v)) = variable q (rv_name v)) /\
    forall s, in_bounds p (map new L) s -> floored values vs own (fun k => s (new k)) ->
      prob_at p (map new L) s = joint_of values vs own (fun k => s (new k)).
Proof. exact (@propose_renames). Qed.
Print Assumptions C119_propose.

Example C119_instance :
  named_apart (map (fun k => k ++ "'")%string (names_of ex_vs)) /\
  (forall k k', In k (names_of ex_vs) -> In k' (names_of ex_vs) -> (k ++ "'")%string <> k').
Proof. split; apply ex_apart. Qed.

(** C120: without a transition function, the step between two sets of numbers gets
    the square root of the product of the two probabilities, the second one divided
    by the scales of the variables. *)
Theorem C120_step :
  forall (F : Fmt R) (TR : Trunc R) (vs : list (rv R)) (pred succ : odict (pyval R))
    (yp ys : string -> pyval R) (zp zs : list R) (rev : bool),
  printable F -> vs <> [] -> named_apart (names_of vs) -> named_apart (map (fun k => k ++ "'")%string (names_of vs)) ->
  (forall k k', In k (names_of vs) -> In k' (names_of vs) -> (k ++ "'")%string <> k') ->
  scales_ok vs -> (forall v, In v vs -> callable v) -> (forall v, vs = [v] -> rv_tran v = TRNone) ->
  NoDup (od_keys pred) -> incl (od_keys pred) (names_of vs) ->
  (forall k, In k (names_of vs) -> od_get pred k = Some (yp k)) ->
  (forall k, In k (names_of vs) -> told succ k (ys k)) ->
  Forall2 (fun v z => weighs v (yp (rv_name v)) z) vs zp -> Forall2 (fun v z => weighs v (ys (rv_name v)) z) vs zs ->
  0 <= Rprod zp -> 0 <= Rprod zs -> above_floor vs zp -> above_floor vs zs ->
  exists f p, make_rf vs = Ok f /\ rf_step f pred succ rev = Ok p /\ valid_pd p [] /\
    od_keys (p_marg p) = map (fun k => k ++ "'")%string (names_of vs) /\ od_keys (p_cond p) = names_of vs /\
    (forall k, In k (names_of vs) -> variable p k = Some (Scal (VNum (as_num (yp k)))) /\
       variable p (k ++ "'") = Some (Scal (VNum (as_num (ys k))))) /\
    forall s, prob_at p [] s = sqrt (Rprod zp * (Rprod zs / scale_product vs)).
Proof. exact (@step_geometric). Qed.
Print Assumptions C120_step.

(** C120 (false of the code): the probability of the step is that of the
    independent successors only if the predecessors happen to have that probability
    times the scales of the variables. *)
Theorem C120_not_successors_refuted :
  forall (F : Fmt R) (TR : Trunc R) (vs : list (rv R)) (pred succ : odict (pyval R))
    (yp ys : string -> pyval R) (zp zs : list R) (rev : bool),
  printable F -> vs <> [] -> named_apart (names_of vs) -> named_apart (map (fun k => k ++ "'")%string (names_of vs)) ->
  (forall k k', In k (names_of vs) -> In k' (names_of vs) -> (k ++ "'")%string <> k') ->
  scales_ok vs -> (forall v, In v vs -> callable v) -> (forall v, vs = [v] -> rv_tran v = TRNone) ->
  NoDup (od_keys pred) -> incl (od_keys pred) (names_of vs) ->
  (forall k, In k (names_of vs) -> od_get pred k = Some (yp k)) ->
  (forall k, In k (names_of vs) -> told succ k (ys k)) ->
  Forall2 (fun v z => weighs v (yp (rv_name v)) z) vs zp -> Forall2 (fun v z => weighs v (ys (rv_name v)) z) vs zs ->
  0 <= Rprod zp -> 0 < Rprod zs -> above_floor vs zp -> above_floor vs zs ->
  exists f p, make_rf vs = Ok f /\ rf_step f pred succ rev = Ok p /\
    forall s, prob_at p [] s = Rprod zs <-> Rprod zp = scale_product vs * Rprod zs.
Proof. exact (@step_ignores_iff). Qed.
Print Assumptions C120_not_successors_refuted.

Example C120_instance :
  (forall v, ex_vs = [v] -> rv_tran v = TRNone) /\ NoDup (od_keys ex_from) /\ incl (od_keys ex_from) (names_of ex_vs) /\
  (forall k, In k (names_of ex_vs) -> od_get ex_from k = Some (ex_yp k)) /\
  (forall k, In k (names_of ex_vs) -> told ex_to k (ex_ys k)) /\
  @Forall2 (rv R) R (fun v z => @weighs fmt_ex _ v (ex_yp (rv_name v)) z) ex_vs [/ 6; / 3] /\
  @Forall2 (rv R) R (fun v z => @weighs fmt_ex _ v (ex_ys (rv_name v)) z) ex_vs [/ 2; 2 / 3] /\
  above_floor ex_vs [/ 6; / 3] /\ above_floor ex_vs [/ 2; 2 / 3] /\
  Rprod [/ 6; / 3] = / 18 /\ Rprod [/ 2; 2 / 3] = / 3 /\ scale_product ex_vs = 2 /\
  Rprod [/ 6; / 3] <> 2 * Rprod [/ 2; 2 / 3].
Proof.
  destruct ex_told as (T1 & T2 & T3 & T4 & _). destruct (ex_weighs fmt_ex _ ex_printable) as [W1 W2]. destruct ex_probs as (P1 & P2 & P3).
  split; [intros v C; discriminate|]. repeat (split; [assumption || apply ex_floor|]). split; [apply ex_scales|exact P3].
Qed.

(** C121: reval_tran exchanges what is given and what is told, and keeps every
    probability. *)
Theorem C121_exchanges :
  forall (F : Fmt R) (p : pd R) (L : list string),
  valid_pd p L ->
  exists q, reval_tran p = Ok q /\ valid_pd q L /\
    od_keys (p_marg q) = od_keys (p_cond p) /\ od_keys (p_cond q) = od_keys (p_marg p) /\
    (forall k, variable q k = variable p k) /\ (forall s, prob_at q L s = prob_at p L s).
Proof. exact (@reval_swaps). Qed.
Print Assumptions C121_exchanges.

(** C121: for the step of independent variables that is the probability of the step
    back: it does not depend on the direction. *)
Theorem C121_step_back :
  forall (F : Fmt R) (TR : Trunc R) (vs : list (rv R)) (pred succ : odict (pyval R))
    (yp ys : string -> pyval R) (zp zs : list R) (rev rev' : bool),
  printable F -> vs <> [] -> named_apart (names_of vs) -> named_apart (map (fun k => k ++ "'")%string (names_of vs)) ->
  (forall k k', In k (names_of vs) -> In k' (names_of vs) -> (k ++ "'")%string <> k') ->
  scales_ok vs -> (forall v, In v vs -> callable v) -> (forall v, vs = [v] -> rv_tran v = TRNone) ->
  NoDup (od_keys pred) -> incl (od_keys pred) (names_of vs) -> NoDup (od_keys succ) -> incl (od_keys succ) (names_of vs) ->
  (forall k, In k (names_of vs) -> od_get pred k = Some (yp k)) ->
  (forall k, In k (names_of vs) -> od_get succ k = Some (ys k)) ->
  Forall2 (fun v z => weighs v (yp (rv_name v)) z) vs zp -> Forall2 (fun v z => weighs v (ys (rv_name v)) z) vs zs ->
  0 <= Rprod zp -> 0 <= Rprod zs -> above_floor vs zp -> above_floor vs zs ->
  exists f there back turned, make_rf vs = Ok f /\ rf_step f pred succ rev = Ok there /\ rf_step f succ pred rev' = Ok back /\
    reval_tran there = Ok turned /\
    od_keys (p_marg turned) = names_of vs /\ od_keys (p_cond turned) = map (fun k => k ++ "'")%string (names_of vs) /\
    forall s, prob_at back [] s = prob_at there [] s /\ prob_at turned [] s = prob_at back [] s.
Proof. exact (@step_reversed). Qed.
Print Assumptions C121_step_back.

Example C121_instance :
  NoDup (od_keys ex_to') /\ incl (od_keys ex_to') (names_of ex_vs) /\
  (forall k, In k (names_of ex_vs) -> od_get ex_to' k = Some (ex_ys k)) /\
  exists f p, make_rf ex_vs = Ok f /\ @rf_step R RNum fmt_ex f ex_from ex_to' false = Ok p /\ @valid_pd fmt_ex p [] /\ (forall s, prob_at p [] s = sqrt (/ 108)).
Proof.
  destruct ex_told as (T1 & T2 & T3 & _ & T5 & T6 & T7). destruct (ex_weighs fmt_ex _ ex_printable) as [W1 W2]. destruct ex_probs as (P1 & P2 & P3).
  split; [exact T5|]. split; [exact T6|]. split; [exact T7|].
  destruct (@step_geometric fmt_ex _ ex_vs ex_from ex_to' ex_yp ex_ys [/ 6; / 3] [/ 2; 2 / 3] false) as (f & p & E1 & E2 & V & _ & _ & _ & P);
    try assumption; try apply ex_floor; try apply ex_apart; try apply ex_scales; try exact ex_printable; try discriminate.
  - intros k I. right. destruct ex_apart as (_ & _ & DJ). split; [|apply T7; exact I].
    destruct I as [<-|[<-|[]]]; reflexivity.
  - rewrite P1. lra.
  - rewrite P2. lra.
  - exists f, p. split; [exact E1|]. split; [exact E2|]. split; [exact V|]. intros s. rewrite P, P1, P2.
    destruct ex_scales as (_ & _ & ->). f_equal. lra.
Qed.

(** C137: a field of one variable with a transition of its own gives a step the
    probability of that transition, from the predecessor to the successor. *)
Theorem C137_own_transition :
  forall (F : Fmt R) (v : rv R) (pred succ : odict (pyval R)) (a b : pyval R) (rev : bool) (w : R),
  let k := rv_name v in
  printable F -> named_apart [k] -> named_apart [(k ++ "'")%string] -> scales_ok [v] ->
  od_keys pred = [k] -> od_get pred k = Some a -> told succ k b -> tran_weight v rev a b w ->
  exists f p, make_rf [v] = Ok f /\ rf_step f pred succ rev = Ok p /\ valid_pd p [] /\
    od_keys (p_marg p) = [(k ++ "'")%string] /\ od_keys (p_cond p) = [k] /\
    variable p k = Some (Scal (VNum (num a))) /\ variable p (k ++ "'") = Some (Scal (VNum (num b))) /\
    forall s, prob_at p [] s = denote (scale_of v) w.
Proof. exact (@step_single). Qed.
Print Assumptions C137_own_transition.

(** A die whose values are listed as 3, 1, 2, from 1 to 3: the last row of the first
    column. *)
Example C137_instance :
  printable fmt_ex /\ named_apart ["d"%string] /\ named_apart ["d'"%string] /\ scales_ok [ex_turned] /\
  tran_weight ex_turned false (PI 1) (PI 3) (1 / 4) /\ told [("d'"%string, PI 3)] "d" (PI 3).
Proof. split; [exact ex_printable|exact ex_single]. Qed.
