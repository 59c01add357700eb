(** Steps of one random variable, its default probability and its transition. *)
From Coq Require Import String ZArith Reals Bool Arith List Lra Permutation.
From Verif Require Import Base Num Tensor TensorBcast PScales PScales_Spec PDModel PD_Spec PD_Simple_Spec VariableModel Var_Spec RVModel RV_Spec RV_Proofs RVStep_Spec
  RV_Step RVStep_Ex FieldModel RF_Spec PD_Examples.
Import ListNotations.
Local Open Scope R_scope.

(** C155: a step to given successors is the distribution of the primed variable
    given the variable, one number of the transition for each pair of values. *)
Theorem C155_step :
  forall {F : Fmt R} {TR : Trunc R} (v : rv R) dc pred succ reverse r p vp vs ps ss g,
  printable F -> named_apart [rv_name v] -> eval_pscale (spec_of (rv_pscale v)) = Ok (rv_pscale v) ->
  rv_evaluate v pred (sr_eval r) = Ok p -> holds p vp ps -> holds succ vs ss -> ps <> [] -> ss <> [] ->
  gives_tran v reverse ps ss g \/ (exists c, gives_scalar v c g) ->
  exists q, step v dc pred (SVals succ) reverse r = Ok q /\ steps_to v vp vs ps ss q /\
    forall s, in_bounds q (step_axes v vp vs) s ->
      prob_at q (step_axes v vp vs) s =
        denote (spec_of (rv_pscale v)) (g (item vp ps (s (rv_name v))) (item vs ss (s (rv_name v ++ "'")%string))).
Proof. intros F TR v dc pred succ reverse r p vp vs ps ss g PR NA EP. exact (step_values v PR NA EP dc pred succ reverse r p vp vs ps ss g). Qed.
Print Assumptions C155_step.

Example C155_instance :
  forall (TR : Trunc R) (r : srnd R), printable fmt_ex /\ named_apart [rv_name ex_moving] /\
    eval_pscale (spec_of (rv_pscale ex_moving)) = Ok (rv_pscale ex_moving) /\
    rv_evaluate ex_moving (VGiven [PI 2; PI 1] false) (sr_eval r) = Ok (of_list (PF 0) [PI 2; PI 1]) /\
    holds (of_list (PF 0) [PI 2; PI 1]) true [PI 2; PI 1] /\ holds (of_list (PF 0) [PI 1; PI 3; PI 3]) true [PI 1; PI 3; PI 3] /\
    gives_tran ex_moving false [PI 2; PI 1] [PI 1; PI 3; PI 3] (fun x y => num x + 2 * num y) /\
    rv_evaluate ex_matrix (VGiven [PI 2] true) (sr_eval r) = Ok (tscalar (PI 2)) /\
    gives_tran ex_matrix false [PI 2] [PI 5; PI 2] (fun x y => get ex_m [ex_rank y; ex_rank x]) /\
    (exists g, gives_scalar ex_uniform (/ 3) g).
Proof. exact moving_ok. Qed.

(** C156 (false of the code): the numbers of a step are probabilities whatever
    the scale.  Without a transition every pair has the probability e on a log
    scale; *)
Theorem C156_log_refuted :
  forall {F : Fmt R} {TR : Trunc R} (v : rv R) dc pred succ reverse r p vp vs ps ss,
  printable F -> named_apart [rv_name v] -> eval_pscale (spec_of (rv_pscale v)) = Ok (rv_pscale v) ->
  rv_pscale v = Log 0 0 -> rv_tran v = TRNone ->
  rv_evaluate v pred (sr_eval r) = Ok p -> holds p vp ps -> holds succ vs ss -> ps <> [] -> ss <> [] ->
  exists q, step v dc pred (SVals succ) reverse r = Ok q /\ steps_to v vp vs ps ss q /\
    forall s, in_bounds q (step_axes v vp vs) s -> prob_at q (step_axes v vp vs) s = exp 1.
Proof. intros F TR v dc pred succ reverse r p vp vs ps ss PR NA EP. exact (log_step_none v PR NA EP dc pred succ reverse r p vp vs ps ss). Qed.
Print Assumptions C156_log_refuted.

(** with the uniform transition values outside the set have the probability one. *)
Theorem C156_outside_refuted :
  forall {F : Fmt R} {TR : Trunc R} (v : rv R) dc pred succ reverse r p vp vs ps ss c mem len,
  printable F -> named_apart [rv_name v] -> eval_pscale (spec_of (rv_pscale v)) = Ok (rv_pscale v) ->
  rv_pscale v = Log 0 0 -> rv_tran v = TRScalar c -> finite_set (rv_state v) mem len ->
  rv_evaluate v pred (sr_eval r) = Ok p -> holds p vp ps -> holds succ vs ss -> ps <> [] -> ss <> [] ->
  exists q, step v dc pred (SVals succ) reverse r = Ok q /\ steps_to v vp vs ps ss q /\
    forall s, in_bounds q (step_axes v vp vs) s ->
      let x := num (item vp ps (s (rv_name v))) in let y := num (item vs ss (s (rv_name v ++ "'")%string)) in
      (mem x /\ mem y -> prob_at q (step_axes v vp vs) s = exp c) /\
      (~ (mem x /\ mem y) -> prob_at q (step_axes v vp vs) s = 1).
Proof. intros F TR v dc pred succ reverse r p vp vs ps ss c mem len PR NA EP. exact (log_step_outside v PR NA EP dc pred succ reverse r p vp vs ps ss c mem len). Qed.
Print Assumptions C156_outside_refuted.

Example C156_instance :
  forall (r : srnd R), exists v v' c,
    make_rv (T := R) "x" (AList [Bare (AV (PI 1)); Bare (AV (PI 2)); Bare (AV (PI 3))]) ANone PANone (PSStr "log") = Ok v /\
    rv_reset_prob v (PSStr "log") PANone = Ok v' /\ rv_name v = "x"%string /\ named_apart [rv_name v] /\
    rv_pscale v = Log 0 0 /\ rv_tran v = TRNone /\ rv_pscale v' = Log 0 0 /\ rv_tran v' = TRScalar c /\
    finite_set (rv_state v') (fun x => In x [1; 2; 3]) 3 /\
    rv_evaluate v (VGiven [PI 2; PI 1] false) (sr_eval r) = Ok (of_list (PF 0) [PI 2; PI 1]) /\ ~ In (num (PI 5)) [1; 2; 3].
Proof. exact log_ok. Qed.

(** C157: the default probability of a variable over an unbounded interval is
    nought everywhere, and setting the default probability anew makes both the
    probability and the transition uniform. *)
Theorem C157_unbounded :
  forall nm (vset vt : arg R) given (v : rv R) e0 e1,
  make_rv nm vset vt PANone given = Ok v -> rv_state v = interval e0 e1 -> infinite e0 \/ infinite e1 ->
  forall vals, exists t, eval_prob v vals = Ok t /\ shape t = shape vals /\
    forall idx, get t idx = if log_kind (spec_of (rv_pscale v)) then nni else 0.
Proof. exact unbounded_default. Qed.
Print Assumptions C157_unbounded.

Theorem C157_reset :
  forall (v v' : rv R) given mem len,
  rv_reset_prob v given PANone = Ok v' -> finite_set (rv_state v) mem len -> npz <= len ->
  good_scale (spec_of (rv_pscale v')) ->
  (log_kind (spec_of (rv_pscale v')) = false -> / len / factor (spec_of (rv_pscale v')) <= npi) ->
  rv_state v' = rv_state v /\ rv_name v' = rv_name v /\ rv_def v' = true /\
  exists c, rv_tran v' = TRScalar c /\ denote (spec_of (rv_pscale v')) c = / len.
Proof. exact reset_default. Qed.
Print Assumptions C157_reset.

Example C157_instance :
  exists v v', make_rv (T := R) "x" (AType VFloat) ANone PANone PSNone = Ok v /\
    (exists e0 e1, rv_state v = interval e0 e1 /\ infinite e0) /\
    rv_reset_prob ex_moving PSNone PANone = Ok v' /\ finite_set (rv_state ex_moving) (fun x => In x [1; 2; 3]) 3 /\
    good_scale (spec_of (rv_pscale v')) /\ / 3 / factor (spec_of (rv_pscale v')) <= npi.
Proof. exact unbounded_ok. Qed.

(** C158: matrices are accepted as transitions exactly if the variable is
    discrete and they have a row and a column for each value of its set. *)
Theorem C158_accepted :
  forall (v : rv R) tr m, first_matrix tr m ->
  (snd (rv_set_tran v tr) = Ok tt <-> vs_vtype (rv_state v) <> Some VFloat /\ square_of v m).
Proof. exact tran_accepted. Qed.
Print Assumptions C158_accepted.

(** C158 (false of the code): a variable keeps its transition if another one is
    rejected; and the second of two matrices is checked too. *)
Theorem C158_kept_refuted :
  forall (v : rv R) tr, rv_tran (fst (rv_set_tran v tr)) = tr /\
  rv_prob (fst (rv_set_tran v tr)) = rv_prob v /\ rv_state (fst (rv_set_tran v tr)) = rv_state v.
Proof. exact tran_kept. Qed.
Print Assumptions C158_kept_refuted.

Theorem C158_second_refuted :
  forall (v : rv R) m b b', snd (rv_set_tran v (TRMats m b)) = snd (rv_set_tran v (TRMats m b')).
Proof. exact second_unchecked. Qed.
Print Assumptions C158_second_refuted.

Example C158_instance :
  first_matrix (TRMat ex_m) ex_m /\ square_of ex_matrix ex_m /\ vs_vtype (rv_state ex_matrix) <> Some VFloat /\
  snd (rv_set_tran ex_matrix (TRMat ex_m)) = Ok tt /\ snd (rv_set_tran ex_matrix (TRMat (of_list 0 [1; 2]))) = Err AssertionError.
Proof. exact matrix_ok. Qed.

(** C159: the uniform probability of several arguments is the given one where all
    are inside the set, and nought (or not above the log of nought) elsewhere. *)
Theorem C159_uniform :
  forall a l (p : R) ins ps psc s,
  eval_pscale ps = Ok psc -> fold_res bcast_shape (map shape l) (shape a) = Ok s ->
  exists t, uniform_prob (map Some (a :: l)) (Some p) ins ps = Ok t /\ shape t = s /\
    forall idx, in_range s idx ->
      (all_inside ins (a :: l) idx -> get t idx = p) /\
      (~ all_inside ins (a :: l) idx -> if is_log psc then get t idx <= Rmax p 0 + nni else get t idx = 0).
Proof. exact uniform_many. Qed.
Print Assumptions C159_uniform.

Example C159_instance :
  let a := mkT [2; 1]%nat (fun i => PI (Z.of_nat (nth 0 i 0%nat))) in let b := of_list (PF 0) [PI 0; PI 1; PI 2] in
  fold_res bcast_shape (map shape [b]) (shape a) = Ok [2; 3]%nat /\ eval_pscale (PSStr "log") = Ok (Log 0 0) /\
  all_inside (fun x => match x with PI 2 => false | _ => true end) [a; b] [1; 1]%nat /\
  ~ all_inside (fun x => match x with PI 2 => false | _ => true end) [a; b] [1; 2]%nat.
Proof. exact several_ok. Qed.
