(** Specification vocabulary for Bayes' theorem. *)
From Coq Require Import String ZArith Reals Bool Arith List.
From Verif Require Import Base Num Tensor PScales PScales_Spec Distr PDModel PD_Spec PD_Cond_Spec PD_Product_Spec.
Import ListNotations.
Local Open Scope R_scope.

Section Spec.
Context {F : Fmt R}.

(** Prior and likelihood with the variables on their axes. *)
Variables (pri lik : pd R) (axes : pd R -> list string).

(** prior * likelihood at an assignment *)
Definition joint_at (a : assignment) : R := prob_at pri (axes pri) a * prob_at lik (axes lik) a.

(** ... summed over the columns of the prior's marginals *)
Definition evidence_at (a : assignment) : R :=
  sum_over (sized pri (marg_columns pri (axes pri))) joint_at a.

(** The product of the scales is one or not within rounding of one. *)
Definition fine_product : Prop :=
  let f := factor (spec_of (p_pscale pri)) * factor (spec_of (p_pscale lik)) in
  f = 1 \/ npz <= Rabs (ln f).

Definition both_in_bounds (a : assignment) : Prop :=
  in_bounds pri (axes pri) a /\ in_bounds lik (axes lik) a.

(** Where logarithms are used, all is within the floating point range. *)
Definition log_range (a : assignment) : Prop :=
  log_scaled pri \/ log_scaled lik ->
  (forall b, both_in_bounds b -> log_safe [pri; lik] axes b /\ joint_at b <= npi) /\
  npz <= factor (spec_of (p_pscale pri)) * factor (spec_of (p_pscale lik)) <= npi /\
  npz <= joint_at a / evidence_at a.

(** What is observed: either all of the likelihood's marginals are columns, or all
    are scalars and every column is a marginal of the prior. *)
Definition observable : Prop :=
  incl (od_keys (p_marg lik)) (axes lik) \/
  (incl (axes pri) (od_keys (p_marg pri)) /\ incl (axes lik) (axes pri)).

(** No column is a conditional of the product. *)
Definition no_free_columns : Prop :=
  forall k, In k (axes pri ++ axes lik) -> In k (od_keys (p_marg pri) ++ od_keys (p_marg lik)).
End Spec.
