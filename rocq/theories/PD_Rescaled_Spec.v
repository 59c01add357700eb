(** Specification vocabulary for rescaling a distribution. *)
From Coq Require Import String ZArith Reals List.
From Verif Require Import Base Num Tensor Distr PDModel PD_Spec.

(** Everything but probabilities and scale. *)
Definition same_layout {F : Fmt R} (p q : pd R) : Prop :=
  p_keylist q = p_keylist p /\ p_dims q = p_dims p /\ p_shape q = p_shape p /\
  p_marg q = p_marg p /\ p_cond q = p_cond p /\ (forall k, variable q k = variable p k).
