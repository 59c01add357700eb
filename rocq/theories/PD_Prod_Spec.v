(** Specification vocabulary for the reduction of repetitions. *)
From Coq Require Import String ZArith Reals Bool Arith List.
From Verif Require Import Base Num Tensor PScales PScales_Spec Distr PDModel PD_Spec.
Import ListNotations.
Local Open Scope R_scope.

Section Spec.
Context {F : Fmt R}.
Variables (p : pd R) (L keys : list string).

(** The number of positions of the keys. *)
Definition repetitions : nat := prod_list (map (size_of p) (restrict keys L)).

(** The product of the probabilities over all positions of the keys, the other
    columns being at a. *)
Definition joint_at (a : assignment) : R := prod_over (sized p (restrict keys L)) (prob_at p L) a.

(** The scale keeps its kind when raised to the power n: not a log scale whose n-fold is
    the offset 1+0j (which the code takes for the linear scale 1), nor one whose
    imaginary part is within rounding of zero without being zero. *)
Definition steady_scale (n : nat) : Prop :=
  match p_pscale p with
  | Lin _ => True
  | Log re im => (im = 0 /\ re * INR n <> 1) \/ npz <= Rabs im
  end.

(** q holds the variables of p, the keys among them replaced by their counts {n}. *)
Definition reduced (q : pd R) : Prop :=
  valid_pd q (without keys L) /\ p_keylist q = p_keylist p /\
  od_keys (p_marg q) = od_keys (p_marg p) /\ p_cond q = p_cond p /\
  (forall k, In k keys -> variable q k = Some (Scal (VSet [SEint (Z.of_nat (size_of p k))]))) /\
  (forall k, In k (p_keylist p) -> ~ In k keys -> variable q k = variable p k).
End Spec.
