(** Specification vocabulary for expectations. *)
From Coq Require Import String ZArith Reals Bool Arith List.
From Verif Require Import Base Num Tensor PScales PScales_Spec Distr PDModel PD_Spec.
Import ListNotations.
Local Open Scope R_scope.

Section Spec.
Context {F : Fmt R}.
Variables (p : pd R) (L keys : list string).

(** x to the power e; without exponent (or with exponent 0, which the code takes
    for none) x itself. *)
Definition raised (e : option nat) (x : R) : R :=
  match e with None | Some 0%nat => x | Some n => x ^ n end.

(** The total weight of the positions of the keys, the others being at a. *)
Definition weight (a : assignment) : R := sum_over (sized p (restrict keys L)) (prob_at p L) a.

(** The mean of f over the positions of the keys, weighted by probability. *)
Definition mean (f : assignment -> R) (a : assignment) : R :=
  sum_over (sized p (restrict keys L)) (fun b => prob_at p L b * f b) a / weight a.

(** Scalars are numbers wherever something has to be raised to a power. *)
Definition raisable (e : option nat) : Prop :=
  forall k v, In k keys -> variable p k = Some (Scal v) -> e = None \/ e = Some 0%nat \/ exists x, v = VNum x.

Definition raised_scalar (e : option nat) (v : value R) : value R :=
  match v with VNum x => VNum (raised e x) | _ => v end.
End Spec.
