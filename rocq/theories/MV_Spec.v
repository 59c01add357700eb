(** What is meant by a field with the density of a multivariate distribution. *)
From Coq Require Import String ZArith Reals Bool Arith List.
From Verif Require Import Base Num Tensor PScales PScales_Spec Names Distr PDModel PD_Spec VariableModel Var_Spec RVModel FieldModel
  Field_Spec RFModel RF_Spec SDModel SD_Spec MVModel.
Import ListNotations.
Local Open Scope R_scope.

(** The numbers of the variables at the positions of an assignment, in the order of
    the field's variables. *)
Definition point (values : odict (fentry R)) (vs : list (rv R)) (A : nat -> tensor (pyval R)) (s : assignment) : list R :=
  map num (at_positions values vs A s).

(** What the distribution gives on a scale: its density or the logarithm of it. *)
Definition density (m : mvdist R) (ps : pspec R) : list R -> R := if log_kind ps then mv_logp m else mv_prob m.

(** Every array has at least two values. *)
Definition no_single (vs : list (rv R)) (A : nat -> tensor (pyval R)) : Prop :=
  forall i v, nth_error vs i = Some v -> shape (A i) <> [1%nat].

(** Two in reverse order; of three and more, all but the last in reverse order and
    then the last. *)
Definition flipped {B} (l : list B) : list B :=
  match rev l with
  | [] => []
  | [b; a] => [b; a]
  | z :: m => (m ++ [z])%list
  end.

(** The same with its first two exchanged. *)
Definition grid_axes (l : list string) : list string :=
  match flipped l with a :: b :: m => b :: a :: m | m => m end.

(** All variables are given one number each. *)
Definition numbers_only (values : odict (fentry R)) : Prop :=
  Forall (fun kv => exists y, snd kv = One (FNum y)) values.
Definition numbers_of (values : odict (fentry R)) : list R :=
  map (fun kv => match snd kv with One (FNum y) => num y | _ => 0 end) values.
