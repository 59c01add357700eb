(** Specification vocabulary for arrays that are shared between distributions (C243). *)
From Coq Require Import String ZArith Bool Arith Reals List.
From Verif Require Import Base Num RNumLemmas Tensor PScales Names Distr PDModel PD_Spec PD_Cond_Spec ShareModel.
Import ListNotations.

(** Every array is a view of an existing buffer. *)
Definition sound (w : world R) : Prop :=
  forall i x, nth_error (w_pds w) i = Some (Some x) -> a_buf (h_arr x) < length (w_heap w).

(** Methods whose results have an array of their own: marginalise, marginal, prod and
    rescaled always, sorted by a variable that has an axis, and conditionalise if the
    scale is not one or a marginal column is left over. *)
Definition own_array {F : Fmt R} (m : method R) (p : pd R) : Prop :=
  match m with
  | Marginalise _ | Marginal _ | Prod _ | Rescaled _ => True
  | Sorted k _ => od_get (p_dims p) k <> Some None
  | Conditionalise ks => p_pscale p <> Lin 1%R \/ exists L, valid_pd p L /\ rest p L ks <> []
  | Rekey _ | Call _ _ => False
  end.

(** No step of the program writes to the probabilities of a distribution in fam, or of one
    derived from these, directly or not; n is the number of the next distribution. *)
Fixpoint outside (fam : list nat) (n : nat) (l : list (step R)) : Prop :=
  match l with
  | [] => True
  | SDerive i _ :: l => outside (if in_dec Nat.eq_dec i fam then n :: fam else fam) (S n) l
  | SWrite i _ _ :: l => ~ In i fam /\ outside fam n l
  end.

(** All that it writes to are in fam or derived from these. *)
Fixpoint inside (fam : list nat) (n : nat) (l : list (step R)) : Prop :=
  match l with
  | [] => True
  | SDerive i _ :: l => inside (if in_dec Nat.eq_dec i fam then n :: fam else fam) (S n) l
  | SWrite i _ _ :: l => In i fam /\ inside fam n l
  end.
