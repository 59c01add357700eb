(** Notions used in the statements about lengths and membership. *)
From Coq Require Import String ZArith Bool List Reals.
From Verif Require Import Base Num VariableModel Var_Spec LenModel.
Import ListNotations.

(** The length of a variable is the number x. *)
Definition has_length (v : lvar R) (x : R) : Prop := exists p, vlength (fst v) (snd v) = Ok (Some p) /\ num p = x.

(** The root of the sum of squares. *)
Definition root_sum_squares (l : list R) : R := sqrt (fold_right Rplus 0%R (map (fun x => x * x)%R l)).

(** Calls after which a field knows the lengths of its variables. *)
Definition refreshes (c : lchange R) : Prop := c = LEval \/ exists n v, c = LAdd n v.

(** The value at position i occurs again later. *)
Definition again_later (xs : list R) (i : nat) : Prop := exists j x, (i < j)%nat /\ nth_error xs i = Some x /\ nth_error xs j = Some x.
