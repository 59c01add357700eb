(** Specification vocabulary for the values a variable is made of. *)
From Coq Require Import ZArith Reals List.
From Verif Require Import Base Num VariableModel Var_Spec.
Import ListNotations.
Local Open Scope R_scope.

(** z is x without its fraction: towards zero. *)
Definition truncated (x : R) (z : Z) : Prop :=
  (0 <= x /\ IZR z <= x < IZR z + 1) \/ (x < 0 /\ x <= IZR z < x + 1).

(** w is v converted to the type t. *)
Definition converted (t : vtype) (v w : pyval R) : Prop :=
  match t with
  | VBool => exists b, w = PB b /\ (b = true <-> num v <> 0)
  | VInt => exists z, w = PI z /\ truncated (num v) z
  | VFloat => w = PF (num v)
  end.

(** In ascending order. *)
Fixpoint ascends (l : list (pyval R)) : Prop :=
  match l with
  | v :: ((w :: _) as l') => num v <= num w /\ ascends l'
  | _ => True
  end.
