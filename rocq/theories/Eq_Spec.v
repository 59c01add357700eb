(** Specification vocabulary for comparison of distributions (C244). *)
From Coq Require Import String Arith Reals List.
From Verif Require Import Base Num Tensor PScales Names Distr PDModel.

(** Values of the same kind and shape. *)
Definition alike (v w : value R) : Prop :=
  match v, w with
  | VNum _, VNum _ | VStr _, VStr _ => True
  | VArr a, VArr b => shape a = shape b
  | _, _ => False
  end.

(** The same numbers or string. *)
Definition equal (v w : value R) : Prop :=
  match v, w with
  | VNum x, VNum y => x = y
  | VStr s, VStr t => s = t
  | VArr a, VArr b => shape a = shape b /\ to_list a = to_list b
  | _, _ => False
  end.

Definition elements (v : value R) : nat := match v with VArr a => length (to_list a) | _ => 1 end.

(** What the distributions hold for their common variables is of the same kind and shape. *)
Definition comparable (p q : pd R) : Prop :=
  NoDup (p_keylist p) /\ NoDup (p_keylist q) /\
  forall k v w, od_get (p_vals p) k = Some v -> od_get (p_vals q) k = Some w -> alike v w /\ 0 < elements v.

(** The same variables in the same order with the same values. *)
Definition same_values (p q : pd R) : Prop :=
  p_keylist p = p_keylist q /\
  forall k v w, od_get (p_vals p) k = Some v -> od_get (p_vals q) k = Some w -> equal v w.
