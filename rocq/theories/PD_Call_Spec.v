(** Specification vocabulary for slicing. *)
From Coq Require Import String ZArith Reals Bool Arith List.
From Verif Require Import Base Num Tensor PScales PScales_Spec Names_Spec Distr PDModel PD_Spec.
Import ListNotations.
Local Open Scope R_scope.

(** x occurs at the position i of l and nowhere else. *)
Definition only_at (l : list R) (x : R) (i : nat) : Prop :=
  (i < length l)%nat /\ nth i l 0 = x /\ forall j, (j < length l)%nat -> nth j l 0 = x -> j = i.

(** at_ k is the one position at which the column k of p has the value requested for it. *)
Definition locates (p : pd R) (values : odict R) (at_ : assignment) : Prop :=
  forall k x l, od_get values k = Some x -> variable p k = Some (Col l) -> only_at l x (at_ k).

(** The position of the variables of ks given by at_, that of the others by a. *)
Definition placed (ks : list string) (at_ a : assignment) : assignment :=
  fun k => if mem_str k ks then at_ k else a k.
