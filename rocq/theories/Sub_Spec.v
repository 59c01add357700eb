(** Specification of calls of fields. *)
From Coq Require Import String Ascii ZArith Bool Arith List.
From Verif Require Import Base Num Tensor Names Distr Distr_Spec VariableModel FieldModel Field_Spec RFModel.
Import ListNotations.

(** Variable k of the distribution d: a number without axis, or the numbers along
    the axis of the key that holds them; A k are the values of variable k. *)
Definition shows {T : Type} {N : Num T} (d : dist T) (values : odict (fentry T)) (keys : list string)
    (A : string -> tensor (pyval T)) (k : string) : Prop :=
  (shape (A k) = [] /\ od_get (d_vals d) k = Some (VNum (as_num (get (A k) []))) /\ od_get (d_dims d) k = Some None) \/
  (shape (A k) <> [] /\ exists o i a, owner values k = Some o /\ nth_error (axes values keys) i = Some o /\
     od_get (d_dims d) k = Some (Some (Z.of_nat i)) /\ od_get (d_vals d) k = Some (VArr a) /\
     shape a = along (length (axes values keys)) i (tsize (A k)) /\ to_list a = map as_num (to_list (A k))).
