(** The types of values, as numpy has them (C242). *)
From Coq Require Import Reals List.
From Verif Require Import Base Num RNumLemmas VariableModel.
Import ListNotations.

(** The type that numpy gives an array of these values, if it is one of the three. *)
Inductive numpy_type (l : list (atom R)) : option vtype -> Prop :=
| nt_empty : l = [] -> numpy_type l (Some VFloat)
| nt_float x : (forall b, ~ In (AOO b) l) -> In (AV (PF x)) l -> numpy_type l (Some VFloat)
| nt_int z : (forall b, ~ In (AOO b) l) -> In (AV (PI z)) l -> (forall x, ~ In (AV (PF x)) l) -> numpy_type l (Some VInt)
| nt_bool b : In (AV (PB b)) l -> (forall a, In a l -> exists c, a = AV (PB c)) -> numpy_type l (Some VBool)
| nt_object b : In (AOO b) l -> numpy_type l None.

(** Ways to write down values: a set or range, a tuple, or a list, whose elements may be
    tuples of one value. *)
Definition holds (a : arg R) (l : list (atom R)) : Prop :=
  a = ASet l \/ a = ATuple l \/ (exists m, a = AList m /\ map atom_of m = l).
