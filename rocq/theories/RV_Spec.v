(** Specification vocabulary for random variables, over the reals. *)
From Coq Require Import String ZArith Reals Bool Arith List Sorted.
From Verif Require Import Base Num Tensor PScales PScales_Spec PD_Spec VariableModel Var_Spec RVModel.
Import ListNotations.
Local Open Scope R_scope.

(** [finite_set s mem len]: the set of the variable s is described by mem and has
    the finite length len. *)
Inductive finite_set : vstate R -> (R -> Prop) -> R -> Prop :=
| fs_interval : forall e0 e1 a b, atom_of e0 = AV a -> atom_of e1 = AV b -> num a <= num b ->
    finite_set (interval e0 e1) (fun x => over e0 x /\ under e1 x) (num b - num a)
| fs_int : forall vals, finite_set (discrete VInt vals) (fun x => In x (map num vals)) (INR (length vals))
| fs_bool : forall a b, finite_set (discrete VBool [a; b]) (fun x => In x [num a; num b]) 2.

(** Scales under which probabilities can be held without confusion (see
    PScales_Spec). *)
Definition good_scale (s : pspec R) : Prop :=
  valid_scale s /\ ~ unit_log s /\ no_tiny_gap (PSStr "log") s.

(** The bool variable over False and True. *)
Definition both : vstate R := discrete VBool [PB false; PB true].

(** The cumulative probability of the first k states in column j. *)
Definition cumulative (m : tensor R) (j k : nat) : R := sum_n k (fun i => get m [i; j]).

(** vs lists the values of vset in increasing order. *)
Definition increasing (vs : list (pyval R)) : Prop := StronglySorted (fun a b => num a < num b) vs.

(** [holds a vec l]: the argument a is the array of the values l, or the scalar
    that is its only element. *)
Definition holds (a : tensor (pyval R)) (vec : bool) (l : list (pyval R)) : Prop :=
  if vec then a = of_list (PF 0) l else exists x, l = [x] /\ a = tscalar x.

(** The conditional distribution of a step has an axis for the successors if they
    are an array, followed by one for the predecessors if they are. *)
Definition pair_shape (vs vp : bool) (ss ps : list (pyval R)) : list nat :=
  (if vs then [length ss] else []) ++ (if vp then [length ps] else []).
Definition pair_at (vs vp : bool) (a b : nat) : list nat :=
  (if vs then [a] else []) ++ (if vp then [b] else []).

(** The matrix a transition is read from. *)
Definition matrix_of (tr : rtran R) (reverse : bool) (m : tensor R) : Prop :=
  match tr with
  | TRMat a => m = a
  | TRMats f b => m = if reverse then b else f
  | _ => False
  end.
