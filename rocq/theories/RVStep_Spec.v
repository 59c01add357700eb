(** What a step of one random variable means. *)
From Coq Require Import String ZArith Reals Bool Arith Permutation List.
From Verif Require Import Base Num Tensor PScales PScales_Spec Distr PDModel PD_Spec VariableModel Var_Spec RVModel RV_Spec.
Import ListNotations.
Local Open Scope R_scope.

(** The values of a variable, as a column or as one number. *)
Definition column_of (vec : bool) (l : list (pyval R)) : var :=
  if vec then Col (map num l) else Scal (VNum (num (nth 0 l (PF 0)))).

(** The axes of a step: successors first, predecessors second, of those that are
    arrays. *)
Definition step_axes (v : rv R) (vp vs : bool) : list string :=
  ((if vs then [(rv_name v ++ "'")%string] else []) ++ (if vp then [rv_name v] else []))%list.

(** q is the distribution of the primed variable given the variable, over the
    successors ss and the predecessors ps. *)
Definition steps_to {F : Fmt R} (v : rv R) (vp vs : bool) (ps ss : list (pyval R)) (q : pd R) : Prop :=
  valid_pd q (step_axes v vp vs) /\
  od_keys (p_marg q) = [(rv_name v ++ "'")%string] /\ od_keys (p_cond q) = [rv_name v] /\ p_pscale q = rv_pscale v /\
  variable q (rv_name v ++ "'")%string = Some (column_of vs ss) /\ variable q (rv_name v) = Some (column_of vp ps).

(** The number that the transition gives for the successor y of x, up to the scale;
    [rank] says where values are in increasing order. *)
Inductive gives_tran (v : rv R) (reverse : bool) (ps ss : list (pyval R)) : (pyval R -> pyval R -> R) -> Prop :=
| gt_none : rv_tran v = TRNone -> gives_tran v reverse ps ss (fun _ _ => 1)
| gt_fun f : rv_tran v = TRFun f -> gives_tran v reverse ps ss (fun x y => f (num x) (num y))
| gt_funs f b : rv_tran v = TRFuns f b -> gives_tran v reverse ps ss (fun x y => (if reverse then b else f) (num x) (num y))
| gt_matrix m l vals n rank : matrix_of (rv_tran v) reverse m -> shape m = [n; n] ->
    vs_vset (rv_state v) = Some l -> Permutation vals (vset_vals l) -> increasing vals -> length (vset_vals l) = n ->
    (forall x, In x ps \/ In x ss -> exists y, nth_error vals (rank x) = Some y /\ num y = num x) ->
    gives_tran v reverse ps ss (fun x y => get m [rank y; rank x]).

(** ... and of a scalar transition: c for values both inside the set. *)
Definition gives_scalar (v : rv R) (c : R) (g : pyval R -> pyval R -> R) : Prop :=
  exists mem len, rv_tran v = TRScalar c /\ finite_set (rv_state v) mem len /\
    forall x y, (mem (num x) /\ mem (num y) -> g x y = c) /\ (~ (mem (num x) /\ mem (num y)) -> g x y = 0).

(** The value that an index picks from values. *)
Definition item (vec : bool) (l : list (pyval R)) (i : nat) : pyval R := nth (if vec then i else 0%nat) l (PF 0).

(** An end of an interval that is infinite. *)
Definition infinite (e : elem R) : Prop := forall x, atom_of e <> AV x.

(** A matrix of one row and one column for each value of the set. *)
Definition square_of (v : rv R) (m : tensor R) : Prop :=
  exists l, vs_vset (rv_state v) = Some l /\ shape m = [length l; length l].

(** The transition of a list of arguments is read from the first matrix. *)
Definition first_matrix (tr : rtran R) (m : tensor R) : Prop :=
  match tr with TRMat a => m = a | TRMats a _ => m = a | _ => False end.

(** All of the tensors that are given, read at an index of their common shape,
    are inside. *)
Definition all_inside (ins : pyval R -> bool) (args : list (tensor (pyval R))) (idx : list nat) : Prop :=
  Forall (fun a => ins (get a (bcast_idx (shape a) idx)) = true) args.
