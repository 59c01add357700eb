(** What is meant by the transition of a single variable. *)
From Coq Require Import String ZArith Reals Bool Arith Permutation List.
From Verif Require Import Base Num Tensor VariableModel Var_Spec RVModel RV_Spec.
Import ListNotations.
Local Open Scope R_scope.

(** What the variable's own transition gives the step from a to b: its function of
    the two (the second one of two if reverse), or the entry of its matrix with the
    row of b and the column of a, values counted in increasing order. *)
Definition tran_weight (v : rv R) (rev : bool) (a b : pyval R) (w : R) : Prop :=
  (exists g, (rv_tran v = TRFun g \/ exists f f', rv_tran v = TRFuns f f' /\ g = if rev then f' else f) /\
     w = g (num a) (num b)) \/
  (exists m n l sorted i j y x, matrix_of (rv_tran v) rev m /\ shape m = [n; n] /\
     vs_vset (rv_state v) = Some l /\ length (vset_vals l) = n /\ Permutation sorted (vset_vals l) /\ increasing sorted /\
     nth_error sorted j = Some x /\ num x = num a /\ nth_error sorted i = Some y /\ num y = num b /\
     w = get m [i; j]).
