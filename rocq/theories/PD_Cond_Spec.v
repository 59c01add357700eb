(** Specification vocabulary for conditioning. *)
From Coq Require Import String ZArith Reals Bool Arith List Permutation.
From Verif Require Import Base Num Tensor PScales PScales_Spec Names Names_Spec Distr PDModel PD_Spec.
Import ListNotations.

(** The variables of p are listed in the order of its name, marginals first, and
    their columns lie along the axes in that order. *)
Definition in_name_order (p : pd R) (L : list string) : Prop :=
  p_keylist p = od_keys (p_marg p) ++ od_keys (p_cond p) /\ key_ordered p L.

(** The columns of the marginal and of the conditional variables, in axis order. *)
Definition marg_columns (p : pd R) (L : list string) : list string := restrict (od_keys (p_marg p)) L.
Definition cond_columns (p : pd R) (L : list string) : list string := restrict (od_keys (p_cond p)) L.

(** The columns still marginal after conditioning on keys. *)
Definition rest (p : pd R) (L keys : list string) : list string := without keys (marg_columns p L).

(** Keys whose columns can be moved behind the others: they are the last marginal
    columns (and not all columns), or the first ones and there are no conditional
    columns (or, by coincidence, as many columns are moved as are kept). *)
Definition last_block (p : pd R) (L keys : list string) : Prop :=
  let B := restrict keys L in
  exists A, marg_columns p L = A ++ B /\ (A ++ cond_columns p L <> [] \/ B = []).

Definition first_block (p : pd R) (L keys : list string) : Prop :=
  let B := restrict keys L in
  exists A, marg_columns p L = B ++ A /\ A <> [] /\
    (cond_columns p L = [] \/ length B = length A + length (cond_columns p L)).

Definition movable (p : pd R) (L keys : list string) : Prop :=
  last_block p L keys \/ first_block p L keys.

Section Spec.
Context {F : Fmt R}.

(** The probability of the conditioning variables (and conditionals) at a: the
    sum of the probabilities over the columns still marginal. *)
Definition marginal_at (p : pd R) (L keys : list string) (a : assignment) : R :=
  sum_over (sized p (rest p L keys)) (prob_at p L) a.

(** What every successful conditioning keeps: which variables are there and what
    they hold. *)
Definition conditioned (p : pd R) (L keys : list string) (q : pd R) (L' : list string) : Prop :=
  valid_pd q L' /\ Permutation L' L /\
  p_marg q = filter (fun ke => negb (mem_str (fst ke) keys)) (p_marg p) /\
  p_cond q = p_cond p ++ filter (fun ke => mem_str (fst ke) keys) (p_marg p) /\
  p_pscale q = p_pscale p /\
  (forall k, In k (p_keylist p) -> variable q k = variable p k).

End Spec.
