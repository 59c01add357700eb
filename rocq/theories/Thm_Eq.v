(** Property theorems about comparison of distributions (C244). *)
From Coq Require Import String ZArith Bool Arith Reals List.
From Verif Require Import Base Num Tensor PScales Names Distr PDModel PD_Spec PD_Examples EqModel Eq_Spec Eq_Proofs Eq_Ex.
Import ListNotations.
Local Open Scope nat_scope.

(** C244: p == q is True exactly if the variables are the same, in the same order, and each
    has the same array, or the same single value: whatever the probabilities, the scales
    and the roles of the variables are. *)
Theorem C244_true_iff :
  forall (other : value R -> value R -> result bool) (same : string -> bool) p q, comparable p q ->
  (pd_eq other same p q = Ok true <->
   p_keylist p = p_keylist q /\
   forall k v w, od_get (p_vals p) k = Some v -> od_get (p_vals q) k = Some w -> same k = true \/ (equal v w /\ elements v = 1)).
Proof. exact eq_true. Qed.
Print Assumptions C244_true_iff.

(** If it is False, values or the order of the variables differ. *)
Theorem C244_false :
  forall (other : value R -> value R -> result bool) (same : string -> bool) p q, comparable p q ->
  pd_eq other same p q = Ok false -> ~ same_values p q.
Proof. exact eq_false. Qed.
Print Assumptions C244_false.

(** C244 refuted: distributions made of the same values are equal, whatever probabilities,
    scales and names they are given; ... *)
Theorem C244_probabilities_refuted :
  forall (other : value R -> value R -> result bool) (same : string -> bool) (F : Fmt R) name name' vals dims t t' s s' (p q : pd R),
  make_pd name vals dims t s = Ok p -> make_pd name' vals dims t' s' = Ok q -> NoDup (p_keylist p) ->
  (forall k v, In (k, v) (p_vals p) -> same k = true \/ (exists x, v = VNum x) \/ exists x, v = VStr x) ->
  pd_eq other same p q = Ok true.
Proof. exact eq_made. Qed.
Print Assumptions C244_probabilities_refuted.

(** ... and distributions with the same values cannot be compared if they hold separate
    arrays of several values. *)
Theorem C244_separate_refuted :
  forall (other : value R -> value R -> result bool) (same : string -> bool) p q, comparable p q -> same_values p q ->
  (exists k v, od_get (p_vals p) k = Some v /\ same k = false /\ 1 < elements v) ->
  pd_eq other same p q = Err ValueError.
Proof. exact eq_raises. Qed.
Print Assumptions C244_separate_refuted.

(** p(x,y,w=5|z) with probabilities of 1/6 on the scale 1 and of 1 on the scale 3, with the
    same arrays, and with arrays of their own. *)
Example C244_hypotheses_met : exists p q : pd R, ex_make = Ok p /\
  @make_pd R _ fmt_ex "x,y,w|z" ex_vals (Some ex_dims) (Some (mkT [2; 3; 2] (fun _ => 1%R))) (PSFloat 3%R) = Ok q /\ p_prob p <> p_prob q /\
  NoDup (p_keylist p) /\ comparable p p /\ same_values p p /\ comparable p q /\ same_values p q /\
  (exists k v, od_get (p_vals p) k = Some v /\ 1 < elements v) /\
  (forall k v, In (k, v) (p_vals p) -> negb (String.eqb k "w") = true \/ (exists x, v = VNum x) \/ exists x, v = VStr x).
Proof. exact ex_compared. Qed.
