(** Specification vocabulary for division. *)
From Coq Require Import String ZArith Reals Bool Arith List.
From Verif Require Import Base Num Tensor PScales PScales_Spec Distr PDModel PD_Spec.
Import ListNotations.
Local Open Scope R_scope.

(** p(A,B|C) and p(A|C): the same conditionals, the divisor's marginals among the
    dividend's and holding the same. *)
Record matching {F : Fmt R} (p : pd R) (L : list string) (q : pd R) (L2 : list string) : Prop := {
  mt_dividend : valid_pd p L;
  mt_divisor : valid_pd q L2;
  mt_cond : forall k, In k (od_keys (p_cond p)) <-> In k (od_keys (p_cond q));
  mt_marg : incl (od_keys (p_marg q)) (od_keys (p_marg p));
  mt_same : forall k, In k (od_keys (p_marg q)) -> variable q k = variable p k
}.

(** Those the code can divide: the divisor's columns are marginals and lie in the
    order of the dividend's axes; if there are none then the divisor's marginals are
    all of the scalar marginals. *)
Record divisible {F : Fmt R} (p : pd R) (L : list string) (q : pd R) (L2 : list string) : Prop := {
  dv_matching : matching p L q L2;
  dv_order : L2 = restrict (od_keys (p_marg q)) L;
  dv_scalars : L2 = [] -> forall k, In k (od_keys (p_marg p)) -> ~ In k L -> In k (od_keys (p_marg q))
}.

(** What the quotient is a distribution over. *)
Definition quotient_of {F : Fmt R} (p : pd R) (L : list string) (q r : pd R) : Prop :=
  valid_pd r L /\
  p_marg r = filter (fun ke => negb (mem_str (fst ke) (od_keys (p_marg q)))) (p_marg p) /\
  (forall k, In k (od_keys (p_cond r)) <-> In k (od_keys (p_cond p)) \/ In k (od_keys (p_marg q))) /\
  p_pscale r = p_pscale p /\
  (forall k, In k (p_keylist p) -> variable r k = variable p k).

(** The place of an assignment among all those of the axes L, in the order in
    which the last axis varies fastest. *)
Definition place (sz : string -> nat) (L : list string) (a : assignment) : nat :=
  fold_left (fun acc k => (acc * sz k + a k)%nat) L 0%nat.

(** The assignment with the values of x and y exchanged. *)
Definition exchanged (x y : string) (a : assignment) : assignment :=
  fun k => if String.eqb k x then a y else if String.eqb k y then a x else a k.
