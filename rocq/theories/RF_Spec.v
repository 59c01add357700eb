(** What is meant by a field of independent random variables. *)
From Coq Require Import String ZArith Reals Bool Arith List.
From Verif Require Import Base Num Tensor PScales PScales_Spec Names Names_Spec Distr PDModel PD_Spec PD_Simple_Spec
  VariableModel RVModel FieldModel Field_Spec RFModel.
Import ListNotations.
Local Open Scope R_scope.

(** Names that can be told apart in the name of a distribution. *)
Definition named_apart (names : list string) : Prop :=
  NoDup names /\ forall k, In k names -> simple_key k /\ ~ In k ["attrs"; "prob"; "pscale"]%string.

Definition names_of (vs : list (rv R)) : list string := map (@rv_name R) vs.

(** The text of a number contains no character that separates names. *)
Definition printable (F : Fmt R) : Prop := forall x : R, good_entry ("x=" ++ fmt x)%string.

(** Asking a field for x is asking the variable for a. *)
Inductive same_request : fval R -> values_in R -> Prop :=
| sr_none : same_request FNone VNone
| sr_unit : forall n, same_request (FUnit n) (VSet n)
| sr_num : forall y, same_request (FNum y) (VGiven [y] true)
| sr_arr : forall l, same_request (FArr (of_list (PF 0) l)) (VGiven l false).

(** Variables whose probability is not an array (those cannot be evaluated, C73). *)
Definition callable (v : rv R) : Prop := match rv_prob v with RPArray _ => False | _ => True end.

(** The scales for which a product of probabilities is computed correctly (C05). *)
Definition scales_ok (vs : list (rv R)) : Prop :=
  Forall linear_scale (map scale_of vs) \/
  Forall plain_scale (map scale_of vs) /\ existsb iscomplex (map scale_of vs) = true.

(** The value that variable v is asked for in a call is x, and evaluates to the
    numbers [A]: one number if x is a number or {0}, else a column. *)
Definition evaluates (v : rv R) (values : odict (fentry R)) (x : fval R) (a : values_in R) (r : rnd R)
    (A : tensor (pyval R)) : Prop :=
  od_get values (rv_name v) = Some (One x) /\ same_request x a /\ rv_evaluate v a r = Ok A /\
  (dimensionless x = true /\ shape A = [] \/ dimensionless x = false /\ exists n, (0 < n)%nat /\ shape A = [n]).

(** The product of the probabilities the variables' own distributions give; the own
    distribution of a variable has one axis if its values are an array. *)
Definition joint_of (values : odict (fentry R)) (vs : list (rv R)) (own : list (pd R)) (s : assignment) : R :=
  Rprod (zip_with (fun v q => prob_at q (filter (needs_axis values) [rv_name v]) s) vs own).

(** If some of them are held as logarithms and others are not, then the latter
    are not below the smallest positive number (C05). *)
Definition floored (values : odict (fentry R)) (vs : list (rv R)) (own : list (pd R)) (s : assignment) : Prop :=
  (exists q, In q own /\ log_scaled q) ->
  forall i v q, nth_error vs i = Some v -> nth_error own i = Some q -> ~ log_scaled q ->
    npz <= prob_at q (filter (needs_axis values) [rv_name v]) s.

(** Variable v alone gives the number y the probability z. *)
Definition weighs {F : Fmt R} {TR : Trunc R} (v : rv R) (y : pyval R) (z : R) : Prop :=
  exists r q, rv_call v (VGiven [y] true) r = Ok q /\ forall s, prob_at q [] s = z.

(** If some probabilities are held as logarithms then those that are not are not
    below the smallest positive number (C05). *)
Definition above_floor (vs : list (rv R)) (zs : list R) : Prop :=
  existsb iscomplex (map scale_of vs) = true ->
  Forall2 (fun v z => log_kind (scale_of v) = false -> npz <= z) vs zs.

(** The number given for k: under the primed name, else under the name itself. *)
Definition told (succ : odict (pyval R)) (k : string) (y : pyval R) : Prop :=
  od_get succ (k ++ "'")%string = Some y \/ od_get succ (k ++ "'")%string = None /\ od_get succ k = Some y.

(** The product of the variables' linear scales (1 if there are logarithms). *)
Definition scale_product (vs : list (rv R)) : R := Rprod (map factor (map scale_of vs)).
