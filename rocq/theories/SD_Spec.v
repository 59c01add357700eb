(** What is meant by the distribution of leafs given roots. *)
From Coq Require Import String ZArith Reals Bool Arith List.
From Verif Require Import Base Num Tensor PScales PScales_Spec Names Distr PDModel PD_Spec VariableModel RVModel FieldModel
  Field_Spec RFModel RF_Spec SDModel.
Import ListNotations.
Local Open Scope R_scope.

(** The value of variable k at a position of arrays broadcast together. *)
Definition value_at (vals : odict (tensor (pyval R))) (idx : list nat) (k : string) : pyval R :=
  match od_get vals k with Some a => get a (bcast_idx (shape a) idx) | None => PF 0 end.

(** fn computes h from the values of the variables, position by position, with
    numpy's broadcasting. *)
Definition elementwise (names : list string) (h : list (pyval R) -> R) (fn : probfun R) : Prop :=
  forall vals dims shapes s,
  Forall2 (fun k sh => exists a, od_get vals k = Some a /\ shape a = sh) names shapes -> bcast_all shapes = Ok s ->
  exists t, fn vals dims = Ok t /\ shape t = s /\
    forall idx, in_range s idx -> get t idx = h (map (value_at vals idx) names).

(** The values of the variables at the positions of an assignment; A i holds those of
    the i-th. *)
Definition at_positions (values : odict (fentry R)) (vs : list (rv R)) (A : nat -> tensor (pyval R)) (s : assignment)
    : list (pyval R) :=
  map (fun iv => get (A (fst iv)) (map s (filter (needs_axis values) [rv_name (snd iv)]))) (combine (seq 0 (length vs)) vs).

(** Asking a variable for given values: one number, or an array of them. *)
Definition given_as (A : tensor (pyval R)) : values_in R :=
  VGiven (to_list A) (match shape A with [] => true | _ => false end).

(** The scales of the roots and that of the dependence go together (C18). *)
Definition scales_agree (roots : list (rv R)) (ps : pscale R) : Prop :=
  Forall linear_scale (map scale_of roots) /\ linear_scale (spec_of ps) \/
  Forall plain_scale (map scale_of roots) /\ plain_scale (spec_of ps).

Definition callable_all (vs : list (rv R)) : Prop := forall v, In v vs -> callable v.

(** The variables' own distributions of the values asked for. *)
Definition all_own {F : Fmt R} {TR : Trunc R} (values : odict (fentry R)) (vs : list (rv R)) (a : nat -> values_in R)
    (r : nat -> rnd R) (own : list (pd R)) : Prop :=
  length own = length vs /\ forall i v, nth_error vs i = Some v -> exists q, nth_error own i = Some q /\
    rv_call v (a i) (r i) = Ok q /\ valid_pd q (filter (needs_axis values) [rv_name v]).

(** The roots' own distributions of the values that were found for them; the i-th
    root is variable number (length leafs + i). *)
Definition roots_own {F : Fmt R} {TR : Trunc R} (values : odict (fentry R)) (leafs roots : list (rv R))
    (A : nat -> tensor (pyval R)) (r' : nat -> rnd R) (own : list (pd R)) : Prop :=
  length own = length roots /\
    forall i v, nth_error roots i = Some v -> exists q, nth_error own i = Some q /\
    rv_call v (given_as (A (length leafs + i)%nat)) (r' i) = Ok q /\ valid_pd q (filter (needs_axis values) [rv_name v]) /\
    variable q (rv_name v) = Some (var_of (to_value (A (length leafs + i)%nat))).

(** The joint distribution of roots and leafs, when the conditional distribution is p
    over Lp: at each position the roots' own probabilities times that of p.  The
    conditions are those of C18: where linear probabilities are converted to logs
    they must be above the floor. *)
Definition joint_result {F : Fmt R} {TR : Trunc R} (values : odict (fentry R)) (leafs roots : list (rv R))
    (A : nat -> tensor (pyval R)) (r r' : nat -> rnd R) (d : sdep R) (i : iid_arg) (p : pd R) (Lp : list string) : Prop :=
  exists jp Lj own, sd_joint d values i r r' = Ok (Some jp) /\ roots_own values leafs roots A r' own /\
    valid_pd jp Lj /\ od_keys (p_marg jp) = (names_of roots ++ names_of leafs)%list /\ p_cond jp = [] /\
    (forall k, In k (names_of (leafs ++ roots)) -> variable jp k = variable p k) /\
    forall s, in_bounds jp Lj s -> floored values roots own s ->
      ((exists v, In v roots /\ log_kind (scale_of v) = true) -> log_kind (spec_of (p_pscale p)) = false -> npz <= prob_at p Lp s) ->
      (log_kind (spec_of (p_pscale p)) = true -> (forall v, In v roots -> log_kind (scale_of v) = false) -> npz <= joint_of values roots own s) ->
      prob_at jp Lj s = joint_of values roots own s * prob_at p Lp s.

(** The leafs iid treats as independent repetitions: none, all of them, the ones
    named. *)
Definition repeated (leafs : list (rv R)) (i : iid_arg) : list string :=
  match i with NoIid => [] | AllLeafs => names_of leafs | Iid l => l end.
