(** Property theorems about quantiles (C114-C117). *)
From Coq Require Import String ZArith Reals List.
From Verif Require Import Base Num Tensor PScales PScales_Spec Distr PDModel PDUtils PD_Spec PD_Examples PD_Remarg_Spec
  PDQuantile PD_Quantile_Spec PD_Quantile PD_QuantileThm.
Import ListNotations.
Local Open Scope R_scope.

(** C114: what quantiles are.  For every positive q there is one position in the table
    (the last at which the cumulative share is at most q, or the first); scalars are
    returned as they are, sorted columns give their value at that position (along the
    last axis interpolated or averaged with the following one), and any other column a
    set holding the number of its values. *)
Theorem C114_quantiles :
  forall (F : Fmt R) (p : pd R) (L : list string) (qs : list R), summable p L -> Forall (fun q => 0 < q) qs ->
  exists ds, quantile p qs = Ok ds /\ Forall2 (fun q d => exists r, quantile_cell p L q r /\ quantile_dict p L q r d) qs ds.
Proof. exact @quantiles. Qed.
Print Assumptions C114_quantiles.

Theorem C114_one_position :
  forall (F : Fmt R) (p : pd R) (L : list string) (q : R) (r r' : nat),
  (forall i, (i < cells p L)%nat -> 0 <= mass p L i) -> quantile_cell p L q r -> quantile_cell p L q r' -> r = r'.
Proof. exact @quantile_cell_unique. Qed.
Print Assumptions C114_one_position.

(** C114: a quantile of a sorted column stays within the range of its values, and from
    q = 1 on it is the last value. *)
Theorem C114_within_range :
  forall (F : Fmt R) (p : pd R) (L : list string) (q : R) (d : odict (value R)) (k : string) (l : list R) (lo hi : R),
  summable p L -> 0 < q -> quantile p [q] = Ok [d] ->
  variable p k = Some (Col l) -> sorted_column l -> (forall y, In y l -> lo <= y <= hi) ->
  exists x, od_get d k = Some (VNum x) /\ lo <= x <= hi.
Proof. exact @quantile_within. Qed.
Print Assumptions C114_within_range.

Theorem C114_last_value :
  forall (F : Fmt R) (p : pd R) (L : list string) (q : R) (d : odict (value R)) (k : string) (l : list R),
  summable p L -> 1 <= q -> quantile p [q] = Ok [d] ->
  variable p k = Some (Col l) -> sorted_column l -> od_get d k = Some (VNum (last l 0)).
Proof. exact @quantile_end. Qed.
Print Assumptions C114_last_value.

(** C114: of scalars only, every quantile is the values themselves. *)
Theorem C114_scalars :
  forall (F : Fmt R) (p : pd R) (qs : list R), valid_pd p [] -> quantile p qs = Ok (map (fun _ => p_vals p) qs).
Proof. exact @scalar_quantiles. Qed.
Print Assumptions C114_scalars.

(** p(x,y,w=5|z) of PD_Examples. *)
Example C114_met : exists p, ex_make = Ok p /\ @summable fmt_ex p ["x"; "y"; "z"]%string /\ 
  variable p "x" = Some (Col [1; 2]) /\ sorted_column [1; 2] /\ ~ last_axis ["x"; "y"; "z"]%string "x" /\
  (forall b, in_bounds p ["x"; "y"; "z"]%string b -> prob_at p ["x"; "y"; "z"]%string b = / 6).
Proof. exact ex_quantile. Qed.

(** C115: quantiles do not grow with q.  For every distribution over two values with
    probabilities a and 1 - a, a between 1/3 and 1/2, all quantiles up to 1 - 2a are
    above the lower value and those between 1 - 2a and a are the lower value. *)
Theorem C115_monotone_refuted :
  forall (F : Fmt R) (p : pd R) (k : string) (v0 v1 a q q' : R) (d d' : odict (value R)), summable p [k] ->
  variable p k = Some (Col [v0; v1]) -> v0 < v1 ->
  prob_at p [k] (fun _ => 0%nat) = a -> prob_at p [k] (fun _ => 1%nat) = 1 - a ->
  / 3 < a < / 2 -> 0 < q -> q <= 1 - 2 * a -> 1 - 2 * a < q' -> q' < a ->
  quantile p [q] = Ok [d] -> quantile p [q'] = Ok [d'] ->
  exists x, od_get d k = Some (VNum x) /\ od_get d' k = Some (VNum v0) /\ v0 < x.
Proof. exact @not_monotone. Qed.
Print Assumptions C115_monotone_refuted.

Example C115_refuted_met : exists p, col_make [0; 1] [2 / 5; 3 / 5] = Ok p /\ @summable fmt_ex p ["x"]%string /\ variable p "x" = Some (Col [0; 1]) /\
  prob_at p ["x"]%string (fun _ => 0%nat) = 2 / 5 /\ prob_at p ["x"]%string (fun _ => 1%nat) = 1 - 2 / 5.
Proof. exact ex_two. Qed.

(** C115 holds for a single ascending column if neighbouring probabilities differ by
    less than q and 1 - q (all equal ones for instance) ... *)
Theorem C115_monotone_gentle_partial :
  forall (F : Fmt R) (p : pd R) (k : string) (q q' : R) (d d' : odict (value R)) (l : list R),
  summable p [k] -> 0 < q -> q <= q' -> gentle p [k] q -> gentle p [k] q' -> quantile p [q] = Ok [d] -> quantile p [q'] = Ok [d'] ->
  variable p k = Some (Col l) -> (1 < length l)%nat -> ascending l ->
  exists x x', od_get d k = Some (VNum x) /\ od_get d' k = Some (VNum x') /\ x <= x'.
Proof. exact @gentle_mono. Qed.
Print Assumptions C115_monotone_gentle_partial.

Example C115_gentle_met : exists p, col_make [1; 2; 4] [/ 3; / 3; / 3] = Ok p /\ @summable fmt_ex p ["x"]%string /\ variable p "x" = Some (Col [1; 2; 4]) /\
  ascending [1; 2; 4] /\ forall q, 0 < q < 1 -> gentle p ["x"]%string q.
Proof. exact ex_gentle. Qed.

(** ... and for the ascending column on the first of several axes, whose quantiles are
    among its values. *)
Theorem C115_monotone_first_axis_partial :
  forall (F : Fmt R) (p : pd R) (k k' : string) (L : list string) (q q' : R) (d d' : odict (value R)) (l : list R),
  summable p (k :: k' :: L) -> 0 < q -> q <= q' -> quantile p [q] = Ok [d] -> quantile p [q'] = Ok [d'] ->
  variable p k = Some (Col l) -> (1 < length l)%nat -> ascending l ->
  exists x x', od_get d k = Some (VNum x) /\ od_get d' k = Some (VNum x') /\ x <= x' /\ In x l /\ In x' l.
Proof. exact @first_mono. Qed.
Print Assumptions C115_monotone_first_axis_partial.

(** C116: quantiles depend on a common factor of the probabilities: the probabilities
    compared with q are not normalised. *)
Theorem C116_scale_invariant_refuted :
  forall (F : Fmt R) (p p' : pd R) (k : string) (v0 v1 a b c q : R) (d d' : odict (value R)), summable p [k] -> summable p' [k] ->
  variable p k = Some (Col [v0; v1]) -> variable p' k = Some (Col [v0; v1]) -> v0 < v1 -> 0 < b ->
  prob_at p [k] (fun _ => 0%nat) = a -> prob_at p [k] (fun _ => 1%nat) = b ->
  prob_at p' [k] (fun _ => 0%nat) = c * a -> prob_at p' [k] (fun _ => 1%nat) = c * b -> 0 < a -> 0 < c ->
  q <= / 2 -> 0 < q -> q * (a + b) < a -> c * Rabs (b - a) < q -> q <= Rabs (b - a) ->
  quantile p [q] = Ok [d] -> quantile p' [q] = Ok [d'] ->
  exists x, od_get d k = Some (VNum x) /\ od_get d' k = Some (VNum v0) /\ v0 < x.
Proof. exact @scale_matters. Qed.
Print Assumptions C116_scale_invariant_refuted.

(** The distribution of C115_refuted_met halved, c = 1/2 and q = 3/20 for instance. *)
Example C116_refuted_met : exists p, col_make [0; 1] [1 / 5; 3 / 10] = Ok p /\ @summable fmt_ex p ["x"]%string /\ variable p "x" = Some (Col [0; 1]) /\
  prob_at p ["x"]%string (fun _ => 0%nat) = 1 / 2 * (2 / 5) /\ prob_at p ["x"]%string (fun _ => 1%nat) = 1 / 2 * (1 - 2 / 5).
Proof. exact ex_scaled. Qed.

(** C116 holds for columns which are not on the last axis. *)
Theorem C116_scale_invariant_inner_partial :
  forall (F : Fmt R) (p p' : pd R) (L : list string) (c q : R) (d d' : odict (value R)) (k : string) (l : list R),
  summable p L -> summable p' L -> 0 < c -> 0 < q ->
  (forall k, In k L -> variable p' k = variable p k) ->
  (forall b, in_bounds p L b -> prob_at p' L b = c * prob_at p L b) ->
  quantile p [q] = Ok [d] -> quantile p' [q] = Ok [d'] -> variable p k = Some (Col l) -> sorted_column l -> ~ last_axis L k ->
  od_get d k = od_get d' k.
Proof. exact @scale_inner. Qed.
Print Assumptions C116_scale_invariant_inner_partial.

(** C117: the quantile of a column of a single value is not that value but the set {1}. *)
Theorem C117_single_value_refuted :
  forall (F : Fmt R) (p : pd R) (L : list string) (q : R) (d : odict (value R)) (k : string) (v : R),
  summable p L -> 0 < q -> quantile p [q] = Ok [d] ->
  variable p k = Some (Col [v]) -> od_get d k = Some (VSet [SEint 1]).
Proof. exact @quantile_single. Qed.
Print Assumptions C117_single_value_refuted.

Example C117_met : exists p, col_make [7] [1] = Ok p /\ @summable fmt_ex p ["x"]%string /\ variable p "x" = Some (Col [7]).
Proof. exact ex_single. Qed.
