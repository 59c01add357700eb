(** What variables with distributions mean, over the reals. *)
From Coq Require Import String ZArith Reals Bool Arith List.
From Verif Require Import Base Num Tensor PScales PScales_Spec Distr PDModel PD_Spec Likelihoods VariableModel Var_Spec RVModel RV_Spec RVStep_Spec DistModel.
Import ListNotations.
Local Open Scope R_scope.

(** A continuous distribution between lo and hi: its cumulative function
    increases, and the inverse takes every probability between the limits' to the
    value it belongs to. *)
Definition continuous_between (p : pfun R) (lo hi : R) : Prop :=
  (forall x y, lo <= x -> x < y -> y <= hi -> pf_cdf p x < pf_cdf p y) /\
  (forall q, pf_cdf p lo <= q <= pf_cdf p hi -> lo <= pf_icdf p q <= hi /\ pf_cdf p (pf_icdf p q) = q).

(** The probability of the values up to x, of those between the limits. *)
Definition share (p : pfun R) (lo hi x : R) : R := (pf_cdf p x - pf_cdf p lo) / (pf_cdf p hi - pf_cdf p lo).

(** Where n equally spaced points are in the unit interval, of which an end may be
    excluded; a single point of the closed interval is in the middle. *)
Definition spaced (left_open right_open : bool) (n i : nat) : R :=
  match left_open, right_open with
  | false, false => if (n =? 1)%nat then 1 / 2 else INR i / INR (n - 1)
  | true, true => INR (i + 1) / INR (n + 1)
  | true, false => INR (i + 1) / INR n
  | false, true => INR i / INR n
  end.

(** The logarithms of a distribution are the logarithms of its density. *)
Definition consistent (d : uvdist R) (x : R) : Prop := 0 < ud_prob d x /\ ud_logp d x = ln (ud_prob d x).

(** A probability that comes without quantiles. *)
Definition without_quantiles (a : dprobarg R) : Prop :=
  match a with DAPlain _ => True | DADist d => ud_pfun d = None end.

(** q is the distribution of the variable at the values l. *)
Definition called {F : Fmt R} (v : drv R) (vec : bool) (l : list (pyval R)) (q : pd R) : Prop :=
  valid_pd q (if vec then [dv_name v] else []) /\ od_keys (p_marg q) = [dv_name v] /\ p_cond q = [] /\
  p_pscale q = dv_pscale v /\ variable q (dv_name v) = Some (column_of vec l).

(** The variable has finite limits. *)
Definition finite_interval (s : vstate R) : Prop :=
  exists e0 e1 lo hi, s = interval e0 e1 /\ atom_of e0 = AV lo /\ atom_of e1 = AV hi.
