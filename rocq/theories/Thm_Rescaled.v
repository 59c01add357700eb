(** Property theorems about putting a distribution on another scale (C131). *)
From Coq Require Import String ZArith Reals List.
From Verif Require Import Base Num Tensor PScales PScales_Spec Distr Distr_Spec PDModel PD_Spec PD_Sort_Spec PD_Rescaled_Spec
  PD_Examples PD_SortEx PD_Rescaled.
Import ListNotations.
Local Open Scope R_scope.

(** C131: p.rescaled(s) is on the scale s and otherwise as p: the same variables with
    the same values, roles and axes, and each combination as probable as before,
    wherever the number to be held is in range. *)
Theorem C131_rescaled :
  forall (F : Fmt R) (p : pd R) (n : nat) (s : pspec R), laid_out p n ->
  valid_scale (spec_of (p_pscale p)) -> valid_scale s -> ~ unit_log s -> no_tiny_gap (spec_of (p_pscale p)) s ->
  exists q, rescaled p s = Ok q /\ laid_out q n /\ same_layout p q /\
    factor (spec_of (p_pscale q)) = factor s /\ log_kind (spec_of (p_pscale q)) = log_kind s /\
    forall idx,
      (~ log_scaled p -> log_kind s = true -> npz <= prob_pos p idx / factor (spec_of (p_pscale p))) ->
      (log_scaled p -> log_kind s = false -> prob_pos p idx / factor s <= npi) ->
      prob_pos q idx = prob_pos p idx.
Proof. exact @rescaled_keeps. Qed.
Print Assumptions C131_rescaled.

(** C131: rescaling and rescaling back gives the numbers there were. *)
Theorem C131_round_trip :
  forall (F : Fmt R) (p : pd R) (n : nat) (s : pspec R), laid_out p n ->
  valid_scale (spec_of (p_pscale p)) -> valid_scale s -> ~ unit_log s -> no_tiny_gap (spec_of (p_pscale p)) s ->
  (forall idx, in_range (p_shape p) idx ->
     representable (spec_of (p_pscale p)) (prob_pos p idx) /\ representable s (prob_pos p idx)) ->
  exists q r t u, rescaled p s = Ok q /\ rescaled q (spec_of (p_pscale p)) = Ok r /\ same_layout p r /\
    p_pscale r = p_pscale p /\ p_prob p = Some t /\ p_prob r = Some u /\ teq u t.
Proof. exact @rescaled_back. Qed.
Print Assumptions C131_round_trip.

Example C131_hypotheses_met : exists p, srt_make = Ok p /\ @laid_out fmt_ex p 2 /\
  valid_scale (spec_of (p_pscale p)) /\ ~ log_scaled p /\
  valid_scale (PSCplx 2 0) /\ ~ unit_log (PSCplx 2 0) /\ log_kind (PSCplx 2 0) = true /\
  no_tiny_gap (spec_of (p_pscale p)) (PSCplx 2 0) /\
  (forall idx, in_range (p_shape p) idx ->
     representable (spec_of (p_pscale p)) (prob_pos p idx) /\ representable (PSCplx 2 0) (prob_pos p idx)).
Proof. exact ex_rescaled. Qed.
