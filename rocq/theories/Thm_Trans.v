(** Properties C201-C208: random variables with transformations. *)
From Coq Require Import String ZArith Reals Bool Arith List Lra.
From Verif Require Import Base Num Tensor PScales PScales_Spec Distr Likelihoods VariableModel Var_Spec
  RVModel RV_Spec DistModel TransModel Trans_Spec Trans_Proofs Trans_Values Trans_Calls Trans_Ex.
Import ListNotations.
Local Open Scope R_scope.

(** C201: values and probabilities of a variable depend only on the set, the
    transformation, the probability and the quantile functions last asked for, not on
    the calls that led there or their order, if no call was refused and no
    transformation taken away. *)
Theorem C201_order_free :
  forall name ps s v w, made name ps s v -> made name ps s w ->
  (forall a r, tv_evaluate v a r = tv_evaluate w a r) /\ (forall vals, tv_eval_prob v vals = tv_eval_prob w vals).
Proof. exact order_free. Qed.
Print Assumptions C201_order_free.

Example C201_instance : exists w, made "f" (Lin 1) (asked_logs true) w.
Proof. exact (logs_made true). Qed.

(** C202: the values of a transformed variable, in number as asked for, lie within its
    limits; their transforms are evenly placed, or as drawn, between those of the
    limits. *)
Theorem C202_transformed_values :
  forall name ps s w t a b n r,
  made name ps s w -> st_pfun s = None -> st_u s = Some t -> st_no s = false ->
  between_limits s a b -> a < b -> increases t a b \/ decreases t a b -> (forall i, 0 <= r_unif r i < 1) ->
  exists o, tv_evaluate w (VSet n) r = Ok o /\ length (answer o) = Nat.max 1 (Z.abs_nat n) /\
    forall i, (i < length (answer o))%nat -> exists x, nth_error (answer o) i = Some (PF x) /\ a <= x <= b /\
      u_fwd (tr_u t) x = u_fwd (tr_u t) a + (u_fwd (tr_u t) b - u_fwd (tr_u t) a) * place n (is_tup (st_e0 s)) (is_tup (st_e1 s)) r i.
Proof. exact values_transformed. Qed.
Print Assumptions C202_transformed_values.

Example C202_instance : exists w w', made "f" (Lin 1) (asked_logs false) w /\ between_limits (asked_logs false) 1 (exp 2) /\ increases logs 1 (exp 2) /\
  made "x" (Lin 1) (asked_turns false) w' /\ between_limits (asked_turns false) 1 2 /\ decreases turns 1 2.
Proof.
  destruct (logs_made false) as (w & M), (turns_made false) as (w' & M'). exists w, w'.
  split; auto. split; [apply logs_limits|]. split; [apply logs_increase|]. split; auto. split; [apply turns_limits|apply turns_decrease].
Qed.

(** C203: the default density of a variable with an increasing expression and no
    change of variables integrates to one over its set, and up to c to the part of the
    transformed length that c leaves behind. *)
Theorem C203_density_one :
  forall name ps s w t d a b,
  made name ps s w -> st_given s = None -> st_u s = Some t -> st_no s = true ->
  between_limits s a b -> a < b -> increases t a b -> derivative t d a b ->
  (log_kind (spec_of ps) = true -> forall x, a <= x <= b -> 0 < d x) ->
  holdable ps (u_fwd (tr_u t) b - u_fwd (tr_u t) a) ->
  exists f, density w (fun x => a <= x <= b) f /\
    (forall c, a <= c <= b -> integral f a c ((u_fwd (tr_u t) c - u_fwd (tr_u t) a) / (u_fwd (tr_u t) b - u_fwd (tr_u t) a))) /\
    integral f a b 1.
Proof. exact no_ucov_density. Qed.
Print Assumptions C203_density_one.

(** C203: it is the density of the values that a variable draws by changing variables:
    a draw is at most c just when the random number is at most the integral up to c. *)
Theorem C203_same_law :
  forall name name' ps s s' v w t d a b n r,
  made name ps s v -> st_pfun s = None -> st_u s = Some t -> st_no s = false -> between_limits s a b ->
  made name' ps s' w -> st_given s' = None -> st_u s' = Some t -> st_no s' = true -> between_limits s' a b ->
  a < b -> increases t a b -> derivative t d a b ->
  (log_kind (spec_of ps) = true -> forall x, a <= x <= b -> 0 < d x) ->
  holdable ps (u_fwd (tr_u t) b - u_fwd (tr_u t) a) -> (n <= 0)%Z -> (forall i, 0 <= r_unif r i < 1) ->
  exists o f, tv_evaluate v (VSet n) r = Ok o /\ length (answer o) = Nat.max 1 (Z.abs_nat n) /\
    density w (fun x => a <= x <= b) f /\
    forall c, a <= c <= b -> exists P, integral f a c P /\
      forall i, (i < length (answer o))%nat -> exists x, nth_error (answer o) i = Some (PF x) /\ a <= x <= b /\
        (x <= c <-> r_unif r i <= P).
Proof. exact same_law. Qed.
Print Assumptions C203_same_law.

Example C203_instance : exists v w, made "f" (Lin 1) (asked_logs false) v /\ made "f" (Lin 1) (asked_logs true) w /\
  between_limits (asked_logs true) 1 (exp 2) /\ 1 < exp 2 /\ increases logs 1 (exp 2) /\ derivative logs (fun x => / x) 1 (exp 2) /\
  holdable (Lin 1) (u_fwd (tr_u logs) (exp 2) - u_fwd (tr_u logs) 1).
Proof.
  destruct (logs_made false) as (v & V), (logs_made true) as (w & W). exists v, w. split; auto. split; auto.
  split; [apply logs_limits|]. split; [pose proof exp2_big; lra|]. split; [apply logs_increase|]. split; [apply logs_derivative|].
  rewrite logs_length. apply hold_one. lra.
Qed.

(** C204 (false of the code): with change of variables the default probability is one
    number, nought outside of the set, and integrates to one over the set only if the
    transformed limits are as far apart as the limits. *)
Theorem C204_change_refuted :
  forall name ps s w t a b,
  made name ps s w -> st_given s = None -> st_u s = Some t -> st_no s = false ->
  between_limits s a b -> a < b ->
  holdable ps (Rabs (u_fwd (tr_u t) b - u_fwd (tr_u t) a)) ->
  exists f, density w (member s) f /\ impossible w (fun x => ~ member s x) /\
    (integral f a b 1 <-> Rabs (u_fwd (tr_u t) b - u_fwd (tr_u t) a) = b - a).
Proof. exact flat_integral. Qed.
Print Assumptions C204_change_refuted.

(** C204 (false of the code): with a decreasing expression and no change of variables
    the default density integrates to minus one. *)
Theorem C204_decreasing_refuted :
  forall name ps s w t d a b,
  made name ps s w -> st_given s = None -> st_u s = Some t -> st_no s = true ->
  between_limits s a b -> a < b -> decreases t a b -> derivative t d a b -> log_kind (spec_of ps) = false ->
  holdable ps (u_fwd (tr_u t) a - u_fwd (tr_u t) b) ->
  exists f, density w (fun _ => True) f /\ integral f a b (-1).
Proof. exact falling_integral. Qed.
Print Assumptions C204_decreasing_refuted.

Example C204_instance : exists v w, made "f" (Lin 1) (asked_logs false) v /\ between_limits (asked_logs false) 1 (exp 2) /\
  holdable (Lin 1) (Rabs (u_fwd (tr_u logs) (exp 2) - u_fwd (tr_u logs) 1)) /\
  Rabs (u_fwd (tr_u logs) (exp 2) - u_fwd (tr_u logs) 1) = 2 /\
  made "x" (Lin 1) (asked_turns true) w /\ between_limits (asked_turns true) 1 2 /\ decreases turns 1 2 /\
  derivative turns (fun x => - / (x * x)) 1 2 /\ log_kind (spec_of (Lin 1)) = false /\
  holdable (Lin 1) (u_fwd (tr_u turns) 1 - u_fwd (tr_u turns) 2).
Proof.
  destruct (logs_made false) as (v & V), (turns_made true) as (w & W). exists v, w. split; auto. split; [apply logs_limits|].
  rewrite logs_length, turns_length, Rabs_right by lra. split; [apply hold_one; lra|]. split; auto. split; auto.
  split; [apply turns_limits|]. split; [apply turns_decrease|]. split; [apply turns_derivative|].
  split; [apply RV_Proofs.one_scale|apply hold_one; lra].
Qed.

(** C205 (false of the code): with no change of variables the default density is that
    of the formula at every number, outside of the set too. *)
Theorem C205_outside_refuted :
  forall name ps s w t d a b,
  made name ps s w -> st_given s = None -> st_u s = Some t -> st_no s = true -> tr_der t = Some d ->
  between_limits s a b -> holdable ps (Rabs (u_fwd (tr_u t) b - u_fwd (tr_u t) a)) ->
  forall x, 0 < d x -> density w (fun y => y = x) (fun _ => d x / Rabs (u_fwd (tr_u t) b - u_fwd (tr_u t) a)) /\
    0 < d x / Rabs (u_fwd (tr_u t) b - u_fwd (tr_u t) a).
Proof. exact curved_outside. Qed.
Print Assumptions C205_outside_refuted.

Example C205_instance : exists w, made "f" (Lin 1) (asked_logs true) w /\ between_limits (asked_logs true) 1 (exp 2) /\
  holdable (Lin 1) (Rabs (u_fwd (tr_u logs) (exp 2) - u_fwd (tr_u logs) 1)) /\ ~ member (asked_logs true) (/ 2) /\ 0 < / / 2.
Proof.
  destruct (logs_made true) as (w & W). exists w. split; auto. split; [apply logs_limits|].
  rewrite logs_length, Rabs_right by lra. split; [apply hold_one; lra|]. split; [|lra].
  intros [O _]. cbn in O. lra.
Qed.

(** C206 (false of the code): values drawn with no change of variables follow the
    default density up to c just when c divides the limits as its transform divides
    theirs. *)
Theorem C206_law_refuted :
  forall name ps s w t d a b c,
  made name ps s w -> st_pfun s = None -> st_given s = None -> st_u s = Some t -> st_no s = true ->
  between_limits s a b -> a < c < b -> increases t a b -> derivative t d a b ->
  (log_kind (spec_of ps) = true -> forall x, a <= x <= b -> 0 < d x) ->
  holdable ps (u_fwd (tr_u t) b - u_fwd (tr_u t) a) ->
  exists f P, density w (fun x => a <= x <= b) f /\ integral f a c P /\
    ((forall r x, (forall i, 0 <= r_unif r i < 1) -> tv_evaluate w (VSet 0) r = Ok (OScalar (PF x)) -> (x <= c <-> r_unif r 0 <= P)) <->
     (u_fwd (tr_u t) c - u_fwd (tr_u t) a) * (b - a) = (c - a) * (u_fwd (tr_u t) b - u_fwd (tr_u t) a)).
Proof. exact no_ucov_law. Qed.
Print Assumptions C206_law_refuted.

Example C206_instance :
  1 < exp 1 < exp 2 /\
  (u_fwd (tr_u logs) (exp 1) - u_fwd (tr_u logs) 1) * (exp 2 - 1) <> (exp 1 - 1) * (u_fwd (tr_u logs) (exp 2) - u_fwd (tr_u logs) 1).
Proof.
  assert (E : 2 <= exp 1) by (pose proof (exp_ineq1_le 1); lra).
  assert (E2 : exp 2 = exp 1 * exp 1) by (rewrite <- exp_plus; f_equal; lra).
  cbn. rewrite !ln_exp, ln_1, E2. split; nra.
Qed.

(** C207 (false of the code): taking the transformation away is accepted, but values
    are then spread between the transforms of the limits, and probabilities stay as
    they were. *)
Theorem C207_removed_refuted :
  forall name ps s w t a b no n r,
  made name ps s w -> st_pfun s = None -> st_u s = Some t -> st_no s = false -> between_limits s a b ->
  exists w', do_call w (SetUfun None no) = (w', None) /\ (forall vals, tv_eval_prob w' vals = tv_eval_prob w vals) /\
  exists o, tv_evaluate w' (VSet n) r = Ok o /\ length (answer o) = Nat.max 1 (Z.abs_nat n) /\
    forall i, (i < length (answer o))%nat ->
      nth_error (answer o) i = Some (PF (u_fwd (tr_u t) a + (u_fwd (tr_u t) b - u_fwd (tr_u t) a) *
                                            place n (is_tup (st_e0 s)) (is_tup (st_e1 s)) r i)).
Proof. exact removed. Qed.
Print Assumptions C207_removed_refuted.

(** C207: assigning the set after that makes the variable what it would be had it
    never been transformed. *)
Theorem C207_assigned_again :
  forall name ps s w no e0 e1 v w1 w2,
  made name ps s w -> st_pfun s = None -> st_given s = None ->
  new_trv name e0 e1 ps None = (v, None) ->
  do_call w (SetUfun None no) = (w1, None) -> do_call w1 (SetVset e0 e1) = (w2, None) ->
  (forall a r, tv_evaluate w2 a r = tv_evaluate v a r) /\ (forall vals, tv_eval_prob w2 vals = tv_eval_prob v vals).
Proof. exact repaired. Qed.
Print Assumptions C207_assigned_again.

Example C207_instance : exists w v w1 w2, made "f" (Lin 1) (asked_logs false) w /\
  new_trv "f" (Bare (AV (PF 1))) (Bare (AV (PF (exp 2)))) (Lin 1) None = (v, None) /\
  do_call w (SetUfun None false) = (w1, None) /\ do_call w1 (SetVset (Bare (AV (PF 1))) (Bare (AV (PF (exp 2))))) = (w2, None) /\
  forall x, 0 <= x <= 2 -> x < 1 -> ~ member (asked_logs false) x.
Proof.
  exact logs_removed.
Qed.

(** C208 (false of the code): quantile functions refused by a transformed variable are
    installed, and draw its values, which are not transformed back. *)
Theorem C208_pfun_refuted :
  forall name ps s w t p a b n r,
  made name ps s w -> st_u s = Some t -> st_no s = false -> between_limits s a b ->
  exists w', do_call w (SetPfun (Some p)) = (w', Some AssertionError) /\
  exists o, tv_evaluate w' (VSet n) r = Ok o /\ length (answer o) = Nat.max 1 (Z.abs_nat n) /\
    forall i, (i < length (answer o))%nat ->
      nth_error (answer o) i = Some (PF (pf_icdf p (pf_cdf p (u_fwd (tr_u t) a) +
        (pf_cdf p (u_fwd (tr_u t) b) - pf_cdf p (u_fwd (tr_u t) a)) * place n (is_tup (st_e0 s)) (is_tup (st_e1 s)) r i))).
Proof. exact pfun_refused. Qed.
Print Assumptions C208_pfun_refuted.

(** C208 (false of the code): so is a transformation refused by a variable with
    quantile functions. *)
Theorem C208_ufun_refuted :
  forall name ps s w t p a b n r,
  made name ps s w -> st_pfun s = Some p -> between_limits s a b ->
  (st_given s = None -> holdable ps (Rabs (u_fwd (tr_u t) b - u_fwd (tr_u t) a))) ->
  exists w', do_call w (SetUfun (Some t) false) = (w', Some AssertionError) /\
  exists o, tv_evaluate w' (VSet n) r = Ok o /\ length (answer o) = Nat.max 1 (Z.abs_nat n) /\
    forall i, (i < length (answer o))%nat ->
      nth_error (answer o) i = Some (PF (pf_icdf p (pf_cdf p (u_fwd (tr_u t) a) +
        (pf_cdf p (u_fwd (tr_u t) b) - pf_cdf p (u_fwd (tr_u t) a)) * place n (is_tup (st_e0 s)) (is_tup (st_e1 s)) r i))).
Proof. exact ufun_refused_values. Qed.
Print Assumptions C208_ufun_refuted.

(** C208 (false of the code): a distribution refused by a transformed variable with a
    default probability replaces it, until the set is next assigned. *)
Theorem C208_dist_refuted :
  forall name ps s w t f p,
  made name ps s w -> st_u s = Some t -> st_given s = None ->
  exists w', do_call w (SetDist f p) = (w', Some AssertionError) /\
    (forall vals, tv_eval_prob w' vals = Ok (tmap (fun x => f (as_num x)) vals)) /\
    forall w'', do_call w' (SetVset (st_e0 s) (st_e1 s)) = (w'', None) ->
      forall vals, tv_eval_prob w'' vals = tv_eval_prob w vals.
Proof. exact dist_refused. Qed.
Print Assumptions C208_dist_refuted.

(** C208 (false of the code): after a pair of functions is refused because no change
    of variables was asked for, assigning the set raises an exception too and leaves
    no probability. *)
Theorem C208_pair_refuted :
  forall name ps s w t e0 e1,
  made name ps s w -> st_given s = None -> (st_u s = None \/ st_no s = false) -> tr_der t = None ->
  exists w', do_call w (SetUfun (Some t) true) = (w', Some AssertionError) /\
    forall w'' e, do_call w' (SetVset e0 e1) = (w'', e) -> e <> None /\
      forall vals, tv_eval_prob w'' vals = Err TypeError.
Proof. exact pair_refused. Qed.
Print Assumptions C208_pair_refuted.

Example C208_instance : exists v w, made "f" (Lin 1) (asked_logs false) v /\ between_limits (asked_logs false) 1 (exp 2) /\
  made "x" (Lin 1) (mkSettings (Bare (AV (PF 0))) (Bare (AV (PF 1))) None false None (Some (mkPfun (fun x => x * x) sqrt))) w /\
  tr_der log_pair = None.
Proof.
  destruct (logs_made false) as (v & V).
  destruct (with_quantiles "x" 0 1 (mkPfun (fun x => x * x) sqrt)) as (w & W); try lra.
  exists v, w. split; auto. split; [apply logs_limits|]. split; auto.
Qed.
