(** Property theorems about pscales.py (C01-C08). *)
From Coq Require Import String ZArith Reals Lra Lia Bool Arith List.
From Verif Require Import Base Num Tensor PScales PScales_Spec RNumLemmas PScales_Proofs PScales_Prod PScales_Request.
Import ListNotations.
Local Open Scope R_scope.

(** C01: rescaling keeps the probability that a number denotes, for all arrays,
    all pairs of valid scales (1+0j excluded, see below). *)
Theorem C01_rescale_preserves_denotation :
  forall (prob : tensor R) (s t : pspec R),
  valid_scale s -> valid_scale t -> ~ unit_log s -> ~ unit_log t ->
  no_tiny_gap s t ->
  exists prob', rescale prob s t = Ok prob' /\ shape prob' = shape prob /\
    forall idx,
      (log_kind s = false -> log_kind t = true -> npz <= get prob idx) ->
      (log_kind s = true -> log_kind t = false ->
         denote s (get prob idx) / factor t <= npi) ->
      denote t (get prob' idx) = denote s (get prob idx).
Proof. exact rescale_preserves. Qed.
Print Assumptions C01_rescale_preserves_denotation.

Example C01_hypotheses_met :
  valid_scale (PSFloat 1) /\ valid_scale (PSCplx 2 0) /\ ~ unit_log (PSFloat 1) /\
  ~ unit_log (PSCplx 2 0) /\ no_tiny_gap (PSFloat 1) (PSCplx 2 0) /\ npz <= 1 / 2 /\
  log_kind (PSFloat 1) = false /\ log_kind (PSCplx 2 0) = true.
Proof.
  unfold valid_scale, unit_log, no_tiny_gap; cbn. unfold log_offset.
  rewrite Rabs_R0. pose proof npz_pos. pose proof npz_lt_1.
  destruct (Rlt_dec 0 npz); [|lra]. destruct (Req_EM_T 1 0); [lra|].
  rewrite ln_1, ln_exp. unfold Rminus. rewrite Rplus_0_l, Rabs_Ropp, Rabs_right by lra.
  repeat split; auto; try lra; try discriminate.
  - intros E. inversion E. lra.
  - apply npz_le_half.
Qed.

(** Without any assumption on the distance of the two offsets the denoted
    probability changes at most by a factor exp(e) with |e| below the smallest
    positive float. *)
Theorem C01_rescale_nearly_preserves_denotation :
  forall (prob : tensor R) (s t : pspec R),
  valid_scale s -> valid_scale t -> ~ unit_log s -> ~ unit_log t ->
  exists prob', rescale prob s t = Ok prob' /\ shape prob' = shape prob /\
    forall idx,
      (log_kind s = false -> log_kind t = true -> npz <= get prob idx) ->
      (log_kind s = true -> log_kind t = false ->
         denote s (get prob idx) / factor t * exp npz <= npi) ->
      exists e, Rabs e < npz /\
        denote t (get prob' idx) = denote s (get prob idx) * exp e.
Proof. exact rescale_nearly_preserves. Qed.
Print Assumptions C01_rescale_nearly_preserves_denotation.

(** The exclusion of 1+0j is necessary: that log scale is taken for linear 1. *)
Theorem C01_unit_log_scale_refuted :
  exists v r, rescale (tscalar v) (PSCplx 1 0) (PSFloat 1) = Ok (tscalar r) /\
    denote (PSFloat 1) r <> denote (PSCplx 1 0) v.
Proof. exact rescale_unit_log_wrong. Qed.
Print Assumptions C01_unit_log_scale_refuted.

(** C02: path independence and round trip. *)
Theorem C02_rescale_path_independent :
  forall (prob : tensor R) (s t u : pspec R),
  valid_scale s -> valid_scale t -> valid_scale u ->
  ~ unit_log s -> ~ unit_log t -> ~ unit_log u ->
  no_tiny_gap s t -> no_tiny_gap t u -> no_tiny_gap s u ->
  (forall idx, in_range (shape prob) idx ->
     representable s (denote s (get prob idx)) /\
     representable t (denote s (get prob idx)) /\
     representable u (denote s (get prob idx))) ->
  exists p1 p2 p3,
    rescale prob s t = Ok p1 /\ rescale p1 t u = Ok p2 /\ rescale prob s u = Ok p3 /\
    teq p2 p3 /\ shape p2 = shape prob.
Proof. exact rescale_path. Qed.
Print Assumptions C02_rescale_path_independent.

Theorem C02_rescale_round_trip :
  forall (prob : tensor R) (s t : pspec R),
  valid_scale s -> valid_scale t -> ~ unit_log s -> ~ unit_log t ->
  no_tiny_gap s t ->
  (forall idx, in_range (shape prob) idx ->
     representable s (denote s (get prob idx)) /\
     representable t (denote s (get prob idx))) ->
  exists p1 p2,
    rescale prob s t = Ok p1 /\ rescale p1 t s = Ok p2 /\ teq p2 prob.
Proof. exact rescale_round_trip. Qed.
Print Assumptions C02_rescale_round_trip.

(** A probability one half held linearly can be held on the log scale. *)
Example C02_hypotheses_met :
  let prob := of_list 0 [1; 1] in
  no_tiny_gap (PSFloat 1) (PSCplx 2 0) /\
  forall idx, in_range (shape prob) idx ->
    representable (PSFloat 1) (denote (PSFloat 1) (get prob idx)) /\
    representable (PSCplx 2 0) (denote (PSFloat 1) (get prob idx)).
Proof.
  cbn zeta. split; [apply C01_hypotheses_met|].
  intros idx Hi. inversion Hi as [|i n' idx' r' Hlt Hr]; subst. inversion Hr; subst.
  assert (V : get (of_list 0 [1; 1]) [i] = 1).
  { cbn. destruct i as [|[|i]]; auto. cbn in Hlt. lia. }
  rewrite V. unfold representable, denote. cbn.
  pose proof npz_lt_1. pose proof npi_big.
  destruct (Req_EM_T 1 0); [lra|].
  repeat split; try lra; try discriminate.
Qed.

(** C03 *)
Theorem C03_log_exp_safe_monotone_inverse :
  (forall p : R, nni <= log_prob1 p) /\
  (forall l : R, 0 < exp_logp1 l <= npi) /\
  (forall p q : R, p <= q -> log_prob1 p <= log_prob1 q) /\
  (forall l m : R, l <= m -> exp_logp1 l <= exp_logp1 m) /\
  (forall p : R, npz <= p <= npi -> exp_logp1 (log_prob1 p) = p) /\
  (forall l : R, ln npz <= l <= ln npi -> log_prob1 (exp_logp1 l) = l).
Proof.
  exact (conj log_prob_lower (conj exp_logp_upper (conj log_prob_mono
    (conj exp_logp_mono (conj exp_log_inverse log_exp_inverse))))).
Qed.
Print Assumptions C03_log_exp_safe_monotone_inverse.

Example C03_ranges_inhabited : npz <= 1 <= npi /\ ln npz <= 0 <= ln npi.
Proof.
  pose proof npz_lt_1. pose proof npz_pos. pose proof npi_big.
  repeat split; try lra; rewrite <- ln_1; left; apply ln_increasing; lra.
Qed.

(** C04 *)
Theorem C04_eval_pscale_canonical :
  (forall s : pspec R, is_scale s -> exists p, eval_pscale s = Ok p) /\
  (forall s : pspec R, ~ is_scale s -> eval_pscale s = Err ValueError) /\
  (forall (s : pspec R) p, eval_pscale s = Ok p -> eval_pscale (spec_of p) = Ok p) /\
  (forall s : pspec R, eval_pscale s <> Ok (Lin 0)) /\
  (forall s : pspec R, In s [PSStr "log"; PSStr "ln"; PSInt 0; PSFloat 0; PSCplx 0 0] ->
     eval_pscale s = Ok (Log 0 0)).
Proof.
  exact (conj eval_valid (conj eval_invalid (conj eval_idem (conj eval_nonzero
    eval_log_spellings)))).
Qed.
Print Assumptions C04_eval_pscale_canonical.

(** Evaluation keeps what the scale means (1+0j excluded). *)
Theorem C04_eval_pscale_meaning :
  forall (s : pspec R) p v, eval_pscale s = Ok p -> ~ unit_log s ->
    denote (spec_of p) v = denote s v /\ factor (spec_of p) = factor s /\
    log_kind (spec_of p) = log_kind s.
Proof. exact eval_denote. Qed.
Print Assumptions C04_eval_pscale_meaning.

Example C04_instances :
  is_scale (PSStr "ln") /\ ~ is_scale (PSStr "foo") /\
  eval_pscale (PSInt 3) = Ok (Lin 3) /\ ~ unit_log (PSInt 3).
Proof. repeat split; cbn; auto; try discriminate. intros [H|H]; discriminate. Qed.

(** C05, first half: any number of arrays on any linear scales. *)
Theorem C05_prod_rule_linear :
  forall (args : list (tensor R)) (scales : list (pspec R)) s,
  args <> [] -> length scales = length args -> Forall linear_scale scales ->
  bcast_all (map shape args) = Ok s ->
  exists t ps, prod_rule args (Some scales) None None = Ok (t, ps) /\
    shape t = s /\ linear_scale ps /\
    forall idx, in_range s idx -> denote ps (get t idx) = Rprod (factors_at args scales idx).
Proof. exact prod_rule_linear. Qed.
Print Assumptions C05_prod_rule_linear.

(** C05, second half: any mix of plain linear and plain log scales. *)
Theorem C05_prod_rule_plain_mix :
  forall (args : list (tensor R)) (scales : list (pspec R)) s,
  args <> [] -> length scales = length args -> Forall plain_scale scales ->
  existsb iscomplex scales = true ->
  bcast_all (map shape args) = Ok s ->
  exists t, prod_rule args (Some scales) None None = Ok (t, PSCplx 0 0) /\
    shape t = s /\
    forall idx, in_range s idx ->
      Forall2 (fun a sc => log_kind sc = false -> npz <= get a (bcast_idx (shape a) idx))
              args scales ->
      denote (PSCplx 0 0) (get t idx) = Rprod (factors_at args scales idx).
Proof. exact prod_rule_plain_log. Qed.
Print Assumptions C05_prod_rule_plain_mix.

Example C05_hypotheses_met :
  let args := [of_list 0 [1/2; 1/2]; tscalar 1; tscalar (-1)] in
  let scales := [PSFloat 1; PSFloat 1; PSCplx 0 0] in
  bcast_all (map shape args) = Ok [2%nat] /\ length scales = length args /\
  Forall plain_scale scales /\ existsb iscomplex scales = true /\
  Forall linear_scale [PSFloat 1; PSFloat 3].
Proof.
  cbn zeta. split; [reflexivity|]. split; [reflexivity|]. split.
  - constructor; [left; reflexivity|]. constructor; [left; reflexivity|].
    constructor; [right; reflexivity|constructor].
  - split; [reflexivity|]. repeat constructor; cbn; try lra;
    match goal with |- context [Req_EM_T ?a ?b] => destruct (Req_EM_T a b); [lra|auto] end.
Qed.

(** C06 is false as stated; this says exactly when the product scale is right:
    no logarithmic scale among the arguments, or all factors cancel. *)
Theorem C06_prod_pscale_correct_iff :
  forall l : list (pspec R),
  l <> [] -> Forall valid_scale l -> Forall (fun s => ~ unit_log s) l ->
  exists p, prod_pscale l None = Ok (Some p) /\
    (factor (spec_of p) = Rprod (map factor l) <->
     (existsb iscomplex l = false \/ Rprod (map factor l) = 1)).
Proof. exact prod_pscale_correct_iff. Qed.
Print Assumptions C06_prod_pscale_correct_iff.

Theorem C06_prod_pscale_refuted :
  exists l p, Forall valid_scale l /\ Forall (fun s => ~ unit_log s) l /\
    prod_pscale l None = Ok (Some p) /\
    factor (spec_of p) <> Rprod (map factor l).
Proof. exact prod_pscale_wrong. Qed.
Print Assumptions C06_prod_pscale_refuted.

(** C07: requesting the natural scale is harmless... *)
Theorem C07_requested_natural_scale :
  forall (args : list (tensor R)) (scales : list (pspec R)) t ps,
  prod_rule args (Some scales) None None = Ok (t, ps) -> args <> [] ->
  prod_rule args (Some scales) None (Some ps) = Ok (t, ps).
Proof. exact prod_rule_requested_natural. Qed.
Print Assumptions C07_requested_natural_scale.

(** ... but requesting another linear scale gives a wrong probability ... *)
Theorem C07_requested_linear_scale_refuted :
  exists t ps, prod_rule [tscalar (1/2); tscalar 1] (Some [PSFloat 1; PSFloat 1]) None
                 (Some (PSFloat 2)) = Ok (t, ps) /\ ps = PSFloat 2 /\ shape t = [] /\
    denote ps (get t []) <> 1/2.
Proof. exact prod_rule_lin_request_wrong. Qed.
Print Assumptions C07_requested_linear_scale_refuted.

(** ... and requesting a log scale of a product of linear ones always raises. *)
Theorem C07_requested_log_scale_raises_refuted :
  forall (args : list (tensor R)) (scales : list (pspec R)) s re im,
  args <> [] -> length scales = length args -> Forall linear_scale scales ->
  bcast_all (map shape args) = Ok s ->
  prod_rule args (Some scales) None (Some (PSCplx re im)) = Err ValueError.
Proof. exact prod_rule_log_request_raises. Qed.
Print Assumptions C07_requested_log_scale_raises_refuted.

(** In general a requested scale of the other kind (logarithmic or not) raises,
    and one of the same kind is returned with the values unchanged: they mean
    the same if and only if the two scales have the same factor, or the value is
    a linear zero. *)
Theorem C07_requested_scale_iff :
  forall (args : list (tensor R)) (scales : list (pspec R)) t ps s,
  prod_rule args (Some scales) None None = Ok (t, ps) -> args <> [] ->
  log_kind ps = iscomplex ps -> log_kind s = iscomplex s ->
  (log_kind s <> log_kind ps -> prod_rule args (Some scales) None (Some s) = Err ValueError) /\
  (log_kind s = log_kind ps -> prod_rule args (Some scales) None (Some s) = Ok (t, s) /\
     forall idx, denote s (get t idx) = denote ps (get t idx) <->
       factor s = factor ps \/ log_kind s = false /\ get t idx = 0).
Proof. exact prod_rule_requested_iff. Qed.
Print Assumptions C07_requested_scale_iff.

Example C07_iff_hypotheses_met :
  (exists t ps, prod_rule [tscalar (1/2); tscalar 1] (Some [PSFloat 1; PSFloat 1]) None None = Ok (t, ps) /\
     log_kind ps = iscomplex ps) /\
  log_kind (PSFloat 2) = iscomplex (PSFloat 2 : pspec R) /\ log_kind (PSCplx 0 0) = iscomplex (PSCplx 0 0 : pspec R).
Proof.
  split; [|split; [|reflexivity]].
  - eexists _, _. split.
    + unfold prod_rule. cbn [existsb iscomplex orb]. rewrite prod_pscale_lin; try discriminate.
      * cbn. match goal with |- (if ?b then _ else _) = _ => destruct b end; reflexivity.
      * repeat constructor; cbn; lra.
      * repeat constructor; unfold unit_log; discriminate.
    + cbn. destruct (Req_EM_T 1 0); [lra|]. destruct (Req_EM_T _ 0); [lra|reflexivity].
  - cbn. destruct (Req_EM_T 2 0); [lra|reflexivity].
Qed.

(** C08 *)
Theorem C08_div_prob_quotient :
  forall (x y : tensor R) (a b out : pspec R) s,
  bcast_shape (shape x) (shape y) = Ok s ->
  valid_scale a -> valid_scale b -> valid_scale out ->
  ~ unit_log a -> ~ unit_log b -> ~ unit_log out ->
  no_tiny_gap a PSNone -> no_tiny_gap b PSNone -> no_tiny_gap PSNone out ->
  no_tiny_gap PSNone a ->
  out = PSNone \/ truthy out = true ->
  let res := if truthy out then out else a in
  exists r, div_prob x y (Some (a, b)) out = Ok r /\ shape r = s /\
    forall idx, in_range s idx ->
      let p := denote a (get x (bcast_idx (shape x) idx)) in
      let q := denote b (get y (bcast_idx (shape y) idx)) in
      p <= npi -> npz <= q <= npi ->
      (log_kind res = true -> npz <= p / q) ->
      denote res (get r idx) = p / q.
Proof. exact div_prob_quotient. Qed.
Print Assumptions C08_div_prob_quotient.

Example C08_hypotheses_met :
  no_tiny_gap (PSCplx 0 0) PSNone /\ valid_scale (PSCplx 0 0) /\ ~ unit_log (PSCplx 0 0) /\
  truthy (PSFloat 1 : pspec R) = true /\ truthy (PSNone : pspec R) = false /\
  denote (PSCplx 0 0) 0 = 1 /\ npz <= 1 <= npi.
Proof.
  unfold no_tiny_gap, valid_scale, unit_log, denote; cbn.
  rewrite log_offset_0, exp_0, ln_1. pose proof npz_lt_1. pose proof npi_big.
  repeat split; auto; try lra.
  - intros E. inversion E. lra.
  - apply Bool.negb_true_iff, Reqb_false_iff. rn. lra.
Qed.

Theorem C08_div_prob_linear_never_divides_by_zero :
  forall (x y : tensor R) s,
  bcast_shape (shape x) (shape y) = Ok s ->
  exists r, div_prob x y None PSNone = Ok r /\ shape r = s /\
    forall idx, in_range s idx ->
      get r idx = get x (bcast_idx (shape x) idx) / Rmax npz (get y (bcast_idx (shape y) idx)) /\
      Rmax npz (get y (bcast_idx (shape y) idx)) <> 0.
Proof. exact div_prob_linear_total. Qed.
Print Assumptions C08_div_prob_linear_never_divides_by_zero.

(** Requesting the plain log scale for the quotient of linear numbers has no effect. *)
Theorem C08_requested_plain_log_scale_refuted :
  exists r, div_prob (tscalar 1) (tscalar 1) (Some (PSFloat 1, PSFloat 1)) (PSCplx 0 0) = Ok r /\
    shape r = [] /\ denote (PSCplx 0 0) (get r []) <> 1 / 1.
Proof. exact div_prob_ignores_log_request. Qed.
Print Assumptions C08_requested_plain_log_scale_refuted.
