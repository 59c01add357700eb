(** Properties C165-C171: variables with distributions. *)
From Coq Require Import String ZArith Reals Bool Arith List.
From Verif Require Import Base Num Tensor PScales PScales_Spec Distr PDModel PD_Spec PD_Examples Likelihoods VariableModel Var_Spec
  RVModel RV_Spec RVStep_Spec RF_Spec DistModel Dist_Spec Dist_Proofs Dist_Thm Dist_Ex.
Import ListNotations.
Local Open Scope R_scope.

(** C165: a variable with a distribution, called with values or drawn, gives the
    distribution of itself over those values, with the density of each; on a scale
    of another constant, that constant times the density. *)
Theorem C165_density :
  forall {F : Fmt R} (v : drv R) d a r vals vec l,
  printable F -> named_apart [dv_name v] -> eval_pscale (spec_of (dv_pscale v)) = Ok (dv_pscale v) ->
  dv_prob v = DDist d -> dv_evaluate v a r = Ok vals -> holds vals vec l -> l <> [] ->
  exists q, dv_call v a r = Ok q /\ called v vec l q /\
    forall s, in_bounds q (if vec then [dv_name v] else []) s -> consistent d (num (item vec l (s (dv_name v)))) ->
      prob_at q (if vec then [dv_name v] else []) s =
        factor (spec_of (dv_pscale v)) * ud_prob d (num (item vec l (s (dv_name v)))).
Proof. intros F v d a r vals vec l PR NA EP. exact (density_call v PR NA EP d a r vals vec l). Qed.
Print Assumptions C165_density.

Example C165_instance :
  forall (r : rnd R), exists w, printable fmt_ex /\ named_apart [dv_name ex_ramp] /\
    eval_pscale (spec_of (dv_pscale ex_ramp)) = Ok (dv_pscale ex_ramp) /\ dv_set_pscale ex_ramp (PSStr "log") = Ok w /\
    dv_prob ex_ramp = DDist ex_tri /\ dv_evaluate ex_ramp (VGiven [PF (1 / 4); PF (3 / 4)] false) r = Ok (of_list (PF 0) [PF (1 / 4); PF (3 / 4)]) /\
    holds (of_list (PF 0) [PF (1 / 4); PF (3 / 4)]) true [PF (1 / 4); PF (3 / 4)] /\ consistent ex_tri (1 / 4).
Proof. exact ramp_rescaled. Qed.

(** C166: assigning another scale to a variable with a distribution keeps what its
    probabilities stand for, up to the constants of the two scales. *)
Theorem C166_distribution_rescaled :
  forall {F : Fmt R} (v w : drv R) given d a r vals vec l,
  printable F -> named_apart [dv_name v] ->
  eval_pscale (spec_of (dv_pscale v)) = Ok (dv_pscale v) -> dv_set_pscale v given = Ok w ->
  dv_prob v = DDist d -> dv_evaluate v a r = Ok vals -> holds vals vec l -> l <> [] ->
  exists q q', dv_call v a r = Ok q /\ called v vec l q /\ dv_call w a r = Ok q' /\ called w vec l q' /\ eval_pscale given = Ok (p_pscale q') /\
    forall s, in_bounds q (if vec then [dv_name v] else []) s -> in_bounds q' (if vec then [dv_name v] else []) s ->
      consistent d (num (item vec l (s (dv_name v)))) ->
      factor (spec_of (dv_pscale w)) * prob_at q (if vec then [dv_name v] else []) s =
      factor (spec_of (dv_pscale v)) * prob_at q' (if vec then [dv_name v] else []) s.
Proof. intros F. exact (@rescaled_density F). Qed.
Print Assumptions C166_distribution_rescaled.

(** C166 (false of the code for numbers): a variable with the probability x, which
    may be the default one, holds the number x after its scale is set to logs: its
    values now have the probability e^x. *)
Theorem C166_number_refuted :
  forall {F : Fmt R} (v w : drv R) x a r vals vec l,
  printable F -> named_apart [dv_name v] -> dv_pscale v = Lin 1 -> dv_set_pscale v (PSStr "log") = Ok w ->
  dv_prob v = DPlain (RPScalar x) -> dv_evaluate v a r = Ok vals -> holds vals vec l -> l <> [] ->
  exists q q', dv_call v a r = Ok q /\ called v vec l q /\ dv_call w a r = Ok q' /\ called w vec l q' /\
    forall s, in_bounds q (if vec then [dv_name v] else []) s -> in_bounds q' (if vec then [dv_name v] else []) s ->
      inside (dv_state v) (item vec l (s (dv_name v))) = Some true ->
      prob_at q (if vec then [dv_name v] else []) s = x /\ prob_at q' (if vec then [dv_name v] else []) s = exp x /\ exp x <> x.
Proof. intros F. exact (@rescaled_number F). Qed.
Print Assumptions C166_number_refuted.

Example C166_instance :
  forall (r : rnd R), exists w, named_apart [dv_name ex_fair] /\ dv_pscale ex_fair = Lin 1 /\
    dv_set_pscale ex_fair (PSStr "log") = Ok w /\ dv_prob ex_fair = DPlain (RPScalar (/ 2)) /\
    dv_evaluate ex_fair VNone r = Ok (of_list (PF 0) [PB false; PB true]) /\ inside (dv_state ex_fair) (PB true) = Some true.
Proof. exact fair_rescaled. Qed.

(** C167: with quantiles, {n} for positive n gives n values inside the set at equal
    steps of probability, that of the distribution restricted to the set. *)
Theorem C167_grid :
  forall (v : drv R) p e0 e1 lo hi n r,
  dv_pfun v = Some p -> dv_state v = interval e0 e1 -> atom_of e0 = AV lo -> atom_of e1 = AV hi -> num lo < num hi ->
  continuous_between p (num lo) (num hi) -> (0 < n)%Z ->
  exists out, dv_evaluate v (VSet n) r = Ok (of_list (PF 0) out) /\ Z.of_nat (length out) = n /\
    forall i, (i < length out)%nat -> exists x, nth_error out i = Some (PF x) /\ inside (interval e0 e1) (PF x) = Some true /\
      share p (num lo) (num hi) x = spaced (is_tup e0) (is_tup e1) (length out) i.
Proof. intros v p e0 e1 lo hi n r H0 H1 H2 H3 H4 H5. exact (grid_quantiles v p e0 e1 lo hi H0 H1 H2 H3 H4 H5 n r). Qed.
Print Assumptions C167_grid.

(** C167: {0} and {-n} draw from the distribution restricted to the set: the value
    is at most t if the number drawn from the unit interval is at most the
    probability of that.  (An excluded lower limit is returned for the number 0.) *)
Theorem C167_draws :
  forall (v : drv R) p e0 e1 lo hi n r,
  dv_pfun v = Some p -> dv_state v = interval e0 e1 -> atom_of e0 = AV lo -> atom_of e1 = AV hi -> num lo < num hi ->
  continuous_between p (num lo) (num hi) -> (n <= 0)%Z -> (forall i, 0 <= r_unif r i < 1) ->
  exists vals out, dv_evaluate v (VSet n) r = Ok vals /\ holds vals (negb (n =? 0)%Z) out /\ length out = Nat.max 1 (Z.abs_nat n) /\
    forall i, (i < length out)%nat -> exists x, nth_error out i = Some (PF x) /\ num lo <= x < num hi /\
      (inside (interval e0 e1) (PF x) = Some true <-> is_tup e0 = false \/ 0 < r_unif r i) /\
      forall t, num lo <= t <= num hi -> (x <= t <-> r_unif r i <= share p (num lo) (num hi) t).
Proof. intros v p e0 e1 lo hi n r H0 H1 H2 H3 H4 H5. exact (drawn_quantiles v p e0 e1 lo hi H0 H1 H2 H3 H4 H5 n r). Qed.
Print Assumptions C167_draws.

Example C167_instance :
  
    make_drv "x" (AList [Tup (AV (PF 0)); Bare (AV (PF 1))]) (AType VFloat) (DADist ex_tri) PSNone = Ok ex_ramp /\
    dv_pfun ex_ramp = Some ex_quant /\ dv_state ex_ramp = interval (Tup (AV (PF 0))) (Bare (AV (PF 1))) /\ continuous_between ex_quant 0 1.
Proof. split; [exact ramp_made|]. split; [reflexivity|]. split; [reflexivity|exact ramp_quantiles]. Qed.

(** C168 (false of the code): a variable with quantiles is sampled exactly if it is
    a float variable with finite limits; *)
Theorem C168_sampled_iff :
  forall (v : drv R) p n r, dv_pfun v = Some p ->
  ((exists vals, dv_evaluate v (VSet n) r = Ok vals) <-> finite_interval (dv_state v)) /\
  (~ finite_interval (dv_state v) -> dv_evaluate v (VSet n) r = Err AssertionError).
Proof. exact sampled_iff. Qed.
Print Assumptions C168_sampled_iff.

(** so never if it is an int or bool variable, *)
Theorem C168_discrete_refuted :
  forall (v : drv R) p n r, dv_pfun v = Some p -> vs_vtype (dv_state v) <> Some VFloat ->
  dv_evaluate v (VSet n) r = Err AssertionError.
Proof. exact not_float_refused. Qed.
Print Assumptions C168_discrete_refuted.

(** nor if a limit is infinite, though the distribution has a sampling function. *)
Theorem C168_infinite_refuted :
  forall (v : drv R) p n r e0 e1, dv_pfun v = Some p -> dv_state v = interval e0 e1 -> infinite e0 \/ infinite e1 ->
  dv_evaluate v (VSet n) r = Err AssertionError.
Proof. exact infinite_refused. Qed.
Print Assumptions C168_infinite_refuted.

Example C168_instance :
  (exists v p, make_drv "d" (AList [Bare (AV (PI 0)); Bare (AV (PI 1)); Bare (AV (PI 2))]) ANone (DADist ex_point) PSNone = Ok v /\
     dv_pfun v = Some p /\ dv_state v = discrete VInt [PI 0; PI 1; PI 2] /\ vs_vtype (dv_state v) <> Some VFloat) /\
  (exists v p e0 e1, make_drv "x" (AType VFloat) ANone (DADist ex_tri) PSNone = Ok v /\
     dv_pfun v = Some p /\ dv_state v = interval e0 e1 /\ infinite e0).
Proof. split; [exact discrete_made|exact unbounded_made]. Qed.

(** C169 (false of the code): called without values, a float variable is drawn
    uniformly from its set, whatever its distribution. *)
Theorem C169_default_draw_refuted :
  forall (v : drv R) e0 e1 lo hi r,
  dv_state v = interval e0 e1 -> atom_of e0 = AV lo -> atom_of e1 = AV hi -> num lo < num hi -> 0 <= r_unif r 0%nat < 1 ->
  exists x, dv_evaluate v VNone r = Ok (tscalar (PF x)) /\ num lo <= x < num hi /\
    forall t, x <= t <-> r_unif r 0%nat <= (t - num lo) / (num hi - num lo).
Proof. exact default_draw. Qed.
Print Assumptions C169_default_draw_refuted.

(** For the density 2x the probability of values up to 1/2 is not 1/2. *)
Example C169_instance :
  dv_state ex_ramp = interval (Tup (AV (PF 0))) (Bare (AV (PF 1))) /\ share ex_quant 0 1 (1 / 2) = / 4 /\ (1 / 2 - 0) / (1 - 0) = / 2.
Proof. split; [reflexivity|]. split; [unfold share; cbn; field|field]. Qed.

(** C170 (false of the code): a new probability that comes without quantiles leaves
    those of the old one, from which values are still drawn. *)
Theorem C170_stale_quantiles_refuted :
  forall (v w : drv R) given a p, dv_set_prob v given a = Ok w -> without_quantiles a -> dv_pfun v = Some p ->
  forall n r, dv_evaluate w (VSet n) r = dv_evaluate v (VSet n) r.
Proof. exact stale_quantiles. Qed.
Print Assumptions C170_stale_quantiles_refuted.

(** C170: a probability given without scale leaves the scale as it was. *)
Theorem C170_scale :
  forall (v w : drv R) a, eval_pscale (spec_of (dv_pscale v)) = Ok (dv_pscale v) ->
  dv_set_prob v PSNone a = Ok w -> dv_pscale w = dv_pscale v.
Proof. exact scale_stays. Qed.
Print Assumptions C170_scale.

(** C170: set_pfun() takes the quantile functions away: the values are those of a
    variable without them. *)
Theorem C170_removed :
  forall (v : drv R) a r, is_bool (dv_state v) = false ->
  dv_evaluate (dv_set_pfun v None) a r = let! o := evaluate (dv_state v) None a r in Ok (out_tensor o).
Proof. exact pfun_removed. Qed.
Print Assumptions C170_removed.

Example C170_instance :
   exists w, dv_set_prob ex_ramp PSNone (DAPlain (PAFun (fun x => 3 * (x * x)))) = Ok w /\
    without_quantiles (DAPlain (PAFun (fun x => 3 * (x * x)))) /\ dv_pfun ex_ramp = Some ex_quant.
Proof. exact ramp_reset. Qed.

(** C171 (false of the code): a bool variable whose probability of True was set to b
    and then back to 1/2, or to a function, is still drawn with the bias b. *)
Theorem C171_stale_bias_refuted :
  forall (v w u : drv R) g1 g2 b a,
  vs_vtype (dv_state v) = Some VBool -> dv_pfun v = None -> / 50000 <= Rabs (b - / 2) ->
  dv_set_prob v g1 (DAPlain (PAScalar b)) = Ok w -> dv_set_prob w g2 (DAPlain a) = Ok u ->
  a = PAScalar (/ 2) \/ (exists f, a = PAFun f) ->
  dv_prob u = DPlain (match a with PAFun f => RPFun f | _ => RPScalar (/ 2) end) /\
  forall n r, (n <= 0)%Z -> exists vals out, dv_evaluate u (VSet n) r = Ok vals /\ holds vals (negb (n =? 0)%Z) out /\
    length out = Nat.max 1 (Z.abs_nat n) /\
    forall i, (i < length out)%nat -> exists x, nth_error out i = Some (PB x) /\ (x = true <-> r_unif r i < b).
Proof. exact stale_bias. Qed.
Print Assumptions C171_stale_bias_refuted.

Example C171_instance :
   exists w u,
    vs_vtype (dv_state ex_fair) = Some VBool /\ dv_pfun ex_fair = None /\ / 50000 <= Rabs (9 / 10 - / 2) /\
    dv_set_prob ex_fair PSNone (DAPlain (PAScalar (9 / 10))) = Ok w /\ dv_set_prob w PSNone (DAPlain (PAScalar (/ 2))) = Ok u.
Proof. exact bias_made. Qed.
