(** Property theorems about the reduction of repetitions (C27). *)
From Coq Require Import String ZArith Reals List.
From Verif Require Import Base Num Tensor PScales PScales_Spec Distr PDModel PD_Spec PD_Simple_Spec PD_Prod_Spec PD_Examples PD_ProdThm.
Import ListNotations.
Local Open Scope R_scope.

(** C27 for the plain scales (linear 1, log 0): the keys are replaced by their counts and
    the probabilities are the products over all positions of the keys. *)
Theorem C27_product :
  forall (F : Fmt R) (p : pd R) (L keys : list string),
  valid_pd p L -> plain_scale (spec_of (p_pscale p)) -> key_ordered p L ->
  incl keys (od_keys (p_marg p)) -> incl keys L -> (forall k, In k keys -> simple_key k) ->
  exists q, pd_prod p keys = Ok q /\ reduced p L keys q /\
    forall a, prob_at q (without keys L) a = joint_at p L keys a.
Proof. exact @prod_plain. Qed.
Print Assumptions C27_product.

(** Products of p(x,y,w=5|z) over x. *)
Example C27_hypotheses_met : exists p, ex_make = Ok p /\ let L := ["x"; "y"; "z"]%string in let keys := ["x"]%string in
  @valid_pd fmt_ex p L /\ plain_scale (spec_of (p_pscale p)) /\ key_ordered p L /\ incl keys (od_keys (p_marg p)) /\ incl keys L /\
  (forall k, In k keys -> simple_key k) /\ repetitions p L keys = 2%nat /\ forall a, joint_at p L keys a = / 36.
Proof. exact ex_prod_plain. Qed.

(** C27 fails for the other scales: the factor of the scale is counted once more than
    the probabilities are. *)
Theorem C27_extra_factor :
  forall (F : Fmt R) (p : pd R) (L keys : list string),
  valid_pd p L -> valid_scale (spec_of (p_pscale p)) -> key_ordered p L ->
  incl keys (od_keys (p_marg p)) -> incl keys L -> (forall k, In k keys -> simple_key k) ->
  steady_scale p (S (repetitions p L keys)) ->
  exists q, pd_prod p keys = Ok q /\ reduced p L keys q /\
    forall a, prob_at q (without keys L) a = factor (spec_of (p_pscale p)) * joint_at p L keys a.
Proof. exact @prod_reduces. Qed.
Print Assumptions C27_extra_factor.

(** So that it gives the product exactly if the factor is one or the product is zero. *)
Theorem C27_product_iff :
  forall (F : Fmt R) (p : pd R) (L keys : list string) (q : pd R) (a : assignment),
  valid_pd p L -> valid_scale (spec_of (p_pscale p)) -> key_ordered p L ->
  incl keys (od_keys (p_marg p)) -> incl keys L -> (forall k, In k keys -> simple_key k) ->
  steady_scale p (S (repetitions p L keys)) -> pd_prod p keys = Ok q ->
  (prob_at q (without keys L) a = joint_at p L keys a <-> factor (spec_of (p_pscale p)) = 1 \/ joint_at p L keys a = 0).
Proof. exact @prod_iff. Qed.
Print Assumptions C27_product_iff.

(** p(x,y) = 1/6, held as 1/12 under scale 2. *)
Example C27_scaled_met : exists p, scl_make (/ 12) (PSFloat 2) = Ok p /\ let L := ["x"; "y"]%string in let keys := ["x"]%string in
  @valid_pd fmt_ex p L /\ valid_scale (spec_of (p_pscale p)) /\ key_ordered p L /\ incl keys (od_keys (p_marg p)) /\ incl keys L /\
  (forall k, In k keys -> simple_key k) /\ repetitions p L keys = 2%nat /\ steady_scale p 3 /\
  factor (spec_of (p_pscale p)) = 2 /\ forall a, joint_at p L keys a = / 36.
Proof. exact ex_prod_scaled. Qed.

(** C27 fails further for a log offset whose multiple is one: the result is held under
    the linear scale 1, but its numbers are logarithms. *)
Theorem C27_log_as_linear_refuted :
  forall (F : Fmt R) (p : pd R) (L keys : list string) (re : R),
  valid_pd p L -> p_pscale p = Log re 0 -> re * INR (S (repetitions p L keys)) = 1 -> key_ordered p L ->
  incl keys (od_keys (p_marg p)) -> incl keys L -> (forall k, In k keys -> simple_key k) ->
  exists q, pd_prod p keys = Ok q /\ reduced p L keys q /\ p_pscale q = Lin 1 /\
    forall a, prob_at q (without keys L) a = ln (joint_at p L keys a) - re * INR (repetitions p L keys).
Proof. exact @prod_collapse. Qed.
Print Assumptions C27_log_as_linear_refuted.

Example C27_collapse_met : exists p, scl_make 0 (PSCplx (/ 3) 0) = Ok p /\ let L := ["x"; "y"]%string in let keys := ["x"]%string in
  @valid_pd fmt_ex p L /\ p_pscale p = Log (/ 3) 0 /\ / 3 * INR (S (repetitions p L keys)) = 1 /\ key_ordered p L /\ incl keys (od_keys (p_marg p)) /\ incl keys L /\
  (forall k, In k keys -> simple_key k).
Proof. exact ex_prod_collapse. Qed.

(** C27: scalars among the keys are refused. *)
Theorem C27_scalar_refused :
  forall (F : Fmt R) (p : pd R) (L keys : list string) (k : string),
  valid_pd p L -> incl keys (od_keys (p_marg p)) -> In k keys -> ~ In k L -> pd_prod p keys = Err AssertionError.
Proof. exact @prod_scalar_raises. Qed.
Print Assumptions C27_scalar_refused.

Example C27_scalar_met : exists p, ex_make = Ok p /\ @valid_pd fmt_ex p ["x"; "y"; "z"]%string /\ incl ["x"; "w"]%string (od_keys (p_marg p)) /\
  ~ In "w"%string ["x"; "y"; "z"]%string.
Proof. exact ex_prod_scalar. Qed.
