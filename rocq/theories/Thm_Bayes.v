(** Property theorems about Bayes' theorem and division (C19, C22). *)
From Coq Require Import String ZArith QArith Reals List.
From Verif Require Import Base Num Tensor PScales PScales_Spec Distr PDModel PDUtils PD_Spec PD_Product_Spec
  PD_Cond_Spec PD_Bayes_Spec PD_Div_Spec PD_Examples PD_ProductEx PD_CondEx PD_Bayes PD_BayesEx PD_DivExact PD_DivEx.
Import ListNotations.
Local Open Scope R_scope.

(** C19: multiplying prior and likelihood and conditioning the product on all of the
    likelihood's marginals succeeds, and gives at each position prior times
    likelihood over the evidence, the sum of prior times likelihood over the prior's
    columns.  The factors may come in either order if no column is a conditional of
    the product. *)
Theorem C19_bayes :
  forall (F : Fmt R) (pri lik : pd R) (axes : pd R -> list string) (args : list (pd R)),
  args = [pri; lik] \/ args = [lik; pri] /\ no_free_columns pri lik axes ->
  multipliable args axes -> marg_columns pri (axes pri) <> [] -> fine_product pri lik ->
  exists j q L', product args PSNone = Ok (Some j) /\ conditionalise j (od_keys (p_marg lik)) = Ok q /\
    valid_pd q L' /\ (forall k, In k L' <-> In k (axes pri) \/ In k (axes lik)) /\
    od_keys (p_marg q) = od_keys (p_marg pri) /\
    (forall k, In k (od_keys (p_cond q)) <->
       In k (od_keys (p_marg lik)) \/
       In k (od_keys (p_cond pri) ++ od_keys (p_cond lik)) /\ ~ In k (od_keys (p_marg pri))) /\
    (forall p k, p = pri \/ p = lik -> In k (p_keylist p) -> variable q k = variable p k) /\
    forall a, both_in_bounds pri lik axes a -> npz <= evidence_at pri lik axes a ->
      observable pri lik axes -> log_range pri lik axes a ->
      prob_at q L' a = joint_at pri lik axes a / evidence_at pri lik axes a.
Proof. exact @bayes. Qed.
Print Assumptions C19_bayes.

(** C19, continued: the product divided by the prior is the likelihood, when the
    prior has no conditionals and those of the likelihood are the prior's. *)
Theorem C19_division_returns_likelihood :
  forall (F : Fmt R) (pri lik : pd R) (axes : pd R -> list string) (args : list (pd R)),
  args = [pri; lik] \/ args = [lik; pri] /\ no_free_columns pri lik axes ->
  multipliable args axes -> marg_columns pri (axes pri) <> [] -> fine_product pri lik ->
  od_keys (p_cond pri) = [] -> incl (od_keys (p_cond lik)) (od_keys (p_marg pri)) ->
  in_name_order pri (axes pri) -> fine_scale pri ->
  exists j r L', product args PSNone = Ok (Some j) /\ truediv j pri = Ok r /\ valid_pd r L' /\
    (forall k, In k L' <-> In k (axes pri) \/ In k (axes lik)) /\
    od_keys (p_marg r) = od_keys (p_marg lik) /\
    (forall k, In k (od_keys (p_cond r)) <-> In k (od_keys (p_marg pri))) /\
    (forall p k, p = pri \/ p = lik -> In k (p_keylist p) -> variable r k = variable p k) /\
    forall a, both_in_bounds pri lik axes a -> log_safe [pri; lik] axes a ->
      joint_at pri lik axes a <= npi -> npz <= prob_at pri (axes pri) a <= npi ->
      (log_scaled pri \/ log_scaled lik -> npz <= prob_at lik (axes lik) a) ->
      prob_at r L' a = prob_at lik (axes lik) a.
Proof. exact @bayes_back. Qed.
Print Assumptions C19_division_returns_likelihood.

(** The prior (1/4, 3/4) and a likelihood which is 1/3 everywhere. *)
Example C19_hypotheses_met :
  exists p q : pd R, pri_make = Ok p /\ lik_make 2 = Ok q /\ @multipliable fmt_ex [p; q] ex_axes /\
  no_free_columns p q ex_axes /\ marg_columns p (ex_axes p) = ["x"%string] /\ fine_product p q /\
  od_keys (p_marg q) = ["y"%string] /\ observable p q ex_axes /\ fine_scale p /\
  od_keys (p_cond p) = [] /\ incl (od_keys (p_cond q)) (od_keys (p_marg p)) /\ in_name_order p (ex_axes p) /\
  exists a, a = (fun k => if String.eqb k "y" then 2 else 1)%nat /\ both_in_bounds p q ex_axes a /\
    log_range p q ex_axes a /\ log_safe [p; q] ex_axes a /\
    joint_at p q ex_axes a = / 4 /\ evidence_at p q ex_axes a = / 3 /\ npz <= evidence_at p q ex_axes a /\
    joint_at p q ex_axes a <= npi /\ npz <= prob_at p (ex_axes p) a <= npi /\ prob_at q (ex_axes q) a = / 3.
Proof. exact ex_bayes. Qed.

(** C22: division by a distribution whose columns are marginals, on axes in the same
    order as in the dividend, divides pointwise and moves the divisor's marginals to
    the conditionals. *)
Theorem C22_division_pointwise :
  forall (F : Fmt R) (p : pd R) (L : list string) (q : pd R) (L2 : list string),
  divisible p L q L2 -> fine_scale p -> fine_scale q ->
  exists r, truediv p q = Ok r /\ quotient_of p L q r /\
    forall a, in_bounds p L a -> prob_at p L a <= npi -> npz <= prob_at q L2 a <= npi ->
      (log_scaled p -> npz <= prob_at p L a / prob_at q L2 a) ->
      prob_at r L a = prob_at p L a / prob_at q L2 a.
Proof. exact @div_divisible. Qed.
Print Assumptions C22_division_pointwise.

(** p(x,y,z) / p(x) *)
Example C22_hypotheses_met : exists p q : pd R, ex3_make = Ok p /\ pri_make = Ok q /\
  let L := ["x"; "y"; "z"]%string in let L2 := ["x"%string] in
  @divisible fmt_ex p L q L2 /\ fine_scale p /\ fine_scale q /\ ~ log_scaled p /\
  exists a, a = (fun _ => 1%nat) /\ in_bounds p L a /\ prob_at p L a = / 12 /\ prob_at q L2 a = 3 / 4 /\
    prob_at p L a <= npi /\ npz <= prob_at q L2 a <= npi.
Proof. exact ex_div. Qed.

(** C22 is false when the divisor has a conditional with two values or more on an
    axis: division always raises, so p(A,B|C)/p(A|C) never works for a column C. *)
Theorem C22_conditional_column_refuted :
  forall (F : Fmt R) (p : pd R) (L : list string) (q : pd R) (L2 : list string) (k : string),
  matching p L q L2 -> In k L2 -> In k (od_keys (p_cond q)) -> (2 <= size_of q k)%nat ->
  exists e, truediv p q = Err e.
Proof. exact @div_conditional_column. Qed.
Print Assumptions C22_conditional_column_refuted.

(** p(y|x) divided by itself *)
Example C22_conditional_column_met : exists p : pd R, lik_make 2 = Ok p /\ let L := ["x"; "y"]%string in
  @matching fmt_ex p L p L /\ In "x"%string L /\ In "x"%string (od_keys (p_cond p)) /\ size_of p "x" = 2%nat.
Proof. exact ex_div_cond. Qed.

(** Which divisions of matching distributions succeed: those by a divisor whose
    conditional columns, if any, hold one value each and, if it has no columns at
    all, whose marginals are all the scalar marginals of the dividend. *)
Theorem C22_division_iff :
  forall (F : Fmt R) (p : pd R) (L : list string) (q : pd R) (L2 : list string),
  matching p L q L2 -> fine_scale p -> fine_scale q ->
  ((exists r, truediv p q = Ok r) <->
   (forall k, In k L2 -> In k (od_keys (p_cond q)) -> size_of q k = 1%nat) /\
   (L2 = [] -> forall k, In k (od_keys (p_marg p)) -> ~ In k L -> In k (od_keys (p_marg q)))).
Proof. exact @div_iff. Qed.
Print Assumptions C22_division_iff.

(** And what these give, whatever the axis orders: the probabilities of the
    divisor are those at the same place in row-major order, which for axes in
    another order is not the same position. *)
Theorem C22_division_places :
  forall (F : Fmt R) (p : pd R) (L : list string) (q : pd R) (L2 : list string),
  matching p L q L2 -> fine_scale p -> fine_scale q ->
  (forall k, In k L2 -> In k (od_keys (p_cond q)) -> size_of q k = 1%nat) ->
  (L2 = [] -> forall k, In k (od_keys (p_marg p)) -> ~ In k L -> In k (od_keys (p_marg q))) ->
  exists r, truediv p q = Ok r /\ quotient_of p L q r /\
    forall a b, in_bounds p L a -> in_bounds q L2 b ->
      place (size_of q) L2 b = place (size_of p) (restrict (od_keys (p_marg q)) L) a ->
      prob_at p L a <= npi -> npz <= prob_at q L2 b <= npi ->
      (log_scaled p -> npz <= prob_at p L a / prob_at q L2 b) ->
      prob_at r L a = prob_at p L a / prob_at q L2 b.
Proof. exact @div_places. Qed.
Print Assumptions C22_division_places.

(** So every division of p(x,y) with equally many values of x and y by a q(x,y)
    with the axes exchanged gives, without error, a quotient in which the divisor's
    values of x and y are exchanged. *)
Theorem C22_axis_order_refuted :
  forall (F : Fmt R) (p q : pd R) (x y : string) (n : nat),
  x <> y -> matching p [x; y] q [y; x] -> fine_scale p -> fine_scale q ->
  In x (od_keys (p_marg q)) -> In y (od_keys (p_marg q)) -> size_of p x = n -> size_of p y = n ->
  exists r, truediv p q = Ok r /\ quotient_of p [x; y] q r /\
    forall a, (a x < n)%nat -> (a y < n)%nat ->
      let b := exchanged x y a in
      prob_at p [x; y] a <= npi -> npz <= prob_at q [y; x] b <= npi ->
      (log_scaled p -> npz <= prob_at p [x; y] a / prob_at q [y; x] b) ->
      prob_at r [x; y] a = prob_at p [x; y] a / prob_at q [y; x] b.
Proof. exact @div_exchanged. Qed.
Print Assumptions C22_axis_order_refuted.

(** sq_xy and sq_yx hold the same probabilities, the one with x on axis 0 and y
    on axis 1, the other with the axes exchanged; their quotient at x=0, y=1 is
    three, not one. *)
Example C22_axis_order_met : exists p q : pd R, sq_xy = Ok p /\ sq_yx = Ok q /\
  "x"%string <> "y"%string /\ @matching fmt_ex p ["x"; "y"]%string q ["y"; "x"]%string /\ fine_scale p /\ fine_scale q /\
  In "x"%string (od_keys (p_marg q)) /\ In "y"%string (od_keys (p_marg q)) /\
  size_of p "x" = 2%nat /\ size_of p "y" = 2%nat /\ ~ log_scaled p /\
  let a := (fun k => if String.eqb k "x" then 0%nat else 1%nat) in
  prob_at p ["x"; "y"]%string a = 1/2 /\ prob_at q ["y"; "x"]%string a = 1/2 /\
  prob_at q ["y"; "x"]%string (exchanged "x" "y" a) = 1/6 /\ 1/2 <= npi /\ npz <= 1/6 <= npi.
Proof. exact ex_exchanged. Qed.
