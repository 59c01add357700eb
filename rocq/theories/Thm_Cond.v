(** Property theorems about conditioning (C16, C17). *)
From Coq Require Import String ZArith Reals List Permutation.
From Verif Require Import Base Num Tensor PScales PScales_Spec Distr PDModel PD_Spec PD_Cond_Spec
  PD_Examples PD_CondThm PD_CondEx.
Import ListNotations.
Local Open Scope R_scope.

(** C16: conditioning on a movable block of marginals that leaves marginal columns
    turns the keys into conditionals, keeps all variables, and divides at every
    position the joint probability by the probability of the conditioning variables
    there: the sum over the columns still marginal.  (When a scalar is among the
    keys the probabilities are first divided by their total, which must not vanish;
    log probabilities must be within the floating point range.) *)
Theorem C16_conditional :
  forall (F : Fmt R) (p : pd R) (L keys : list string),
  valid_pd p L -> in_name_order p L -> fine_scale p ->
  NoDup keys -> incl keys (od_keys (p_marg p)) -> movable p L keys -> rest p L keys <> [] ->
  exists q L', conditionalise p keys = Ok q /\ conditioned p L keys q L' /\
    forall a, in_bounds p L a -> npz <= marginal_at p L keys a ->
      (incl keys L \/ npz <= total p L /\ npz <= marginal_at p L keys a / total p L) ->
      (log_scaled p ->
         (forall b, in_bounds p L b -> prob_at p L b <= npi) /\
         npz <= factor (spec_of (p_pscale p)) <= npi /\
         npz <= prob_at p L a / marginal_at p L keys a) ->
      prob_at q L' a = prob_at p L a / marginal_at p L keys a.
Proof. exact @cond_quotient. Qed.
Print Assumptions C16_conditional.

(** C16: whenever conditioning on columns succeeds and leaves marginal columns, the
    probabilities of the result sum to one over these, at every position of the
    other columns whose probability does not vanish. *)
Theorem C16_normalised :
  forall (F : Fmt R) (p : pd R) (L keys : list string) (q : pd R),
  valid_pd p L -> in_name_order p L -> fine_scale p -> ~ log_scaled p ->
  NoDup keys -> incl keys (od_keys (p_marg p)) -> incl keys L -> rest p L keys <> [] ->
  conditionalise p keys = Ok q ->
  exists L', conditioned p L keys q L' /\
    forall a, in_bounds p L a -> npz <= marginal_at p L keys a ->
      sum_over (sized p (rest p L keys)) (prob_at q L') a = 1.
Proof. exact @cond_normalised. Qed.
Print Assumptions C16_normalised.

(** p(x,y,w=5|z) conditioned on y. *)
Example C16_hypotheses_met : exists p : pd R, ex_make = Ok p /\
  let L := ["x"; "y"; "z"]%string in let keys := ["y"]%string in
  @valid_pd fmt_ex p L /\ in_name_order p L /\ fine_scale p /\ ~ log_scaled p /\
  NoDup keys /\ incl keys (od_keys (p_marg p)) /\ incl keys L /\ movable p L keys /\ rest p L keys = ["x"%string] /\
  exists a, a = (fun k => if String.eqb k "y" then 2 else 1)%nat /\ in_bounds p L a /\
    prob_at p L a = / 6 /\ marginal_at p L keys a = / 3 /\ npz <= marginal_at p L keys a.
Proof. exact ex_c16. Qed.

(** C16 fails when no marginal column is left (all the marginal columns are keys, or
    the others are scalars): the keys become conditionals but the probabilities are
    not divided, so that what should be one stays the joint probability. *)
Theorem C16_no_column_left_refuted :
  forall (F : Fmt R) (p : pd R) (L keys : list string) (q : pd R),
  valid_pd p L -> in_name_order p L -> fine_scale p -> ~ log_scaled p ->
  NoDup keys -> incl keys (od_keys (p_marg p)) -> incl keys L -> rest p L keys = [] ->
  conditionalise p keys = Ok q ->
  exists L', conditioned p L keys q L' /\
    forall a, in_bounds p L a -> prob_at q L' a = prob_at p L a.
Proof. exact @cond_undivided. Qed.
Print Assumptions C16_no_column_left_refuted.

(** p(x,y,w=5|z) conditioned on x and y: p(w=5|z,x,y) is given as 1/6. *)
Example C16_no_column_left_met : exists p q : pd R, ex_make = Ok p /\
  let L := ["x"; "y"; "z"]%string in let keys := ["x"; "y"]%string in
  @valid_pd fmt_ex p L /\ in_name_order p L /\ fine_scale p /\ ~ log_scaled p /\
  NoDup keys /\ incl keys (od_keys (p_marg p)) /\ incl keys L /\ rest p L keys = [] /\
  @conditionalise R _ fmt_ex p keys = Ok q.
Proof. exact ex_undivided. Qed.

(** C17: conditioning succeeds exactly for the movable blocks of marginals. *)
Theorem C17_conditionalise_iff :
  forall (F : Fmt R) (p : pd R) (L : list string),
  valid_pd p L -> in_name_order p L ->
  forall keys, NoDup keys -> incl keys (od_keys (p_marg p)) -> fine_scale p ->
  (exists q, conditionalise p keys = Ok q) <-> movable p L keys.
Proof. exact @cond_iff. Qed.
Print Assumptions C17_conditionalise_iff.

Example C17_hypotheses_met : exists p : pd R, ex_make = Ok p /\
  let L := ["x"; "y"; "z"]%string in let keys := ["y"]%string in
  @valid_pd fmt_ex p L /\ in_name_order p L /\ fine_scale p /\ ~ log_scaled p /\
  NoDup keys /\ incl keys (od_keys (p_marg p)) /\ incl keys L /\ movable p L keys /\ rest p L keys = ["x"%string] /\
  exists a, a = (fun k => if String.eqb k "y" then 2 else 1)%nat /\ in_bounds p L a /\
    prob_at p L a = / 6 /\ marginal_at p L keys a = / 3 /\ npz <= marginal_at p L keys a.
Proof. exact ex_c16. Qed.

(** C17 fails for every inner column: one with marginal columns before and behind it. *)
Theorem C17_inner_column_refuted :
  forall (F : Fmt R) (p : pd R) (L : list string) (k : string) (l1 l2 : list string),
  valid_pd p L -> in_name_order p L -> fine_scale p ->
  marg_columns p L = l1 ++ k :: l2 -> l1 <> [] -> l2 <> [] ->
  exists e, conditionalise p [k] = Err e.
Proof. exact @cond_inner_raises. Qed.
Print Assumptions C17_inner_column_refuted.

Example C17_inner_column_met : exists p : pd R, ex3_make = Ok p /\ let L := ["x"; "y"; "z"]%string in
  @valid_pd fmt_ex p L /\ in_name_order p L /\ fine_scale p /\
  marg_columns p L = ["x"%string] ++ "y"%string :: ["z"%string].
Proof. exact ex_inner. Qed.

(** C17 also fails in the smallest case with a conditional: p(x,y,w=5|z) given x. *)
Theorem C17_first_column_refuted : exists (p : pd R) e, ex_make = Ok p /\
  @valid_pd fmt_ex p ["x"; "y"; "z"]%string /\
  In "x"%string (od_keys (p_marg p)) /\ @conditionalise R _ fmt_ex p ["x"%string] = Err e.
Proof. exact ex_c17. Qed.
Print Assumptions C17_first_column_refuted.
