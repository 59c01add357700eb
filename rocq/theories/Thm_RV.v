(** Property theorems about random variables (C41-C43, C73-C80). *)
From Coq Require Import String ZArith Reals Lra Lia Bool Arith List Permutation Sorted.
From Verif Require Import Base Num Tensor PScales PScales_Spec RNumLemmas PD_Spec PDModel Likelihoods VariableModel Var_Spec
  RVModel RV_Spec RV_Proofs RV_Matrix RV_More.
Import ListNotations.
Local Open Scope R_scope.

(** C41: without a given probability every value inside the set gets the
    reciprocal of the length and every value outside the number that stands for
    zero, in any scale (bool variables: in the default scale). *)
Theorem C41_default_uniform :
  forall nm (vset vt : arg R) given (v : rv R) mem len,
  make_rv nm vset vt PANone given = Ok v ->
  finite_set (rv_state v) mem len -> npz <= len ->
  good_scale (spec_of (rv_pscale v)) ->
  (log_kind (spec_of (rv_pscale v)) = false -> / len / factor (spec_of (rv_pscale v)) <= npi) ->
  (vs_vtype (rv_state v) = Some VBool -> rv_pscale v = Lin 1) ->
  forall vals, exists t, eval_prob v vals = Ok t /\ shape t = shape vals /\
    forall idx,
      (mem (num (get vals idx)) -> denote (spec_of (rv_pscale v)) (get t idx) = / len) /\
      (~ mem (num (get vals idx)) -> get t idx = if log_kind (spec_of (rv_pscale v)) then nni else 0).
Proof. exact default_uniform. Qed.
Print Assumptions C41_default_uniform.

(** C41: so that the probabilities of all values of an int variable sum to one. *)
Theorem C41_sums_to_one :
  forall nm (vset vt : arg R) given (v : rv R) vals,
  make_rv nm vset vt PANone given = Ok v -> rv_state v = discrete VInt vals -> vals <> [] ->
  good_scale (spec_of (rv_pscale v)) ->
  (log_kind (spec_of (rv_pscale v)) = false -> / INR (length vals) / factor (spec_of (rv_pscale v)) <= npi) ->
  exists t, eval_prob v (of_list (PF 0) vals) = Ok t /\
    sum_n (length vals) (fun i => denote (spec_of (rv_pscale v)) (get t [i])) = 1.
Proof. exact default_total. Qed.
Print Assumptions C41_sums_to_one.

(** C41 (false of the code for bool variables in other scales): in log scale False
    gets the "probability" 2e, and in a linear scale c the number c - 1/2. *)
Theorem C41_bool_log_refuted :
  forall nm (vset vt : arg R) given (v : rv R),
  make_rv nm vset vt PANone given = Ok v -> rv_state v = both -> rv_pscale v = Log 0 0 ->
  exists t, eval_prob v two = Ok t /\
    denote (spec_of (rv_pscale v)) (get t [1%nat]) = / 2 /\
    denote (spec_of (rv_pscale v)) (get t [0%nat]) = 2 * exp 1.
Proof. exact bool_log_wrong. Qed.
Print Assumptions C41_bool_log_refuted.

Theorem C41_bool_linear_refuted :
  forall nm (vset vt : arg R) given (v : rv R) c,
  make_rv nm vset vt PANone given = Ok v -> rv_state v = both -> rv_pscale v = Lin c ->
  good_scale (PSFloat c) -> npz <= c -> / 50000 <= Rabs (c - 1) <= / 2 ->
  exists t, eval_prob v two = Ok t /\
    denote (spec_of (rv_pscale v)) (get t [1%nat]) = / 2 /\
    denote (spec_of (rv_pscale v)) (get t [0%nat]) = c - / 2 /\ c - / 2 <> / 2.
Proof. exact bool_linear_wrong. Qed.
Print Assumptions C41_bool_linear_refuted.

Example C41_instance :
  exists v, make_rv (T := R) "d" (AList [Bare (AV (PI 1)); Bare (AV (PI 2)); Bare (AV (PI 3))]) ANone PANone PSNone = Ok v /\
    rv_state v = discrete VInt [PI 1; PI 2; PI 3] /\
    finite_set (rv_state v) (fun x => In x [1; 2; 3]) 3 /\ npz <= 3 /\ rv_pscale v = Lin 1 /\
    good_scale (spec_of (rv_pscale v)) /\ / 3 / factor (spec_of (rv_pscale v)) <= npi.
Proof. exact die. Qed.

Example C41_bool_instance :
  exists v, make_rv (T := R) "b" ANone ANone PANone (PSStr "log") = Ok v /\ rv_state v = both /\ rv_pscale v = Log 0 0.
Proof. exact bool_log_variable. Qed.

(** C42: sampling a successor from a column-stochastic matrix returns the k-th
    value in increasing order exactly when the uniform number lies in the interval
    [c_k, c_k + m_kj), where c_k is the sum of the first k entries of the column j
    of the predecessor. *)
Theorem C42_sampling_interval :
  forall (m : tensor R) n vset vs j (x px : pyval R) u k,
  shape m = [n; n] ->
  Permutation vs vset -> increasing vs -> length vset = n ->
  nth_error vs j = Some x -> num px = num x ->
  (forall i, (i < n)%nat -> 0 <= get m [i; j]) -> cumulative m j n = 1 -> 0 <= u < 1 -> (k < n)%nat ->
  ((exists y, matrix_cond_sample (tscalar px) (UInt 0) m vset u = Ok (y, j, k) /\ nth_error vs k = Some y) <->
   cumulative m j k <= u < cumulative m j k + get m [k; j]).
Proof. exact sample_interval. Qed.
Print Assumptions C42_sampling_interval.

(** C42: a step of a variable with a transition matrix always returns a value of
    the set, chosen so, and the entry of the matrix it was chosen with; the last
    value if the column sums to less than the number drawn. *)
Theorem C42_step_samples :
  forall (v : rv R) dc reverse r m l vs j x px n,
  matrix_of (rv_tran v) reverse m -> shape m = [n; n] ->
  vs_vset (rv_state v) = Some l -> Permutation vs (vset_vals l) -> increasing vs -> length (vset_vals l) = n ->
  nth_error vs j = Some x -> num px = num x ->
  (forall k, (k < n)%nat -> 0 <= get m [k; j]) -> 0 <= r_unif (sr_eval r) 0%nat ->
  exists i y st, eval_step v dc (tscalar px) (SUnit (UInt 0)) reverse r = Ok st /\
    st_succ st = tscalar y /\ nth_error vs i = Some y /\
    eval_tran v st reverse = Ok (Some (tscalar (get m [i; j]))) /\
    cumulative m j i <= r_unif (sr_eval r) 0%nat /\
    (r_unif (sr_eval r) 0%nat < cumulative m j (S i) \/ (i = n - 1)%nat).
Proof. exact step_sampled. Qed.
Print Assumptions C42_step_samples.

(** C42: the conditional probabilities of given values are the entries of the
    matrix at their ranks, successors on the first axis. *)
Theorem C42_step_given :
  forall (v : rv R) dc reverse r m l vs' pred succ vp vs ps ss (rank : pyval R -> nat) n,
  matrix_of (rv_tran v) reverse m -> shape m = [n; n] ->
  vs_vset (rv_state v) = Some l -> Permutation vs' (vset_vals l) -> increasing vs' -> length (vset_vals l) = n ->
  holds pred vp ps -> holds succ vs ss ->
  (forall x, In x ps \/ In x ss -> exists y, nth_error vs' (rank x) = Some y /\ num y = num x) ->
  exists st t, eval_step v dc pred (SVals succ) reverse r = Ok st /\ eval_tran v st reverse = Ok (Some t) /\
    shape t = pair_shape vs vp ss ps /\
    forall a b x y, nth_error ss a = Some x -> nth_error ps b = Some y ->
      get t (pair_at vs vp a b) = get m [rank x; rank y].
Proof. exact step_given. Qed.
Print Assumptions C42_step_given.

Example C42_instance :
  let m := mkT [2; 2]%nat (fun ix => nth (2 * nth 0 ix 0 + nth 1 ix 0)%nat [1/5; 3/10; 4/5; 7/10] 0) in
  Permutation [PI 3; PI 5] ([PI 5; PI 3] : list (pyval R)) /\ increasing [PI 3; PI 5] /\
  nth_error ([PI 3; PI 5] : list (pyval R)) 1 = Some (PI 5) /\
  (forall i, (i < 2)%nat -> 0 <= get m [i; 1%nat]) /\ cumulative m 1 2 = 1 /\
  0 <= 1/2 < 1 /\ cumulative m 1 1 <= 1/2 < cumulative m 1 1 + get m [1; 1]%nat.
Proof.
  cbn zeta. split; [apply perm_swap|]. split.
  { repeat constructor. apply IZR_lt. lia. }
  split; [reflexivity|]. split.
  { intros [|[|i]] H; cbn; try lra. lia. }
  split; [unfold cumulative; cbn; lra|]. split; [lra|]. unfold cumulative; cbn; lra.
Qed.

(** C43 (false of the code): no random variable can be made from a type given by
    keyword alone, because the arguments are passed on in the wrong order. *)
Theorem C43_vtype_alone_refuted :
  forall nm (t : vtype) prob given, valid_name nm = true ->
  make_rv (T := R) nm ANone (AType t) prob given = Err AssertionError.
Proof. exact vtype_alone. Qed.
Print Assumptions C43_vtype_alone_refuted.

(** C43: the type works in the place of the set. *)
Theorem C43_positional :
  forall nm (t : vtype), valid_name nm = true ->
  exists v, make_rv (T := R) nm (AType t) ANone PANone PSNone = Ok v /\ rv_name v = nm /\
    rv_state v = mkVS (Some t) (Some (default_vset t)).
Proof. exact vtype_positional. Qed.
Print Assumptions C43_positional.

Example C43_instance : valid_name "x" = true.
Proof. reflexivity. Qed.

(** C73 (false of the code): a random variable with an array of probabilities can
    be made, but no call of it ever returns. *)
Theorem C73_array_refuted :
  forall {F : Fmt R} nm (vset vt : arg R) l given (v : rv R) a r q,
  make_rv nm vset vt (PAArray l) given = Ok v -> rv_call v a r <> Ok q.
Proof. intros F. exact (@array_call_never F). Qed.
Print Assumptions C73_array_refuted.

Example C73_instance :
  exists v, make_rv (T := R) "d" (AList [Bare (AV (PI 1)); Bare (AV (PI 2))]) ANone (PAArray [1/4; 3/4]) PSNone = Ok v.
Proof. exact array_variable. Qed.

(** C74 (false of the code): evaluating a probability with a scale never rescales:
    a call that returns was given a scale that counts as false, and returns what
    it returns without. *)
Theorem C74_prob_scale_refuted :
  forall (p : rprob R) vals given t, given <> PSNone ->
  prob_call p vals given = Ok t -> ps_true given = false /\ prob_call p vals PSNone = Ok t.
Proof. exact prob_scale_never. Qed.
Print Assumptions C74_prob_scale_refuted.

Example C74_instance :
  PSCplx (T := R) 0 0 <> PSNone /\
  prob_call (RPFun (fun x : R => x)) (Some (tscalar (PF (1/2)))) (PSFloat 1) = Err KeyError.
Proof. exact scale_call. Qed.

(** C75 (false of the code): the scale 0j, which stands for logarithms, is ignored
    by the constructor. *)
Theorem C75_log_scale_ignored_refuted :
  forall nm (vset vt : arg R) prob,
  make_rv nm vset vt prob (PSCplx 0 0) = make_rv nm vset vt prob PSNone.
Proof. exact log_scale_ignored. Qed.
Print Assumptions C75_log_scale_ignored_refuted.

(** C76: in a linear scale the transition that comes with a default probability is
    uniform: the reciprocal of the length if both values are inside, else zero. *)
Theorem C76_default_step :
  forall (v v' : rv R) a mem len dc reverse r pred succ vp vs ps ss c,
  rv_def v = true -> rv_set_vset v a = (v', Ok tt) -> rv_pscale v = Lin c ->
  finite_set (rv_state v') mem len -> npz <= len ->
  good_scale (PSFloat c) -> c <> 0 -> / len / c <= npi ->
  holds pred vp ps -> holds succ vs ss ->
  exists st t, eval_step v' dc pred (SVals succ) reverse r = Ok st /\ eval_tran v' st reverse = Ok (Some t) /\
    shape t = pair_shape vs vp ss ps /\
    forall i k x y, nth_error ss i = Some x -> nth_error ps k = Some y ->
      (mem (num x) -> mem (num y) -> denote (spec_of (rv_pscale v')) (get t (pair_at vs vp i k)) = / len) /\
      (~ mem (num x) \/ ~ mem (num y) -> denote (spec_of (rv_pscale v')) (get t (pair_at vs vp i k)) = 0).
Proof. exact default_step. Qed.
Print Assumptions C76_default_step.

(** C76 (false of the code in log scale): steps from or to values outside the set
    have probability one. *)
Theorem C76_log_refuted :
  forall (v v' : rv R) a mem len dc reverse r pred succ vp vs ps ss i k x y,
  rv_def v = true -> rv_set_vset v a = (v', Ok tt) -> rv_pscale v = Log 0 0 ->
  finite_set (rv_state v') mem len ->
  holds pred vp ps -> holds succ vs ss ->
  nth_error ss i = Some x -> nth_error ps k = Some y -> ~ mem (num x) \/ ~ mem (num y) ->
  exists st t, eval_step v' dc pred (SVals succ) reverse r = Ok st /\ eval_tran v' st reverse = Ok (Some t) /\
      denote (spec_of (rv_pscale v')) (get t (pair_at vs vp i k)) = 1.
Proof. exact default_step_log. Qed.
Print Assumptions C76_log_refuted.

(** C77 (false of the code): a successor {u} with a float u is never sampled from
    scalar or matrix transitions, nor {n} with n <> 0 from matrices. *)
Theorem C77_float_refuted :
  forall (v : rv R) dc pred u reverse r st,
  (forall f, rv_tran v <> TRFun f) -> (forall f g, rv_tran v <> TRFuns f g) ->
  eval_step v dc pred (SUnit (UFloat u)) reverse r <> Ok st.
Proof. exact float_unit_never. Qed.
Print Assumptions C77_float_refuted.

Theorem C77_many_refuted :
  forall (v : rv R) dc pred n reverse r st m,
  matrix_of (rv_tran v) reverse m -> n <> 0%Z ->
  eval_step v dc pred (SUnit (UInt n)) reverse r <> Ok st.
Proof. exact int_unit_never. Qed.
Print Assumptions C77_many_refuted.

Example C77_instance :
  let m := mkT [2; 2]%nat (fun _ => 1/2) in
  let v := mkRV "x" both (Lin 1) (RPScalar (1/2)) (TRMat m) None true in
  matrix_of (rv_tran v) false m /\ (forall f, rv_tran v <> TRFun f) /\ (forall f g, rv_tran v <> TRFuns f g).
Proof. cbn. split; [reflexivity|]. split; discriminate. Qed.

(** C78: a new set for a variable with the default probability makes it uniform
    over the new set. *)
Theorem C78_reassign :
  forall (v v' : rv R) a mem len,
  eval_pscale (spec_of (rv_pscale v)) = Ok (rv_pscale v) ->
  rv_def v = true -> rv_set_vset v a = (v', Ok tt) ->
  finite_set (rv_state v') mem len -> npz <= len ->
  good_scale (spec_of (rv_pscale v)) ->
  (log_kind (spec_of (rv_pscale v)) = false -> / len / factor (spec_of (rv_pscale v)) <= npi) ->
  set_vset (rv_state v) a = (rv_state v', Ok tt) /\ rv_pscale v' = rv_pscale v /\
  forall vals, exists t, eval_prob v' vals = Ok t /\ shape t = shape vals /\
    forall idx,
      (mem (num (get vals idx)) -> denote (spec_of (rv_pscale v)) (get t idx) = / len) /\
      (~ mem (num (get vals idx)) -> get t idx = if log_kind (spec_of (rv_pscale v)) then nni else 0).
Proof. exact reassign_uniform. Qed.
Print Assumptions C78_reassign.

(** C78 (false of the code): and replaces any transition by the uniform one. *)
Theorem C78_transition_lost_refuted :
  forall (v v' : rv R) a, rv_def v = true -> rv_set_vset v a = (v', Ok tt) ->
  exists x, rv_tran v' = TRScalar x.
Proof. intros v v' a D H. destruct (set_default_tran v v' a D H) as (x & _ & T & _). exists x. exact T. Qed.
Print Assumptions C78_transition_lost_refuted.

Example C76_C78_instance :
  exists v v', make_rv (T := R) "d" (AList [Bare (AV (PI 1)); Bare (AV (PI 2)); Bare (AV (PI 3))]) ANone PANone PSNone = Ok v /\
    rv_def v = true /\ rv_set_vset v (AList [Bare (AV (PI 4)); Bare (AV (PI 5))]) = (v', Ok tt) /\
    rv_pscale v = Lin 1 /\ eval_pscale (spec_of (rv_pscale v)) = Ok (rv_pscale v) /\
    finite_set (rv_state v') (fun x => In x [4; 5]) 2 /\ good_scale (PSFloat 1) /\ / 2 / 1 <= npi /\
    holds (of_list (PF 0) [PI 4; PI 5]) true [PI 4; PI 5] /\ ~ In (num (PI 7)) [4; 5].
Proof. exact die_reassigned. Qed.

(** C79: a bool variable with a scalar probability p in the default scale gives p
    to True and 1 - p to False (p to both within the tolerance of np.isclose
    around one half). *)
Theorem C79_bernoulli :
  forall nm (vset vt : arg R) given (v : rv R) p,
  make_rv nm vset vt (PAScalar p) given = Ok v -> rv_state v = both -> rv_pscale v = Lin 1 ->
  exists t, eval_prob v two = Ok t /\ shape t = [2%nat] /\ get t [1%nat] = p /\
    (Rabs (p - / 2) > / 100000000 + / 200000 -> get t [0%nat] = 1 - p) /\
    (Rabs (p - / 2) <= / 100000000 + / 200000 -> get t [0%nat] = p).
Proof. exact bern_linear. Qed.
Print Assumptions C79_bernoulli.

(** C79: its draws are True exactly when the uniform number is below p. *)
Theorem C79_draws :
  forall (v : rv R) p n r, is_bool (rv_state v) = true -> rv_prob v = RPBern p -> (n <= 0)%Z ->
  exists a, rv_evaluate v (VSet n) r = Ok a /\
    shape a = (if Z.eq_dec n 0 then [] else [Z.to_nat (- n)]) /\
    forall i, (i < tsize a)%nat -> exists d, nth_error (to_list a) i = Some (PB d) /\
      (d = true <-> r_unif r i < p).
Proof. exact bern_draw. Qed.
Print Assumptions C79_draws.

(** C79 (false of the code in log scale): with the log probability b of True, False
    gets the "probability" exp(1 - b), which is at least e. *)
Theorem C79_log_refuted :
  forall nm (vset vt : arg R) given (v : rv R) b,
  make_rv nm vset vt (PAScalar b) given = Ok v -> rv_state v = both -> rv_pscale v = Log 0 0 -> b <= 0 ->
  exists t, eval_prob v two = Ok t /\
    denote (spec_of (rv_pscale v)) (get t [1%nat]) = exp b /\
    denote (spec_of (rv_pscale v)) (get t [0%nat]) = exp (1 - b) /\ exp 1 <= exp (1 - b).
Proof. exact bern_log. Qed.
Print Assumptions C79_log_refuted.

Example C79_instance :
  exists v, make_rv (T := R) "b" ANone ANone (PAScalar (1/4)) PSNone = Ok v /\ rv_state v = both /\
    rv_pscale v = Lin 1 /\ rv_prob v = RPBern (1/4) /\ is_bool (rv_state v) = true.
Proof. exact coin. Qed.

(** C80: with conditional distribution functions that undo each other at the
    limits, every successor sampled by a functional transition lies within the
    limits. *)
Theorem C80_functional_samples :
  forall (v : rv R) dc tf px e0 e1 L U n reverse r,
  (exists f, rv_tran v = TRFun f) \/ (exists f g, rv_tran v = TRFuns f g) ->
  rv_tfun v = Some tf -> vs_vset (rv_state v) = Some [e0; e1] ->
  atom_of e0 = AV L -> atom_of e1 = AV U ->
  (forall i, 0 <= r_unif (sr_eval r) i < 1) ->
  tf_cdf tf (num px) (AV L) < tf_cdf tf (num px) (AV U) ->
  (forall p q, tf_cdf tf (num px) (AV L) <= p <= q -> q <= tf_cdf tf (num px) (AV U) ->
     tf_icdf tf (num px) p <= tf_icdf tf (num px) q) ->
  tf_icdf tf (num px) (tf_cdf tf (num px) (AV L)) = num L ->
  tf_icdf tf (num px) (tf_cdf tf (num px) (AV U)) = num U ->
  exists st, eval_step v dc (tscalar px) (SUnit (UInt n)) reverse r = Ok st /\
    tsize (st_succ st) = Nat.max 1 (Z.abs_nat n) /\
    forall y, In y (to_list (st_succ st)) -> num L <= num y <= num U.
Proof. exact sampled_within. Qed.
Print Assumptions C80_functional_samples.

Example C80_instance :
  let tf := mkTfun (T := R) (fun _ a => match a with AV y => (num y - 1) / 3 | AOO _ => 0 end) (fun _ u => 1 + 3 * u) in
  let e0 := Tup (AV (PF 1)) in let e1 := Bare (AV (PF 4)) in
  let v := mkRV "x" (interval e0 e1) (Lin 1) (RPScalar (1/3)) (TRFun (fun _ _ => 1/3)) (Some tf) false in
  tf_cdf tf 2 (AV (PF 1)) < tf_cdf tf 2 (AV (PF 4)) /\
  tf_icdf tf 2 (tf_cdf tf 2 (AV (PF 1))) = 1 /\ tf_icdf tf 2 (tf_cdf tf 2 (AV (PF 4))) = 4 /\
  vs_vset (rv_state v) = Some [e0; e1] /\ exists f, rv_tran v = TRFun f.
Proof.
  cbn. split; [lra|]. split; [lra|]. split; [lra|]. split; [reflexivity|]. eexists. reflexivity.
Qed.
