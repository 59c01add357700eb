(** Property theorems about expectations (C24, C104). *)
From Coq Require Import String ZArith QArith Reals List.
From Verif Require Import Base Num Tensor PScales PScales_Spec Distr PDModel PDUtils PD_Spec PD_Examples PD_ProductEx
  PD_Expect_Spec PD_Expect PD_ExpectThm.
Import ListNotations.
Local Open Scope R_scope.

(** C24: the expectation of (a power of) marginal variables.  Each column among the
    keys gives, for every position of the columns which are not keys, the mean of its
    values weighted by probability, wherever the total weight is not below the smallest
    positive float; scalars give their own power; conditionals are kept as they are and
    nothing else is returned.  (Scalars that are raised to a power must be numbers; log
    probabilities must be within the floating point range.) *)
Theorem C24_weighted_mean :
  forall (F : Fmt R) (p : pd R) (L keys : list string) (e : option nat),
  valid_pd p L -> fine_scale p -> keys <> [] -> incl keys (od_keys (p_marg p)) -> raisable p keys e ->
  (log_scaled p -> forall b, in_bounds p L b -> prob_at p L b <= npi) ->
  exists vals, expectation p keys e = Ok vals /\
    (forall k l, In k keys -> variable p k = Some (Col l) ->
       exists t, od_get vals k = Some (VArr t) /\ shape t = map (size_of p) (without keys L) /\
         forall a, in_bounds p (without keys L) a -> npz <= weight p L keys a ->
           get t (map a (without keys L)) = mean p L keys (fun b => raised e (nth (b k) l 0)) a) /\
    (forall k v, In k keys -> variable p k = Some (Scal v) -> od_get vals k = Some (raised_scalar e v)) /\
    (forall k, In k (od_keys (p_cond p)) -> od_get vals k = od_get (p_vals p) k) /\
    (forall k, ~ In k keys -> ~ In k (od_keys (p_cond p)) -> od_get vals k = None).
Proof. exact @expectation_mean. Qed.
Print Assumptions C24_weighted_mean.

(** C24: of non-negative probabilities it lies between any bounds of the values. *)
Theorem C24_between :
  forall (F : Fmt R) (p : pd R) (L keys : list string) (e : option nat) (vals : odict (value R)) (k : string) (l : list R) (t : tensor R) (lo hi : R) (a : assignment),
  valid_pd p L -> fine_scale p -> incl keys (od_keys (p_marg p)) -> raisable p keys e ->
  (forall b, in_bounds p L b -> 0 <= prob_at p L b) ->
  (log_scaled p -> forall b, in_bounds p L b -> prob_at p L b <= npi) ->
  expectation p keys e = Ok vals -> In k keys -> variable p k = Some (Col l) -> od_get vals k = Some (VArr t) ->
  (forall x, In x l -> lo <= raised e x <= hi) ->
  in_bounds p (without keys L) a -> npz <= weight p L keys a ->
  lo <= get t (map a (without keys L)) <= hi.
Proof. exact @expectation_between. Qed.
Print Assumptions C24_between.

(** C24: multiplying all probabilities by a positive number changes nothing. *)
Theorem C24_scale_invariant :
  forall (F : Fmt R) (p q : pd R) (L keys : list string) (e : option nat) (c : R) (vals vals' : odict (value R)),
  valid_pd p L -> valid_pd q L -> fine_scale p -> fine_scale q ->
  incl keys (od_keys (p_marg p)) -> incl keys (od_keys (p_marg q)) -> raisable p keys e ->
  (forall k, In k (p_keylist p) -> variable q k = variable p k) -> 0 < c ->
  (forall b, in_bounds p L b -> prob_at q L b = c * prob_at p L b) ->
  (log_scaled p -> forall b, in_bounds p L b -> prob_at p L b <= npi) ->
  (log_scaled q -> forall b, in_bounds q L b -> prob_at q L b <= npi) ->
  keys <> [] -> expectation p keys e = Ok vals -> expectation q keys e = Ok vals' ->
  (forall k l, In k keys -> variable p k = Some (Col l) ->
    exists t t', od_get vals k = Some (VArr t) /\ od_get vals' k = Some (VArr t') /\ shape t' = shape t /\
    forall a, in_bounds p (without keys L) a -> npz <= weight p L keys a -> npz <= c * weight p L keys a ->
      get t' (map a (without keys L)) = get t (map a (without keys L))) /\
  (forall k v, In k keys -> variable p k = Some (Scal v) -> od_get vals' k = od_get vals k).
Proof. exact @expectation_scale. Qed.
Print Assumptions C24_scale_invariant.

(** C24: where all the probabilities vanish the code returns 0, whatever the values. *)
Theorem C24_vanishing :
  forall (F : Fmt R) (p : pd R) (L keys : list string) (e : option nat) (vals : odict (value R)) (k : string) (l : list R) (t : tensor R) (a : assignment),
  valid_pd p L -> fine_scale p -> incl keys (od_keys (p_marg p)) -> raisable p keys e ->
  (log_scaled p -> forall b, in_bounds p L b -> prob_at p L b <= npi) ->
  expectation p keys e = Ok vals -> In k keys -> variable p k = Some (Col l) -> od_get vals k = Some (VArr t) ->
  in_bounds p (without keys L) a ->
  (forall b, in_bounds p L b -> (forall x, ~ In x keys -> b x = a x) -> prob_at p L b = 0) ->
  get t (map a (without keys L)) = 0.
Proof. exact @expectation_vanishing. Qed.
Print Assumptions C24_vanishing.

(** The squares of x and w of p(x,y,w=5|z), for each position of y and z: that of x,
    whose values are 1 and 2 with equal weights, is 5/2. *)
Example C24_hypotheses_met : exists p, ex_make = Ok p /\ let L := ["x"; "y"; "z"]%string in let keys := ["x"; "w"]%string in
  @valid_pd fmt_ex p L /\ fine_scale p /\ ~ log_scaled p /\ incl keys (od_keys (p_marg p)) /\ raisable p keys (Some 2%nat) /\
  variable p "x" = Some (Col [1; 2]) /\ variable p "w" = Some (Scal (VNum 5)) /\
  (forall b, in_bounds p L b -> prob_at p L b = / 6) /\
  exists a, a = (fun _ => 1%nat) /\ in_bounds p (without keys L) a /\ npz <= weight p L keys a /\
    mean p L keys (fun b => raised (Some 2%nat) (nth (b "x"%string) [1; 2] 0)) a = 5 / 2.
Proof. exact ex_expect. Qed.

(** C104 fails: of p(x,y) = [[6,2],[1,1]]/10 with x in 0, 10 the expectation of x is 2.
    It is computed so when the axes of x and y are given as 0 and 1, but as 3 (the mean
    over the axis of y) when they are omitted, although the distributions have the same
    values, axes and shape. *)
Theorem C104_omitted_dims_refuted : exists p q, sq_given = Ok p /\ sq_omitted = Ok q /\
  p_shape p = p_shape q /\ p_dims p = p_dims q /\
  option_map raveled_value (od_get (p_vals p) "x") = option_map raveled_value (od_get (p_vals q) "x") /\
  mean_of (@expectation Q _ p ["x"; "y"]%string None) "x" = Some [2]%Q /\
  mean_of (@expectation Q _ q ["x"; "y"]%string None) "x" = Some [3]%Q.
Proof. exact ex_omitted. Qed.
Print Assumptions C104_omitted_dims_refuted.
