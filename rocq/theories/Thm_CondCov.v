(** Conditional sampling from a covariance matrix: C59, C60, C103. *)
From Coq Require Import Reals List ZArith Lra.
From Verif Require Import Base Num RNumLemmas Likelihoods CondCovModel CondCov_Spec CondCov_Proofs.
Import ListNotations.
Local Open Scope R_scope.

(** C59.  Asked for samples of variable i at values of the others, the object returns
    m + s*PhiInv(p), where m and s are the mean and standard deviation of variable i
    given the others under the Gaussian with that covariance. *)
Theorem C59_samples_conditional_gaussian
  (inv : nat -> (nat -> nat -> R) -> nat -> nat -> R) (Phi PhiInv : R -> R)
  n mean cov prec lims i k x args us junk :
  symmetric n cov -> positive_definite n cov -> is_inverse n cov prec ->
  is_inverse (n - 1) (minor cov i) (inv (n - 1)%nat (minor cov i)) ->
  asks n i k x args ->
  exists m s, conditional_gaussian n prec mean x i m s /\
    m = mean i + Rsum (n - 1) (fun b => Rsum (n - 1) (fun a =>
          cov i (skip i a) * inv (n - 1)%nat (minor cov i) a b) * (x (skip i b) - mean (skip i b))) /\
    s ^ 2 = cov i i - Rsum (n - 1) (fun b => Rsum (n - 1) (fun a =>
          cov i (skip i a) * inv (n - 1)%nat (minor cov i) a b) * cov (skip i b) i) /\
    s ^ 2 = / prec i i /\
    interp PhiInv (make_cc inv Phi n mean cov lims) args us junk =
      Ok (umap (fun p => m + s * PhiInv p)
           (uniform (Phi ((fst (lims i) - mean i) / s)) (Phi ((snd (lims i) - mean i) / s)) (Some k) false false us)).
Proof. exact (interp_gaussian inv Phi PhiInv n mean cov prec lims i k x args us junk). Qed.
Print Assumptions C59_samples_conditional_gaussian.

(** The mean and standard deviation are determined by the density. *)
Theorem C59_conditional_unique n prec mu x i m s m' s' :
  conditional_gaussian n prec mu x i m s -> conditional_gaussian n prec mu x i m' s' -> m = m' /\ s = s'.
Proof. exact (gaussian_unique n prec mu x i m s m' s'). Qed.
Print Assumptions C59_conditional_unique.

Example C59_applies :
  symmetric 2 ex_cov /\ positive_definite 2 ex_cov /\ is_inverse 2 ex_cov ex_prec /\
  is_inverse (2 - 1) (minor ex_cov 0) (ex_inv (2 - 1)%nat (minor ex_cov 0)) /\
  asks 2 0 0%Z (fun _ => 3) [CSet 0%Z; CNum 3] /\
  conditional_gaussian 2 ex_prec (fun _ => 0) (fun _ => 3) 0 (3 / 2) (sqrt (3 / 2)).
Proof.
  split; [exact ex_sym|]. split; [exact ex_pd|]. split; [exact ex_is_inv|].
  split; [exact (ex_minor_inv 0 (le_S _ _ (le_n 1)))|]. split; [exact (ex_asks 3)|exact (ex_gaussian 3)].
Qed.

(** C60.  Every sample lies within the limits moved by the distance between the
    conditional and the unconditional mean ... *)
Theorem C60_limits_move_with_mean
  (inv : nat -> (nat -> nat -> R) -> nat -> nat -> R) (Phi PhiInv : R -> R)
  (CP : cdf_pair Phi PhiInv) n mean cov prec lims i k x args us junk m s o y :
  symmetric n cov -> positive_definite n cov -> is_inverse n cov prec ->
  is_inverse (n - 1) (minor cov i) (inv (n - 1)%nat (minor cov i)) ->
  asks n i k x args -> conditional_gaussian n prec mean x i m s ->
  fst (lims i) < snd (lims i) -> (forall j, 0 <= us j < 1) ->
  interp PhiInv (make_cc inv Phi n mean cov lims) args us junk = Ok o -> sample_of o y ->
  fst (lims i) + (m - mean i) <= y <= snd (lims i) + (m - mean i).
Proof. exact (limits_shift inv Phi PhiInv CP n mean cov prec lims i k x args us junk m s o y). Qed.
Print Assumptions C60_limits_move_with_mean.

(** ... so random samples are sure to respect the limits exactly when the other
    variables leave the mean where it was. *)
Theorem C60_within_limits_iff
  (inv : nat -> (nat -> nat -> R) -> nat -> nat -> R) (Phi PhiInv : R -> R)
  (CP : cdf_pair Phi PhiInv) n mean cov prec lims i x args junk m s :
  symmetric n cov -> positive_definite n cov -> is_inverse n cov prec ->
  is_inverse (n - 1) (minor cov i) (inv (n - 1)%nat (minor cov i)) ->
  asks n i 0%Z x args -> conditional_gaussian n prec mean x i m s ->
  fst (lims i) < snd (lims i) ->
  (forall us o y, (forall j, 0 <= us j < 1) ->
     interp PhiInv (make_cc inv Phi n mean cov lims) args us junk = Ok o -> sample_of o y ->
     fst (lims i) <= y <= snd (lims i)) <-> m = mean i.
Proof. exact (limits_iff inv Phi PhiInv CP n mean cov prec lims i x args junk m s). Qed.
Print Assumptions C60_within_limits_iff.

(** With unit limits and the other variable at 3, some sample of the first leaves them. *)
Example C60_refuted :
  cdf_pair logistic logit /\
  ~ (forall us o y, (forall j, 0 <= us j < 1) ->
     interp logit (make_cc ex_inv logistic 2 (fun _ => 0) ex_cov (fun _ => (-1, 1))) [CSet 0%Z; CNum 3] us (fun _ => 0) = Ok o ->
     sample_of o y -> fst (-1, 1) <= y <= snd (-1, 1)).
Proof.
  split; [exact logistic_pair|]. intros H.
  apply (C60_within_limits_iff ex_inv logistic logit logistic_pair 2 (fun _ => 0) ex_cov ex_prec (fun _ => (-1, 1)) 0 (fun _ => 3)
    [CSet 0%Z; CNum 3] (fun _ => 0) (3 / 2) (sqrt (3 / 2)) ex_sym ex_pd ex_is_inv (ex_minor_inv 0 (le_S _ _ (le_n 1))) (ex_asks 3) (ex_gaussian 3)) in H.
  - lra.
  - cbn. lra.
Qed.

(** C103.  Samples are given for exactly one variable at a time. *)
Theorem C103_two_sets_rejected
  (inv : nat -> (nat -> nat -> R) -> nat -> nat -> R) (Phi PhiInv : R -> R)
  n mean cov lims args us junk j k j' k' :
  length args = n -> j <> j' -> nth_error args j = Some (CSet k) -> nth_error args j' = Some (CSet k') ->
  interp PhiInv (make_cc inv Phi n mean cov lims) args us junk = Err ValueError.
Proof. exact (interp_two inv Phi PhiInv n mean cov lims args us junk j k j' k'). Qed.
Print Assumptions C103_two_sets_rejected.

Theorem C103_no_set_rejected
  (inv : nat -> (nat -> nat -> R) -> nat -> nat -> R) (Phi PhiInv : R -> R)
  n mean cov lims args us junk :
  length args = n -> (forall j k, nth_error args j <> Some (CSet k)) ->
  interp PhiInv (make_cc inv Phi n mean cov lims) args us junk = Err AssertionError.
Proof. exact (interp_none inv Phi PhiInv n mean cov lims args us junk). Qed.
Print Assumptions C103_no_set_rejected.

Example C103_applies :
  nth_error [CSet 1%Z; CNum 0; CSet 2%Z] 0 = Some (CSet (T := R) 1%Z) /\
  nth_error [CSet 1%Z; CNum 0; CSet 2%Z] 2 = Some (CSet (T := R) 2%Z) /\
  (forall j k, nth_error [CNum 1; CNum 0] j <> Some (CSet (T := R) k)).
Proof. split; [reflexivity|]. split; [reflexivity|]. intros [|[|[|j]]] k; discriminate. Qed.
