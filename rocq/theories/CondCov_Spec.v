(** Gaussian vocabulary: quadratic forms, covariances and their inverses. *)
From Coq Require Import Reals List ZArith.
From Verif Require Import Base Num Likelihoods CondCovModel.
Import ListNotations.
Local Open Scope R_scope.

Fixpoint Rsum (n : nat) (f : nat -> R) : R := match n with O => 0 | S m => Rsum m f + f m end.

(** The quadratic form of the n by n matrix a at x. *)
Definition quad (n : nat) (a : nat -> nat -> R) (x : nat -> R) : R :=
  Rsum n (fun j => Rsum n (fun k => x j * a j k * x k)).

Definition symmetric (n : nat) (a : nat -> nat -> R) : Prop :=
  forall j k, (j < n)%nat -> (k < n)%nat -> a j k = a k j.

Definition positive_definite (n : nat) (a : nat -> nat -> R) : Prop :=
  forall x, (exists j, (j < n)%nat /\ x j <> 0) -> 0 < quad n a x.

Definition delta (j k : nat) : R := if Nat.eqb j k then 1 else 0.

Definition is_inverse (n : nat) (a b : nat -> nat -> R) : Prop :=
  forall j k, (j < n)%nat -> (k < n)%nat ->
    Rsum n (fun l => a j l * b l k) = delta j k /\ Rsum n (fun l => b j l * a l k) = delta j k.

(** A distribution function and its inverse. *)
Definition cdf_pair (Phi PhiInv : R -> R) : Prop :=
  (forall x y, x < y -> Phi x < Phi y) /\ (forall x, PhiInv (Phi x) = x) /\
  (forall p x y, Phi x <= p <= Phi y -> Phi (PhiInv p) = p).

(** The arguments of interp that ask for k samples of variable i at the values x of
    the others. *)
Definition asks (n i : nat) (k : Z) (x : nat -> R) (args : list (carg R)) : Prop :=
  length args = n /\ (i < n)%nat /\ nth_error args i = Some (CSet k) /\
  forall j, (j < n)%nat -> j <> i -> nth_error args j = Some (CNum (x j)).

(** x with its i-th number replaced by t. *)
Definition at_ (x : nat -> R) (i : nat) (t : R) (j : nat) : R := if Nat.eqb j i then t else x j.

(** The samples in an answer. *)
Definition sample_of (o : uniform_out R) (y : R) : Prop :=
  match o with UScalar z => z = y | UArray l => In y l end.

(** Every sample of an answer, in place, passed through f. *)
Definition umap (f : R -> R) (o : uniform_out R) : uniform_out R :=
  match o with UScalar p => UScalar (f p) | UArray l => UArray (map f l) end.

(** The density of a Gaussian with means mu and precision matrix P is proportional
    to exp(-q/2), q the quadratic form of P at x - mu.  Given all the other numbers
    of x, the i-th is Gaussian with mean m and standard deviation s. *)
Definition conditional_gaussian (n : nat) (P : nat -> nat -> R) (mu x : nat -> R) (i : nat) (m s : R) : Prop :=
  0 < s /\ exists c, forall t, quad n P (fun j => at_ x i t j - mu j) = ((t - m) / s) ^ 2 + c.
