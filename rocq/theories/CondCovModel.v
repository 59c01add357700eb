(** Model of probayes/cond_cov.py (class CondCov).

    Matrices are functions of row and column, with their sizes kept beside them.
    np.linalg.inv and the distribution functions of scipy.stats.norm are
    parameters: [inv n a] for an n by n matrix, norm.cdf(x, loc, scale) is
    Phi((x-loc)/scale) and norm.ppf(p, loc, scale) is loc + scale*PhiInv(p).
    Not modelled: infinite limits, conditional densities. *)
From Coq Require Import ZArith Bool Arith List.
From Verif Require Import Base Num Tensor Likelihoods.
Import ListNotations.
Set Implicit Arguments.

Section CondCov.
Context {T : Type} {N : Num T}.
Variable inv : nat -> (nat -> nat -> T) -> nat -> nat -> T.
Variables Phi PhiInv : T -> T.

Fixpoint sumn (n : nat) (f : nat -> T) : T :=
  match n with O => n0 | S m => n_add (sumn m f) (f m) end.

(** np.delete(a, i): what is left at position j *)
Definition skip (i j : nat) : nat := if j <? i then j else S j.

Record condcov : Type := mkCC {
  cc_n : nat; cc_mean : nat -> T; cc_cov : nat -> nat -> T;
  cc_lims : nat -> T * T; cc_coef : nat -> nat -> T; cc_stdv : nat -> T; cc_cdfs : nat -> T * T }.

(** cond_cov.py 35: the covariance without row and column i *)
Definition minor (cov : nat -> nat -> T) (i j k : nat) : T := cov (skip i j) (skip i k).

(** cond_cov.py 34, 36: ru.dot(inv(cov)) *)
Definition coef (n : nat) (cov : nat -> nat -> T) (i k : nat) : T :=
  sumn (n - 1) (fun j => n_mul (cov i (skip i j)) (inv (n - 1) (minor cov i) j k)).

(** cond_cov.py 33, 37 *)
Definition stdv (n : nat) (cov : nat -> nat -> T) (i : nat) : T :=
  n_sqrt (n_sub (cov i i) (sumn (n - 1) (fun k => n_mul (coef n cov i k) (cov (skip i k) i)))).

(** cond_cov.py 22-39, __init__, for n means and an n by n matrix.  The limits are
    taken relative to the mean, their distribution functions with loc=0. *)
Definition make_cc (n : nat) (mean : nat -> T) (cov : nat -> nat -> T) (lims : nat -> T * T) : condcov :=
  let rel i := (n_sub (fst (lims i)) (mean i), n_sub (snd (lims i)) (mean i)) in
  let sd i := stdv n cov i in
  mkCC n mean cov rel (coef n cov) sd
    (fun i => (Phi (n_div (n_sub (fst (rel i)) n0) (sd i)), Phi (n_div (n_sub (snd (rel i)) n0) (sd i)))).

(** An argument of interp: a number, or the set {k}. *)
Inductive carg : Type := CNum (x : T) | CSet (k : Z).

(** cond_cov.py 42-57: which argument is a set, and the distances of the others
    from the means; i is the index of the first of the arguments left. *)
Fixpoint scan (mean : nat -> T) (args : list carg) (i : nat) (idx : option (nat * Z)) (dmu : nat -> T)
  : result (option (nat * Z) * (nat -> T)) :=
  match args with
  | [] => Ok (idx, dmu)
  | CSet k :: args' =>
      match idx with
      | None => scan mean args' (S i) (Some (i, k)) dmu
      | Some _ => Err ValueError
      end
  | CNum x :: args' =>
      scan mean args' (S i) idx (fun j => if j =? i then n_sub x (mean i) else dmu j)
  end.

(** cond_cov.py 42-66 for as many arguments as there are means; [us] supplies the
    random numbers, [junk] what np.empty contains. *)
Definition interp (c : condcov) (args : list carg) (us : nat -> T) (junk : nat -> T) : result (uniform_out T) :=
  let! _ := if length args =? cc_n c then Ok tt else Err IndexError in
  let! (idx, dmu) := scan (cc_mean c) args 0 None junk in
  match idx with
  | None => Err AssertionError
  | Some (i, number) =>
      let cdf := uniform (fst (cc_cdfs c i)) (snd (cc_cdfs c i)) (Some number) false false us in
      let mean := n_add (cc_mean c i) (sumn (cc_n c - 1) (fun k => n_mul (cc_coef c i k) (dmu (skip i k)))) in
      let ppf p := n_add mean (n_mul (cc_stdv c i) (PhiInv p)) in
      Ok (match cdf with UScalar p => UScalar (ppf p) | UArray l => UArray (map ppf l) end)
  end.

End CondCov.
Arguments condcov : clear implicits.
Arguments carg : clear implicits.
