(** Numeric environment of the model.

    SIMPLIFICATION: Python/numpy floats are modelled by an exact ordered field;
    rounding, NaN and infinities are not modelled.  The instance [RNum] (real
    numbers) is the one all theorems are about; [QNum] (rationals; exp, ln, sqrt
    are placeholders) only serves to run the model on examples. *)
From Coq Require Import ZArith QArith Qabs Reals String Bool.
Local Open Scope bool_scope.

Class Num (T : Type) : Type := mkNum {
  n_ofZ : Z -> T;
  n_add : T -> T -> T;
  n_sub : T -> T -> T;
  n_mul : T -> T -> T;
  n_div : T -> T -> T;
  n_leb : T -> T -> bool;
  n_exp : T -> T;
  n_ln : T -> T;
  n_sqrt : T -> T
}.

(** Text of a number as produced by ["{}".format(x)]: left abstract. *)
Class Fmt (T : Type) : Type := fmt : T -> string.

Section Derived.
Context {T : Type} {N : Num T}.

Definition n0 : T := n_ofZ 0.
Definition n1 : T := n_ofZ 1.
Definition n_opp (x : T) : T := n_sub n0 x.
Definition n_eqb (x y : T) : bool := n_leb x y && n_leb y x.
Definition n_ltb (x y : T) : bool := negb (n_leb y x).
Definition n_max (x y : T) : T := if n_leb x y then y else x.
Definition n_min (x y : T) : T := if n_leb x y then x else y.
Definition n_abs (x : T) : T := if n_leb n0 x then x else n_opp x.
Fixpoint n_pow (x : T) (n : nat) : T :=
  match n with O => n1 | S n' => n_mul (n_pow x n') x end.

(** constants.py 11, 29: NEARLY_POSITIVE_ZERO = 2.2250738585072014e-308, the
    double 2^-1022. *)
Definition npz : T := n_div n1 (n_ofZ (2 ^ 1022)).

(** constants.py 12, 30: NEARLY_POSITIVE_INF = 1.7976931348623158e+308, the
    double (2^53-1)*2^971. *)
Definition npi : T := n_ofZ ((2 ^ 53 - 1) * 2 ^ 971).

(** constants.py 31: NEARLY_NEGATIVE_INF = -NEARLY_POSITIVE_INF. *)
Definition nni : T := n_opp npi.

(** constants.py 32: LOG_NEARLY_POSITIVE_INF = np.log(NEARLY_POSITIVE_INF). *)
Definition log_npi : T := n_ln npi.
End Derived.

Definition Rleb (x y : R) : bool := if Rle_dec x y then true else false.

Global Instance RNum : Num R :=
  {| n_ofZ := IZR; n_add := Rplus; n_sub := Rminus; n_mul := Rmult; n_div := Rdiv;
     n_leb := Rleb; n_exp := exp; n_ln := ln; n_sqrt := sqrt |}.

Global Instance QNum : Num Q :=
  {| n_ofZ := inject_Z;
     n_add := fun x y => Qred (x + y);
     n_sub := fun x y => Qred (x - y);
     n_mul := fun x y => Qred (x * y);
     n_div := fun x y => Qred (x / y);
     n_leb := Qle_bool;
     n_exp := fun x => x; n_ln := fun x => x; n_sqrt := fun x => x |}.
