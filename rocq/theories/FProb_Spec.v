(** Notions used in the statements about probabilities of fields. *)
From Coq Require Import String ZArith Bool List Reals.
From Verif Require Import Base Num Tensor PScales PScales_Spec ProbModel FProbModel.
Import ListNotations.
Set Implicit Arguments.

Section Spec.
Context {E X : Type} (repr : E -> string) (log_of : E -> E) (ev : E -> list (string * X) -> result R) (emul : E -> E -> E).

(** A variable whose probability was set after its scale was assigned, if it was. *)
Definition fresh (v : fpvar R E X) : Prop := exists v0 g q, var_set repr log_of v0 g q = Ok v.

Definition iconic (v : fpvar R E X) : Prop := fp_icon v = Some true.

(** Expressions are multiplied by multiplying values. *)
Definition times : Prop := forall a b values x y,
  ev a values = Ok x -> ev b values = Ok y -> ev (emul a b) values = Ok (x * y)%R.

(** The expression of a variable has no other symbol than the variable's. *)
Definition own_symbol (v : fpvar R E X) : Prop := forall e values kx,
  fp_prob v = Some (EExpr e) -> find (fun kx => String.eqb (fst kx) (fp_name v)) values = Some kx -> ev e values = ev e [kx].

(** A dictionary with the names of the variables. *)
Definition told (vs : list (fpvar R E X)) (values : list (string * X)) : Prop :=
  forall k, In k (map fst values) <-> In k (map (@fp_name R E X) vs).

(** Called with these values, the variables give these numbers. *)
Definition gives (vs : list (fpvar R E X)) (values : list (string * X)) (xs : list R) : Prop :=
  Forall2 (fun v x => var_call ev v values = Ok x) vs xs.

Definition Rsum (l : list R) : R := fold_right Rplus 0%R l.

(** All scales linear, or only the plain ones, some of them logarithmic. *)
Definition scales_good (vs : list (fpvar R E X)) : Prop :=
  Forall linear_scale (map fp_scale vs) \/
  Forall plain_scale (map fp_scale vs) /\ existsb iscomplex (map fp_scale vs) = true.

(** Linear numbers whose logarithms are taken are not smaller than the least the code knows. *)
Definition loggable (vs : list (fpvar R E X)) (xs : list R) : Prop :=
  existsb iscomplex (map fp_scale vs) = true ->
  Forall2 (fun v x => log_kind (fp_scale v) = false -> (npz <= x)%R) vs xs.

(** Changes that give the field a probability of its own, or that concern its probability. *)
Definition gives_own (c : fchange R E X) : Prop := exists g q, c = ChField (Some g) q.
Definition sets_field (c : fchange R E X) : Prop := exists g q, c = ChField g q.

(** The i-th variable of a list is changed, the others are as before. *)
Definition changed_at (l : list (fpvar R E X)) (i : nat) (h : fpvar R E X -> result (fpvar R E X)) (l' : list (fpvar R E X)) : Prop :=
  (exists v v', nth_error l i = Some v /\ h v = Ok v' /\ nth_error l' i = Some v') /\
  length l' = length l /\ forall j, j <> i -> nth_error l' j = nth_error l j.

End Spec.
