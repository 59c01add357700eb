(** Specification of random variables with transformations: what has been asked for,
    and what transformations are. *)
From Coq Require Import String ZArith Reals List.
From Verif Require Import Base Num Tensor PScales PScales_Spec Distr Likelihoods VariableModel Var_Spec RVModel RV_Spec DistModel TransModel.
Import ListNotations.
Local Open Scope R_scope.

(** What the calls made so far have asked for: the last set, transformation and
    functions given, and the last probability, None if it is to be the default. *)
Record settings : Type := mkSettings {
  st_e0 : elem R; st_e1 : elem R;
  st_u : option (trans R); st_no : bool;
  st_given : option (R -> R);
  st_pfun : option (pfun R)
}.

Definition ask (s : settings) (c : call R) : settings :=
  match c with
  | SetUfun u no => mkSettings (st_e0 s) (st_e1 s) u no (st_given s) (st_pfun s)
  | SetPfun p => mkSettings (st_e0 s) (st_e1 s) (st_u s) (st_no s) (st_given s) p
  | SetVset e0 e1 => mkSettings e0 e1 (st_u s) (st_no s) (st_given s) (st_pfun s)
  | SetProb f => mkSettings (st_e0 s) (st_e1 s) (st_u s) (st_no s) f (st_pfun s)
  | SetDist f p => mkSettings (st_e0 s) (st_e1 s) (st_u s) (st_no s) (Some f) (Some p)
  end.

Definition asked_for (e0 e1 : elem R) (f : option (R -> R)) (h : list (call R)) : settings :=
  fold_left ask h (mkSettings e0 e1 None false f None).

(** w is v after the calls h, none of which raised an exception. *)
Inductive accepted : trv R -> list (call R) -> trv R -> Prop :=
| acc_nil : forall v, accepted v [] v
| acc_cons : forall v v' w c h, do_call v c = (v', None) -> accepted v' h w -> accepted v (c :: h) w.

(** The call does not take the transformation away. *)
Definition keeps (c : call R) : Prop := forall no, c <> SetUfun None no.

(** A variable made and changed by accepted calls that never took a transformation
    away, and what was asked for on the way. *)
Definition made (name : string) (ps : pscale R) (s : settings) (w : trv R) : Prop :=
  exists e0 e1 f h v, new_trv name e0 e1 ps f = (v, None) /\ accepted v h w /\
    Forall keeps h /\ s = asked_for e0 e1 f h.

(** The limits are the numbers a and b. *)
Definition between_limits (s : settings) (a b : R) : Prop :=
  (exists x, atom_of (st_e0 s) = AV x /\ num x = a) /\ (exists y, atom_of (st_e1 s) = AV y /\ num y = b).

(** t maps [a, b] one to one onto the numbers between its images, and back. *)
Definition increases (t : trans R) (a b : R) : Prop :=
  (forall x y, a <= x -> x < y -> y <= b -> u_fwd (tr_u t) x < u_fwd (tr_u t) y) /\
  (forall y, u_fwd (tr_u t) a <= y <= u_fwd (tr_u t) b -> a <= u_inv (tr_u t) y <= b /\ u_fwd (tr_u t) (u_inv (tr_u t) y) = y).
Definition decreases (t : trans R) (a b : R) : Prop :=
  (forall x y, a <= x -> x < y -> y <= b -> u_fwd (tr_u t) y < u_fwd (tr_u t) x) /\
  (forall y, u_fwd (tr_u t) b <= y <= u_fwd (tr_u t) a -> a <= u_inv (tr_u t) y <= b /\ u_fwd (tr_u t) (u_inv (tr_u t) y) = y).

(** d is the continuous derivative of t on [a, b]. *)
Definition derivative (t : trans R) (d : R -> R) (a b : R) : Prop :=
  tr_der t = Some d /\ forall x, a <= x <= b -> derivable_pt_lim (u_fwd (tr_u t)) x (d x) /\ continuity_pt d x.

(** The Riemann integral of f from a to b is P. *)
Definition integral (f : R -> R) (a b P : R) : Prop := exists i : Riemann_integrable f a b, RiemannInt i = P.

(** The scale can hold the default density of a length. *)
Definition holdable (ps : pscale R) (len : R) : Prop :=
  npz <= len /\ good_scale (spec_of ps) /\ eval_pscale (spec_of ps) = Ok ps /\
  (log_kind (spec_of ps) = false -> / len / factor (spec_of ps) <= npi).

(** f is the density of w in D: what its probabilities stand for at its members,
    in an array of values that may have others. *)
Definition density (w : trv R) (D : R -> Prop) (f : R -> R) : Prop :=
  forall vals, exists t, tv_eval_prob w vals = Ok t /\ shape t = shape vals /\
    forall idx, D (num (get vals idx)) -> denote (spec_of (tv_pscale w)) (get t idx) = f (num (get vals idx)).

(** The probabilities of w are those of what cannot happen, 0 or the logarithm that
    stands for it, at the members of D. *)
Definition impossible (w : trv R) (D : R -> Prop) : Prop :=
  forall vals, exists t, tv_eval_prob w vals = Ok t /\ shape t = shape vals /\
    forall idx, D (num (get vals idx)) -> get t idx = if log_kind (spec_of (tv_pscale w)) then nni else 0.

(** The members of the set asked for. *)
Definition member (s : settings) (x : R) : Prop := over (st_e0 s) x /\ under (st_e1 s) x.

Definition skip (b : bool) : nat := if b then 1%nat else 0%nat.

(** The i-th of n numbers evenly placed between two ends, which are left out if
    their flags say so; or the number that r draws. *)
Definition place (n : Z) (x0 x1 : bool) (r : rnd R) (i : nat) : R :=
  match n with
  | Zpos p => if (Pos.to_nat p + skip x0 + skip x1 =? 1)%nat then / 2
              else INR (i + skip x0) / INR (Pos.to_nat p + skip x0 + skip x1 - 1)
  | _ => r_unif r i
  end.
