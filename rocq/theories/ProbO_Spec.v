(** Notions used in the statements about probability objects. *)
From Coq Require Import String ZArith Bool List.
From Verif Require Import Base Num PScales SymModel Sym_Spec ProbModel.
Import ListNotations.
Set Implicit Arguments.
Local Open Scope string_scope.
Local Open Scope list_scope.

Section Spec.
Context {T E A V : Type} (repr : E -> string) (log_of : E -> E) (ev : E -> A -> result V).

(** The method for the density or mass of a distribution of scipy, or its logarithm. *)
Definition method (d : sdist A V) (log : bool) : string :=
  if in_dec string_dec "pdf" (sc_methods d) then if log then "logpdf" else "pdf"
  else if log then "logpmf" else "pmf".

(** What a probability gives at an argument, on a linear scale or as logarithm. *)
Definition stands_for (g : given E A V) (log : bool) (a : A) (out : result V) : Prop :=
  match g with
  | GFun f => out = f a
  | GNum e => out = ev e a
  | GScipy d => out = sc_call d (method d log) a
  | GSympy r => exists e, rs_pdf r = Some e /\ out = ev (if log then log_of e else e) a
  end.

(** A distribution of scipy has a density or a mass, with its logarithm. *)
Definition full (d : sdist A V) : Prop :=
  (In "pdf"%string (sc_methods d) /\ In "logpdf"%string (sc_methods d)) \/
  (~ In "pdf"%string (sc_methods d) /\ In "pmf"%string (sc_methods d) /\ In "logpmf"%string (sc_methods d)).

(** A random symbol can be used: its distribution can be found, it is a symbol, and has
    a density. *)
Definition usable (r : rsym E) : Prop :=
  (exists o, obj_from_dist (rs_tree r) = Ok o) /\ rs_first r <> None /\ rs_pdf r <> None.

(** The quantile functions that come with a probability. *)
Definition quantiles (g : given E A V) (f : entry E A V * entry E A V) : Prop :=
  match g with
  | GScipy d => In "cdf"%string (sc_methods d) /\ In "ppf"%string (sc_methods d) /\ f = (EMeth d "cdf", EMeth d "ppf")
  | GSympy r => exists c i, rs_cdf r = Some c /\ first_shortest repr (rs_solve r) i /\ f = (EExpr c, EExpr i)
  | _ => False
  end.

(** The sampler that comes with a probability. *)
Definition sampler (g : given E A V) (f : entry E A V) : Prop :=
  match g with
  | GScipy d => In "rvs"%string (sc_methods d) /\ f = EMeth d "rvs"
  | GSympy r => f = ESamp r false
  | _ => False
  end.

(** The names under which the parts of a random symbol are found. *)
Definition part_names (r : rsym E) : list string :=
  ((if rs_pdf r then ["prob"; "logp"] else []) ++
   (if rs_cdf r then "cdf" :: match rs_solve r with [] => [] | _ => ["icdf"] end else []) ++ ["sfun"]).

Definition sets_prob (c : pcall T E A V) : Prop := exists g q, c = SetProb g q.
Definition sets_distr (c : pcall T E A V) : Prop := exists d, c = SetDistr d.
Definition sets_scale (c : pcall T E A V) : Prop := exists q, c = SetPscale q.
Definition sets_pfun (c : pcall T E A V) : Prop := exists f, c = SetPfun f.
End Spec.
