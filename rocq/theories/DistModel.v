(** Model of random variables whose probability is a scipy distribution, of their
    quantile and sampling functions, and of changes of probability and scale
    (probayes/prob.py and probayes/rv.py). *)
From Coq Require Import String ZArith Bool Arith List.
From Verif Require Import Base Num Tensor PScales Names Distr PDModel Likelihoods VariableModel RVModel.
Import ListNotations.
Local Open Scope nat_scope.
Local Open Scope bool_scope.
Set Implicit Arguments.

Section Dists.
Context {T : Type} {N : Num T} {F : Fmt T} {TR : Trunc T}.

(** prob.py 253-279, set_pfun: a cumulative distribution function and its inverse. *)
Record pfun : Type := mkPfun { pf_cdf : T -> T; pf_icdf : T -> T }.

(** A univariate scipy distribution with its arguments (prob.py 203-229): pdf or
    pmf, logpdf or logpmf, cdf and ppf if it has both.  Its rvs is never read. *)
Record uvdist : Type := mkUD { ud_prob : T -> T; ud_logp : T -> T; ud_pfun : option pfun }.

(** What set_prob accepts (RVModel), or a distribution. *)
Inductive dprobarg : Type := DAPlain (a : probarg T) | DADist (d : uvdist).

Inductive dprob : Type := DPlain (p : rprob T) | DDist (d : uvdist).

(** prob.py 281-309, set_sfun: nothing, sympy_prob.py 82-87 with its bias, or any
    other function (which evaluate, rv.py 271-303, does not call). *)
Inductive sfun : Type := SFNone | SFBern (bias : T) | SFOther.

Record drv : Type := mkDRV {
  dv_name : string;
  dv_state : vstate T;
  dv_pscale : pscale T;
  dv_prob : dprob;
  dv_tran : rtran T;
  dv_def : bool;
  dv_pfun : option pfun;
  dv_sfun : sfun
}.

(** prob.py 124-185 and rv.py 121-152, set_prob(prob, pscale=given), on a variable
    that may hold quantile and sampling functions.  Only distributions replace the
    quantile functions, and only if they have both; distributions and biased
    probabilities of bool variables replace the sampling function; whatever is not
    replaced stays. *)
Definition dv_set_prob (v : drv) (given : pspec T) (a : dprobarg) : result drv :=
  match a with
  | DAPlain a =>
      let! w := rv_set_prob (dv_name v) (dv_state v) (spec_of (dv_pscale v)) given (dv_tran v) None a in
      Ok (mkDRV (dv_name v) (dv_state v) (rv_pscale w) (DPlain (rv_prob w)) (rv_tran w) (rv_def w) (dv_pfun v)
            (match rv_prob w with RPBern b => SFBern b | _ => dv_sfun v end))
  | DADist d =>
      let! ps := new_pscale given (spec_of (dv_pscale v)) in
      Ok (mkDRV (dv_name v) (dv_state v) ps (DDist d) (dv_tran v) false
            (match ud_pfun d with Some p => Some p | None => dv_pfun v end) SFOther)
  end.

(** rv.py 57-77, RV(name, vset, vtype, prob, pscale=given), as make_rv: no scale
    at first is as good as the linear scale one. *)
Definition make_drv (name : string) (vset vtype : arg T) (a : dprobarg) (given : pspec T) : result drv :=
  let! (nm, s) := make_variable (Some name) vtype vset in
  let! v := dv_set_prob (mkDRV nm s (Lin n1) (DPlain (RPScalar n0)) TRNone false None SFNone) given a in
  Ok (mkDRV nm s (dv_pscale v) (dv_prob v) TRNone (dv_def v) (dv_pfun v) (dv_sfun v)).

(** prob.py 236-251, assignment of pscale: nothing but the scale changes. *)
Definition dv_set_pscale (v : drv) (given : pspec T) : result drv :=
  let! ps := eval_pscale given in
  Ok (mkDRV (dv_name v) (dv_state v) ps (dv_prob v) (dv_tran v) (dv_def v) (dv_pfun v) (dv_sfun v)).

(** rv.py 168-185, set_pfun of a variable without a transformation of its values. *)
Definition dv_set_pfun (v : drv) (p : option pfun) : drv :=
  mkDRV (dv_name v) (dv_state v) (dv_pscale v) (dv_prob v) (dv_tran v) (dv_def v) p (dv_sfun v).

(** rv.py 271-303, evaluate.  variable.py 343, 349: isfinite is False for all
    variables that are not floats. *)
Definition dv_evaluate (v : drv) (a : values_in T) (r : rnd T) : result (tensor (pyval T)) :=
  match dv_pfun v, a with
  | Some p, VSet n =>
      match vs_vtype (dv_state v), vs_vset (dv_state v) with
      | Some VFloat, Some [e0; e1] =>
          match atom_of e0, atom_of e1 with
          | AV lo, AV hi =>
              let u := uniform (pf_cdf p (as_num lo)) (pf_cdf p (as_num hi)) (Some n) (is_tup e0) (is_tup e1) (r_unif r) in
              Ok (out_tensor (out_map (pf_icdf p) u))
          | _, _ => Err AssertionError
          end
      | _, _ => Err AssertionError
      end
  | _, _ =>
      match is_bool (dv_state v), dv_sfun v, a with
      | true, SFBern b, VSet 0%Z => Ok (tscalar (PB (n_ltb (r_unif r 0) b)))
      | true, SFBern b, VSet (Zneg p) =>
          Ok (of_list (PF n0) (map (fun i => PB (n_ltb (r_unif r i) b)) (seq 0 (Pos.to_nat p))))
      | _, _, _ => let! o := evaluate (dv_state v) None a r in Ok (out_tensor o)
      end
  end.

(** rv.py 305-320 and prob.py 330-361, eval_prob: of a distribution, the logarithms
    if the scale the variable now has is logarithmic. *)
Definition dv_eval_prob (v : drv) (vals : tensor (pyval T)) : result (tensor T) :=
  match dv_prob v with
  | DPlain (RPScalar x) => uniform_prob [Some vals] (Some x) (inside_b (dv_state v)) (spec_of (dv_pscale v))
  | DPlain p => prob_call p (Some vals) PSNone
  | DDist d => Ok (tmap (fun x => (if is_log (dv_pscale v) then ud_logp d else ud_prob d) (as_num x)) vals)
  end.

(** rv.py 489-501, __call__ *)
Definition dv_call (v : drv) (a : values_in T) (r : rnd T) : result (pd T) :=
  let! vals := dv_evaluate v a r in
  let! prob := dv_eval_prob v vals in
  let dims := [(dv_name v, match shape vals with [] => None | _ => Some 0%Z end)] in
  make_pd (vname (dv_name v) a) [(dv_name v, to_value vals)] (Some dims) (Some prob) (spec_of (dv_pscale v)).
End Dists.
Arguments pfun T : clear implicits.
Arguments uvdist T : clear implicits.
Arguments dprobarg T : clear implicits.
Arguments dprob T : clear implicits.
Arguments sfun T : clear implicits.
Arguments drv T : clear implicits.
