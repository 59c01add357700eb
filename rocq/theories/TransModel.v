(** Model of real random variables with a transformation of their values, as
    objects changed by calls: set_ufun, set_pfun, set_prob and assignments of vset
    (probayes/variable.py, probayes/prob.py, probayes/rv.py).  A call returns the
    object as it is afterwards and the exception it raises, if any.

    Simplified: a set is given by its limits in increasing order; transformations
    are pairs of functions, or sympy expressions of one symbol whose derivative
    depends on it; probabilities are functions of the value in the current scale.
    Not modelled here: transitions, deltas (VariableModel), changes of scale
    (DistModel). *)
From Coq Require Import String ZArith Bool Arith List.
From Verif Require Import Base Num Tensor PScales Names Distr PDModel Likelihoods VariableModel RVModel DistModel.
Import ListNotations.
Set Implicit Arguments.
Local Open Scope bool_scope.

Section Trans.
Context {T : Type} {N : Num T} {F : Fmt T} {TR : Trunc T}.

(** A transformation: function and inverse, and of a sympy expression the
    derivative (expression.py 319-320; derinv). *)
Record trans : Type := mkTrans { tr_u : ufun T; tr_der : option (T -> T) }.

(** The expression of the probability: one number, valid inside the set, or a
    function of the value, or none (expression.py 145-200, set_expr). *)
Inductive tprob : Type := TPScalar (x : T) | TPFun (f : T -> T) | TPNone.

Record trv : Type := mkTRV {
  tv_name : string;
  tv_e0 : elem T;                      (* vset *)
  tv_e1 : elem T;
  tv_ufun : option trans;
  tv_no : bool;                        (* no_ucov, None and False alike *)
  tv_ulims : atom T * atom T;
  tv_nlen : option T;                  (* the length whose logarithm is -nlhv; None if infinite *)
  tv_pscale : pscale T;
  tv_has : bool;                       (* _prob is not None *)
  tv_prob : tprob;                     (* the expression *)
  tv_def : bool;
  tv_pfun : option (pfun T)
}.

Definition with_ufun (v : trv) (u : option trans) (no : bool) : trv :=
  mkTRV (tv_name v) (tv_e0 v) (tv_e1 v) u no (tv_ulims v) (tv_nlen v) (tv_pscale v) (tv_has v) (tv_prob v) (tv_def v) (tv_pfun v).
Definition with_lims (v : trv) (l : atom T * atom T) (len : option T) : trv :=
  mkTRV (tv_name v) (tv_e0 v) (tv_e1 v) (tv_ufun v) (tv_no v) l len (tv_pscale v) (tv_has v) (tv_prob v) (tv_def v) (tv_pfun v).
Definition with_vset (v : trv) (e0 e1 : elem T) : trv :=
  mkTRV (tv_name v) e0 e1 (tv_ufun v) (tv_no v) (tv_ulims v) (tv_nlen v) (tv_pscale v) (tv_has v) (tv_prob v) (tv_def v) (tv_pfun v).
Definition with_prob (v : trv) (has : bool) (p : tprob) (def : bool) : trv :=
  mkTRV (tv_name v) (tv_e0 v) (tv_e1 v) (tv_ufun v) (tv_no v) (tv_ulims v) (tv_nlen v) (tv_pscale v) has p def (tv_pfun v).
Definition with_pfun (v : trv) (p : option (pfun T)) : trv :=
  mkTRV (tv_name v) (tv_e0 v) (tv_e1 v) (tv_ufun v) (tv_no v) (tv_ulims v) (tv_nlen v) (tv_pscale v) (tv_has v) (tv_prob v) (tv_def v) p.

Definition outcome : Type := (trv * option exn)%type.

(** max - min of two limits, None if one of them is infinite (variable.py 338-341). *)
Definition span (a b : atom T) : option T :=
  match a, b with
  | AV a, AV b => Some (n_sub (n_max (as_num a) (as_num b)) (n_min (as_num a) (as_num b)))
  | _, _ => None
  end.

(** variable.py 313-348, _eval_ulims of a real variable: the length for the default
    probability is always that of the transformed limits; with no_ucov the limits
    themselves are not transformed. *)
Definition eval_ulims (v : trv) : trv :=
  let a := atom_of (tv_e0 v) in
  let b := atom_of (tv_e1 v) in
  let u := option_map tr_u (tv_ufun v) in
  let ua := u_image u a in
  let ub := u_image u b in
  with_lims v (if tv_no v then (a, b) else (ua, ub)) (span ua ub).

(** rv.py 160: rescale(self._nlhv, 'log', self._pscale), as RVModel.default_prob. *)
Definition prob_of_length (len : option T) (ps : pscale T) : result T :=
  match len with
  | Some l => let! t := rescale (tscalar (n_opp (log_prob1 l))) (PSStr "log") (spec_of ps) in Ok (get t [])
  | None => Ok (if is_log ps then nni else n0)
  end.

(** rv.py 153-166, _default_prob: with no_ucov the default is multiplied by the
    derivative of the transformation, which pairs of functions do not have. *)
Definition t_default (v : trv) : outcome :=
  if tv_has v && negb (tv_def v) then (v, None) else
  match prob_of_length (tv_nlen v) (tv_pscale v) with
  | Err e => (v, Some e)
  | Ok x =>
      match tv_ufun v, tv_no v with
      | Some t, true =>
          match tr_der t with
          | None => (v, Some AttributeError)
          | Some d =>
              let f y := if is_log (tv_pscale v) then n_add x (n_ln (d y)) else n_mul x (d y) in
              (with_prob v true (TPFun f) true, None)
          end
      | _, _ => (with_prob v true (TPScalar x) true, None)
      end
  end.

(** variable.py 466-497 and rv.py 187-208, set_ufun(ufun, no_ucov=no).  The
    attributes are set before anything is checked; nothing else happens if ufun is
    None. *)
Definition set_ufun (v : trv) (u : option trans) (no : bool) : outcome :=
  match u with
  | None => (with_ufun v None (tv_no v), None)
  | Some t =>
      let v1 := with_ufun v (Some t) no in
      if no && match tr_der t with None => true | _ => false end then (v1, Some AssertionError)
      else
        let v2 := eval_ulims v1 in
        let '(v3, e) := t_default v2 in
        match e with
        | Some _ => (v3, e)
        | None => (v3, match tv_pfun v3 with Some _ => Some AssertionError | None => None end)
        end
  end.

(** prob.py 265-288 and rv.py 169-185, set_pfun. *)
Definition set_pfun (v : trv) (p : option (pfun T)) : outcome :=
  let v' := with_pfun v p in
  match tv_ufun v', p with
  | Some _, Some _ => (v', Some AssertionError)
  | _, _ => (v', None)
  end.

(** variable.py 169-219 and rv.py 94-99, assignment of vset: a default is given up
    before the next one is found. *)
Definition set_vset (v : trv) (e0 e1 : elem T) : outcome :=
  let v' := eval_ulims (with_vset v e0 e1) in
  if tv_def v' then t_default (with_prob v' false (tv_prob v') true) else (v', None).

(** rv.py 122-136 and prob.py 125-150, set_prob of a function, or of nothing. *)
Definition set_prob (v : trv) (f : option (T -> T)) : outcome :=
  match f with
  | Some f => (with_prob v true (TPFun f) false, None)
  | None => t_default (with_prob v false TPNone (tv_def v))
  end.

(** set_prob of a distribution with cdf and ppf (prob.py 152-178, rv.py 122-136):
    an exception raised by set_pfun leaves the default flag as it was. *)
Definition set_dist (v : trv) (f : T -> T) (p : pfun T) : outcome :=
  let '(v', e) := set_pfun (with_prob v true (TPFun f) (tv_def v)) (Some p) in
  match e with
  | Some _ => (v', e)
  | None => (with_prob v' true (TPFun f) false, None)
  end.

(** RV(name, vset, pscale=ps) and RV(name, vset, prob=f, pscale=ps) of a real
    variable (rv.py 57-76). *)
Definition new_trv (name : string) (e0 e1 : elem T) (ps : pscale T) (f : option (T -> T)) : outcome :=
  let v := eval_ulims (mkTRV name e0 e1 None false (atom_of e0, atom_of e1) None ps false TPNone false None) in
  set_prob v f.

(** The calls. *)
Inductive call : Type :=
| SetUfun (u : option trans) (no : bool)
| SetPfun (p : option (pfun T))
| SetVset (e0 e1 : elem T)
| SetProb (f : option (T -> T))
| SetDist (f : T -> T) (p : pfun T).

Definition do_call (v : trv) (c : call) : outcome :=
  match c with
  | SetUfun u no => set_ufun v u no
  | SetPfun p => set_pfun v p
  | SetVset e0 e1 => set_vset v e0 e1
  | SetProb f => set_prob v f
  | SetDist f p => set_dist v f p
  end.

Definition after_calls (v : trv) (h : list call) : trv := fold_left (fun v c => fst (do_call v c)) h v.

(** rv.py 271-302 and variable.py 540-587, evaluate. *)
Definition tv_evaluate (v : trv) (a : values_in T) (r : rnd T) : result (values_out T) :=
  let at_n (n : Z) : result (values_out T) :=
    match tv_ulims v with
    | (AV lo, AV hi) =>
        let o := uniform (as_num lo) (as_num hi) (Some n) (is_tup (tv_e0 v)) (is_tup (tv_e1 v)) (r_unif r) in
        Ok (out_map (match tv_ufun v, tv_no v with Some t, false => u_inv (tr_u t) | _, _ => fun x => x end) o)
    | _ => Err AssertionError
    end in
  match tv_pfun v, a with
  | Some p, VSet n =>
      match tv_ulims v with
      | (AV lo, AV hi) =>
          let o := uniform (pf_cdf p (as_num lo)) (pf_cdf p (as_num hi)) (Some n) (is_tup (tv_e0 v)) (is_tup (tv_e1 v)) (r_unif r) in
          Ok (out_map (pf_icdf p) o)
      | _ => Err AssertionError
      end
  | _, VSet n => at_n n
  | _, VNone => at_n 0%Z
  | _, VGiven l true => match l with [x] => Ok (OScalar x) | _ => Err TypeError end
  | _, VGiven l false => Ok (OArray l)
  end.

(** rv.py 305-320 and prob.py 331-380, eval_prob: only numbers are limited to the
    set; float(None) raises a TypeError. *)
Definition tv_eval_prob (v : trv) (vals : tensor (pyval T)) : result (tensor T) :=
  match tv_prob v with
  | TPScalar x =>
      if negb (tv_has v) then Err TypeError else
      uniform_prob [Some vals] (Some x) (inside_b (mkVS (Some VFloat) (Some [tv_e0 v; tv_e1 v]))) (spec_of (tv_pscale v))
  | TPFun f => Ok (tmap (fun x => f (as_num x)) vals)
  | TPNone => Err AssertionError
  end.

End Trans.
Arguments trans T : clear implicits.
Arguments tprob T : clear implicits.
Arguments trv T : clear implicits.
Arguments call T : clear implicits.
