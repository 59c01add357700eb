(** Model of probayes/rf.py (class RF) and of rv_prod_rule in probayes/rf_utils.py.

    Modelled: fields of random variables that have no probability, proposal or
    transition function of their own, so that the variables are independent.
    Not modelled: probabilities, proposals and transitions set on the field (user
    functions, scipy and sympy objects; see MVModel, GibbsModel, CFModel and
    DelegModel), steps from arrays (ArrModel), the spherical and Cholesky steps. *)
From Coq Require Import String Ascii ZArith Bool Arith List.
From Verif Require Import Base Num Tensor PScales Names Distr PDModel PDUtils Likelihoods VariableModel RVModel FieldModel.
Import ListNotations.
Set Implicit Arguments.
Local Open Scope bool_scope.

Section RF.
Context {T : Type} {N : Num T} {F : Fmt T} {TR : Trunc T}.

(** A random field: the variables it was made of, the field they form (whose
    variable number i is the i-th of them) and the scale of its probabilities. *)
Record rfield : Type := mkRF {
  rf_all : list (rv T);
  rf_fld : field T;
  rf_pscale : pscale T }.

Definition node (i : nat) (v : rv T) : fvar T := mkFV i (rv_name v) (rv_state v) true.

Definition nodes (vs : list (rv T)) : list (fvar T) :=
  map (fun iv => node (fst iv) (snd iv)) (combine (seq 0 (length vs)) vs).

(** self._varlist *)
Definition pick (all : list (rv T)) (f : field T) : list (rv T) :=
  flat_map (fun w => match nth_error all (fv_id w) with Some v => [v] | None => [] end) (fd_varlist f).
Definition rf_rvs (f : rfield) : list (rv T) := pick (rf_all f) (rf_fld f).

Definition scale_of (v : rv T) : pspec T := spec_of (rv_pscale v).

(** rf.py 54-76 and 102-107, RF(v1, ..., vn): the scale is the product of the
    variables' scales, assigned by _refresh and again by set_prob, which prefers
    a scale that is true (prob.py 136).  A field without variables is refused
    earlier, by add_var. *)
Definition make_rf (vs : list (rv T)) : result rfield :=
  let! f := make_field true (match vs with
                             | [v] => AddOne (Some (node 0 v))
                             | _ => AddMany (map Some (nodes vs))
                             end) in
  let! s := prod_pscale (map scale_of (pick vs f)) None in
  let given := match s with Some p => spec_of p | None => PSNone end in
  let! p := eval_pscale given in
  let! q := new_pscale given (spec_of p) in
  Ok (mkRF vs f q).

(** ** The product rule (rf_utils.py 10-42) *)

(** Lines 14-21, for one dictionary of values: [pscale or prod_pscale(pscales)],
    the probability of each variable, and their product. *)
Definition rv_prod1 (rvs : list (rv T)) (values : odict (tensor (pyval T))) (pscale : pspec T)
    : result (tensor T * pspec T) :=
  let pscales := map scale_of rvs in
  let! ps := product_pscale pscale pscales in
  let! probs := map_res (fun v => let! a := od_getR values (rv_name v) in eval_prob v a) rvs in
  prod_rule probs (Some pscales) None (Some ps).

(** The whole function for two dictionaries, of predecessors and successors (no
    other number is ever passed): lines 24-41.  [x ** (1. / 2.)] is the square
    root. *)
Definition rv_prod2 (rvs : list (rv T)) (pred succ : odict (tensor (pyval T))) (pscale : pspec T)
    : result (tensor T * pspec T) :=
  let! (prob, ps) := rv_prod1 rvs pred pscale in
  let use_logs := iscomplex ps in
  let unit_ : pspec T := if use_logs then PSCplx n0 n0 else PSFloat n1 in
  let! p1 := rescale prob ps unit_ in
  let! (p2, _) := rv_prod1 rvs succ unit_ in
  let! p12 := tbin (if use_logs then n_add else n_mul) p1 p2 in
  let root := tmap (fun x => if use_logs then n_div x (n_ofZ 2) else n_sqrt x) p12 in
  let! out := rescale root unit_ ps in
  Ok (out, ps).

(** rf.py 307-324, eval_prob of a field without probability of its own. *)
Definition rf_eval_prob (f : rfield) (values : odict (tensor (pyval T))) : result (tensor T) :=
  let! _ := assert_ (seteq_str (od_keys values) (fd_keys (rf_fld f))) in
  match rf_rvs f with
  | [v] => let! a := od_getR values (rv_name v) in eval_prob v a
  | rvs => let! (p, _) := rv_prod1 rvs values (spec_of (rf_pscale f)) in Ok p
  end.

(** ** Calls *)

(** rv.py 322-333, RV.eval_dist_name with a suffix. *)
Definition fname (name : string) (x : fval T) : string :=
  match x with
  | FNone => name
  | FNum y => (name ++ "=" ++ fmt (as_num y))%string
  | _ => (name ++ "=[]")%string
  end.

(** field.py 373-393, Field.eval_dist_name: the values of shared keys are
    distributed to their names; variables without value count as None. *)
Definition spread (values : odict (fentry T)) : odict (fval T) :=
  fold_left (fun d (kv : string * fentry T) =>
      match snd kv with
      | One x => od_set d (fst kv) x
      | Many l => fold_left (fun d kx => od_set d (fst kx) (snd kx)) (combine (subkeys (fst kv)) l) d
      end) values [].

Definition f_dist_name (names : list string) (values : odict (fentry T)) (suffix : string) : string :=
  let d := spread values in
  join "," (map (fun k => fname (k ++ suffix) (match od_get d k with Some x => x | None => FNone end)) names).

(** RV.evaluate for the values that are not passed as they are. *)
Definition rf_ev (all : list (rv T)) (r : nat -> rnd T) (i : nat) (w : fvar T) (x : fval T)
    : result (tensor (pyval T)) :=
  match x with
  | FNum y => Ok (tscalar y)
  | FArr a => Ok a
  | FNone => let! v := getR all (fv_id w) in rv_evaluate v VNone (r i)
  | FUnit n => let! v := getR all (fv_id w) in rv_evaluate v (VariableModel.VSet n) (r i)
  end.

Definition out_vals (vals : odict (tensor (pyval T))) : odict (value T) :=
  map (fun kv => (fst kv, to_value (snd kv))) vals.
Definition out_dims (dims : odict (option nat)) : odict (option Z) :=
  map (fun kd => (fst kd, match snd kd with Some d => Some (Z.of_nat d) | None => None end)) dims.

(** rf.py 565-581, __call__ with a dictionary of values and no iid. *)
Definition rf_call (f : rfield) (values : odict (fentry T)) (r : nat -> rnd T) : result (pd T) :=
  let! vs := f_parse_args (rf_fld f) values in
  let name := f_dist_name (map (@rv_name T) (rf_rvs f)) vs "" in
  let! (vals, dims) := f_evaluate_by (rf_ev (rf_all f) r) (rf_fld f) vs 0 in
  let! prob := rf_eval_prob f vals in
  make_pd name (out_vals vals) (Some (out_dims dims)) (Some prob) (spec_of (rf_pscale f)).

(** rf.py 541-562 with a list of keys as iid: the product over them is taken if
    the probabilities have the expected number of axes.  Otherwise (which needs a
    probability function) the values are replaced by their numbers; that branch is
    not modelled. *)
Definition rf_call_iid (f : rfield) (values : odict (fentry T)) (iid : list string) (r : nat -> rnd T)
    : result (pd T) :=
  let! p := rf_call f values r in
  match iid with [] => Ok p | _ => pd_prod p iid end.

(** rf.py 595-601: every key gets the suffix, in place. *)
Definition suffixed {A} (suffix : string) (keys : list string) (d : odict A) : odict A :=
  fold_left (fun d k => match od_get d k with
                        | Some v => od_set (od_del d k) (k ++ suffix) v
                        | None => d
                        end) keys d.

(** rf.py 584-602, propose without proposal function. *)
Definition rf_propose (f : rfield) (values : odict (fentry T)) (suffix : string) (r : nat -> rnd T) : result (pd T) :=
  let! vs := f_parse_args (rf_fld f) values in
  let name := f_dist_name (map (@rv_name T) (rf_rvs f)) vs suffix in
  let! (vals, dims) := f_evaluate_by (rf_ev (rf_all f) r) (rf_fld f) vs 0 in
  let! prob := rf_eval_prob f vals in
  let vals := out_vals vals in
  let dims := out_dims dims in
  let keys := od_keys vals in
  let (vals', dims') := if String.eqb suffix "" then (vals, dims)
                        else (suffixed suffix keys vals, suffixed suffix keys dims) in
  make_pd name vals' (Some dims') (Some prob) (spec_of (rf_pscale f)).

(** ** Steps between numbers (rf.py 605-642, field.py 559-602)

    [pred] and [succ] give every variable a number; succ is what the caller gave,
    or the predecessors moved by the field's delta. *)

(** rf.py 490-517, eval_tran without transition function: a single variable with a
    transition of its own uses that, else the variables are independent. *)
Definition rf_eval_tran (f : rfield) (pred succ : odict (tensor (pyval T))) (reverse : bool) : result (tensor T) :=
  let joint rvs := let! (c, _) := rv_prod2 rvs pred succ (spec_of (rf_pscale f)) in Ok c in
  match rf_rvs f with
  | [v] =>
      if is_none (rv_tran v) then joint [v]
      else
        let! a := od_getR pred (rv_name v) in
        let! b := od_getR succ (rv_name v) in
        let! t := eval_tran v (mkSt b a [] None) reverse in
        match t with Some t => Ok t | None => Err TypeError end
  | rvs => joint rvs
  end.

Definition numbers (d : odict (pyval T)) : odict (tensor (pyval T)) := map (fun kx => (fst kx, tscalar (snd kx))) d.
Definition entries (d : odict (pyval T)) : odict (fentry T) := map (fun kx => (fst kx, One (FNum (snd kx)))) d.

Definition prime (k : string) : string := (k ++ "'")%string.

(** The values of the result: predecessors under the field's keys, in order, then
    successors under the primed ones. *)
Definition step_vals (keys : list string) (pred succ : odict (pyval T)) : result (odict (value T)) :=
  let look (d : odict (pyval T)) (k : string) := let! x := od_getR d k in Ok (VNum (as_num x)) in
  let! ps := map_res (fun k => let! x := look pred k in Ok (k, x)) keys in
  let! ss := map_res (fun k => let! x := look succ (if od_mem succ (prime k) then prime k else k) in
                               Ok (prime k, x)) keys in
  Ok (fold_left (fun d kv => od_set d (fst kv) (snd kv)) (ps ++ ss)%list []).

Definition rf_step (f : rfield) (pred succ : odict (pyval T)) (reverse : bool) : result (pd T) :=
  let names := map (@rv_name T) (rf_rvs f) in
  let keys := fd_keys (rf_fld f) in
  let! vals := step_vals keys pred succ in
  let succ' := map (fun k => (k, match od_get succ (if od_mem succ (prime k) then prime k else k) with
                                 | Some x => x | None => PF n0 end)) keys in
  let! cond := rf_eval_tran f (numbers pred) (numbers succ') reverse in
  let name := join "|" [f_dist_name names (entries succ') "'"; f_dist_name names (entries pred) ""] in
  make_pd name vals (Some []) (Some cond) (spec_of (rf_pscale f)).

(** rf.py 520-538, reval_tran: marginals and conditionals change places. *)
Definition reval_tran (p : pd T) : result (pd T) :=
  make_pd (margcond_str (od_vals (p_cond p)) (od_vals (p_marg p))) (p_vals p) (Some (p_dims p)) (p_prob p)
    (spec_of (p_pscale p)).

End RF.
