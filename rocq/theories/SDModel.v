(** Model of probayes/sd.py (set_prob and __call__ of class SD), of _eval_iid and
    __call__ in probayes/rf.py, and of eval_dist_name in probayes/dependence.py.

    Modelled: dependences of one field (the leafs) on another (the roots) or on
    nothing, with or without a probability function, for values given as a
    dictionary.  Composite dependences appear only through the probability function
    that SD.set_prob installs for them.  Not modelled: functionals, explicit
    dependences, probabilities given as scipy or sympy objects. *)
From Coq Require Import String Ascii ZArith Bool Arith List.
From Verif Require Import Base Num Tensor PScales Names Distr PDModel PDUtils Likelihoods VariableModel RVModel FieldModel
  RFModel LookupModel.
Import ListNotations.
Set Implicit Arguments.
Local Open Scope bool_scope.

Section SD.
Context {T : Type} {N : Num T} {F : Fmt T} {TR : Trunc T}.

(** A probability function: called with the values of all variables and, if it asks
    for them (passdims), their axes; one that is not callable is a constant
    (rf.py 326-344). *)
Definition probfun : Type := odict (tensor (pyval T)) -> odict (option nat) -> result (tensor T).

(** A dependence: the field of all its variables, leafs first, the fields of its
    leafs and roots, the probability of a composite architecture (sd.py 83-85), the
    probability function if one was set and the scale. *)
Record sdep : Type := mkSD {
  sd_rf : rfield (T := T);
  sd_leafs : rfield (T := T);
  sd_roots : option (rfield (T := T));
  sd_arch : option probfun;
  sd_prob : option probfun;
  sd_pscale : pscale T }.

(** rf.py 91-113 and prob.py 124-136: without a scale among the keywords the product
    of the variables' scales is passed; a scale that is not true is passed over for
    the current one. *)
Definition base_set_prob (d : sdep) (fn : option probfun) (given : option (pspec T)) : result sdep :=
  let! ps := match given with
             | Some g => Ok g
             | None => let! s := prod_pscale (map (@scale_of T) (rf_rvs (sd_rf d))) None in
                       Ok (match s with Some p => spec_of p | None => PSNone end)
             end in
  let! q := new_pscale ps (spec_of (sd_pscale d)) in
  Ok (mkSD (sd_rf d) (sd_leafs d) (sd_roots d) (sd_arch d) fn q).

(** sd.py 71-85, set_prob: RF.set_prob returns None in all cases, so that a composite
    architecture always ends up with its own probability. *)
Definition sd_set_prob (d : sdep) (fn : option probfun) (given : option (pspec T)) : result sdep :=
  let! d1 := base_set_prob d fn given in
  match sd_arch d1 with
  | None => Ok d1
  | Some h => base_set_prob d1 (Some h) None
  end.

(** sd.py 38-41 with dependence.py 79-113, SD(leafs) and SD(leafs, roots): fields of
    the variables listed, which are all different ones.  [arch] is None for these. *)
Definition make_sd (leafs roots : list (rv T)) (arch : option probfun) : result sdep :=
  let! l := make_rf leafs in
  let! r := match roots with [] => Ok None | _ => let! r := make_rf roots in Ok (Some r) end in
  let! f := make_rf (leafs ++ roots)%list in
  sd_set_prob (mkSD f l r arch None (rf_pscale f)) None None.

Definition rf_names (f : rfield (T := T)) : list string := map (@rv_name T) (rf_rvs f).

(** dependence.py 342-376, eval_dist_name without suffix: variables not mentioned
    count as None; leafs before, roots after the bar. *)
Definition sd_dist_name (d : sdep) (values : odict (fentry T)) : string :=
  let all := spread values in
  let part names := map (fun k => (k, One (match od_get all k with Some x => x | None => FNone end))) names in
  let name (f : rfield (T := T)) := f_dist_name (rf_names f) (part (rf_names f)) "" in
  let marg := name (sd_leafs d) in
  let cond := match sd_roots d with None => ""%string | Some r => name r end in
  if String.eqb cond "" then marg else (marg ++ "|" ++ cond)%string.

(** rf.py 307-344, eval_prob. *)
Definition sd_eval_prob (d : sdep) (vals : odict (tensor (pyval T))) (dims : odict (option nat)) : result (tensor T) :=
  match sd_prob d with
  | None => rf_eval_prob (mkRF (rf_all (sd_rf d)) (rf_fld (sd_rf d)) (sd_pscale d)) vals
  | Some fn =>
      let! _ := assert_ (seteq_str (od_keys vals) (fd_keys (rf_fld (sd_rf d)))) in
      fn vals dims
  end.

(** rf.py 546-549: the largest axis. *)
Definition largest (dims : odict (option nat)) : option nat :=
  fold_left (fun m d => match d with
                        | None => m
                        | Some d => Some (match m with None => d | Some m => Nat.max d m end)
                        end) (od_vals dims) None.

(** len of a value: along the first axis of an array. *)
Definition len_value (v : value T) : result nat :=
  match v with
  | VArr a => match shape a with n :: _ => Ok n | [] => Err TypeError end
  | Distr.VSet l => Ok (length l)
  | VStr s => Ok (String.length s)
  | _ => Err TypeError
  end.

(** rf.py 541-562, _eval_iid: with iid the product is taken if there is no axis or
    the probabilities have all axes; otherwise the function is taken to have done
    it, and the values are replaced by their numbers.  [prob.ndim] is that of an
    array: a Python float has none, which raises where there are axes. *)
Definition eval_iid (name : string) (vals : odict (value T)) (dims : odict (option nat)) (prob : tensor T)
    (ps : pscale T) (iid : list string) : result (pd T) :=
  let whole := make_pd name vals (Some (out_dims dims)) (Some prob) (spec_of ps) in
  let! counted :=
    match iid, largest dims with
    | [], _ | _, None => Ok false
    | _, Some m => Ok (negb (S m =? length (shape prob)))
    end in
  if (counted : bool) then
    let! (vals', dims') := fold_res (fun st k =>
        let! v := od_getR (fst st) k in
        let! n := len_value v in
        Ok (od_set (fst st) k (Distr.VSet [SEint (Z.of_nat n)]), od_set (snd st) k None)) iid (vals, dims) in
    make_pd name vals' (Some (out_dims dims')) (Some prob) (spec_of ps)
  else
    let! p := whole in
    match iid with [] => Ok p | _ => pd_prod p iid end.

(** The keyword iid: absent or False, True (the leafs, field.py 206), keys. *)
Inductive iid_arg : Type := NoIid | AllLeafs | Iid (keys : list string).
Definition iid_keys (d : sdep) (i : iid_arg) : list string :=
  match i with NoIid => [] | AllLeafs => fd_keys (rf_fld (sd_leafs d)) | Iid l => l end.

(** rf.py 565-581, __call__ with a dictionary of values; also the values as they
    were evaluated, which the result holds. *)
Definition sd_call (d : sdep) (values : odict (fentry T)) (i : iid_arg) (r : nat -> rnd T)
    : result (pd T * odict (tensor (pyval T))) :=
  let! vs := f_parse_args (rf_fld (sd_rf d)) values in
  let name := sd_dist_name d vs in
  let! (vals, dims) := f_evaluate_by (rf_ev (rf_all (sd_rf d)) r) (rf_fld (sd_rf d)) vs 0 in
  let! prob := sd_eval_prob d vals dims in
  let! p := eval_iid name (out_vals vals) dims prob (sd_pscale d) (iid_keys d i) in
  Ok (p, vals).

(** What dist('cond') returns, with the types of the numbers, which a model
    distribution does not keep: a count, a number or a flat array. *)
Definition flat (a : tensor (pyval T)) : fval T :=
  match shape a with [] => FNum (get a []) | _ => FArr (of_list (PF n0) (to_list a)) end.
Definition as_given (vals : odict (tensor (pyval T))) (kf : string * found T) : result (string * fentry T) :=
  match snd kf with
  | Single (Distr.VSet [SEint n]) => Ok (fst kf, One (FUnit n))
  | Single _ => let! a := od_getR vals (fst kf) in Ok (fst kf, One (flat a))
  | Shared _ => let! l := map_res (fun k => let! a := od_getR vals k in Ok (flat a)) (subkeys (fst kf)) in
                Ok (fst kf, Many l)
  end.

(** sd.py 148-163, __call__ with joint=True: the roots are called with the values of
    the conditional variables. *)
Definition sd_joint (d : sdep) (values : odict (fentry T)) (i : iid_arg) (r r' : nat -> rnd T)
    : result (option (pd T)) :=
  let! (p, vals) := sd_call d values i r in
  let! found := pd_parts p "cond" in
  match sd_roots d with
  | None => Err TypeError
  | Some g =>
      let! given := map_res (as_given vals) found in
      let! q := rf_call g given r' in
      product [q; p] PSNone
  end.

End SD.
Arguments sdep : clear implicits.
Arguments probfun : clear implicits.
