(** Model of RF.step (rf.py 605-642) from predecessors of any form: numbers, arrays,
    requests for values and shared keys.

    Simplified: what moves the values (delta, transition function, tuples, a
    variable of its own) and what evaluates the conditional probability are
    arbitrary functions of the values; those that exist are modelled in FieldModel,
    RFModel, ChainModel and GibbsModel. *)
From Coq Require Import String Ascii ZArith Bool Arith List.
From Verif Require Import Base Num Tensor PScales Names Distr PDModel VariableModel RVModel FieldModel RFModel.
Import ListNotations.
Set Implicit Arguments.
Local Open Scope bool_scope.

Section Arr.
Context {T : Type} {N : Num T} {F : Fmt T} {TR : Trunc T}.

Definition vdict : Type := odict (tensor (pyval T)).

(** field.py 328-370, parse_args with pass_all=True: names are not looked up, and
    at the end every key that is not a variable's, shared ones included, is
    dropped. *)
Definition parse_any (kv : string * fentry T) : result (string * fentry T) :=
  let ks := subkeys (fst kv) in
  match shared (fst kv), snd kv with
  | true, Many l => let! _ := assert_ (Nat.eqb (length l) (length ks)) in Ok (fst kv, Many l)
  | true, One v => Ok (fst kv, Many (repeat v (length ks)))
  | false, e => Ok (fst kv, e)
  end.

Definition f_parse_all (f : field T) (values : odict (fentry T)) : result (odict (fentry T)) :=
  let! vs := map_res parse_any values in
  let seen := flat_map subkeys (od_keys vs) in
  let def := default_val f vs in
  let all := fold_left (fun d k => if mem_str k seen then d else od_set d k (One def)) (fd_keys f) vs in
  Ok (filter (fun kv => mem_str (fst kv) (fd_keys f)) all).

(** The successors a caller asks for: nothing, the set {n}, values, or something
    that moves the predecessors (a tuple or a Delta, field.py 546-548). *)
Inductive asked : Type :=
| AskNone | AskUnit (n : Z) | AskVals (d : vdict) | AskMove (g : vdict -> result vdict).

(** What a field has to move its values with: its delta, a callable transition
    function, the only variable's own eval_step (rv.py 336-398, values and dims),
    and eval_tran (rf.py 490-517). *)
Record means : Type := mkMeans {
  by_delta : option (vdict -> result vdict);
  by_tfun : option (vdict -> result vdict);
  by_own : vdict -> result (vdict * odict (option Z));
  by_cond : vdict -> result (tensor T) }.

(** rf.py 398-410 and field.py 559-578: predecessors under the keys, successors
    under the primed ones. *)
Definition step_merge (keys : list string) (pred succ : vdict) : result vdict :=
  let! ps := map_res (fun k => let! a := od_getR pred k in Ok (k, a)) keys in
  let! ss := map_res (fun k => let! a := od_getR succ (if od_mem succ (prime k) then prime k else k) in
                               Ok (prime k, a)) keys in
  Ok (fold_left (fun d kv => od_set d (fst kv) (snd kv)) (ps ++ ss)%list []).

(** rf.py 368-410 and field.py 532-578, eval_step: in all cases but the last, dims
    is an empty dictionary. *)
Definition any_eval_step (f : @rfield T) (m : means) (pred : vdict) (s : asked) : result (vdict * odict (option Z)) :=
  let keys := fd_keys (rf_fld f) in
  let merged succ := let! sv := succ in let! vals := step_merge keys pred sv in Ok (vals, []) in
  match s with
  | AskVals d => merged (Ok d)
  | AskMove g => merged (g pred)
  | AskNone => match by_delta m with
               | Some g => merged (g pred)
               | None => merged (Ok pred)
               end
  | AskUnit _ =>
      match by_tfun m, keys with
      | Some g, _ => merged (g pred)
      | None, [_] => by_own m pred
      | None, _ => Err ValueError
      end
  end.

Definition is_scalar (a : tensor (pyval T)) : bool := match shape a with [] => true | _ => false end.

Definition as_entries (d : vdict) : odict (fentry T) :=
  map (fun ka => (fst ka, One (if is_scalar (snd ka) then FNum (get (snd ka) []) else FArr (snd ka)))) d.

(** The successors in the values of a step (rf.py 638). *)
Definition primed (keys : list string) (vals : vdict) : vdict :=
  flat_map (fun k => match od_get vals (prime k) with Some a => [(k, a)] | None => [] end) keys.

(** rf.py 605-642, step: parse_args with pass_all, then evaluate, which parses
    again. *)
Definition rf_step_any (f : @rfield T) (m : means) (values : odict (fentry T)) (s : asked) (r : nat -> rnd T)
    : result (pd T) :=
  let fld := rf_fld f in
  let names := map (@rv_name T) (rf_rvs f) in
  let! vs := f_parse_all fld values in
  let pred_name := f_dist_name names vs "" in
  let! vs' := f_parse_args fld vs in
  let! (pred, _) := f_evaluate_by (rf_ev (rf_all f) r) fld vs' 0 in
  let s' := match s, by_delta m with
            | AskNone, None => if forallb (fun ka => is_scalar (snd ka)) pred then AskUnit 0 else AskVals pred
            | _, _ => s
            end in
  let! (vals, dims) := any_eval_step f m pred s' in
  let! cond := by_cond m vals in
  let name := join "|" [f_dist_name names (as_entries (primed (fd_keys fld) vals)) "'"; pred_name] in
  make_pd name (out_vals vals) (Some dims) (Some cond) (spec_of (rf_pscale f)).

End Arr.
