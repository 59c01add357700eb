(** Model of sampling with a transition function: Field.apply_delta and eval_step
    (probayes/field.py), RF.eval_tran and RF.step with a transition set on the field
    (probayes/rf.py), SD._sample_tran (probayes/sd.py) and the named scores of
    SP.set_scores (probayes/sp.py), assembled into an engine for SPModel.

    Modelled: processes without roots whose variables take numbers, with a transition
    function or a pair of them, and a delta that is a function or was given as numbers.
    Not modelled: transitions given as matrices, scipy objects or conditional
    functions by key, tfun, steps of arrays, starts that leave a variable out (these
    are drawn at random). *)
From Coq Require Import String Ascii ZArith Bool Arith List.
From Verif Require Import Base Num Tensor PScales Names Distr PDModel PDUtils VariableModel RVModel FieldModel RFModel
  SDUtils SDModel SPModel.
Import ListNotations.
Set Implicit Arguments.
Local Open Scope bool_scope.

Section Chain.
Context {T : Type} {N : Num T} {F : Fmt T} {TR : Trunc T}.

(** A distribution whose variables are numbers, with the types of these, which the
    values of a model distribution do not keep. *)
Record cdist : Type := mkCD { cd_pd : pd T; cd_held : odict (pyval T) }.

(** A transition function, called with predecessors and (primed) successors. *)
Definition tranfun : Type := odict (tensor (pyval T)) -> result (tensor T).

(** rf.py 169-238: set_tran(q) is taken to be symmetric (_sym_tran), set_tran((q, r))
    is not. *)
Inductive tranin : Type := TranOne (q : tranfun) | TranTwo (q r : tranfun).

(** field.py 220-306 (254-256 for a function): set_delta of a function, with the flag bound if it is among the
    keywords; or of anything else, with the resulting deltas of the field and of its
    variables, and the variables' lengths (FieldModel). *)
Inductive cdelta : Type :=
| DeltaFun (bound : bool) (vds : list (dconf T))
| DeltaSet (c : fconf T) (vds : list (dconf T)) (lengths : list (option T)).

(** A process, and the dictionary its sampler was created with. *)
Record chain : Type := mkChain {
  ch_sd : sdep T; ch_tran : tranin; ch_delta : cdelta; ch_start : odict (pyval T) }.

(** The random choices of one step: what the delta function returns (by variable), the
    numbers of spherical and of variables' own deltas, the threshold. *)
Record crnd : Type := mkCR { cr_delta : list (pyval T); cr_sphere : list T; cr_vars : nat -> drnd T; cr_thresh : T }.

Definition ch_rvs (ch : chain) : list (rv T) := rf_rvs (sd_rf (ch_sd ch)).
Definition ch_keys (ch : chain) : list string := fd_keys (rf_fld (sd_rf (ch_sd ch))).

(** field.py 534-552, apply_delta with an instance of the field's Delta: variable by
    variable. *)
Definition f_apply_delta (rvs : list (rv T)) (vds : list (dconf T)) (values : odict (pyval T)) (l : list (delta T))
    (bound : bool) (rs : nat -> drnd T) : result (odict (pyval T)) :=
  fold_res (fun (vals : odict (pyval T)) (ivd : nat * (rv T * (dconf T * delta T))) =>
      let '(i, (v, (dc, d))) := ivd in
      let! x := od_getR values (rv_name v) in
      let! ys := apply_delta (rv_state v) None dc true [x] d (Some bound) (rs i) in
      match ys with [y] => Ok (od_set vals (rv_name v) y) | _ => Err TypeError end)
    (combine (seq 0 (length rvs)) (combine rvs (combine vds l))) values.

(** field.py 555-584: the successors by the field's delta.  Without delta the step
    draws from a tfun, and there is none. *)
Definition successors (ch : chain) (pred : odict (pyval T)) (r : crnd) : result (odict (pyval T)) :=
  let rvs := ch_rvs ch in
  match ch_delta ch with
  | DeltaFun bound vds =>
      (* Delta( ** ) wants every variable *)
      if length (cr_delta r) =? length rvs then
        f_apply_delta rvs vds pred (map (@DScal T) (cr_delta r)) bound (cr_vars r)
      else Err TypeError
  | DeltaSet c vds lengths =>
      let! s := f_eval_delta (rf_fld (sd_rf (ch_sd ch))) lengths c vds (cr_vars r) (cr_sphere r) in
      match s with
      | NoStep | OwnDelta _ => Err ValueError
      | Steps l => f_apply_delta rvs vds pred l (fc_bound c) (cr_vars r)
      | Sphere l => f_apply_delta rvs vds pred (map (fun x => DScal (PF x)) l) (fc_bound c) (cr_vars r)
      end
  end.

(** field.py 586-596: predecessors under the variables' names, then successors under
    the primed ones; the successors have the names of the variables here. *)
Definition both (keys : list string) (pred succ : odict (pyval T)) : result (odict (pyval T)) :=
  let! ps := map_res (fun k => let! x := od_getR pred k in Ok (k, x)) keys in
  let! ss := map_res (fun k => let! x := od_getR succ k in Ok (prime k, x)) keys in
  Ok (fold_left (fun d kv => od_set d (fst kv) (snd kv)) (ps ++ ss)%list []).

(** rf.py 490-517, eval_tran with reverse=False. *)
Definition tran_of (t : tranin) : tranfun := match t with TranOne q => q | TranTwo q _ => q end.

(** rf.py 620-642: the distribution proposed, given predecessors, successors and the
    conditional probability as a function of both. *)
Definition step_to (sd : sdep T) (q : tranfun) (pred succ : odict (pyval T)) : result cdist :=
  let keys := fd_keys (rf_fld (sd_rf sd)) in
  let names := map (@rv_name T) (rf_rvs (sd_rf sd)) in
  let! vals := both keys pred succ in
  let! cond := q (numbers vals) in
  let succ' := map (fun k => (k, match od_get succ k with Some x => x | None => PF n0 end)) keys in
  let name := join "|" [f_dist_name names (entries succ') "'"; f_dist_name names (entries pred) ""] in
  let! p := make_pd name (map (fun kx => (fst kx, VNum (as_num (snd kx)))) vals) (Some []) (Some cond)
              (spec_of (sd_pscale sd)) in
  Ok (mkCD p vals).

(** rf.py 605-642, step(pred), with field.py 328-359 for pass_all: other keys are dropped. *)
Definition known (keys : list string) (given : odict (pyval T)) : odict (pyval T) :=
  filter (fun kv => mem_str (fst kv) keys) given.
Definition chain_step (ch : chain) (given : odict (pyval T)) (r : crnd) : result cdist :=
  let pred := known (ch_keys ch) given in
  let! succ := successors ch pred r in
  step_to (ch_sd ch) (tran_of (ch_tran ch)) pred succ.

(** sd.py 280-286: the probability of the successors.  All values are given, so that
    none is drawn. *)
Definition no_rnd : nat -> rnd T := fun _ => mkRnd 0 [] (fun _ => n0).
Definition prob_of (sd : sdep T) (prop : cdist) : result cdist :=
  let! vals := get_suffixed (cd_held prop) true "'"%char in
  let! (p, _) := sd_call sd (entries vals) NoIid no_rnd in
  Ok (mkCD p vals).
Definition chain_prob (ch : chain) (prop : cdist) : result cdist := prob_of (ch_sd ch) prop.

(** sd.py 60-68: a single variable with a transition of its own (_unit_tran, evaluated
    when the process is made). *)
Definition unit_tran (ch : chain) : bool :=
  match ch_rvs ch with [v] => negb (is_none (rv_tran v)) | _ => false end.

(** sd.py 276-277 with rf.py 520-538. *)
Definition chain_revp (ch : chain) (prop : cdist) : result (option cdist) :=
  match ch_tran ch with
  | TranOne _ => Ok None
  | TranTwo _ _ =>
      if unit_tran ch then Ok None
      else let! p := reval_tran (cd_pd prop) in Ok (Some (mkCD p (cd_held prop)))
  end.

(** sd.py 253-288 as an engine: a step from the sampler's dictionary or from the
    successors of the last proposal.  The remaining cases are never reached by a
    process with a transition function. *)
Definition chain_engine (ch : chain) : engine cdist crnd :=
  mkEngine (fun _ => Err TypeError) (fun _ _ => Err TypeError)
    (fun from r => match from with
                   | FromArgs => chain_step ch (ch_start ch) r
                   | FromZero => Err TypeError
                   | FromLast q => let! vals := get_suffixed (cd_held q) true "'"%char in chain_step ch vals r
                   end)
    (chain_prob ch) (chain_revp ch).

(** prob of a distribution, asserted to be a scalar (sp_utils.py 22, 25, 42-60). *)
Definition scalar_prob (d : cdist) : result T :=
  match p_prob (cd_pd d) with
  | Some t => match shape t with [] => Ok (get t []) | _ => Err AssertionError end
  | None => Err AssertionError
  end.
Definition opt_prob (d : option cdist) : result (option T) :=
  match d with None => Ok None | Some d => let! x := scalar_prob d in Ok (Some x) end.

(** sp.py 58-69 with sp_utils.py 96-100: set_scores by name sets scores, threshold and
    update, and hands over the scale of the process. *)
Inductive mcmc : Type := Metropolis | Hastings.
Definition named_scores (m : mcmc) (ps : pspec T) (x : opqr cdist) : result (option T) :=
  let! o := opt_prob (f_o x) in
  let! p := opt_prob (f_p x) in
  match m with
  | Metropolis => metropolis_scores ps o p
  | Hastings => let! q := opt_prob (f_q x) in
                let! r := opt_prob (f_r x) in
                hastings_scores ps o p q r
  end.

Definition chain_config (ch : chain) (m : mcmc) : config cdist crnd T :=
  mkConfig true false true
    (Some (named_scores m (spec_of (sd_pscale (ch_sd ch)))))
    (Some (fun r => Ok (Some (cr_thresh r))))
    (Some (fun s t => match t with Some t => Ok (metropolis_update s t) | None => Err TypeError end)).

End Chain.
Arguments cdist : clear implicits.
Arguments tranfun : clear implicits.
Arguments tranin : clear implicits.
Arguments cdelta : clear implicits.
Arguments chain : clear implicits.
Arguments crnd : clear implicits.
