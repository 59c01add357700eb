(** Model of ordinary Monte Carlo sampling: RF.propose with a proposal function
    (probayes/rf.py), SD._sample_prop (probayes/sd.py) and the scores, thresholds,
    updates and summaries of SP (probayes/sp.py).

    Modelled: processes with one proposal function for all their variables
    (set_prop(function)), samplers whose argument is a dictionary of values.
    Not modelled: proposals by the leafs or roots alone (set_prop('roots')), a second
    argument of a sampler, proposals that are not functions, and the option
    conditionalise of a summary. *)
From Coq Require Import String Ascii ZArith Bool Arith List.
From Verif Require Import Base Num Tensor PScales Names Distr PDModel PDUtils VariableModel RVModel FieldModel RFModel
  SDUtils SDModel SPModel.
Import ListNotations.
Set Implicit Arguments.
Local Open Scope bool_scope.

Section Omc.
Context {T : Type} {N : Num T} {F : Fmt T} {TR : Trunc T}.

(** A proposal function, called with the values of all variables (rf.py 357-366). *)
Definition propfun : Type := odict (tensor (pyval T)) -> result (tensor T).

(** A distribution with the values that it was made of. *)
Record odist : Type := mkOD { od_pd : pd T; od_held : odict (tensor (pyval T)) }.

(** rf.py 595-601: keys get the suffix, unless it is false. *)
Definition tagged {A} (suffix : string) (keys : list string) (d : odict A) : odict A :=
  if String.eqb suffix "" then d else RFModel.suffixed suffix keys d.

(** rf.py 584-602, propose with a proposal function, as called by sd.py 164-169; the
    name does not tell leafs from roots (dependence.py 343-344).  suffix=False is the
    empty suffix. *)
Definition sd_propose (sd : sdep T) (g : propfun) (values : odict (fentry T)) (suffix : string) (r : nat -> rnd T)
    : result odist :=
  let f := sd_rf sd in
  let! vs := f_parse_args (rf_fld f) values in
  let name := f_dist_name (map (@rv_name T) (rf_rvs f)) vs suffix in
  let! (vals, dims) := f_evaluate_by (rf_ev (rf_all f) r) (rf_fld f) vs 0 in
  let! prop := g vals in
  let keys := od_keys vals in
  let! p := make_pd name (tagged suffix keys (out_vals vals)) (Some (tagged suffix keys (out_dims dims))) (Some prop)
              (spec_of (sd_pscale sd)) in
  Ok (mkOD p (tagged suffix keys vals)).

(** The values of a distribution given to a call. *)
Definition given_to (vals : odict (tensor (pyval T))) : odict (fentry T) :=
  map (fun kv => (fst kv, One (match shape (snd kv) with [] => FNum (get (snd kv) []) | _ => FArr (snd kv) end))) vals.

(** A process with a proposal function; whether set_delta was called; the keyword
    suffix and the dictionary of its samplers; its keys in the order of their set. *)
Record omc : Type := mkOmc {
  om_sd : sdep T; om_prop : propfun; om_delta : bool; om_suffix : string;
  om_start : odict (fentry T); om_keyset : list string }.

(** The random choices of one step: for the variables, and the threshold. *)
Record ornd : Type := mkOR { or_vars : nat -> rnd T; or_thresh : T }.

(** rf.py 587-589: {0} for every variable. *)
Definition zeros (keys : list string) : odict (fentry T) := map (fun k => (k, One (FUnit 0))) keys.

(** All values are given, so that none is drawn. *)
Definition undrawn : nat -> rnd T := fun _ => mkRnd 0 [] (fun _ => n0).

(** sd.py 241-249: the probability of the proposed values. *)
Definition om_prob (o : omc) (prop : odist) : result odist :=
  let! vals := desuffix (od_held prop) "'"%char in
  let! (p, held) := sd_call (om_sd o) (given_to vals) NoIid undrawn in
  Ok (mkOD p held).

(** sd.py 228-250 as an engine.  Calls and steps are never reached by a process with a
    proposal and no transition. *)
Definition om_engine (o : omc) : engine odist ornd :=
  mkEngine (fun _ => Err TypeError)
    (fun from r =>
       let propose values := sd_propose (om_sd o) (om_prop o) values (om_suffix o) (or_vars r) in
       match from with
       | FromArgs => propose (om_start o)
       | FromZero => propose (zeros (om_keyset o))
       | FromLast q => let! vals := desuffix (od_held q) "'"%char in propose (given_to vals)
       end)
    (fun _ _ => Err TypeError) (om_prob o) (fun _ => Err TypeError).

(** opqr.p.prob and opqr.q.prob as numbers. *)
Definition number_of (d : option odist) : result T :=
  match d with
  | None => Err AttributeError
  | Some d => match p_prob (od_pd d) with
              | Some t => match shape t with [] => Ok (get t []) | _ => Err TypeError end
              | None => Err TypeError
              end
  end.

(** sd.py 60-68: a single variable with a transition of its own (_unit_tran), which is
    then followed in place of the proposal (sd.py 218; not modelled here). *)
Definition om_unit (o : omc) : bool :=
  match rf_rvs (sd_rf (om_sd o)) with [v] => negb (is_none (rv_tran v)) | _ => false end.

(** sp.py 54-110: set_scores of a function of opqr.p.prob and opqr.q.prob, set_thresh
    of a random number, and set_update(lambda stu: stu.s >= stu.t). *)
Definition om_config (o : omc) (score : T -> T -> T) : config odist ornd T :=
  mkConfig (om_unit o) true (om_delta o)
    (Some (fun x => let! p := number_of (f_p x) in let! q := number_of (f_q x) in Ok (Some (score p q))))
    (Some (fun r => Ok (Some (or_thresh r))))
    (Some (fun s t => match s, t with
                      | Some s, Some t => Ok (if n_leb t s then VTrue else VFalse)
                      | _, _ => Err TypeError
                      end)).

(** ** Summaries (sp.py 131-197) *)

(** What process(samples) returns; lists that were never appended to are None. *)
Record summary {Sc : Type} : Type := mkSummary {
  sm_o : option (pd T); sm_p : option (pd T); sm_q : option (pd T); sm_r : option (pd T);
  sm_s : option (list Sc); sm_t : option (list Sc); sm_u : list verdict; sm_v : option (pd T) }.

(** Samples are those of SD.sample or of a sampler. *)
Definition psample {D Sc : Type} : Type := (opqr D + @opqrstuv D Sc)%type.

(** sp.py 176-177: samples whose update is False are left out. *)
Definition counts {D Sc} (s : @psample D Sc) : bool :=
  match s with inl _ => true | inr x => match x_u x with VFalse => false | _ => true end end.

(** sp.py 160-163, _maybe_append over the samples. *)
Definition maybe {A B} (f : A -> option B) (l : list A) : option (list B) :=
  fold_left (fun acc x => match f x with
                          | None => acc
                          | Some e => Some (match acc with None => [e] | Some l => (l ++ [e])%list end)
                          end) l None.

(** sp.py 189-191 *)
Definition total {D} (view : D -> pd T) (l : option (list D)) : result (option (pd T)) :=
  match l with None => Ok None | Some ds => summate (map view ds) end.

(** sp.py 150-197 for a list of samples that is not empty, of a process with or without
    an update function; [view] is the distribution that a sample holds. *)
Definition summarise {D Sc} (view : D -> pd T) (updates : bool) (samples : list (@psample D Sc)) : result (@summary Sc) :=
  let kept := filter counts samples in
  let op (f : opqr D -> option D) (s : @psample D Sc) := match s with inl x => f x | inr x => f (x_opqr x) end in
  let full {A} (f : @opqrstuv D Sc -> option A) (s : @psample D Sc) := match s with inl _ => None | inr x => f x end in
  let! o := total view (maybe (op (@f_o D)) kept) in
  let! p := total view (maybe (op (@f_p D)) kept) in
  let! q := total view (maybe (op (@f_q D)) kept) in
  let! r := total view (maybe (op (@f_r D)) kept) in
  let! v := total view (maybe (full (@x_v D Sc)) kept) in
  let u := if updates then match maybe (full (fun x => Some (x_u x))) kept with Some l => l | None => [] end else [] in
  Ok (mkSummary o p q r (maybe (full (@x_s D Sc)) kept) (maybe (full (@x_t D Sc)) kept) u v).

End Omc.
Arguments odist : clear implicits.
Arguments propfun : clear implicits.
Arguments omc : clear implicits.
Arguments ornd : clear implicits.
Arguments summary : clear implicits.
Arguments psample : clear implicits.
