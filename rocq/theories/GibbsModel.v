(** Model of sampling variables from functions: RF.set_tfun, eval_tfun, eval_step and
    step (probayes/rf.py), sample_cond_cov (probayes/rf_utils.py) for transitions given
    as scipy objects, and the scores named gibbs (probayes/sp_utils.py), assembled into
    an engine for SPModel.  The position in the scan through the variables is a private
    member of the field and so is shared by all samplers.

    Modelled: processes without roots that start from numbers for all variables; a
    function, or a pair, that draws one variable given the values of all of them; with
    tsteps or without.  Not modelled: conditional functions by key (the argument inp),
    starts that leave a variable out, delta. *)
From Coq Require Import String Ascii ZArith Bool Arith List.
From Verif Require Import Base Num Tensor PScales Names Distr PDModel PDUtils Likelihoods VariableModel RVModel FieldModel RFModel
  SDUtils SDModel SPModel CondCovModel ChainModel.
Import ListNotations.
Set Implicit Arguments.
Local Open Scope bool_scope.

(** The Python slice l[a:b]. *)
Definition py_slice {A} (l : list A) (a b : Z) : list A :=
  let n := Z.of_nat (length l) in
  let clip x := Z.min n (Z.max 0 (if (x <? 0)%Z then (x + n)%Z else x)) in
  firstn (Z.to_nat (clip b - clip a)) (skipn (Z.to_nat (clip a)) l).

(** rf.py 445-452: the keys drawn in this step and the new position (__cond_mod, which
    is None before the first step). *)
Definition window (keys : list string) (tsteps : option Z) (pos : option Z) : list string * option Z :=
  match tsteps with
  | None => (keys, pos)
  | Some t =>
      if (t =? 0)%Z then (keys, pos)
      else
        let m := match pos with None => 0%Z | Some m => m end in
        let m' := (m + t)%Z in
        (py_slice keys m m', Some (if (m' >=? Z.of_nat (length keys))%Z then 0%Z else m'))
  end.

Section Gibbs.
Context {T : Type} {N : Num T} {F : Fmt T} {TR : Trunc T}.

(** A function that draws a variable: called with the values of all variables, the name
    of the one to draw (the keyword unknown), and the random numbers it uses. *)
Definition gfun : Type := odict (pyval T) -> string -> (nat -> T) -> result (pyval T).

(** The function or functions of a CF (cf.py 115-150): one, or a pair. *)
Inductive tfunin : Type := TfOne (f : gfun) | TfTwo (f g : gfun).

(** A process: its distribution, the transition function if there is one that is not a
    scipy object, tfun, tsteps, and the dictionary its samplers were created with. *)
Record gibbs : Type := mkGibbs {
  gb_sd : sdep T; gb_tran : option (tranin T); gb_tfun : tfunin; gb_tsteps : option Z; gb_start : odict (pyval T) }.

Definition gb_keys (g : gibbs) : list string := fd_keys (rf_fld (sd_rf (gb_sd g))).

(** cf.py 96-98, reached from rf.py 283 and 304: a conditional function needs two
    variables. *)
Definition set_tfun (sd : sdep T) (tran : option (tranin T)) (tf : tfunin) (tsteps : option Z) (start : odict (pyval T)) : result gibbs :=
  let! _ := assert_ (1 <? length (fd_keys (rf_fld (sd_rf sd)))) in
  Ok (mkGibbs sd tran tf tsteps start).

(** rf.py 247-304, what set_tfun is called with: a function, which becomes a CF (304), a
    tuple of functions, or a CF.  A tuple is not callable, so it is held in a Prob (288)
    and then refused for not being an array (291): neither depends on the functions. *)
Inductive tfarg : Type := ArgFun (f : gfun) | ArgTuple (f g : gfun) | ArgCF (c : tfunin).

Definition call_set_tfun (sd : sdep T) (tran : option (tranin T)) (arg : tfarg) (tsteps : option Z) (start : odict (pyval T)) : result gibbs :=
  match arg with
  | ArgFun f => set_tfun sd tran (TfOne f) tsteps start
  | ArgTuple _ _ => Err AssertionError
  | ArgCF c => set_tfun sd tran c tsteps start
  end.

(** The random choices of one step: the numbers used for each variable, the threshold. *)
Record grnd : Type := mkGR { gr_draw : string -> nat -> T; gr_thresh : T }.

(** rf.py 420-462, eval_tfun of a dictionary.  The position moves on even if a draw
    raises. *)
Definition eval_tfun (g : gibbs) (reverse : bool) (values : odict (pyval T)) (pos : option Z) (r : grnd)
    : option Z * result (odict (pyval T)) :=
  let f := match gb_tfun g with TfOne f => f | TfTwo f f' => if reverse then f' else f end in
  let (keys, pos') := window (od_keys values) (gb_tsteps g) pos in
  (pos', fold_res (fun (vals : odict (pyval T)) k => let! y := f vals k (gr_draw r k) in Ok (od_set vals k y)) keys values).

(** rf.py 490-517, eval_tran: a constant unless a transition function is set. *)
Definition gb_cond (g : gibbs) (reverse : bool) : tranfun T :=
  match gb_tran g with
  | None => fun _ => Ok (tscalar (if iscomplex (spec_of (sd_pscale (gb_sd g))) then n0 else n1))
  | Some (TranOne q) => q
  | Some (TranTwo q q') => if reverse then q' else q
  end.

(** rf.py 605-642 with 369-404, step(given, reverse=reverse) from numbers; eval_step
    does not hand reverse over to eval_tfun. *)
Definition gb_step (g : gibbs) (reverse : bool) (given : odict (pyval T)) (pos : option Z) (r : grnd) : option Z * result (cdist T) :=
  let pred := known (gb_keys g) given in
  let (pos', succ) := eval_tfun g false pred pos r in
  (pos', let! succ := succ in step_to (gb_sd g) (gb_cond g reverse) pred succ).

(** sd.py 253-272: where a step starts. *)
Definition gb_from (g : gibbs) (from : start) (pos : option Z) (r : grnd) : option Z * result (cdist T) :=
  match from with
  | FromArgs => gb_step g false (gb_start g) pos r
  | FromZero => (pos, Err TypeError)
  | FromLast q =>
      match get_suffixed (cd_held q) true "'"%char with
      | Err e => (pos, Err e)
      | Ok vals => gb_step g false vals pos r
      end
  end.

(** sd.py 275-277: the reverse is evaluated unless the transition is symmetric
    (_sym_tran, which is false without transition and for scipy objects). *)
Definition gb_revp (g : gibbs) (prop : cdist T) : result (option (cdist T)) :=
  match gb_tran g with
  | Some (TranOne _) => Ok None
  | _ => let! p := reval_tran (cd_pd prop) in Ok (Some (mkCD p (cd_held prop)))
  end.

(** The engine; the position comes with the random source. *)
Definition gb_engine (g : gibbs) : engine (cdist T) (option Z * grnd) :=
  mkEngine (fun _ => Err TypeError) (fun _ _ => Err TypeError)
    (fun from pr => snd (gb_from g from (fst pr) (snd pr)))
    (prob_of (gb_sd g)) (gb_revp g).

(** Scores and thresholds: a number, or nan. *)
Inductive gscore : Type := Nan | Score (x : T).

(** sp.py 58-69 with sp_utils.py 76-100: gibbs accepts whatever is proposed. *)
Inductive rule : Type := GibbsRule | Mcmc (m : mcmc).
Definition gb_config (g : gibbs) (m : rule) : config (cdist T) (option Z * grnd) gscore :=
  match m with
  | GibbsRule => mkConfig true false false (Some (fun _ => Ok (Some Nan))) (Some (fun _ => Ok (Some Nan))) (Some (fun _ _ => Ok gibbs_update))
  | Mcmc m =>
      mkConfig true false false
        (Some (fun x => let! s := named_scores m (spec_of (sd_pscale (gb_sd g))) x in
                        Ok (match s with Some y => Some (Score y) | None => None end)))
        (Some (fun r => Ok (Some (Score (gr_thresh (snd r))))))
        (Some (fun s t => match s, t with
                          | Some (Score x), Some (Score t) => Ok (metropolis_update (Some x) t)
                          | None, Some (Score t) => Ok (metropolis_update None t)
                          | _, _ => Err TypeError
                          end))
  end.

(** Where generator number g starts its next step, if it takes one (sp_utils.py 8-16,
    sp.py 221-240). *)
Definition step_start (st : process (cdist T)) (g : nat) : option (@start (cdist T)) :=
  match nth_error (p_gens st) g with
  | None => None
  | Some gn =>
      if g_done gn then None
      else
        match get_sampler st (g_id gn) with
        | Err _ => None
        | Ok s =>
            let go := match p_last st s with
                      | None => None
                      | Some None => Some FromArgs
                      | Some (Some l) => option_map FromLast (f_q l)
                      end in
            match g_stop gn with
            | None => go
            | Some n => if p_counter st s <? n then go else None
            end
        end
  end.

(** A history with the position that each of its steps finds. *)
Fixpoint placed (g : gibbs) (m : rule) (st : process (cdist T)) (pos : option Z) (evs : list (event grnd))
    : list (event (option Z * grnd)) :=
  match evs with
  | [] => []
  | ENew stop :: evs' => ENew stop :: placed g m (new_sampler st stop) pos evs'
  | EReset :: evs' => EReset :: placed g m (reset_all st) pos evs'
  | EStep i r :: evs' =>
      let pos' := match step_start st i with None => pos | Some from => fst (gb_from g from pos r) end in
      EStep i (pos, r) :: placed g m (fst (resume (gb_engine g) (gb_config g m) st i (pos, r))) pos' evs'
  end.

(** The outcomes of a history of a process whose position is pos. *)
Definition gb_run (g : gibbs) (m : rule) (pos : option Z) (evs : list (event grnd)) : list (nat * @outcome (cdist T) gscore) :=
  snd (run (gb_engine g) (gb_config g m) new_process (placed g m new_process pos evs)).

(** rf_utils.py 50-65: the values go by position, in the order of the dictionary; the
    unknown one is replaced by the set of 0. *)
Definition sample_cond_cov (PhiInv : T -> T) (cc : condcov T) (junk : nat -> T) : gfun :=
  fun vals unknown us =>
    let args := map (fun kx => match snd kx with Some x => CNum (as_num x) | None => CSet 0%Z end)
                  (od_set (map (fun kx => (fst kx, Some (snd kx))) vals) unknown None) in
    let! o := interp PhiInv cc args us junk in
    match o with UScalar y => Ok (PF y) | UArray _ => Err TypeError end.

End Gibbs.
Arguments gfun : clear implicits.
Arguments tfunin : clear implicits.
Arguments gibbs : clear implicits.
Arguments grnd : clear implicits.
Arguments gscore : clear implicits.
