(** Model of /repo/probayes/sp.py and sp_utils.py: samplers of a stochastic
    process as generator objects sharing the process's mutable state.

    The sampling engine underneath (SD.sample, sd.py 184-288) is a parameter:
    functions that may raise, given a value of a random source at each step.
    Distributions are an abstract type. *)
From Coq Require Import String ZArith Bool Arith List.
From Verif Require Import Base Num Tensor PScales.
Import ListNotations.
Local Open Scope bool_scope.

Section SP.
(** Distributions; values of the random source; scores and thresholds. *)
Context {D Rnd Sc : Type}.

(** sd.py 61: namedtuple opqr; Python None is [None]. *)
Record opqr : Type := mkOPQR { f_o : option D; f_p : option D; f_q : option D; f_r : option D }.

(** Result of an update function as far as its truth value and identity with
    False matter: sp.py 176, 254. *)
Inductive verdict : Type := VTrue | VFalse | VNone.

(** sp.py 48-50: namedtuple opqrstuv. *)
Record opqrstuv : Type := mkFull {
  x_opqr : opqr; x_s : option Sc; x_t : option Sc; x_u : verdict; x_v : option D
}.

(** What a step of a sampler gives: a distribution if there is no proposal
    (sp.py 231-235), an opqrstuv otherwise. *)
Inductive sample_out : Type := OutDist (d : D) | OutFull (x : opqrstuv).

(** Where a step starts: the arguments of the sampler, {0}, or the values of a
    preceding proposal. *)
Inductive start : Type := FromArgs | FromZero | FromLast (q : D).

(** The engine (sd.py 184-288, rf.py 588-658): __call__ on the sampler's arguments, the
    proposal or transition step, the evaluation of the probability of the
    proposed values, the reverse proposal (None where it is not evaluated). *)
Record engine : Type := mkEngine {
  e_call : Rnd -> result D;
  e_propose : start -> Rnd -> result D;
  e_step : start -> Rnd -> result D;
  e_prob : D -> result D;
  e_revp : D -> result (option D)
}.

(** The settings of a process: whether there is a transition (set_tran, set_tfun
    or that of a single variable), a proposal (set_prop), a delta (set_delta);
    scores, threshold and update expressions (sp.py 54-110), None if not set. *)
Record config : Type := mkConfig {
  c_tran : bool; c_prop : bool; c_delta : bool;
  c_scores : option (opqr -> result (option Sc));
  c_thresh : option (Rnd -> result (option Sc));
  c_update : option (option Sc -> option Sc -> result verdict)
}.

Variable eng : engine.
Variable cfg : config.

(** sd.py 228-250 (_sample_prop). *)
Definition sample_prop (from : start) (r : Rnd) : result opqr :=
  let! prop := e_propose eng from r in
  let! call := e_prob eng prop in
  Ok (mkOPQR None (Some call) (Some prop) None).

(** sd.py 253-288 (_sample_tran). *)
Definition sample_tran (orig : option D) (from : start) (r : Rnd) : result opqr :=
  let! prop := e_step eng from r in
  let! revp := e_revp eng prop in
  let! prob := e_prob eng prop in
  Ok (mkOPQR orig (Some prob) (Some prop) revp).

(** sd.py 216-225 (sample), given the opqr to continue from ([None]: start from
    the arguments; [Some None]: start from {0}). *)
Definition sample (prev : option (option opqr)) (r : Rnd) : result opqr :=
  if c_tran cfg then
    match prev with
    | Some (Some l) =>
        match f_q l with
        | None => Err AssertionError
        | Some q => sample_tran (f_p l) (FromLast q) r
        end
    | Some None => sample_tran None FromZero r
    | None => sample_tran None FromArgs r
    end
  else
    match prev with
    | Some (Some l) =>
        match f_q l with
        | None => Err AssertionError
        | Some q => sample_prop (FromLast q) r
        end
    | Some None => sample_prop FromZero r
    | None => sample_prop FromArgs r
    end.

(** ** The process and its samplers *)

(** A generator object (sp_utils.py 8-16): the sampler_id and stop it was
    created with, and whether its frame has finished. *)
Record gen : Type := mkGen { g_id : nat; g_stop : option nat; g_done : bool }.

(** Generator objects in creation order (an object is named by its number), and
    the private members __samplers, __counter, __last of sp.py 26-28.  Reading
    a missing key of a Counter gives 0. *)
Record process : Type := mkProc {
  p_gens : list gen;
  p_samplers : list nat;
  p_counter : nat -> nat;
  p_last : nat -> option (option opqr)
}.

(** sp.py 31-33: a new process. *)
Definition new_process : process := mkProc [] [] (fun _ => 0) (fun _ => None).

Definition set_fun {A} (f : nat -> A) (k : nat) (v : A) : nat -> A :=
  fun x => if Nat.eqb x k then v else f x.

(** sp.py 201-206: get_sampler(int). *)
Definition get_sampler (st : process) (id : nat) : result nat :=
  match nth_error (p_samplers st) id with Some g => Ok g | None => Err IndexError end.

(** sp.py 113-121: reset() without argument. *)
Definition reset_all (st : process) : process :=
  mkProc (p_gens st) [] (p_counter st) (p_last st).

(** sp.py 113-128: reset(sampler_id). *)
Definition reset_one (st : process) (id : nat) : result process :=
  let! g := get_sampler st id in
  Ok (mkProc (p_gens st) (p_samplers st) (set_fun (p_counter st) g 0)
             (set_fun (p_last st) g (Some None))).

(** sp.py 261-278: sampler(stop=stop). *)
Definition new_sampler (st : process) (stop : option nat) : process :=
  let g := length (p_gens st) in
  mkProc (p_gens st ++ [mkGen (length (p_samplers st)) stop false])
         (p_samplers st ++ [g]) (set_fun (p_counter st) g 0)
         (set_fun (p_last st) g (Some None)).

(** sp.py 227-258: what follows the bookkeeping of next: the output and the new
    last, given the last of the sampler. *)
Definition advance (last : option opqr) (r : Rnd) : result (sample_out * option opqr) :=
  let no_proposal := negb (c_tran cfg) && negb (c_prop cfg) in
  if no_proposal then
    let! d := e_call eng r in Ok (OutDist d, last)
  else
    let! x :=
      match last with
      | None => sample None r
      | Some l =>
          if negb (c_tran cfg) && negb (c_delta cfg) then sample (Some None) r
          else sample (Some (Some l)) r
      end in
    let! s := match c_scores cfg with None => Ok None | Some f => f x end in
    let! t := match c_thresh cfg with None => Ok None | Some f => f r end in
    let! u := match c_update cfg with None => Ok VNone | Some f => f s t end in
    let accept := match c_update cfg with None => true | Some _ => false end
                  || match last with None => true | Some _ => false end
                  || match u with VTrue => true | _ => false end in
    if accept then Ok (OutFull (mkFull x s t u (f_p x)), Some x)
    else Ok (OutFull (mkFull x s t u (f_o x)), last).

(** sp.py 221-258 (next), called with a sampler_id; the counter is incremented
    even if the step then raises. *)
Definition sp_next (st : process) (id : nat) (r : Rnd) : process * result sample_out :=
  match get_sampler st id with
  | Err e => (st, Err e)
  | Ok g =>
      let st1 := mkProc (p_gens st) (p_samplers st)
                   (set_fun (p_counter st) g (S (p_counter st g))) (p_last st) in
      match p_last st g with
      | None => (st1, Err KeyError)
      | Some last =>
          match advance last r with
          | Err e => (st1, Err e)
          | Ok (out, last') =>
              (mkProc (p_gens st1) (p_samplers st1) (p_counter st1)
                      (set_fun (p_last st1) g (Some last')), Ok out)
          end
      end
  end.

(** What the caller of next(generator) sees. *)
Inductive outcome : Type := Yield (o : sample_out) | Stopped | Raised (e : exn).

Definition finish (st : process) (g : nat) (gn : gen) : process :=
  mkProc (set_nth g (mkGen (g_id gn) (g_stop gn) true) (p_gens st))
         (p_samplers st) (p_counter st) (p_last st).

(** sp_utils.py 8-16 (sample_generator): resuming generator number g. *)
Definition resume (st : process) (g : nat) (r : Rnd) : process * outcome :=
  match nth_error (p_gens st) g with
  | None => (st, Raised NameError)   (* no such object *)
  | Some gn =>
      if g_done gn then (st, Stopped)
      else
        let go :=
          match sp_next st (g_id gn) r with
          | (st', Ok out) => (st', Yield out)
          | (st', Err e) => (finish st' g gn, Raised e)
          end in
        match g_stop gn with
        | None => go
        | Some n =>
            match get_sampler st (g_id gn) with
            | Err e => (finish st g gn, Raised e)
            | Ok s =>
                if p_counter st s <? n then go
                else match reset_one st (g_id gn) with
                     | Ok st' => (finish st' g gn, Stopped)
                     | Err e => (finish st g gn, Raised e)
                     end
            end
        end
  end.

(** sp.py 289-294: walk(sampler, stop=n); rs supplies the random values, the
    first unused one being the k-th.  Returns the samples, or the exception. *)
Fixpoint walk (st : process) (g : nat) (left : nat) (rs : nat -> Rnd) (k : nat)
    : process * nat * result (list sample_out) :=
  match resume st g (rs k) with
  | (st', Stopped) => (st', S k, Ok [])
  | (st', Raised e) => (st', S k, Err e)
  | (st', Yield o) =>
      match left with
      | 0 => (st', S k, Ok [])
      | S m =>
          match walk st' g m rs (S k) with
          | (st'', k', Ok l) => (st'', k', Ok (o :: l))
          | (st'', k', Err e) => (st'', k', Err e)
          end
      end
  end.

(** sp.py 281-285: walk first inspects the local variables of the generator,
    which a finished one no longer has. *)
Definition sp_walk (st : process) (g : nat) (stop : nat) (rs : nat -> Rnd) (k : nat)
    : process * nat * result (list sample_out) :=
  match nth_error (p_gens st) g with
  | None => (st, k, Err NameError)
  | Some gn => if g_done gn then (st, k, Err AssertionError) else walk st g stop rs k
  end.

(** sp.py 288: walk(sampler) without stop runs the generator to its end;
    [None] if it has not ended after fuel steps. *)
Fixpoint walk_all (fuel : nat) (st : process) (g : nat) (rs : nat -> Rnd) (k : nat)
    : option (process * result (list sample_out)) :=
  match fuel with
  | 0 => None
  | S f =>
      match resume st g (rs k) with
      | (st', Stopped) => Some (st', Ok [])
      | (st', Raised e) => Some (st', Err e)
      | (st', Yield o) =>
          match walk_all f st' g rs (S k) with
          | Some (st'', Ok l) => Some (st'', Ok (o :: l))
          | r => r
          end
      end
  end.

(** sp.py 150-190: collecting the verdicts of samples for summation: those with
    update False are left out, None is skipped. *)
Definition collect_verdicts (l : list opqrstuv) : list D :=
  flat_map (fun x => match x_u x with
                     | VFalse => []
                     | _ => match x_v x with Some d => [d] | None => [] end
                     end) l.

(** ** Histories *)

Inductive event : Type :=
| ENew (stop : option nat)
| EStep (g : nat) (r : Rnd)
| EReset.

(** The state after a history, and the outcomes of its steps with the number of
    the generator stepped. *)
Fixpoint run (st : process) (evs : list event) : process * list (nat * outcome) :=
  match evs with
  | [] => (st, [])
  | ENew stop :: evs' => run (new_sampler st stop) evs'
  | EReset :: evs' => run (reset_all st) evs'
  | EStep g r :: evs' =>
      let (st', o) := resume st g r in
      let (st'', os) := run st' evs' in
      (st'', (g, o) :: os)
  end.

End SP.

Arguments opqr D : clear implicits.
Arguments process D : clear implicits.
Arguments engine D Rnd : clear implicits.
Arguments config D Rnd Sc : clear implicits.
Arguments event Rnd : clear implicits.

(** ** Scores of the named samplers (sp_utils.py 19-92) on scalar probabilities *)

Section Scores.
Context {T : Type} {N : Num T}.

Definition scalar_of (t : tensor T) : T := get t [].

(** sp_utils.py 19-27 (metropolis_scores); pred and succ are the probabilities
    opqr.o.prob and opqr.p.prob, None where the distribution is None. *)
Definition metropolis_scores (pscale : pspec T) (pred succ : option T) : result (option T) :=
  match succ with
  | None => Err AssertionError
  | Some s =>
      match pred with
      | None => Ok None
      | Some p =>
          let! q := div_prob (tscalar s) (tscalar p) (Some (pscale, pscale)) (PSFloat n1) in
          Ok (Some (n_min n1 (scalar_of q)))
      end
  end.

(** sp_utils.py 34-37 (metropolis_update, hastings_update). *)
Definition metropolis_update (s : option T) (t : T) : verdict :=
  match s with
  | None => VTrue
  | Some x => if n_leb t x then VTrue else VNone
  end.

(** sp_utils.py 40-65 (hastings_scores). *)
Definition hastings_scores (pscale : pspec T) (pred succ prop revp : option T)
  : result (option T) :=
  match succ with
  | None => Err AssertionError
  | Some s =>
      match pred with
      | None => Ok None
      | Some p =>
          match prop with
          | None => Ok None
          | Some q0 =>
              let! q1 := rescale (tscalar q0) pscale (PSFloat n1) in
              let q := scalar_of q1 in
              if n_leb q n0 then Ok None
              else
                match revp with
                | None =>
                    let! d := div_prob (tscalar s) (tscalar p) (Some (pscale, pscale)) (PSFloat n1) in
                    Ok (Some (n_min n1 (scalar_of d)))
                | Some r0 =>
                    let! r1 := rescale (tscalar r0) pscale (PSFloat n1) in
                    let r := scalar_of r1 in
                    if n_leb r n0 then Ok (Some n1)
                    else
                      let! d := div_prob (tscalar (n_mul s q)) (tscalar (n_mul p r))
                                         (Some (pscale, pscale)) (PSFloat n1) in
                      Ok (Some (n_min n1 (scalar_of d)))
                end
          end
      end
  end.

(** sp_utils.py 76-85: the gibbs functions accept every proposal. *)
Definition gibbs_update : verdict := VTrue.

End Scores.
