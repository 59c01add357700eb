(** Vocabulary for statements about histories of samplers. *)
From Coq Require Import Arith List.
From Verif Require Import Base SPModel.
Import ListNotations.

Section Spec.
Context {D Rnd Sc : Type}.

(** The random values used by the steps of generator g in a history. *)
Definition steps_of (g : nat) (evs : list (event Rnd)) : list Rnd :=
  flat_map (fun e => match e with
                     | EStep g' r => if Nat.eqb g' g then [r] else []
                     | _ => []
                     end) evs.

(** The outcomes of the steps of generator g. *)
Definition outcomes_of (g : nat) (l : list (nat * @outcome D Sc)) : list (@outcome D Sc) :=
  map snd (filter (fun go => Nat.eqb (fst go) g) l).

(** How many samplers a history creates. *)
Definition created (evs : list (event Rnd)) : nat :=
  length (filter (fun e => match e with ENew _ => true | _ => false end) evs).

Definition no_reset (evs : list (event Rnd)) : Prop := ~ In (EReset) evs.

(** The engine and the expressions never raise. *)
Definition engine_total (eng : engine D Rnd) (cfg : config D Rnd Sc) : Prop :=
  (forall r, exists d, e_call eng r = Ok d) /\
  (forall s r, exists d, e_propose eng s r = Ok d) /\
  (forall s r, exists d, e_step eng s r = Ok d) /\
  (forall d, exists d', e_prob eng d = Ok d') /\
  (forall d, exists d', e_revp eng d = Ok d') /\
  (forall f x, c_scores cfg = Some f -> exists s, f x = Ok s) /\
  (forall f r, c_thresh cfg = Some f -> exists t, f r = Ok t) /\
  (forall f s t, c_update cfg = Some f -> exists u, f s t = Ok u).

(** A list of yields. *)
Definition yields (l : list (@outcome D Sc)) (os : list (@sample_out D Sc)) : Prop :=
  l = map (fun o => Yield o) os.

(** A chain with transitions, step by step.  [cur] is the current state of the
    chain (None before the first step), [curq] the proposal it came from.  Each
    sample proposes from the current state, shows the current state as o and the
    evaluated proposal as p; its verdict is p if it is the first sample, there is
    no update rule, or the update is true, and o otherwise; the verdict is the
    next current state. *)
Fixpoint trajectory (eng : engine D Rnd) (has_update : bool) (cur curq : option D)
    (l : list (Rnd * @opqrstuv D Sc)) : Prop :=
  match l with
  | [] => True
  | (r, x) :: l' =>
      exists prop d,
        e_step eng (match curq with None => FromArgs | Some q => FromLast q end) r = Ok prop /\
        e_prob eng prop = Ok d /\
        f_o (x_opqr x) = cur /\ f_p (x_opqr x) = Some d /\ f_q (x_opqr x) = Some prop /\
        let accept := cur = None \/ has_update = false \/ x_u x = VTrue in
        (accept -> x_v x = Some d /\ trajectory eng has_update (Some d) (Some prop) l') /\
        (~ accept -> x_v x = cur /\ trajectory eng has_update cur curq l')
  end.

End Spec.
