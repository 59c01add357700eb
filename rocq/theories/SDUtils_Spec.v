(** Notions used in the statements about sd_utils.py. *)
From Coq Require Import String Ascii List Reals.
From Verif Require Import Base Num Tensor PScales Names SDUtils.
Import ListNotations.
Set Implicit Arguments.

(** The string [s] followed by the suffix character. *)
Definition prime (c : ascii) (s : string) : string := (s ++ String c EmptyString)%string.
Definition ends_in (c : ascii) (k : string) : Prop := exists s, k = prime c s.

(** A dictionary whose keys are partly primed: what each entry is called without
    its prime. *)
Definition unprimed_as (c : ascii) (k k' : string) : Prop :=
  k = prime c k' \/ (k = k' /\ ~ ends_in c k).

(** What a constituent evaluates to, given the values of its own variables. *)
Definition evals (V : Type) (values : odict V) (dims : odict nat) (p : part V) (t : tensor R) : Prop :=
  pt_eval p (restrict (pt_keys p) values) (restrict (pt_keys p) dims) = Ok t.

