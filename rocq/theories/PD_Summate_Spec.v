(** Samples: distributions whose variables all have one value. *)
From Coq Require Import String ZArith Reals List.
From Verif Require Import Base Num Tensor PScales Distr PDModel PD_Spec.
Import ListNotations.

(** The variable k of p is the count z ({z}), or the number x. *)
Definition holds_count (p : pd R) (k : string) (z : Z) : Prop := od_get (p_vals p) k = Some (VSet [SEint z]).
Definition holds_number (p : pd R) (k : string) (x : R) : Prop :=
  od_get (p_vals p) k = Some (VNum x) \/
  exists a, od_get (p_vals p) k = Some (VArr a) /\ shape a = [] /\ get a [] = x.

(** The counts of k in the samples add up to z. *)
Inductive counts_to (k : string) : list (pd R) -> Z -> Prop :=
| counts_nil : counts_to k [] 0
| counts_cons p z ps zs : holds_count p k z -> counts_to k ps zs -> counts_to k (p :: ps) (z + zs).

(** Samples over the same variables and on the same scale, those of cs being counts
    in all of them and the others numbers. *)
Definition samples {F : Fmt R} (args : list (pd R)) (marg cond cs : list string) (ps : pscale R) : Prop :=
  forall p, In p args -> valid_pd p [] /\ od_keys (p_marg p) = marg /\ od_keys (p_cond p) = cond /\ p_pscale p = ps /\
    (forall k, In k (marg ++ cond) -> In k cs -> exists z, holds_count p k z) /\
    (forall k, In k (marg ++ cond) -> ~ In k cs -> exists x, holds_number p k x).
