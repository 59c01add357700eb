(** What iterating over a list of dictionaries is to mean. *)
From Coq Require Import String List.
From Verif Require Import Base.
Import ListNotations.

Section Spec.
Context {V : Type}.

(** An order of all the keys there are. *)
Definition orders (dicts : list (odict V)) (order : list string) : Prop :=
  NoDup order /\ forall k, In k order <-> exists d, In d dicts /\ In k (od_keys d).

(** The values under k of the dictionaries that have it, in their order. *)
Inductive gathered (k : string) : list (odict V) -> list V -> Prop :=
| g_nil : gathered k [] []
| g_has d v ds vs : od_get d k = Some v -> gathered k ds vs -> gathered k (d :: ds) (v :: vs)
| g_not d ds vs : ~ In k (od_keys d) -> gathered k ds vs -> gathered k (d :: ds) vs.

(** No dictionary has a key that one before it lacks. *)
Definition no_gaps (dicts : list (odict V)) : Prop :=
  forall k i j d d', i <= j -> nth_error dicts i = Some d -> nth_error dicts j = Some d' -> In k (od_keys d') -> In k (od_keys d).
End Spec.
