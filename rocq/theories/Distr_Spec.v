(** When values and dims describe a Distribution, and which one. *)
From Coq Require Import String ZArith Bool Arith List.
From Verif Require Import Base Num Tensor Distr.
Import ListNotations.

Section Spec.
Context {T : Type}.
Implicit Types (v : value T) (a : tensor T) (vals : odict (value T)) (dims : odict (option Z)).

(** Values without an axis: numbers, strings, counted values ({n}), and {None}. *)
Definition scalar_value v : Prop := issingleton v = true \/ v = VSet [SEnone].

(** The value kept: {None} becomes {0}. *)
Definition kept v : value T := match v with VSet [SEnone] => VSet [SEint 0] | _ => v end.

(** Arrays whose values all lie along one axis. *)
Definition one_axis a : Prop := shape a <> [] /\ tsize a = list_max (shape a).

(** The number of axes dims speaks of: one more than the largest one. *)
Definition naxes dims (n : nat) : Prop :=
  (forall k d, In (k, Some d) dims -> (d < Z.of_nat n)%Z) /\
  (n = 0 \/ exists k d, In (k, Some d) dims /\ (d + 1 = Z.of_nat n)%Z).

(** dims puts k on axis j of n; as always in Python axis -1 is the last one. *)
Definition on_axis (n : nat) dims (k : string) (j : nat) : Prop :=
  exists d, od_get dims k = Some (Some d) /\
    ((0 <= d)%Z /\ d = Z.of_nat j \/ (d < 0)%Z /\ (d + Z.of_nat n)%Z = Z.of_nat j) /\ j < n.

Definition no_axis dims (k : string) : Prop := od_get dims k = None \/ od_get dims k = Some None.

(** A column held for k. *)
Definition column vals (k : string) a : Prop := od_get vals k = Some (VArr a) /\ one_axis a.

(** Names are not reserved, scalars have no axis, everything else is a column with
    an axis, and no axis is without column. *)
Definition describes vals dims (n : nat) : Prop :=
  (forall k, In k (od_keys vals) -> ~ In k ["attrs"; "prob"; "pscale"]%string) /\
  (forall k v, od_get vals k = Some v ->
     scalar_value v /\ no_axis dims k \/ exists a j, column vals k a /\ on_axis n dims k j) /\
  (forall j, j < n -> exists k a, column vals k a /\ on_axis n dims k j).

(** The column along axis j of n: ones elsewhere. *)
Definition along (n j size : nat) : list nat := repeat 1 j ++ size :: repeat 1 (n - S j).

(** k comes after k' in the order of the values. *)
Definition after vals (k k' : string) : Prop :=
  exists l m r, od_keys vals = l ++ k' :: m ++ k :: r.

(** The variables that hold columns, in the order of the values. *)
Definition columns vals : list string :=
  map fst (filter (fun kv => match snd kv with VArr a => negb (ndim a =? 0) | _ => false end) vals).

End Spec.
