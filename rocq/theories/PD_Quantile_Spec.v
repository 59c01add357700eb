(** Specification vocabulary for quantiles. *)
From Coq Require Import String ZArith Reals Bool Arith List.
From Verif Require Import Base Num Tensor PScales PScales_Spec Distr PDModel PD_Spec PD_Remarg_Spec.
Import ListNotations.
Local Open Scope R_scope.

(** Cells of a table in row-major order: the last variable changes fastest. *)
Fixpoint number (ks : list (string * nat)) : nat :=
  match ks with [] => 1%nat | (_, n) :: ks' => (n * number ks')%nat end.

Fixpoint nth_cell (ks : list (string * nat)) (r : nat) : assignment :=
  match ks with
  | [] => fun _ => 0%nat
  | (k, _) :: ks' => upd (nth_cell ks' (r mod number ks')) k (r / number ks')
  end.

(** Columns sorted one way or the other (a descending one without repeats).  A
    column of a single value does not count as sorted. *)
Definition sorted_column (l : list R) : Prop :=
  (1 < length l)%nat /\
  (ascending l \/ forall i j, (i < j < length l)%nat -> nth j l 0 < nth i l 0).

Section Spec.
Context {F : Fmt R}.
Variables (p : pd R) (L : list string).

Definition cells : nat := number (sized p L).
Definition cell (r : nat) : assignment := nth_cell (sized p L) r.
Definition mass (r : nat) : R := prob_at p L (cell r).

(** The probability of all cells up to the r-th, itself included. *)
Definition mass_to (r : nat) : R := sum_n (S r) mass.

(** The r-th cell is the last one up to which the share of the total probability is
    at most q (the first one if there is none such). *)
Definition quantile_cell (q : R) (r : nat) : Prop :=
  (r < cells)%nat /\ (r = 0%nat \/ mass_to r <= q * total p L) /\
  forall i, (r < i < cells)%nat -> q * total p L < mass_to i.

(** k lies along the last axis. *)
Definition last_axis (k : string) : Prop := exists L', L = (L' ++ [k])%list.

(** The quantile of column k with values l: that of the cell, except along the last
    axis, where there is a following value: this is interpolated by the share of the
    probability of the following cell if the probabilities of both cells (as they are,
    not normalised) are closer than q and 1 - q are, and otherwise averaged with the
    following value by probability, whatever q. *)
Definition quantile_is (q : R) (r : nat) (k : string) (l : list R) (x : R) : Prop :=
  let i := cell r k in
  let v0 := nth i l 0 in
  let v1 := nth (S i) l 0 in
  (~ last_axis k \/ S i = length l -> x = v0) /\
  (last_axis k -> (S i < length l)%nat ->
     (Rabs (mass (S r) - mass r) < Rmin q (1 - q) ->
        (q * total p L < mass_to r -> x = v0) /\
        (mass_to r <= q * total p L -> x = v0 + (q * total p L - mass_to r) / mass (S r) * (v1 - v0))) /\
     (Rmin q (1 - q) <= Rabs (mass (S r) - mass r) ->
        x = (mass r * v0 + mass (S r) * v1) / (mass r + mass (S r)))).
(** All variables: scalars as they are, sorted columns their quantile, and any other
    column a set which holds the number of its values. *)
Definition quantile_dict (q : R) (r : nat) (d : odict (value R)) : Prop :=
  od_keys d = p_keylist p /\
  (forall k v, variable p k = Some (Scal v) -> od_get d k = Some v) /\
  (forall k l, variable p k = Some (Col l) -> sorted_column l -> exists x, od_get d k = Some (VNum x) /\ quantile_is q r k l x) /\
  (forall k l, variable p k = Some (Col l) -> ~ sorted_column l -> od_get d k = Some (VSet [SEint (Z.of_nat (length l))])).
End Spec.

(** Probabilities that can be summed and normalised. *)
Definition summable {F : Fmt R} (p : pd R) (L : list string) : Prop :=
  valid_pd p L /\ fine_scale p /\ L <> [] /\ (forall b, in_bounds p L b -> 0 <= prob_at p L b) /\
  (log_scaled p -> forall b, in_bounds p L b -> prob_at p L b <= npi) /\ npz <= total p L.

(** From one cell to the next probabilities differ by less than q and 1 - q. *)
Definition gentle (p : pd R) (L : list string) (q : R) : Prop :=
  forall i, (S i < cells p L)%nat -> Rabs (mass p L (S i) - mass p L i) < Rmin q (1 - q).
