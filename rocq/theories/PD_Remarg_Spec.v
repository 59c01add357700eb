(** Specification vocabulary for the redistribution of probabilities over a grid. *)
From Coq Require Import String ZArith Reals Bool Arith List.
From Verif Require Import Base Num Tensor PScales PScales_Spec Names_Spec Distr PDModel PD_Spec PD_Simple_Spec.
Import ListNotations.
Local Open Scope R_scope.

Definition ascending (l : list R) : Prop := forall i j, (i < j < length l)%nat -> nth i l 0 <= nth j l 0.
Definition descending (l : list R) : Prop := forall i j, (i < j < length l)%nat -> nth j l 0 <= nth i l 0.

(** x belongs to the i-th cell of the edges l: it lies between the i-th edge and the
    next one, the cells at the ends being open-ended. *)
Definition in_cell (l : list R) (x : R) (i : nat) : Prop :=
  (i < length l)%nat /\
  ((ascending l /\ (i = 0%nat \/ nth i l 0 <= x) /\ (S i = length l \/ x < nth (S i) l 0)) \/
   (~ ascending l /\ descending l /\ (i = 0%nat \/ x < nth i l 0) /\ (S i = length l \/ nth (S i) l 0 <= x))).

Section Spec.
Context {F : Fmt R}.

(** A distribution of values (without probabilities) whose columns are those of G, each
    along its own axis and with ordered values; all names are plain. *)
Record grid (d : dist R) (G : list string) : Prop := {
  g_keys : NoDup (od_keys (d_vals d));
  g_some : d_vals d <> [];
  g_plain : forall k, In k (od_keys (d_vals d)) -> simple_key k /\ ~ In k ["attrs"; "prob"; "pscale"]%string;
  g_axes : NoDup G;
  g_incl : incl G (od_keys (d_vals d));
  g_dims : incl (od_keys (d_dims d)) (od_keys (d_vals d)) /\ NoDup (od_keys (d_dims d));
  g_scalar : forall k v, od_get (d_vals d) k = Some v -> ~ In k G ->
     issingleton v = true /\ od_get (d_dims d) k = Some None /\ good_entry (k ++ "=" ++ fmt_value v)%string;
  g_column : forall j k, nth_error G j = Some k -> exists a, od_get (d_vals d) k = Some (VArr a) /\
     shape a <> [] /\ tsize a = list_max (shape a) /\ (0 < tsize a)%nat /\
     od_get (d_dims d) k = Some (Some (Z.of_nat j)) /\ nth_error (d_shape d) j = Some (tsize a) /\
     (ascending (to_list a) \/ descending (to_list a));
  g_shape : length (d_shape d) = length G
}.

(** The values of a column of the grid. *)
Definition edges (d : dist R) (k : string) : list R :=
  match od_get (d_vals d) k with Some (VArr a) => to_list a | _ => [] end.

(** The value assigned to the position b of p for the variable k of the grid. *)
Definition assigned (vals : odict (tensor R)) (L : list string) (k : string) (b : assignment) : R :=
  match od_get vals k with Some v => get v (map b L) | None => 0 end.
End Spec.
