(** What looking up variables of a distribution should return. *)
From Coq Require Import String ZArith Reals Bool Arith List.
From Verif Require Import Base Num Tensor Names Distr PDModel LookupModel.
Import ListNotations.
Local Open Scope bool_scope.

Section Spec.
Implicit Type d : dist R.

(** k holds a column of values. *)
Definition is_column d (k : string) : bool :=
  match od_get (d_vals d) k with Some (VArr a) => negb (ndim a =? 0)%nat | _ => false end.

(** k and k' have the same axis number. *)
Definition same_axis d (k k' : string) : bool :=
  match od_get (d_dims d) k, od_get (d_dims d) k' with
  | Some (Some i), Some (Some j) => Z.eqb i j
  | _, _ => false
  end.

(** The columns asked for on the axis of k, in order. *)
Definition together d (keys : list string) (k : string) : list string :=
  filter (fun k' => mem_str k' keys && is_column d k' && same_axis d k k') (d_keylist d).

(** k is asked for, and is the first of the columns asked for on its axis, or is
    not a column. *)
Definition leads d (keys : list string) (k : string) : bool :=
  mem_str k keys && (negb (is_column d k) ||
    match together d keys k with k0 :: _ => String.eqb k0 k | [] => false end).

(** The values of k as a column, or as they are. *)
Definition column_value d (k : string) : value R :=
  match od_get (d_vals d) k with
  | Some (VArr a) => if is_column d k then VArr (of_list 0%R (to_list a)) else VArr a
  | Some v => v
  | None => VOther
  end.

(** What is returned for k and the columns on its axis. *)
Definition answer d (keys : list string) (k : string) : string * found R :=
  if is_column d k then
    match together d keys k with
    | _ :: _ :: _ => (join "," (together d keys k), Shared (map (column_value d) (together d keys k)))
    | _ => (k, Single (column_value d k))
    end
  else (k, Single (column_value d k)).

End Spec.
