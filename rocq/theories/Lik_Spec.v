(** Specification vocabulary for the likelihood utilities. *)
From Coq Require Import String ZArith Reals Bool Arith List.
From Verif Require Import Base Num Tensor Likelihoods.
Import ListNotations.

(** The number written in binary, most significant digit first. *)
Definition bits_value (l : list bool) : Z :=
  fold_left (fun acc (b : bool) => (2 * acc + (if b then 1 else 0))%Z) l 0%Z.

(** All boolean combinations of a given length. *)
Fixpoint all_bools (n : nat) : list (list bool) :=
  match n with
  | 0 => [[]]
  | S n' => map (cons false) (all_bools n') ++ map (cons true) (all_bools n')
  end.

(** False is at position 0 of an axis and True at position 1. *)
Definition position (row : list bool) : list nat := map (fun b : bool => if b then 1 else 0) row.

(** How many rows of the table equal a combination. *)
Definition occurrences (rows : list (list bool)) (c : list bool) : nat :=
  count_occ (list_eq_dec bool_dec) rows c.

Definition Rsum_over {A} (f : A -> R) (l : list A) : R := fold_right (fun a s => (f a + s)%R) 0%R l.

(** ** Calls of the likelihood function *)

(** A request gives for every label either a value, or asks for the axis of both
    values ([None]). *)
Definition asked (req : list (option bool)) : nat :=
  length (filter (fun o => match o with None => true | Some _ => false end) req).

(** An axis of both truth values, number i of m. *)
Definition both (m i : nat) : tensor bool :=
  mkT (set_nth i 2 (repeat 1 m)) (fun idx => Nat.eqb (nth i idx 0) 1).

(** The arguments of the call: axes numbered in the order of the labels. *)
Fixpoint req_spec (labels : list string) (req : list (option bool)) (m r : nat) : odict (sval bool) :=
  match labels, req with
  | l :: ls, Some b :: req' => (l, SScalar b) :: req_spec ls req' m r
  | l :: ls, None :: req' => (l, SArray (both m r)) :: req_spec ls req' m (S r)
  | _, _ => []
  end.

Fixpoint req_dims (labels : list string) (req : list (option bool)) (r : nat) : odict (option nat) :=
  match labels, req with
  | l :: ls, Some b :: req' => (l, None) :: req_dims ls req' r
  | l :: ls, None :: req' => (l, Some r) :: req_dims ls req' (S r)
  | _, _ => []
  end.

(** The combination meant by a position of the result. *)
Fixpoint fill (req : list (option bool)) (idx : list nat) : list bool :=
  match req with
  | [] => []
  | Some b :: req' => b :: fill req' idx
  | None :: req' => Nat.eqb (hd 0 idx) 1 :: fill req' (tl idx)
  end.
