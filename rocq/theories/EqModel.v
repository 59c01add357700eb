(** Model of p == q for distributions: PD, Distribution and NamedDict (probayes/pd.py,
    distribution.py, named_dict.py 6-29) define no __eq__, so that it is the one of
    collections.OrderedDict. *)
From Coq Require Import String ZArith Bool Arith List.
From Verif Require Import Base Num Tensor PScales Names Distr PDModel.
Import ListNotations.

Section Eq.
Context {T : Type} {N : Num T}.

(** bool(v == w) for values (distribution.py 16-27): numbers, strings and arrays of the
    same shape.  The truth of an array is that of its element, False if it has none, and a
    ValueError if it has several.  SIMPLIFICATION: values of different kinds, sets, and
    arrays of different shapes are compared by an arbitrary function. *)
Definition value_eq (other : value T -> value T -> result bool) (v w : value T) : result bool :=
  match v, w with
  | VNum x, VNum y => Ok (n_eqb x y)
  | VStr s, VStr t => Ok (String.eqb s t)
  | VArr a, VArr b =>
      if list_eqb Nat.eqb (shape a) (shape b)
      then match to_list a, to_list b with
           | [], [] => Ok false
           | [x], [y] => Ok (n_eqb x y)
           | _, _ => Err ValueError
           end
      else other v w
  | _, _ => other v w
  end.

(** dict.__eq__ after comparison of the lengths: the items of the first in order; values
    that are the same object (same) are equal. *)
Fixpoint items_eq (other : value T -> value T -> result bool) (same : string -> bool)
    (l m : odict (value T)) : result bool :=
  match l with
  | [] => Ok true
  | (k, v) :: l' =>
      match od_get m k with
      | None => Ok false
      | Some w => let! b := if same k then Ok true else value_eq other v w in
                  if b then items_eq other same l' m else Ok false
      end
  end.

(** OrderedDict.__eq__ (of named_dict.py 6): dict.__eq__, then the order of the keys. *)
Definition pd_eq (other : value T -> value T -> result bool) (same : string -> bool) (p q : pd T) : result bool :=
  if length (p_vals p) =? length (p_vals q)
  then let! b := items_eq other same (p_vals p) (p_vals q) in
       Ok (b && list_eqb String.eqb (p_keylist p) (p_keylist q))
  else Ok false.

End Eq.
