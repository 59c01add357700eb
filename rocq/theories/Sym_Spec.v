(** Vocabulary of the properties of symbolic expressions. *)
From Coq Require Import String ZArith Bool Arith List Sorting.Sorted Sorting.Permutation.
From Verif Require Import Base Num Tensor Names SymModel.
Import ListNotations.

(** ** Names of arguments *)

(** What a part of a key is called. *)
Inductive part_called : xsub -> string -> Prop :=
| called_str s : part_called (SubStr s) s
| called_named s : part_called (SubNamed s) s.

(** What a key is called: lists of parts by their names joined by commas. *)
Inductive key_called : xkey -> string -> Prop :=
| called_plain s : key_called (XKStr s) s
| called_one x s : part_called x s -> key_called (XKOne x) s
| called_many l ss : Forall2 part_called l ss -> key_called (XKMany l) (join "," ss).

(** The remap renames the names it has, and no others. *)
Definition renamed_to (remap : odict string) (s s' : string) : Prop :=
  In (s, s') remap \/ (~ In s (od_keys remap) /\ s' = s).

(** The entries of the dictionaries passed, in order, under their names. *)
Inductive entries {V} (remap : odict string) : list (xarg V) -> list (string * V) -> Prop :=
| no_entries : entries remap [] []
| more_entries d ns args l :
    Forall2 (fun kv nv => exists s, key_called (fst kv) s /\ renamed_to remap s (fst nv) /\ snd nv = snd kv) d ns ->
    entries remap args l ->
    entries remap (XDict d :: args) (ns ++ l).

(** The last value given under a name. *)
Definition last_given {V} (l : list (string * V)) (n : string) (v : V) : Prop :=
  exists l1 l2, l = (l1 ++ (n, v) :: l2)%list /\ ~ In n (map fst l2).

(** ** Sorting *)

(** np.argsort: some order of the positions that sorts the values. *)
Definition sorting (argsort : list Z -> list nat) : Prop :=
  forall l, Permutation (argsort l) (seq 0 (length l)) /\
            StronglySorted (fun i j => (nth i l 0 <= nth j l 0)%Z) (argsort l).

(** The orders that are given. *)
Definition somes {A} (l : list (option A)) : list A := flat_map (fun o => match o with Some x => [x] | None => [] end) l.

(** From the least to the greatest, or the other way. *)
Definition along_order (reverse : bool) (x y : Z) : Prop := if reverse then (y <= x)%Z else (x <= y)%Z.

(** ** Expressions *)

Section Spec.
Context {T : Type} {N : Num T}.

(** The names of the symbols. *)
Definition symbols (e : sexpr T) : list string := map fst (se_syms e).

(** The value of the expression is determined by those of its symbols. *)
Definition determined (e : sexpr T) : Prop :=
  forall g h, (forall k, In k (symbols e) -> g k = h k) -> se_fun e g = se_fun e h.

(** sympy reads the name of every symbol as that symbol. *)
Definition readable (e : sexpr T) : Prop := Forall (fun s => snd s = true) (se_syms e).

(** The number a scalar stands for. *)
Definition number (v : xval T) : T :=
  match v with XNum x => x | XBool true => n1 | XBool false => n0 | XArr t => get t [] end.

Definition scalar (v : xval T) : Prop := match v with XArr _ => False | _ => True end.

(** The values of the symbols at a position of the result under broadcasting: scalars
    are the same everywhere, arrays are read at that position. *)
Definition at_place (kwds : odict (xval T)) (idx : list nat) (k : string) : T :=
  match od_get kwds k with
  | Some (XArr t) => get t (bcast_idx (shape t) idx)
  | Some v => number v
  | None => n0
  end.

(** The axes of an argument. *)
Definition axes (v : xval T) : list nat := match v with XArr t => shape t | _ => [] end.

Definition axes_of (kwds : odict (xval T)) (k : string) : list nat :=
  match od_get kwds k with Some v => axes v | None => [] end.

(** All the symbols are given scalars; one is given an array. *)
Definition scalars_for (e : sexpr T) (kwds : odict (xval T)) : Prop :=
  forall k, In k (symbols e) -> exists v, od_get kwds k = Some v /\ scalar v.
Definition array_for (e : sexpr T) (kwds : odict (xval T)) : Prop :=
  exists k t, In k (symbols e) /\ od_get kwds k = Some (XArr t).

(** One array, scalars for the other symbols. *)
Definition one_array (e : sexpr T) (kwds : odict (xval T)) (k : string) (t : tensor T) : Prop :=
  In k (symbols e) /\ od_get kwds k = Some (XArr t) /\
  forall k', In k' (symbols e) -> k' <> k -> exists v, od_get kwds k' = Some v /\ scalar v.

(** The first axis of an array with more than one value is the axis d. *)
Definition along (t : tensor T) (d : nat) : Prop :=
  d < length (shape t) /\ 1 < nth d (shape t) 0 /\ forall i, i < d -> nth i (shape t) 0 <= 1.

(** The i-th value of an array in the order of its values in memory. *)
Definition item (t : tensor T) (i : nat) : T := nth i (to_list t) n0.

(** Two values for two symbols. *)
Definition two (a b : string) (x y : T) (k : string) : T :=
  if String.eqb k a then x else if String.eqb k b then y else n0.

End Spec.

(** ** Inverses *)

(** The first of the expressions printed shortest. *)
Definition size_of {E} (repr : E -> string) (x : E) : nat := String.length (repr x).
Definition first_shortest {E} (repr : E -> string) (l : list E) (x : E) : Prop :=
  exists l1 l2, l = (l1 ++ x :: l2)%list /\
    Forall (fun y => size_of repr x < size_of repr y) l1 /\ Forall (fun y => size_of repr x <= size_of repr y) l2.

(** ** Searching for a distribution *)

(** An object found by going down through arguments. *)
Inductive within : sobj -> sobj -> Prop :=
| within_self o : within o o
| within_arg cdf args x o : In x args -> within x o -> within (SObj cdf true args) o.

Definition has_cdf (o : sobj) : bool := match o with SObj c _ _ => c end.
