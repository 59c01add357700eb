(** What users are told about mapped calls of expressions, independent of the
    loops that perform them. *)
From Coq Require Import String ZArith List.
From Verif Require Import Base ExprModel.
Import ListNotations.
Set Implicit Arguments.

Section Spec.
Context {V : Type} (sub : V -> V -> V).

(** Which keywords an entry of a mapping takes away, and the value it stands for.
    An 'order' entry for [k] takes [k]. *)
Definition order_uses (k j : string) : Prop := j = k.
Definition order_value (kw : odict V) (k : string) (v : V) : Prop := od_get kw k = Some v.

(** A 'delta' entry for [x'] takes [x'] and [x] and stands for their difference;
    any other takes itself. *)
Definition delta_uses (k j : string) : Prop := j = k \/ k = (j ++ "'")%string.
Definition delta_value (kw : odict V) (k : string) (v : V) : Prop :=
  (exists x v1 v0, k = (x ++ "'")%string /\ od_get kw k = Some v1 /\
                   od_get kw x = Some v0 /\ v = sub v1 v0)
  \/ ((forall x, k <> (x ++ "'")%string) /\ od_get kw k = Some v).

(** The call a mapping [m] promises for positional arguments [args] and keywords
    [kw]: the function gets [fargs] and [fkw]. *)
Record routed (uses : string -> string -> Prop) (value : odict V -> string -> V -> Prop)
    (m : mapping) (args : list (parg V)) (kw : odict V)
    (fargs : list (parg V)) (fkw : odict V) : Prop := {
  (* as many positional arguments as were given or are needed *)
  r_len : forall i, i < length fargs <->
            i < length args \/ exists k j, In (k, MInt (Z.of_nat j)) m /\ i <= j;
  (* a keyword mapped to an index is passed at that index *)
  r_pos : forall k i v, In (k, MInt (Z.of_nat i)) m -> value kw k v ->
            nth_error fargs i = Some (PVal v);
  (* the other positions hold what was passed, or None *)
  r_keep : forall i, i < length fargs -> (forall k, ~ In (k, MInt (Z.of_nat i)) m) ->
            nth_error fargs i = Some (nth i args PNone);
  (* a keyword mapped to a name is passed under that name *)
  r_new : forall k s v, In (k, MStr s) m -> value kw k v -> od_get fkw s = Some v;
  (* keywords that are taken are not passed on, unless as a new name *)
  r_gone : forall k t j, In (k, t) m -> uses k j -> (forall k', ~ In (k', MStr j) m) ->
            od_get fkw j = None;
  (* all others are passed untouched *)
  r_rest : forall j, (forall k, In k (od_keys m) -> ~ uses k j) ->
            (forall k', ~ In (k', MStr j) m) -> od_get fkw j = od_get kw j }.

(** Two entries of a mapping, the first listed before the second, that do not
    interfere: they take different keywords, they have different destinations,
    and the first does not write a keyword the second is still to take. *)
Definition apart (uses : string -> string -> Prop) (e1 e2 : string * mval) : Prop :=
  (forall j, uses (fst e1) j -> ~ uses (fst e2) j) /\
  (snd e1 = snd e2 -> snd e1 = MNone) /\
  (forall s, snd e1 = MStr s -> ~ uses (fst e2) s).

Definition no_interference (uses : string -> string -> Prop) (m : mapping) : Prop :=
  ForallOrdPairs (apart uses) m.

(** Positions are counted from the start. *)
Definition from_start (m : mapping) : Prop := forall k i, In (k, MInt i) m -> (0 <= i)%Z.

(** Everything a mapping takes is there. *)
Definition supplied (uses : string -> string -> Prop) (m : mapping) (kw : odict V) : Prop :=
  forall k j, In k (od_keys m) -> uses k j -> In j (od_keys kw).

(** A sole dictionary as positional argument stands for keywords. *)
Definition not_sole_dict (args : list (parg V)) : Prop := forall d, args <> [PDict d].

End Spec.

(** A mapping whose values are integers, None or strings, such that the integers have
    no gaps; they may start anywhere, and repeat. *)
Definition acceptable (m : mapping) : Prop :=
  (forall k, ~ In (k, MOther) m) /\
  forall k i k' j n, In (k, MInt i) m -> In (k', MInt j) m -> (i <= n <= j)%Z -> exists k'', In (k'', MInt n) m.
