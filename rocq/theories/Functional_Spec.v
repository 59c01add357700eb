(** Notions used in the statements about functionals. *)
From Coq Require Import String List.
From Verif Require Import Base ExprModel FunctionalModel.
Import ListNotations.
Set Implicit Arguments.

(** The functional over the named output and input variables after a history of
    add_func calls, some of which may have raised. *)
Definition after {V} (out inp : list string) (cargs : list (parg V)) (ckw : odict V)
    (l : list (fspecn * fgiven V)) : functional V :=
  add_all (make_functional out inp cargs ckw) l.

(** A set of outputs has been registered. *)
Definition registered {V} (f : functional V) (out : list string) : Prop :=
  exists o i, In (o, i) (fl_deps f) /\ (forall s, In s o <-> In s out).

(** The inputs of a functional: those of the input graph, or else of the output
    graph. *)
Definition inputs (out inp : list string) : list string := match inp with [] => out | _ => inp end.

(** add_func raises. *)
Definition raises {V} (f : functional V) (spec : fspecn) (g : fgiven V) : Prop :=
  exists e, snd (add_func f spec g) = Err e.

(** No further function can ever be added, whatever is tried. *)
Definition closed_forever {V} (f : functional V) : Prop :=
  forall l spec g, raises (add_all f l) spec g.
