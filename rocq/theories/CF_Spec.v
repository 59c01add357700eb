(** Notions used in the statements about conditional functions. *)
From Coq Require Import String Ascii ZArith Bool Arith List.
From Verif Require Import Base Num Tensor Names Names_Spec VariableModel FieldModel ExprModel CFModel.
Import ListNotations.
Set Implicit Arguments.

(** One conditional: the variables that come out and those it depends on. *)
Definition conditional : Type := (list string * list string)%type.
Definition outputs (e : conditional) : list string := fst e.
Definition inputs (e : conditional) : list string := snd e.

(** How it is written: "x,y": "z". *)
Definition written (es : list conditional) : odict string :=
  map (fun e => (join "," (outputs e), join "," (inputs e))) es.

(** Names can be told apart in such a list. *)
Definition nameable (l : list string) : Prop := l <> [] /\ forall k, In k l -> ~ occurs "," k.
Definition readable (es : list conditional) : Prop :=
  forall e, In e es -> nameable (outputs e) /\ nameable (inputs e).

(** The conditionals describe the variables: nothing but variables goes in, and what
    comes out are the variables, all of them; if there are several conditionals none
    feeds on what comes out of it. *)
Definition describe (es : list conditional) (names : list string) : Prop :=
  (forall e k, In e es -> In k (inputs e) -> In k names) /\
  (forall e k, 1 < length es -> In e es -> In k (inputs e) -> ~ In k (outputs e)) /\
  (forall k, In k names <-> exists e, In e es /\ In k (outputs e)).

(** No call among the operations on a conditional function that gets through. *)
Definition no_call {V} (multi : bool) (o : cop V) : Prop :=
  match o with OHandle _ _ => False | OCall _ _ => multi = true | _ => True end.
Definition asks_key {V} (o : cop V) : Prop := match o with OKey _ => True | _ => False end.

(** Nothing among the arguments or keywords of a call, or those stored, is called k. *)
Definition silent {V} (k : string) (args : list (parg V)) (kwds : odict V) : Prop :=
  ~ In k (od_keys kwds) /\ forall d, In (PDict d) args -> ~ In k (od_keys d).

(** The outcome of an evaluation: an exception, or the values it was given. *)
Definition draws_nothing {V} (vr : odict V * result (odict V)) : Prop :=
  (exists e, snd vr = Err e) \/ snd vr = Ok (fst vr).
Definition fails {V} (vr : odict V * result (odict V)) : Prop := exists e, snd vr = Err e.

(** n values taken t at a time take q rounds. *)
Definition rounds (n t q : nat) : Prop := 0 < q /\ (q - 1) * t < n /\ n <= q * t.

(** The name of a conditional function. *)
Definition marked (l : list string) : list string := map (fun k => k ++ "'")%string l.
Definition given_name (outs inps : list string) : string := (join "," outs ++ "|" ++ join "," inps)%string.
