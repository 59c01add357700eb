(** Notions used in the statements about names, symbols and Deltas. *)
From Coq Require Import String Ascii Bool List.
From Verif Require Import Base IdentModel.
Import ListNotations.
Set Implicit Arguments.

(** Names a field of a tuple can have. *)
Definition letters : list ascii := list_ascii_of_string "abcdefghijklmnopqrstuvwxyzABCDEFGHIJKLMNOPQRSTUVWXYZ".
Definition digits : list ascii := list_ascii_of_string "0123456789".
(** The words Python reserves: constants, operators, branches and loops, definitions,
    exceptions, names. *)
Definition reserved : list string :=
  ["None"; "True"; "False"; "and"; "or"; "not"; "in"; "is"; "if"; "elif"; "else"; "while"; "for"; "break"; "continue"; "pass";
   "def"; "class"; "lambda"; "return"; "yield"; "async"; "await"; "with"; "as"; "try"; "except"; "finally"; "raise"; "assert";
   "import"; "from"; "global"; "nonlocal"; "del"]%string.
Definition fit (n : string) : Prop :=
  exists c rest, n = String c rest /\ In c letters /\
  (forall x, In x (list_ascii_of_string rest) -> In x letters \/ In x digits \/ x = "_"%char) /\ ~ In n reserved.

Section Spec.
Context {S M : Type}.

(** A call that concerns variable i. *)
Definition renames (i : nat) (e : step S) : Prop := exists n, e = Rename i n.
Definition renames_well (i : nat) (e : step S) : Prop := exists n, e = Rename i n /\ fit n.
Definition sets_icon (i : nat) (e : step S) : Prop := exists a, e = SetIcon i a.
Definition sets_dexpr (i : nat) (e : step S) : Prop := exists x, e = SetDexpr i x.

(** The variable is there. *)
Definition the_var (w : world S M) (i : nat) (v : ident S M) : Prop := nth_error (w_vars w) i = Some v.

(** No expression that counts as true is assigned. *)
Definition plain (truth : S -> bool) (v : ident S M) : Prop := forall e, i_dexpr v = Some e -> truth e = false.
End Spec.
