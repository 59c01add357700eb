(** Notions used in the statements about dependences. *)
From Coq Require Import String List.
From Verif Require Import Base Num Tensor VariableModel FieldModel Field_Spec DependenceModel.
Import ListNotations.
Set Implicit Arguments.
Local Open Scope list_scope.

Section Spec.
Context {T : Type} {N : Num T} {TR : Trunc T}.

(** Variables are objects: [w] says which object each identity stands for. *)
Definition belongs (w : nat -> fvar T) (v : fvar T) : Prop := w (fv_id v) = v.

(** The arguments of & and | that programs can build: variables, fields, and
    whatever the constructor of dependences returned for such arguments. *)
Inductive built_arg (w : nat -> fvar T) : darg T -> Prop :=
| built_var : forall v, belongs w v -> built_arg w (AVar v)
| built_field : forall f, built f -> Forall (belongs w) (fd_varlist f) -> built_arg w (AField f)
| built_dep : forall stoch args d, args <> [] -> (forall a, In a args -> built_arg w a) ->
    make_dep stoch args = Ok d -> built_arg w (ADep d).

(** The variables of a variable or field. *)
Definition arg_vars (a : darg T) : list (fvar T) :=
  match a with AVar v => [v] | AField f => fd_varlist f | ADep _ => [] end.

Definition is_plain (a : darg T) : Prop := match a with ADep _ => False | _ => True end.

(** Arcs go from a variable to the variables that depend on it. *)
Definition arc (d : dep T) (v u : fvar T) : Prop := In (v, u) (dp_edges d).
Definition outgoing (d : dep T) (v : fvar T) : Prop := exists u, arc d v u.
Definition incoming (d : dep T) (v : fvar T) : Prop := exists u, arc d u v.

(** The three classes, as the properties leafs, stems and roots show them. *)
Definition is_leaf (d : dep T) (v : fvar T) : Prop := In v (fd_varlist (dp_leafs d)).
Definition is_stem (d : dep T) (v : fvar T) : Prop := In v (od_vals (dp_stems d)).
Definition is_root (d : dep T) (v : fvar T) : Prop :=
  match dp_roots d with Some r => In v (fd_varlist r) | None => False end.
Definition is_pred (d : dep T) (v : fvar T) : Prop :=
  match dp_preds d with Some r => In v (fd_varlist r) | None => False end.

(** Each variable is in the class that its arcs say, and in no other. *)
Definition classified (d : dep T) : Prop :=
  forall v, In v (dp_nodes d) ->
    (is_leaf d v <-> ~ outgoing d v) /\
    (is_stem d v <-> outgoing d v /\ incoming d v) /\
    (is_root d v <-> outgoing d v /\ ~ incoming d v).

(** The predecessors are the variables with an arc to a leaf. *)
Definition preds_right (d : dep T) : Prop :=
  forall v, is_pred d v <-> exists u, is_leaf d u /\ arc d v u.

Definition disjoint (l m : list (fvar T)) : Prop := forall v, In v l -> ~ In v m.

End Spec.
