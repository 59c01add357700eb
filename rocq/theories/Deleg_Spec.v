(** What the theorems about delegation say, in terms of the calls made. *)
From Coq Require Import String Bool List.
From Verif Require Import Base DelegModel.
Import ListNotations.
Set Implicit Arguments.

Section Spec.
Context {A : Type}.

(** A call on the process that names its sub-field b, by itself or as a string. *)
Inductive names : event A -> sub -> Prop :=
| names_itself k b : names (Set_ k (DSub b)) b
| names_leafs k : names (Set_ k (DStr "leafs")) Leafs
| names_roots k : names (Set_ k (DStr "roots")) Roots.

(** A call of a setter of the process without argument. *)
Definition empty_call (e : event A) : Prop := exists k, e = Set_ k DNone.

(** A call that sets a function on the process. *)
Definition own_call (e : event A) : Prop := exists k f, e = Set_ k (DFun f).

(** A call on one of the sub-fields. *)
Definition sub_call (e : event A) : Prop := exists k b f, e = SubSet k b f.

(** The process has the sub-field. *)
Definition has (d : dstate A) (b : sub) : Prop := b = Roots -> d_roots d <> None.

(** No call of the history raises. *)
Fixpoint accepted (d : dstate A) (h : list (event A)) : Prop :=
  match h with
  | [] => True
  | e :: h' => raised d e = None /\ accepted (happen d e) h'
  end.

Definition both_set (s : settings A) : Prop := s_prop s <> None /\ s_tran s <> None.

(** The attribute a setter is about, and setters that are about the same. *)
Definition attribute (k : setter) (s : settings A) : option (setting A) :=
  match k with KProp => s_prop s | KTran _ => s_tran s | KTfun => s_tfun s | KDelta => s_delta s end.
Definition alike (k k' : setter) : Prop :=
  match k, k' with KProp, KProp | KTran _, KTran _ | KTfun, KTfun | KDelta, KDelta => True | _, _ => False end.
(** The setter that a call names a sub-field for. *)
Definition called (e : event A) : setter := match e with Set_ k _ => k | SubSet k _ _ => k end.

(** A function was given to the process by the setter. *)
Definition was_set (k : setter) (h : list (event A)) : Prop := exists k' f, alike k k' /\ In (Set_ k' (DFun f)) h.

(** A call that sets a transition on the process. *)
Definition sets_tran (e : event A) : Prop := exists m f, e = Set_ (KTran m) (DFun f).

(** The same variables by name. *)
Definition same_names (x y : fobj) : Prop := forall k, In k (map fst (o_vars x)) <-> In k (map fst (o_vars y)).
End Spec.
