(** Notions used in the statements about fields. *)
From Coq Require Import String List Reals.
From Verif Require Import Base Num Tensor VariableModel FieldModel.
Import ListNotations.
Local Open Scope nat_scope.
Set Implicit Arguments.
Local Open Scope bool_scope.
Local Open Scope list_scope.

Section Spec.
Context {T : Type} {N : Num T} {TR : Trunc T}.

(** Variables are the same object iff they have the same identity. *)
Definition coherent (l : list (fvar T)) : Prop :=
  forall v w, In v l -> In w l -> fv_id v = fv_id w -> v = w.

(** All different objects, all with different names. *)
Definition distinct_objects (l : list (fvar T)) : Prop := NoDup (map (@fv_id T) l).
Definition distinct_names (l : list (fvar T)) : Prop := NoDup (map (@fv_name T) l).

(** Random variables go into random fields, plain ones into plain fields. *)
Definition allowed (stoch : bool) (l : list (fvar T)) : Prop := forall v, In v l -> fv_stoch v = stoch.

(** A field as its user sees it: its variables under their names. *)
Definition holds (f : field T) (l : list (fvar T)) : Prop :=
  fd_keys f = map (@fv_name T) l /\ fd_varlist f = l /\ fd_vars f = map (fun v => (fv_name v, v)) l.

(** The fields that constructors return and histories of add_var calls, failed ones
    included, make of them. *)
Definition reachable (f : field T) : Prop :=
  exists stoch a f0 l, make_field stoch a = Ok f0 /\ f = add_vars f0 l.

(** What a constructor returned, or a field after a successful addition. *)
Definition built (f : field T) : Prop :=
  (exists stoch a, make_field stoch a = Ok f) \/
  (exists f0 b, reachable f0 /\ add_var f0 b = (f, Ok tt)).

(** An operand of &: its variables by name. *)
Definition op_dict (o : operand T) : odict (fvar T) :=
  match o with OpVar v => [(fv_name v, v)] | OpField f => fd_vars f end.

Definition op_built (o : operand T) : Prop := match o with OpVar _ => True | OpField f => built f end.

End Spec.

(** The squared Euclidean norm of a vector. *)
Definition sumsq (l : list R) : R := fold_right (fun x s => x * x + s)%R 0%R l.

(** ** Evaluation *)
Section Eval.
Context {T : Type} {N : Num T} {TR : Trunc T}.

(** The dictionary [values] gives variable [k] the value [v], under the key [o]
    (its own name, or a shared key such as "x,y"). *)
Definition gives (values : odict (fentry T)) (o k : string) (v : fval T) : Prop :=
  (o = k /\ shared o = false /\ In (o, One v) values) \/
  (shared o = true /\ exists i l, In (o, Many l) values /\
     nth_error (subkeys o) i = Some k /\ nth_error l i = Some v).

(** Every variable is given exactly one value. *)
Definition covers (values : odict (fentry T)) (keys : list string) : Prop :=
  NoDup keys /\ (forall k, In k keys -> shared k = false) /\
  NoDup (flat_map subkeys (od_keys values)) /\
  (forall k, In k (flat_map subkeys (od_keys values)) <-> In k keys) /\
  (forall o e, In (o, e) values ->
     match e with
     | One _ => shared o = false
     | Many l => shared o = true /\ length l = length (subkeys o)
     end).

(** The key under which a variable is given its value. *)
Definition owner (values : odict (fentry T)) (k : string) : option string :=
  find (fun o => mem_str k (subkeys o)) (od_keys values).

(** Keys that need an axis: shared ones, and those with a value that is neither a
    number nor the set {0}. *)
Definition needs_axis (values : odict (fentry T)) (o : string) : bool :=
  match od_get values o with
  | Some (One v) => negb (dimensionless v)
  | Some (Many _) => true
  | None => false
  end.

(** The keys that need an axis, in the order in which the field's variables first
    mention them. *)
Definition axes (values : odict (fentry T)) (keys : list string) : list string :=
  fold_left (fun acc k =>
    match owner values k with
    | Some o => if needs_axis values o && negb (mem_str o acc) then acc ++ [o] else acc
    | None => acc
    end) keys [].

(** Members of shared keys are arrays. *)
Definition arrays_shared (values : odict (fentry T)) : Prop :=
  forall o k x, gives values o k x -> shared o = true -> dimensionless x = false.

(** Variable [k], whose values are [A k], is evaluated to [a] with dimension [d]:
    either a scalar without axis, or on the axis of the key that holds it, among
    those of all the keys that need one, after [m] axes left free. *)
Definition placed (values : odict (fentry T)) (keys : list string) (m : nat)
    (A : string -> tensor (pyval T)) (k : string) (a : tensor (pyval T)) (d : option nat) : Prop :=
  (shape (A k) = [] /\ a = A k /\ d = None) \/
  (shape (A k) <> [] /\ exists o i, owner values k = Some o /\ nth_error (axes values keys) i = Some o /\
     d = Some (m + i) /\ shape a = set_nth (m + i) (tsize (A k)) (repeat 1 (m + length (axes values keys)))).

(** The step a number x gives the variable named in [kl] with length [snd kl]. *)
Definition step_of (un : odict T) (scale : bool) (x : T) (kl : string * T) : delta T :=
  DDelta (PF (match od_get un (fst kl) with Some y => y | None => if scale then n_mul x (snd kl) else x end)).

End Eval.

(** Distinct variables with the given lengths, and a draw that is not zero. *)
Definition sphere_ok (f : field R) (lens u : list R) : Prop :=
  NoDup (fd_keys f) /\ fd_keys f <> [] /\ length lens = length (fd_keys f) /\
  length u = length (fd_keys f) /\ exists y, In y u /\ y <> 0%R.

Definition prods (u lens : list R) : list R := map (fun p => fst p * snd p)%R (combine u lens).
