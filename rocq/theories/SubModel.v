(** Model of subfield, __getitem__ and __call__ of probayes/field.py (class Field). *)
From Coq Require Import String Ascii ZArith Bool Arith List.
From Verif Require Import Base Num Tensor Names Distr VariableModel RVModel FieldModel RFModel.
Import ListNotations.
Set Implicit Arguments.
Local Open Scope bool_scope.

Section Sub.
Context {T : Type} {N : Num T} {F : Fmt T} {TR : Trunc T}.

(** What subfield accepts as a vertex; [VtOther] is any other object. *)
Inductive vertex : Type := VtName (k : string) | VtVar (v : fvar T) | VtField (f : field T) | VtOther.

(** The argument of subfield: one vertex, or a list or tuple of them. *)
Inductive vertices : Type := VxOne (v : vertex) | VxMany (l : list vertex).

(** field.py 615-624, the loop: Field has no method ret_vars. *)
Definition vertex_var (f : field T) (x : vertex) : result (fvar T) :=
  match x with
  | VtField _ => Err AttributeError
  | VtVar v => Ok v
  | VtName k => od_getR (fd_vars f) k
  | VtOther => Err TypeError
  end.

(** Field( *variables) (field.py 54-58, 92-104): a single Variable is passed on. *)
Definition field_of (vs : list (fvar T)) : result (field T) :=
  make_field false (match vs with [v] => AddOne (Some v) | _ => AddMany (map Some vs) end).

(** field.py 599-625, subfield: the result is always a Field, never an RF or SD. *)
Definition subfield (f : field T) (x : vertices) : result (field T) :=
  let l := match x with VxOne v => [v] | VxMany l => l end in
  let! vs := map_res (vertex_var f) l in
  field_of vs.

(** A key of __getitem__: an integer, a string, or something else (which must be
    hashable; it is never found). *)
Inductive fkey : Type := FkInt (i : Z) | FkStr (k : string) | FkOther.

(** field.py 665-671, __getitem__. *)
Definition f_getitem (f : field T) (k : fkey) : result (option (fvar T)) :=
  let by_name k := if mem_str k (fd_keys f) then let! v := od_getR (fd_vars f) k in Ok (Some v) else Ok None in
  match k with
  | FkInt i => match py_index (length (fd_keys f)) i with
               | Some j => match nth_error (fd_keys f) j with Some k => by_name k | None => Err IndexError end
               | None => Err IndexError
               end
  | FkStr k => by_name k
  | FkOther => Err KeyError
  end.

(** field.py 628-638, __call__ with a dictionary of values: None for a field
    without variables. *)
Definition f_call (f : field T) (values : odict (fentry T)) (r : nat -> rnd T) : result (option (dist T)) :=
  if nonempty f then
    let! vs := f_parse_args f values in
    let! (vals, dims) := f_evaluate f vs 0 r in
    let! d := make_dist (join "," (od_keys vals)) (out_vals vals) (Some (out_dims dims)) in
    Ok (Some d)
  else Ok None.

End Sub.
