(** Model of the settings of proposals and transitions of random fields and of
    stochastic dependences and processes, and of the delegation to their leafs and
    roots: set_prop, set_tran, set_tfun and set_delta of RF (probayes/rf.py), SD
    (probayes/sd.py) and Dependence (probayes/dependence.py), and which of the
    objects propose, step and sample then use.

    Functions are any values of a type A.  Not modelled: settings other than
    functions and pairs of functions (matrices, numbers, scipy objects; their own
    models are RFModel, GibbsModel and CFModel), the keyword tsteps, what propose and
    step return (RFModel, ChainModel, OmcModel), further arguments. *)
From Coq Require Import String Bool List.
From Verif Require Import Base.
Import ListNotations.
Set Implicit Arguments.
Local Open Scope bool_scope.

Section Deleg.
Context {A : Type}.

(** A setting: as it was handed over, or wrapped (in Expression, Prob or CF). *)
Inductive setting : Type := Raw (f : A) | Wrapped (f : A).

(** The settings of one object, and whether any of its variables is random. *)
Record settings : Type := mkSet {
  s_prop : option setting;
  s_tran : option setting;
  s_tfun : option setting;
  s_delta : option setting;
  s_sym : bool;             (* _sym_tran, None and False alike *)
  s_stoch : bool
}.

(** A call changes the object and returns or raises. *)
Definition outcome (S : Type) : Type := (S * option exn)%type.

Definition with_prop (s : settings) (p : option setting) : settings :=
  mkSet p (s_tran s) (s_tfun s) (s_delta s) (s_sym s) (s_stoch s).
Definition with_tran (s : settings) (t : option setting) (sym : bool) : settings :=
  mkSet (s_prop s) t (s_tfun s) (s_delta s) sym (s_stoch s).
Definition with_tfun (s : settings) (t : option setting) : settings :=
  mkSet (s_prop s) (s_tran s) t (s_delta s) (s_sym s) (s_stoch s).
Definition with_delta (s : settings) (d : option setting) : settings :=
  mkSet (s_prop s) (s_tran s) (s_tfun s) d (s_sym s) (s_stoch s).

Definition is_set (o : option setting) : bool := match o with Some _ => true | None => false end.

(** rf.py 146-160, set_prop: the attribute is set before anything is checked. *)
Definition rf_set_prop (s : settings) (f : option A) : outcome settings :=
  match f with
  | None => (with_prop s None, None)
  | Some f =>
      let s' := with_prop s (Some (Raw f)) in
      if negb (s_stoch s) then (s', Some AssertionError)
      else if is_set (s_tran s) then (s', Some AssertionError)
      else (with_prop s (Some (Wrapped f)), None)
  end.

(** rf.py 169-240, set_tran of a function or of a pair of functions ([multi]). *)
Definition rf_set_tran (s : settings) (f : option A) (multi : bool) : outcome settings :=
  match f with
  | None => (with_tran s None false, None)
  | Some f =>
      let s' := with_tran s (Some (Raw f)) false in
      if negb (s_stoch s) then (s', Some AssertionError)
      else if is_set (s_prop s) then (s', Some AssertionError)
      else (with_tran s (Some (Wrapped f)) (negb multi), None)
  end.

(** rf.py 247-303, set_tfun of a function. *)
Definition rf_set_tfun (s : settings) (f : option A) : outcome settings :=
  match f with
  | None => (with_tfun s None, None)
  | Some f => (with_tfun s (Some (Wrapped f)), None)
  end.

(** field.py 220-253, set_delta of a function. *)
Definition fd_set_delta (s : settings) (f : option A) : outcome settings :=
  match f with
  | None => (with_delta s None, None)
  | Some f => (with_delta s (Some (Wrapped f)), None)
  end.

(** The four setters. *)
Inductive setter : Type := KProp | KTran (multi : bool) | KTfun | KDelta.
Definition rf_set (k : setter) (s : settings) (f : option A) : outcome settings :=
  match k with
  | KProp => rf_set_prop s f
  | KTran multi => rf_set_tran s f multi
  | KTfun => rf_set_tfun s f
  | KDelta => fd_set_delta s f
  end.

(** What a field's proposal distribution is evaluated with (rf.py 583-602 propose,
    357-366 eval_prop): its probability, its proposal function, or its transition. *)
Inductive source : Type := ByProb | ByProp (f : A) | ByTran (f : A).
Definition proposes_by (s : settings) : result source :=
  match s_prop s with
  | None => Ok ByProb
  | Some p =>
      match s_tran s with
      | Some (Wrapped g) => Ok (ByTran g)
      | Some (Raw _) => Err AttributeError    (* a function has no attribute callable *)
      | None => match p with Wrapped f => Ok (ByProp f) | Raw _ => Err AttributeError end
      end
  end.

(** ** Dependences *)

Inductive sub : Type := Leafs | Roots.

(** _prop_obj: None, a sub-field, or (after a call without argument) the dictionary of
    the sub-fields. *)
Inductive pobj : Type := PNone | PSub (b : sub) | PDict.

Record dstate : Type := mkDS {
  d_own : settings;
  d_leafs : settings;
  d_roots : option settings;
  d_pobj : pobj;
  d_unit : bool             (* _unit_tran: one variable, with a transition of its own *)
}.

Definition has_sub (d : dstate) (b : sub) : option settings :=
  match b with Leafs => Some (d_leafs d) | Roots => d_roots d end.

(** What the setters may be called with: nothing, a string, one of the sub-fields
    (or any field of the same variables: RF.__eq__), a function. *)
Inductive darg : Type := DNone | DStr (s : string) | DSub (b : sub) | DFun (f : A).

(** What leafs_roots returns: the dictionary, False, or a sub-field. *)
Inductive lr : Type := LDict | LFalse | LSub (b : sub).

(** dependence.py 316-326, leafs_roots. *)
Definition leafs_roots (d : dstate) (g : darg) : result lr :=
  match g with
  | DNone => Ok LDict
  | DFun _ => Ok LFalse
  | DSub b => match has_sub d b with Some _ => Ok (LSub b) | None => Ok LFalse end
  | DStr s =>
      if String.eqb s "leafs" then Ok (LSub Leafs)
      else if String.eqb s "roots" then
        match d_roots d with Some _ => Ok (LSub Roots) | None => Err AssertionError end
      else Err AssertionError
  end.

Definition with_own (d : dstate) (s : settings) : dstate := mkDS s (d_leafs d) (d_roots d) (d_pobj d) (d_unit d).
Definition with_pobj (d : dstate) (p : pobj) : dstate := mkDS (d_own d) (d_leafs d) (d_roots d) p (d_unit d).

(** The attribute copied from the sub-field: sd.py 93, 104, 115, dependence.py 334. *)
Definition copy_of (k : setter) (own from : settings) : settings :=
  match k with
  | KProp => with_prop own (s_prop from)
  | KTran _ => with_tran own (s_tran from) (s_sym own)
  | KTfun => with_tfun own (s_tfun from)
  | KDelta => with_delta own (s_delta from)
  end.

(** sd.py 88-116 and dependence.py 328-340: the setters of a dependence.  Without
    argument, set_prop_obj (dependence.py 307-313) sets _prop_obj to the dictionary
    and then reads its attribute Delta. *)
Definition sd_set (k : setter) (d : dstate) (g : darg) : outcome dstate :=
  match leafs_roots d g with
  | Err e => (d, Some e)
  | Ok LDict => (with_pobj d PDict, Some AttributeError)
  | Ok LFalse =>
      match g with
      | DFun f => let '(s, e) := rf_set k (d_own d) (Some f) in (with_own d s, e)
      | _ => (d, Some TypeError)       (* a field that does not exist: cannot be written *)
      end
  | Ok (LSub b) =>
      match has_sub d b with
      | None => (d, Some KeyError)
      | Some s => (with_own (with_pobj d (PSub b)) (copy_of k (d_own d) s), None)
      end
  end.

(** The same on a sub-field, by the user: the dependence refers to it. *)
Definition sub_set (k : setter) (b : sub) (d : dstate) (f : option A) : outcome dstate :=
  match b with
  | Leafs => let '(s, e) := rf_set k (d_leafs d) f in (mkDS (d_own d) s (d_roots d) (d_pobj d) (d_unit d), e)
  | Roots =>
      match d_roots d with
      | None => (d, Some AttributeError)
      | Some r => let '(s, e) := rf_set k r f in (mkDS (d_own d) (d_leafs d) (Some s) (d_pobj d) (d_unit d), e)
      end
  end.

(** Histories of calls. *)
Inductive event : Type := Set_ (k : setter) (g : darg) | SubSet (k : setter) (b : sub) (f : option A).
Definition happen (d : dstate) (e : event) : dstate :=
  match e with
  | Set_ k g => fst (sd_set k d g)
  | SubSet k b f => fst (sub_set k b d f)
  end.
Definition raised (d : dstate) (e : event) : option exn :=
  match e with
  | Set_ k g => snd (sd_set k d g)
  | SubSet k b f => snd (sub_set k b d f)
  end.
Definition history (d : dstate) (h : list event) : dstate := fold_left happen h d.

(** The object whose method propose or step runs. *)
Inductive doer : Type := Itself | Its (b : sub).

(** dependence.py 447-452, step. *)
Definition stepper (d : dstate) : result doer :=
  match d_pobj d with
  | PNone => Ok Itself
  | PSub b => Ok (Its b)
  | PDict => Err AttributeError
  end.

(** dependence.py 260: the default object. *)
Definition def_pobj (d : dstate) : sub := match d_roots d with Some _ => Roots | None => Leafs end.

(** sd.py 164-169, propose. *)
Definition proposer (d : dstate) : result doer :=
  match d_pobj d with
  | PNone => if is_set (s_tran (d_own d)) || is_set (s_prop (d_own d)) then Ok Itself else Ok (Its (def_pobj d))
  | PSub b => Ok (Its b)
  | PDict => Err AttributeError
  end.

Definition settings_of (d : dstate) (o : doer) : option settings :=
  match o with Itself => Some (d_own d) | Its b => has_sub d b end.

(** sd.py 215-225, sample: a call, a proposal, or a step. *)
Inductive manner : Type := Calls | Proposes | Steps.
Definition sampling (d : dstate) : manner :=
  if negb (is_set (s_tran (d_own d))) && negb (is_set (s_tfun (d_own d))) && negb (d_unit d) then
    if negb (is_set (s_prop (d_own d))) then Calls else Proposes
  else Steps.

(** sd.py 276, _sample_tran: whether a sampled step comes with a reverse proposal. *)
Definition reverses (d : dstate) : bool := negb (s_sym (d_own d)) && negb (d_unit d).

(** sd.py 38-67 with rf.py 70-81: after construction nothing is set. *)
Definition unset (stoch : bool) : settings := mkSet None None None None false stoch.
Definition new_sd (leafs : settings) (roots : option settings) (unit : bool) : dstate :=
  mkDS (unset true) leafs roots PNone unit.

(** ** Comparison of fields *)

(** The classes of fields: Field, RF and all others (Dependence, SD, SP). *)
Inductive fclass : Type := ClField | ClRF | ClOther.
(** A field: itself, its class, and its variables by name, with what they are. *)
Record fobj : Type := mkObj { o_id : nat; o_class : fclass; o_vars : list (string * nat) }.
(** field.py 204-205, _keyset *)
Definition o_keys (x : fobj) : list string := map fst (o_vars x).

(** field.py 649-653 and rf.py 645-649, __eq__ called directly: object.__eq__ is True
    of an object and itself and otherwise NotImplemented. *)
Inductive eqres : Type := EBool (b : bool) | ENot.
Definition same_keys (l m : list string) : bool := forallb (fun k => mem_str k m) l && forallb (fun k => mem_str k l) m.
Definition obj_eq (x y : fobj) : eqres := if Nat.eqb (o_id x) (o_id y) then EBool true else ENot.
Definition dunder_eq (x y : fobj) : eqres :=
  match o_class x, o_class y with
  | ClField, ClField => EBool (same_keys (o_keys x) (o_keys y))
  | ClRF, ClRF => EBool (same_keys (o_keys x) (o_keys y))
  | _, _ => obj_eq x y
  end.

(** Python's [x == y]: the reflected method if the first gives NotImplemented, then
    identity. *)
Definition py_eq (x y : fobj) : bool :=
  match dunder_eq x y with
  | EBool b => b
  | ENot => match dunder_eq y x with EBool b => b | ENot => Nat.eqb (o_id x) (o_id y) end
  end.

(** field.py 656-658, __ne__: [not] of what __eq__ returns; NotImplemented counts as
    true (with a warning since Python 3.9). *)
Definition py_ne (x y : fobj) : bool :=
  match dunder_eq x y with EBool b => negb b | ENot => false end.

End Deleg.

Arguments setting A : clear implicits.
Arguments settings A : clear implicits.
Arguments dstate A : clear implicits.
Arguments darg A : clear implicits.
Arguments event A : clear implicits.
Arguments source A : clear implicits.
