(** Model of probayes/cf.py (class CF), of handing one to RF.set_tran or RF.set_tfun
    (probayes/rf.py), and of RF.eval_tfun for conditional functions whose inputs are
    given explicitly.

    Not modelled: the keywords passdims and passprob, entries of the inputs that are
    not strings, functions that are scipy objects. *)
From Coq Require Import String Ascii ZArith Bool Arith List.
From Verif Require Import Base Num Tensor Names VariableModel FieldModel ExprModel GibbsModel.
Import ListNotations.
Set Implicit Arguments.
Local Open Scope bool_scope.

Section CF.
Context {T : Type} {N : Num T} {TR : Trunc T}.
Context {V : Type} (sub : V -> V -> V) (ustr : string -> V).

(** ** Outputs and inputs *)

(** An element of a tuple or list: a random variable, a random field, anything else. *)
Inductive celem : Type := ERv (v : fvar T) | ERf (f : field T) | EElse.

(** What outputs and inputs may be given as; for a field, whether it has roots or
    stems (then it is a dependence). *)
Inductive cobj : Type :=
| CoNone | CoRf (f : field T) (dependent : bool) | CoRv (v : fvar T) | CoSeq (l : list celem) | CoElse.

(** cf.py 24-32, one turn of the loop: line 28 reads the stems of the list itself. *)
Definition elem_var (e : celem) : result (fvar T) :=
  match e with
  | ERv v => Ok v
  | ERf _ => Err AttributeError
  | EElse => Err TypeError
  end.

(** _to_rf (cf.py 11-35).  Line 35 formats a name that is not bound: UnboundLocalError,
    a NameError. *)
Definition to_rf (o : cobj) : result (option (field T)) :=
  match o with
  | CoNone => Ok None
  | CoRf f dependent => let! _ := assert_ (negb dependent) in Ok (Some f)
  | CoRv v => let! f := make_field true (AddOne (Some v)) in Ok (Some f)
  | CoSeq l =>
      let! vs := map_res elem_var l in
      let! f := make_field true (match vs with [v] => AddOne (Some v) | _ => AddMany (map Some vs) end) in
      Ok (Some f)
  | CoElse => Err NameError
  end.

(** The argument inp: nothing, a tuple or list, a dictionary that is not ordered, an
    OrderedDict of strings, or a variable, field or other object. *)
Inductive cinp : Type := InNone | InSeq | InDict | InOrd (d : odict string) | InObj (o : cobj).

(** What is kept of it. *)
Inductive cheld : Type := HNone | HRf (f : field T) | HDict (d : odict string).

(** Field.name (field.py 207). *)
Definition field_name (f : field T) : string := join "," (fd_keys f).

(** cf.py 118-126: the inputs of one entry. *)
Definition check_entry (rv_keys : list string) (many : bool) (kv : string * string) : result unit :=
  let inp_keys := split_char "," (fst kv) in
  let! _ := map_res (fun v => let! _ := assert_ (negb many || negb (mem_str v inp_keys)) in
                              assert_ (mem_str v rv_keys)) (split_char "," (snd kv)) in
  Ok tt.

Definition primed (k : string) : string := (k ++ "'")%string.

(** CF.set_inp (cf.py 90-133) of a new object: the name, what is kept, and whether
    inputs may be asked for by name.  Tuples and lists are turned into a dictionary,
    which is then refused for not being ordered. *)
Definition set_inp (out : option (field T)) (i : cinp) : result (string * cheld * bool) :=
  match i with
  | InObj o =>
      match out with
      | None => Err AssertionError
      | Some f =>
          let! g := to_rf o in
          match g with
          | Some g => Ok (join "|" [field_name f; field_name g], HRf g, false)
          | None => Err AttributeError
          end
      end
  | InSeq | InDict => Err TypeError
  | InNone | InOrd _ =>
      match out with
      | None => Err AttributeError
      | Some f =>
          let rv_keys := fd_keys f in
          let! _ := assert_ (1 <? length rv_keys) in
          let name := join "|" [join "," (map primed rv_keys); join "," rv_keys] in
          match i with
          | InOrd ((_ :: _) as d) =>
              let! _ := map_res (check_entry rv_keys (1 <? length d)) d in
              let! _ := assert_ (seteq_str rv_keys (flat_map (fun kv => split_char "," (fst kv)) d)) in
              Ok (name, HDict d, true)
          | InOrd [] => Ok (name, HNone, true)
          | _ => Ok (name, HNone, false)
          end
      end
  end.

(** ** The functions *)

(** The argument func: functions or constants, or a Func object (with an identity). *)
Inductive cfuncarg : Type := FaItems (s : fspec V) | FaFunc (g : func V) (id : nat).

Definition with_maps (f : func V) (m : maps) : func V :=
  mkFn (f_spec f) (f_args f) (f_kwds f) m (f_callable f) (f_index f).

(** CF.set_func (cf.py 136-167): a Func given alone is copied, with its mappings. *)
Definition cf_set_func (a : cfuncarg) (args : list (parg V)) (kwds : odict V) (order delta : option mapping)
    : result (func V) :=
  match a with
  | FaItems s => make_func s args kwds order delta
  | FaFunc g id =>
      if nilb args && nilb kwds && noneb order && noneb delta then
        let! f := make_func (f_spec g) (f_args g) (f_kwds g) None None in
        let (m1, r1) := ExprModel.set_order (f_maps f) (fst (f_maps g)) in
        let! _ := r1 in
        let (m2, r2) := ExprModel.set_delta m1 (snd (f_maps g)) in
        let! _ := r2 in
        Ok (with_maps f m2)
      else make_func (FSingle (Fun id NotFunction 0)) args kwds order delta
  end.

(** A conditional function; [cf_unknown] is the private member __unknown. *)
Record cfn : Type := mkCF {
  cf_out : field T;
  cf_inp : cheld;
  cf_name : string;
  cf_bykey : bool;
  cf_func : func V;
  cf_unknown : option string }.

(** CF(out, inp, func, ...) (cf.py 73-80).  Without outputs set_inp always raises. *)
Definition make_cf (out : cobj) (i : cinp) (a : cfuncarg) (args : list (parg V)) (kwds : odict V)
    (order delta : option mapping) : result cfn :=
  let! o := to_rf out in
  let! (name, held, bykey) := set_inp o i in
  let! f := cf_set_func a args kwds order delta in
  match o with
  | Some o => Ok (mkCF o held name bykey f None)
  | None => Err AttributeError (* not reached *)
  end.

(** rf.py 193-203 and 264-273, set_tran(cf) and set_tfun(cf): a new conditional function
    of the field itself, with the inputs, functions, arguments and keywords of the given
    one; order and delta are no longer among its keywords (func.py 132-135). *)
Definition adopt (self : field T) (c : cfn) : result cfn :=
  make_cf (CoRf self false)
    (match cf_inp c with HNone => InNone | HRf f => InObj (CoRf f false) | HDict d => InOrd d end)
    (FaItems (f_spec (cf_func c))) (f_args (cf_func c)) (f_kwds (cf_func c)) None None.

(** ** Calls *)

Definition cf_set (c : cfn) (f : func V) (u : option string) : cfn :=
  mkCF (cf_out c) (cf_inp c) (cf_name c) (cf_bykey c) f u.

(** CF._call (cf.py 212-218): the name asked for last is handed over once. *)
Definition cf_do_call (c : cfn) (args : list (parg V)) (kwds : odict V) : cfn * result (foutcome V) :=
  let kwds' := match cf_unknown c with None => kwds | Some k => od_set kwds "unknown" (ustr k) end in
  let (f, r) := f_do_call sub (cf_func c) args kwds' in
  (cf_set c f None, r).

(** cf(...) (func.py 349-355, which calls CF._call). *)
Definition cf_call (c : cfn) (args : list (parg V)) (kwds : odict V) : cfn * result (foutcome V) :=
  if f_ismulti (cf_func c) then (c, Err AssertionError) else cf_do_call c args kwds.

(** cf[i] for an integer and for a string (cf.py 200-209, func.py 358-365); what is
    returned is always the bound method _call. *)
Definition cf_index (c : cfn) (i : Z) : cfn * result unit :=
  let (f, r) := f_getitem (cf_func c) i in (cf_set c f (cf_unknown c), r).
Definition cf_key (c : cfn) (k : string) : cfn * result unit :=
  if cf_bykey c then (cf_set c (cf_func c) (Some k), Ok tt) else (c, Err AssertionError).

(** A program that uses a conditional function. *)
Inductive cop : Type :=
| OKey (k : string) | OIndex (i : Z) | OHandle (args : list (parg V)) (kwds : odict V) | OCall (args : list (parg V)) (kwds : odict V).
Definition cf_op (c : cfn) (o : cop) : cfn :=
  match o with
  | OKey k => fst (cf_key c k)
  | OIndex i => fst (cf_index c i)
  | OHandle args kwds => fst (cf_do_call c args kwds)
  | OCall args kwds => fst (cf_call c args kwds)
  end.
Definition cf_run (c : cfn) (ops : list cop) : cfn := fold_left cf_op ops c.

(** ** Explicit conditionals (rf.py 438-487) *)

(** What the functions return: a value or a dictionary. *)
Variable apply : nat -> list (parg V) -> odict V -> result (V + odict V).

(** rf.py 445-452: as [window], but the keys are those of the inputs and the position
    is compared with the number of values. *)
Definition window_of (keys : list string) (n : nat) (tsteps : option Z) (pos : option Z) : list string * option Z :=
  match tsteps with
  | None => (keys, pos)
  | Some t =>
      if (t =? 0)%Z then (keys, pos)
      else
        let m := match pos with None => 0%Z | Some m => m end in
        let m' := (m + t)%Z in
        (py_slice keys m m', Some (if (m' >=? Z.of_nat n)%Z then 0%Z else m'))
  end.

(** rf.py 471-486: where the returned value goes.  Line 471 looks for a comma among
    the keys rather than in the key; line 478 stores under the key. *)
Definition store (keys : list string) (key : string) (succ : odict V) (y : V + odict V) : result (odict V) :=
  let rv_names := if mem_str "," keys then split_char "," key else [key] in
  match rv_names, y with
  | _ :: _ :: _, inl _ => Err AssertionError
  | _ :: _ :: _, inr d =>
      fold_res (fun (s : odict V) (kv : string * V) =>
                  let! _ := assert_ (od_mem s (fst kv)) in Ok (od_set s key (snd kv))) d succ
  | rv :: _, inr d => match od_get d rv with Some v => Ok (od_set succ rv v) | None => Err AssertionError end
  | rv :: _, inl v => Ok (od_set succ rv v)
  | [], _ => Err IndexError
  end.

Definition result_of (o : foutcome V) : result (V + odict V) :=
  match o with
  | FOut (Called id args kw) => apply id args kw
  | _ => Err TypeError
  end.

Fixpoint draw_keys (all keys : list string) (c : cfn) (succ : odict V) : cfn * result (odict V) :=
  match keys with
  | [] => (c, Ok succ)
  | k :: keys' =>
      match cf_key c k with
      | (c1, Err e) => (c1, Err e)
      | (c1, Ok _) =>
          let (c2, r) := cf_do_call c1 [PDict succ] [] in
          match (let! o := r in let! y := result_of o in store all k succ y) with
          | Err e => (c2, Err e)
          | Ok succ' => draw_keys all keys' c2 succ'
          end
      end
  end.

(** RF.eval_tfun(values, reverse=reverse) for a callable conditional function with
    explicit inputs d; the position moves on even if the rest raises. *)
Definition eval_explicit (c : cfn) (d : odict string) (tsteps : option Z) (pos : option Z) (reverse : bool) (values : odict V)
    : cfn * option Z * result (odict V) :=
  let (keys, pos') := window_of (od_keys d) (length values) tsteps pos in
  if reverse then (c, pos', Err AssertionError)
  else if negb (f_ismulti (cf_func c)) then (c, pos', Err AssertionError)
  else let (c', r) := draw_keys keys keys c values in (c', pos', r).

(** Several evaluations of one field, one after the other. *)
Fixpoint evals (c : cfn) (d : odict string) (tsteps pos : option Z) (l : list (bool * odict V)) : list (odict V * result (odict V)) :=
  match l with
  | [] => []
  | (reverse, values) :: l' =>
      let '(c', pos', r) := eval_explicit c d tsteps pos reverse values in
      (values, r) :: evals c' d tsteps pos' l'
  end.

End CF.
Arguments celem : clear implicits.
Arguments cobj : clear implicits.
Arguments cinp : clear implicits.
Arguments cheld : clear implicits.
Arguments cfuncarg : clear implicits.
Arguments cfn : clear implicits.
Arguments cop : clear implicits.
