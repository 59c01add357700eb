(** Model of probayes/expression.py (class Expression, not iconic) and
    probayes/func.py (class Func, not scipy).

    Functions are opaque: a call is observed as the identity of the function
    called together with the positional and keyword arguments it receives.
    Values are an arbitrary type [V] with a subtraction.

    Simplified throughout: keyword dictionaries have string keys only (the branch
    expression.py 408-409 that hands a dictionary with other keys to the function
    is not modelled); iconic (sympy) expressions and scipy objects are not
    modelled; [order=None] and [delta=None] given explicitly are not
    distinguished from leaving them out. *)
From Coq Require Import String Ascii ZArith Bool Arith Lia List.
From Verif Require Import Base.
Import ListNotations.
Set Implicit Arguments.

Section Expr.
Context {V : Type} (sub : V -> V -> V).

(** A positional argument as Expression._call sees it: a dictionary
    (expression.py 395), the None used for padding (line 419) or any other value. *)
Inductive parg : Type :=
| PVal (v : V)
| PDict (d : odict V)
| PNone.

(** A value of an 'order' or 'delta' mapping (expression.py 288-293). *)
Inductive mval : Type :=
| MInt (i : Z)
| MNone
| MStr (s : string)
| MOther.

Definition mapping := odict mval.

(** What islambda() returns (expression.py 16-20): True for a lambda, False for a
    def, None for any other callable. *)
Inductive lamkind : Type := Lambda | Named | NotFunction.

(** One expression: a callable, known by an identity, with the number of
    positional parameters of its code object (expression.py 401-402), or an
    uncallable constant with isscalar() of it. *)
Inductive item : Type :=
| Fun (id : nat) (k : lamkind) (argc : nat)
| Const (v : V) (scalar : bool).

(** The first argument of Expression() (expression.py 180, 205). *)
Inductive espec : Type :=
| ESingle (it : item)
| ETuple (l : list item)
| EDict (d : odict item).

(** What a call does. *)
Inductive outcome : Type :=
| Called (id : nat) (args : list parg) (kwds : odict V)
| Value (v : V).

(** callable() (expression.py 196, 211). *)
Definition item_callable (it : item) : bool :=
  match it with Fun _ _ _ => true | Const _ _ => false end.

(** islambda() with False, True, None as 0, 1, 2 (expression.py 16-20, 212). *)
Definition item_lambda (it : item) : nat :=
  match it with
  | Const _ _ => 0
  | Fun _ Named _ => 0
  | Fun _ Lambda _ => 1
  | Fun _ NotFunction _ => 2
  end.

(** isscalar() (expression.py 213); functions are not scalars. *)
Definition item_scalar (it : item) : bool :=
  match it with Fun _ _ _ => false | Const _ s => s end.

(** [len(set(l)) < 2] (expression.py 215-222). *)
Definition all_same {A} (eqb : A -> A -> bool) (l : list A) : bool :=
  match l with [] => true | a :: l' => forallb (eqb a) l' end.

(** The integers of a mapping (expression.py 286-289). *)
Fixpoint mapping_ints (m : mapping) : list Z :=
  match m with
  | [] => []
  | (_, MInt i) :: m' => i :: mapping_ints m'
  | _ :: m' => mapping_ints m'
  end.

Definition is_other (v : mval) : bool := match v with MOther => true | _ => false end.

(** min and max of a non-empty list. *)
Definition zmin (z : Z) (l : list Z) : Z := fold_left Z.min l z.
Definition zmax (z : Z) (l : list Z) : Z := fold_left Z.max l z.

(** [indset == set(range(min(indset), max(indset)+1))]: every integer between the
    least and the greatest is there (expression.py 294-297). *)
Definition contiguous (l : list Z) : bool :=
  match l with
  | [] => true
  | z :: l' =>
      let lo := zmin z l' in
      let hi := zmax z l' in
      forallb (fun n => existsb (Z.eqb (lo + Z.of_nat n)) l) (seq 0 (Z.to_nat (hi - lo + 1)))
  end.

(** Expression._check_mapping (expression.py 272-297), Func._check_mapping
    (func.py 164-186).  A value that is neither an int, None nor a string raises
    AttributeError, because line 293 evaluates ["...".ind]. *)
Definition check_mapping (m : mapping) : result unit :=
  if existsb (fun kv => is_other (snd kv)) m then Err AttributeError
  else assert_ (contiguous (mapping_ints m)).

(** The mapping part of an object: (order, delta) (expression.py 69-70). *)
Definition maps := (option mapping * option mapping)%type.

(** Expression.set_order (expression.py 249-257): the attribute is assigned
    before anything is checked.  Returns the attributes and what the call raises. *)
Definition set_order (s : maps) (o : option mapping) : maps * result unit :=
  let s' := (o, snd s) in
  match o with
  | None => (s', Ok tt)
  | Some m =>
      (s', match snd s with
           | Some _ => Err AssertionError
           | None => check_mapping m
           end)
  end.

(** Expression.set_delta (expression.py 260-269). *)
Definition set_delta (s : maps) (d : option mapping) : maps * result unit :=
  let s' := (fst s, d) in
  match d with
  | None => (s', Ok tt)
  | Some m =>
      (s', match fst s with
           | Some _ => Err AssertionError
           | None => check_mapping m
           end)
  end.

(** An Expression object (expression.py 51-70). *)
Record expression : Type := mkE {
  e_spec : espec;
  e_args : list parg;
  e_kwds : odict V;
  e_maps : maps;
  e_callable : bool;
  e_islambda : bool }.

Definition e_ismulti (e : expression) : bool :=
  match e_spec e with ESingle _ => false | _ => true end.

(** The items of a multiple expression (expression.py 205-206). *)
Definition spec_items (s : espec) : list item :=
  match s with ESingle it => [it] | ETuple l => l | EDict d => od_vals d end.

(** Keys of the partial calls (expression.py 304-373). *)
Inductive ekey : Type := KNone | KInt (z : Z) | KStr (s : string).

Definition ekey_eqb (a b : ekey) : bool :=
  match a, b with
  | KNone, KNone => true
  | KInt x, KInt y => Z.eqb x y
  | KStr x, KStr y => String.eqb x y
  | _, _ => false
  end.

(** Expression._set_partials (expression.py 304-373), not iconic: None for a
    single expression, 0..n-1 and -1 for a tuple, the keys of a dictionary.  For
    an empty tuple line 363 reads [call] before it is assigned: NameError
    (UnboundLocalError). *)
Definition partials_of (s : espec) : result (list (ekey * item)) :=
  match s with
  | ESingle it => Ok [(KNone, it)]
  | ETuple l =>
      match rev l with
      | [] => Err NameError
      | z :: _ =>
          Ok (combine (map (fun i => KInt (Z.of_nat i)) (seq 0 (length l))) l
              ++ [(KInt (-1), z)])
      end
  | EDict d => Ok (map (fun kv => (KStr (fst kv), snd kv)) d)
  end.

Definition nilb {A} (l : list A) : bool := match l with [] => true | _ => false end.

Definition noneb {A} (o : option A) : bool := match o with None => true | _ => false end.

(** Expression.set_expr (expression.py 145-246). *)
Definition make_expression (s : espec) (args : list parg) (kwds : odict V)
    (order delta : option mapping) : result expression :=
  let plain := nilb args && nilb kwds && noneb order && noneb delta in
  let items := spec_items s in
  let! _ := assert_ (all_same Bool.eqb (map item_callable items)) in
  let! _ := assert_ (all_same Nat.eqb (map item_lambda items)) in
  let! _ := assert_ (all_same Bool.eqb (map item_scalar items)) in
  let callable := match items with [] => false | it :: _ => item_callable it end in
  let lambda := match items with [] => false | it :: _ => Nat.eqb (item_lambda it) 1 end in
  let! _ := assert_ (callable || plain) in
  let (s1, r1) := match order with None => ((None, None), Ok tt) | _ => set_order (None, None) order end in
  let! _ := r1 in
  let (s2, r2) := match delta with None => (s1, Ok tt) | _ => set_delta s1 delta end in
  let! _ := r2 in
  let! _ := partials_of s in
  Ok (mkE s args kwds s2 callable lambda).

(** [not m]: absent or empty (expression.py 400). *)
Definition no_map (m : option mapping) : bool :=
  match m with None | Some [] => true | _ => false end.

(** [kwds.pop(key)] *)
Definition pop (kw : odict V) (k : string) : result (V * odict V) :=
  let! v := od_getR kw k in Ok (v, od_del kw k).

(** [args[i] = v] for a list, with Python's negative indices. *)
Definition put (args : list parg) (i : Z) (v : V) : result (list parg) :=
  let! p := py_indexR (length args) i in Ok (set_nth p (PVal v) args).

(** The number of positional arguments after padding (expression.py 412-416). *)
Definition pad_length (n : nat) (m : mapping) : nat :=
  Z.to_nat (fold_left Z.max (map (fun i => (i + 1)%Z) (mapping_ints m)) (Z.of_nat n)).

(** Padding with None (expression.py 417-419). *)
Definition pad (args : list parg) (m : mapping) : list parg :=
  args ++ repeat PNone (pad_length (length args) m - length args).

(** One turn of the order loop (expression.py 423-432, func.py 295-304). *)
Definition order_step (st : list parg * odict V) (kv : string * mval)
    : result (list parg * odict V) :=
  let (args, kw) := st in
  match snd kv with
  | MInt i => let! (v, kw1) := pop kw (fst kv) in let! a := put args i v in Ok (a, kw1)
  | MNone => let! (_, kw1) := pop kw (fst kv) in Ok (args, kw1)
  | MStr s => let! (v, kw1) := pop kw (fst kv) in Ok (args, od_set kw1 s v)
  | MOther => Err TypeError
  end.

(** [key[-1] != "'"]: None if the key is empty (expression.py 437). *)
Definition last_char (k : string) : option ascii := get (String.length k - 1) k.

Definition prime_char : ascii := "'"%char.

(** [key[:-1]] (expression.py 440). *)
Definition chop (k : string) : string := substring 0 (String.length k - 1) k.

(** The value of one turn of the delta loop (expression.py 437-440): IndexError
    for an empty key. *)
Definition delta_take (kw : odict V) (k : string) : result (V * odict V) :=
  match last_char k with
  | None => Err IndexError
  | Some c =>
      if Ascii.eqb c prime_char then
        let! (v1, kw1) := pop kw k in
        let! (v0, kw2) := pop kw1 (chop k) in
        Ok (sub v1 v0, kw2)
      else pop kw k
  end.

(** One turn of the delta loop (expression.py 436-449, func.py 308-321). *)
Definition delta_step (st : list parg * odict V) (kv : string * mval)
    : result (list parg * odict V) :=
  let (args, kw) := st in
  let! (v, kw1) := delta_take kw (fst kv) in
  match snd kv with
  | MInt i => let! a := put args i v in Ok (a, kw1)
  | MNone => Ok (args, kw1)
  | MStr s => Ok (args, od_set kw1 s v)
  | MOther => Err TypeError
  end.

(** The mapped part of a call (expression.py 411-452, func.py 283-322). *)
Definition mapped_call (id : nat) (s : maps) (args : list parg) (kw : odict V)
    : result outcome :=
  if negb (no_map (fst s)) then
    match fst s with
    | None => Err TypeError (* not reached *)
    | Some m =>
        let! (a, k) := fold_res order_step m (pad args m, kw) in
        Ok (Called id a k)
    end
  else
    match snd s with
    | None => Err TypeError (* not reached *)
    | Some m =>
        let! (a, k) := fold_res delta_step m (pad args m, kw) in
        Ok (Called id a k)
    end.

(** A sole dictionary argument is merged into the keywords and wins
    (expression.py 395-396, func.py 266-267). *)
Definition merge_dict (args : list parg) (kw : odict V) : list parg * odict V :=
  match args with [PDict d] => ([], od_update kw d) | _ => (args, kw) end.

(** Expression._call (expression.py 376-452) on one item of the expression, as
    reached through the partials, which put the stored arguments first and let
    the arguments of the call override the stored keywords (lines 353, 360, 368:
    functools.partial). *)
Definition e_call_item (e : expression) (it : item) (args : list parg) (kwds : odict V)
    : result outcome :=
  let args := e_args e ++ args in
  let kw := od_update (e_kwds e) kwds in
  match it with
  | Const v _ => let! _ := assert_ (nilb args && nilb kw) in Ok (Value v)
  | Fun id k argc =>
      let (args, kw) := merge_dict args kw in
      if no_map (fst (e_maps e)) && no_map (snd (e_maps e)) then
        if e_islambda e && Nat.eqb argc 0 then
          let! _ := assert_ (nilb args) in Ok (Called id [] [])
        else Ok (Called id args kw)
      else mapped_call id (e_maps e) args kw
  end.

(** A dictionary lookup among the partials. *)
Fixpoint partial_get (l : list (ekey * item)) (k : ekey) : result item :=
  match l with
  | [] => Err KeyError
  | (k', it) :: l' => if ekey_eqb k k' then Ok it else partial_get l' k
  end.

(** Expression.__call__ (expression.py 459-465).  For a multiple expression the
    message of the failing assertion calls the list [self._keys] and so raises
    TypeError instead. *)
Definition e_call (e : expression) (args : list parg) (kwds : odict V) : result outcome :=
  if e_ismulti e then Err TypeError
  else
    let! l := partials_of (e_spec e) in
    let! it := partial_get l KNone in
    e_call_item e it args kwds.

(** Expression.__getitem__ (expression.py 468-482) for an integer or string key;
    what is returned is the partial call of the item. *)
Definition e_getitem (e : expression) (k : ekey) : result item :=
  let! _ := assert_ (match k with KNone => true | _ => e_ismulti e end) in
  let! l := partials_of (e_spec e) in
  partial_get l k.

(** [e[k](...)] *)
Definition e_item_call (e : expression) (k : ekey) (args : list parg) (kwds : odict V)
    : result outcome :=
  let! it := e_getitem e k in e_call_item e it args kwds.

(** [len(e)]: Expression.__len__ returns None for a single expression
    (expression.py 485-489), which len() rejects with TypeError. *)
Definition e_len (e : expression) : result nat :=
  if e_ismulti e then let! l := partials_of (e_spec e) in Ok (length l)
  else Err TypeError.

(** Expression.set_order and set_delta on a live object (expression.py 249-269). *)
Definition e_set_order (e : expression) (o : option mapping) : expression * result unit :=
  let (s, r) := set_order (e_maps e) o in
  (mkE (e_spec e) (e_args e) (e_kwds e) s (e_callable e) (e_islambda e), r).

Definition e_set_delta (e : expression) (d : option mapping) : expression * result unit :=
  let (s, r) := set_delta (e_maps e) d in
  (mkE (e_spec e) (e_args e) (e_kwds e) s (e_callable e) (e_islambda e), r).

(** ** Func (func.py) *)

(** A Func object (func.py 53-66): a single function or a tuple of them. *)
Inductive fspec : Type :=
| FSingle (it : item)
| FTuple (l : list item).

Record func : Type := mkFn {
  f_spec : fspec;
  f_args : list parg;
  f_kwds : odict V;
  f_maps : maps;
  f_callable : bool;
  f_index : option Z }.

Definition f_ismulti (f : func) : bool :=
  match f_spec f with FSingle _ => false | FTuple _ => true end.

Definition fspec_items (s : fspec) : list item :=
  match s with FSingle it => [it] | FTuple l => l end.

(** Func.set_func (func.py 76-135), not scipy. *)
Definition make_func (s : fspec) (args : list parg) (kwds : odict V)
    (order delta : option mapping) : result func :=
  let plain := nilb args && nilb kwds && noneb order && noneb delta in
  let items := fspec_items s in
  let! _ := assert_ (all_same Bool.eqb (map item_callable items)) in
  let! _ := assert_ (all_same Bool.eqb (map item_scalar items)) in
  let callable := match items with [] => false | it :: _ => item_callable it end in
  let! _ := assert_ (callable || plain) in
  let (s1, r1) := match order with None => ((None, None), Ok tt) | _ => set_order (None, None) order end in
  let! _ := r1 in
  let (s2, r2) := match delta with None => (s1, Ok tt) | _ => set_delta s1 delta end in
  let! _ := r2 in
  Ok (mkFn s args kwds s2 callable None).

Definition f_with_index (f : func) (i : option Z) : func :=
  mkFn (f_spec f) (f_args f) (f_kwds f) (f_maps f) (f_callable f) i.

(** What the object [self._func] is when called or returned whole. *)
Inductive target : Type := TItem (it : item) | TTuple.

(** Lines 255-258 of func.py: the pending index selects an item and is reset; an
    index out of range raises before the reset.  A pending index on a single
    function cannot occur (line 362). *)
Definition f_target (f : func) : func * result target :=
  match f_index f with
  | None => (f, Ok (match f_spec f with FSingle it => TItem it | FTuple _ => TTuple end))
  | Some i =>
      match f_spec f with
      | FSingle _ => (f, Err TypeError)
      | FTuple l =>
          match py_index (length l) i with
          | None => (f, Err IndexError)
          | Some p =>
              match nth_error l p with
              | None => (f, Err IndexError)
              | Some it => (f_with_index f None, Ok (TItem it))
              end
          end
      end
  end.

(** Outcome of a call of [Func._call]; a tuple of constants may be returned whole. *)
Inductive foutcome : Type := FOut (o : outcome) | FWhole (l : list item).

(** Func._call (func.py 239-322), not scipy. *)
Definition f_do_call (f : func) (args : list parg) (kwds : odict V) : func * result foutcome :=
  let (f', rt) := f_target f in
  (f',
   let! t := rt in
   if negb (f_callable f) then
     let! _ := assert_ (nilb args && nilb kwds) in
     match t with
     | TItem (Const v _) => Ok (FOut (Value v))
     | TItem (Fun _ _ _) => Err TypeError (* not reached: f_callable *)
     | TTuple => Ok (FWhole (fspec_items (f_spec f)))
     end
   else
     let (args, kw) := merge_dict args kwds in
     let args := f_args f ++ args in
     let kw := od_update kw (f_kwds f) in
     match t with
     | TItem (Fun id _ _) =>
         if no_map (fst (f_maps f)) && no_map (snd (f_maps f))
         then Ok (FOut (Called id args kw))
         else let! o := mapped_call id (f_maps f) args kw in Ok (FOut o)
     | TItem (Const _ _) => Err TypeError
     | TTuple => (* calling a tuple, after the mapping has been applied *)
         if no_map (fst (f_maps f)) && no_map (snd (f_maps f))
         then Err TypeError
         else let! _ := mapped_call 0 (f_maps f) args kw in Err TypeError
     end).

(** Func.__call__ (func.py 349-355). *)
Definition f_call (f : func) (args : list parg) (kwds : odict V) : func * result foutcome :=
  if f_ismulti f then (f, Err AssertionError) else f_do_call f args kwds.

(** Func.__getitem__ (func.py 358-365): the index is stored in the object and the
    bound method _call is returned; every handle is that same method. *)
Definition f_getitem (f : func) (i : Z) : func * result unit :=
  if f_ismulti f then (f_with_index f (Some i), Ok tt) else (f, Err AssertionError).

(** [len(f)] (func.py 368-372). *)
Definition f_len (f : func) : result nat :=
  match f_spec f with FSingle _ => Err TypeError | FTuple l => Ok (length l) end.

(** A program that uses a Func: index it, or call a handle obtained before
    (all handles are the bound method [_call]). *)
Inductive fop : Type :=
| FIndex (i : Z)
| FHandle (args : list parg) (kwds : odict V).

Definition f_op (f : func) (o : fop) : func :=
  match o with
  | FIndex i => fst (f_getitem f i)
  | FHandle args kwds => fst (f_do_call f args kwds)
  end.

Definition f_run (f : func) (ops : list fop) : func := fold_left f_op ops f.

End Expr.
Arguments parg : clear implicits.
Arguments item : clear implicits.
Arguments espec : clear implicits.
Arguments outcome : clear implicits.
Arguments expression : clear implicits.
Arguments func : clear implicits.
Arguments fspec : clear implicits.
Arguments fop : clear implicits.
Arguments foutcome : clear implicits.
