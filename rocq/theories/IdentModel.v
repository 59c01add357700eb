(** Model of what identifies a variable: its name, the class of its Deltas, its symbol
    with the attributes copied from it, and its deterministic expression
    (/repo/probayes/variable.py 104-138, 416-453, 742-771, rv.py 80-87, icon.py 46-100).

    Symbolic objects are any values of a type S, attributes any values of a type M.
    Not modelled: names with characters beyond ASCII, names that are not text, the
    representation and hash of symbols. *)
From Coq Require Import String Ascii ZArith Bool Arith List.
From Verif Require Import Base Num VariableModel.
Import ListNotations.
Set Implicit Arguments.
Local Open Scope bool_scope.

(** Python's keyword.kwlist. *)
Definition keywords : list string :=
  ["False"; "None"; "True"; "and"; "as"; "assert"; "async"; "await"; "break"; "class"; "continue"; "def"; "del"; "elif";
   "else"; "except"; "finally"; "for"; "from"; "global"; "if"; "import"; "in"; "is"; "lambda"; "nonlocal"; "not"; "or";
   "pass"; "raise"; "return"; "try"; "while"; "with"; "yield"]%string.

Definition is_letter (c : ascii) : bool :=
  let n := nat_of_ascii c in ((65 <=? n) && (n <=? 90)) || ((97 <=? n) && (n <=? 122)).
Definition is_digit (c : ascii) : bool := let n := nat_of_ascii c in (48 <=? n) && (n <=? 57).
Definition is_word (c : ascii) : bool := is_letter c || is_digit c || Ascii.eqb c "_".
Fixpoint all_chars (p : ascii -> bool) (s : string) : bool :=
  match s with EmptyString => true | String c s' => p c && all_chars p s' end.

(** collections.namedtuple(..., [name]): the name must be an identifier, no keyword,
    and not start with an underscore; otherwise ValueError. *)
Definition field_ok (s : string) : bool :=
  match s with
  | EmptyString => false
  | String c s' => is_letter c && all_chars is_word s' && negb (mem_str s keywords)
  end.

Section Ident.
(** Symbolic objects and their attributes. *)
Context {S M : Type}.
(** sympy.Symbol(name, assumptions). *)
Variable symbol : string -> list string -> S.
(** The attributes that can be read of a symbolic object. *)
Variable members : S -> odict M.
(** Whether an object counts as true (the number nought does not). *)
Variable truth : S -> bool.
(** Attributes of the class, which are never copied. *)
Variable own : list string.

(** What an icon is: a symbolic object, or (after a refused call) any other object. *)
Inductive icon : Type := ISym (s : S) | IJunk (id : nat).

(** A variable.  [i_type] is the identity of the class of its Deltas, [i_prime] the
    private member __prime_key of random variables. *)
Record ident : Type := mkId {
  i_name : string;
  i_type : nat;
  i_prime : option string;
  i_icon : icon;
  i_attrs : odict M;
  i_dexpr : option S;
  i_stoch : bool
}.

(** All variables, and the number of classes made so far. *)
Record world : Type := mkW { w_vars : list ident; w_next : nat }.

(** What set_icon is called with. *)
Inductive iconarg : Type := IANone | IAStr (s : string) (assumptions : list string) | IASym (s : S) | IAOther (id : nat).

(** icon.py 71-80: attributes that are not there yet are copied. *)
Definition copy_members (attrs : odict M) (s : S) : odict M :=
  fold_left (fun (a : odict M) (kv : string * M) =>
               if mem_str (fst kv) own || od_mem a (fst kv) then a else od_set a (fst kv) (snd kv)) (members s) attrs.

Definition with_icon (v : ident) (i : icon) (a : odict M) : ident :=
  mkId (i_name v) (i_type v) (i_prime v) i a (i_dexpr v) (i_stoch v).

(** variable.py 416-453 and icon.py 55-80, set_icon: the attribute is set before it is
    looked at. *)
Definition set_icon (v : ident) (a : iconarg) : ident * option exn :=
  let take s := (with_icon v (ISym s) (copy_members (i_attrs v) s), None) in
  match a with
  | IANone => take (symbol (i_name v) [])
  | IAStr n l => take (symbol n l)
  | IASym s => take s
  | IAOther id => (with_icon v (IJunk id) (i_attrs v), Some TypeError)
  end.

(** variable.py 135-138 and rv.py 83-87, the setter of name: a new class of Deltas with
    the number [t]; the name is changed before it is found unfit. *)
Definition set_name (v : ident) (n : string) (t : nat) : ident * option exn :=
  if field_ok n
  then (mkId n t (if i_stoch v then Some (n ++ "'")%string else None) (i_icon v) (i_attrs v) (i_dexpr v) (i_stoch v), None)
  else (mkId n (i_type v) (i_prime v) (i_icon v) (i_attrs v) (i_dexpr v) (i_stoch v), Some ValueError).

(** variable.py 104-121, construction: its name, then the symbol of that name. *)
Definition new_var (n : string) (stoch : bool) (t : nat) : result ident :=
  if field_ok n
  then let s := symbol n [] in
       Ok (mkId n t (if stoch then Some (n ++ "'")%string else None) (ISym s) (copy_members [] s) None stoch)
  else Err ValueError.

(** variable.py 761-763: assigning dexpr. *)
Definition set_dexpr (v : ident) (e : option S) : ident :=
  mkId (i_name v) (i_type v) (i_prime v) (i_icon v) (i_attrs v) (if i_stoch v then None else e) (i_stoch v).

(** Reading dexpr: the decorator name.setter makes a property with the getter of name. *)
Definition get_dexpr (v : ident) : string := i_name v.

(** variable.py 766-771, x[:]. *)
Definition get_item (v : ident) : icon :=
  match i_dexpr v with
  | Some e => if truth e then ISym e else i_icon v
  | None => i_icon v
  end.

(** An attribute of the symbol, read from the variable. *)
Definition get_attr (v : ident) (m : string) : option M := od_get (i_attrs v) m.

(** ** Programs *)

Inductive step : Type :=
| New (n : string) (stoch : bool)
| Rename (i : nat) (n : string)
| SetIcon (i : nat) (a : iconarg)
| SetDexpr (i : nat) (e : option S).

Definition change (w : world) (i : nat) (f : ident -> ident) (next : nat) : world :=
  match nth_error (w_vars w) i with
  | Some v => mkW (set_nth i (f v) (w_vars w)) next
  | None => w
  end.

Definition happen (w : world) (e : step) : world :=
  match e with
  | New n stoch =>
      match new_var n stoch (w_next w) with
      | Ok v => mkW (w_vars w ++ [v]) (Datatypes.S (w_next w))
      | Err _ => w
      end
  | Rename i n => change w i (fun v => fst (set_name v n (w_next w))) (Datatypes.S (w_next w))
  | SetIcon i a => change w i (fun v => fst (set_icon v a)) (w_next w)
  | SetDexpr i e => change w i (fun v => set_dexpr v e) (w_next w)
  end.
Definition history (w : world) (h : list step) : world := fold_left happen h w.
Definition start : world := mkW [] 0.

(** What was raised. *)
Definition raised (w : world) (e : step) : option exn :=
  match e with
  | New n stoch => match new_var n stoch (w_next w) with Ok _ => None | Err x => Some x end
  | Rename i n => match nth_error (w_vars w) i with Some v => snd (set_name v n (w_next w)) | None => None end
  | SetIcon i a => match nth_error (w_vars w) i with Some v => snd (set_icon v a) | None => None end
  | SetDexpr _ _ => None
  end.

(** ** Deltas *)

Context {T : Type}.

(** A Delta: its class and its one field. *)
Record dobj : Type := mkD { d_type : nat; d_val : pyval T }.

(** x.Delta(v) *)
Definition make_delta (v : ident) (x : pyval T) : dobj := mkD (i_type v) x.

(** isinstance(delta, self._Delta) (variable.py 616, 671); all others are tuples of one
    element. *)
Definition taken_as (v : ident) (d : dobj) : delta T :=
  if Nat.eqb (d_type d) (i_type v) then DDelta (d_val d) else DTup [d_val d].

End Ident.
Arguments ident : clear implicits.
Arguments world : clear implicits.
Arguments step : clear implicits.
Arguments icon : clear implicits.
Arguments iconarg : clear implicits.
Arguments dobj : clear implicits.
Arguments start {S M}.
