(** Model of probayes/functional.py (class Functional) and of
    probayes/functional_utils.py.

    Simplified: graphs are the lists of the names of their vertices
    (collate_vertices, functional_utils.py 9-25); an iconic (sympy) function is an
    identity with the names of its symbols; the assignment to the dexpr attribute
    of the output variable (functional.py 155-157) is not modelled; frozensets are
    lists without repetition, compared as sets, and a set is walked in the order
    of its list; dependences and functions not yet initialised (None) are not
    distinguished from empty ones. *)
From Coq Require Import String Ascii ZArith Bool Arith Lia List.
From Verif Require Import Base Names ExprModel.
Import ListNotations.
Set Implicit Arguments.
Local Open Scope string_scope.

(** One element of an identifier specification: a string, an object with a string
    name, or anything else (functional_utils.py 37-44). *)
Inductive ident : Type := IStr (s : string) | INamed (s : string) | IBad.

Definition ident_name (i : ident) : result string :=
  match i with IStr s => Ok s | INamed s => Ok s | IBad => Err AssertionError end.

(** The argument of parse_identifiers: a string, or a list, tuple, set or single
    object (functional_utils.py 32-36). *)
Inductive idents : Type := IdStr (s : string) | IdList (l : list ident).

(** parse_identifiers (functional_utils.py 28-45): only a bare string is split at
    commas. *)
Definition parse_identifiers (i : idents) : result (list string) :=
  match i with
  | IdStr s => Ok (dedup_str (split_char "," s))
  | IdList l => let! ns := map_res ident_name l in Ok (dedup_str ns)
  end.

(** The spec argument of add_func (functional.py 126-130). *)
Inductive fspecn : Type :=
| SpDict (d : list (ident * ident))
| SpOut (i : idents).

Section Functional.
Context {V : Type} (sub : V -> V -> V).

(** The function given to add_func with its arguments: what Expression(func, ...)
    takes (functional.py 139), or an iconic function without arguments. *)
Inductive fgiven : Type :=
| GExpr (s : espec V) (args : list (parg V)) (kwds : odict V) (order delta : option mapping)
| GIcon (id : nat) (symbols : list string).

(** An entry of _funcs: the Expression object; for an iconic one its order only. *)
Inductive fentry : Type :=
| EnExpr (e : expression V)
| EnIcon (id : nat) (symbols : list string) (order : option mapping).

Definition entry_iconic (x : fentry) : bool :=
  match x with EnExpr _ => false | EnIcon _ _ _ => true end.

Definition entry_order (x : fentry) : option mapping :=
  match x with EnExpr e => fst (e_maps e) | EnIcon _ _ o => o end.

(** Expression.set_order on an entry; for iconic ones all values are None here, so
    expression.py 279-281 never fails. *)
Definition entry_set_order (x : fentry) (o : mapping) : fentry * result unit :=
  match x with
  | EnExpr e => let (e', r) := e_set_order e (Some o) in (EnExpr e', r)
  | EnIcon id sy _ => (EnIcon id sy (Some o), Ok tt)
  end.

(** A Functional (functional.py 14-25). *)
Record functional : Type := mkFl {
  fl_out : list string;
  fl_inp : list string;
  fl_args : list (parg V);
  fl_kwds : odict V;
  fl_deps : list (list string * option (list string));
  fl_funcs : list (list string * fentry);
  fl_iconic : option bool;
  fl_partials : list (list string) }.

(** Functional.__init__ (functional.py 28-36): an empty input graph is replaced by
    the output graph. *)
Definition make_functional (out inp : list string) (args : list (parg V)) (kwds : odict V)
    : functional :=
  mkFl out (match inp with [] => out | _ => inp end) args kwds [] [] None [].

(** Dictionaries keyed by frozensets. *)
Fixpoint set_get {A} (d : list (list string * A)) (k : list string) : option A :=
  match d with
  | [] => None
  | (k', a) :: d' => if seteq_str k k' then Some a else set_get d' k
  end.

Definition set_mem {A} (d : list (list string * A)) (k : list string) : bool :=
  match set_get d k with Some _ => true | None => false end.

Fixpoint set_put {A} (d : list (list string * A)) (k : list string) (a : A) : list (list string * A) :=
  match d with
  | [] => [(k, a)]
  | (k', a') :: d' => if seteq_str k k' then (k', a) :: d' else (k', a') :: set_put d' k a
  end.

(** The mapping that drops the inputs a function does not depend on
    (functional.py 187-191). *)
Definition drop_map (inp deps : list string) : mapping :=
  map (fun k => (k, MNone)) (filter (fun k => negb (mem_str k deps)) inp).

(** The loop of Functional._set_partials (functional.py 183-192): returns the
    functions as mutated, the keys for which partials exist by then, and what is
    raised.  [element not in None] raises TypeError, if there is an element. *)
Fixpoint set_partials (inp : list string) (deps : list (list string * option (list string)))
    (funcs : list (list string * fentry)) (done : list (list string))
    : list (list string * fentry) * list (list string) * result unit :=
  match funcs with
  | [] => ([], done, Ok tt)
  | (k, x) :: rest =>
      let done' := (done ++ [k])%list in
      if no_map (entry_order x) then
        match set_get deps k with
        | None => ((k, x) :: rest, done', Err KeyError)
        | Some None =>
            match inp with
            | [] =>
                let (x', r) := entry_set_order x [] in
                match r with
                | Err e => ((k, x') :: rest, done', Err e)
                | Ok _ => let '(fs, ps, r') := set_partials inp deps rest done' in ((k, x') :: fs, ps, r')
                end
            | _ => ((k, x) :: rest, done', Err TypeError)
            end
        | Some (Some ds) =>
            let (x', r) := entry_set_order x (drop_map inp ds) in
            match r with
            | Err e => ((k, x') :: rest, done', Err e)
            | Ok _ => let '(fs, ps, r') := set_partials inp deps rest done' in ((k, x') :: fs, ps, r')
            end
        end
      else let '(fs, ps, r') := set_partials inp deps rest done' in ((k, x) :: fs, ps, r')
  end.

Definition with_deps (f : functional) d :=
  mkFl (fl_out f) (fl_inp f) (fl_args f) (fl_kwds f) d (fl_funcs f) (fl_iconic f) (fl_partials f).
Definition with_funcs (f : functional) d :=
  mkFl (fl_out f) (fl_inp f) (fl_args f) (fl_kwds f) (fl_deps f) d (fl_iconic f) (fl_partials f).
Definition with_iconic (f : functional) d :=
  mkFl (fl_out f) (fl_inp f) (fl_args f) (fl_kwds f) (fl_deps f) (fl_funcs f) d (fl_partials f).
Definition with_partials (f : functional) d :=
  mkFl (fl_out f) (fl_inp f) (fl_args f) (fl_kwds f) (fl_deps f) (fl_funcs f) (fl_iconic f) d.

(** The outputs and inputs a spec names (functional.py 124-130). *)
Definition parse_spec (s : fspecn) : result (list string * option (list string)) :=
  match s with
  | SpDict d =>
      let! o := parse_identifiers (IdList (map fst d)) in
      let! i := parse_identifiers (IdList (map snd d)) in
      Ok (o, Some i)
  | SpOut i => let! o := parse_identifiers i in Ok (o, None)
  end.

(** The Expression made in functional.py 139. *)
Definition make_entry (g : fgiven) : result fentry :=
  match g with
  | GExpr s a k o d => let! e := make_expression s a k o d in Ok (EnExpr e)
  | GIcon id sy => Ok (EnIcon id sy None)
  end.

(** Lines 146-173 of functional.py, after the function has been registered. *)
Definition add_checks (f : functional) (out : list string) (inp : option (list string)) (x : fentry)
    : functional * result unit :=
  if entry_iconic x && negb (Nat.eqb (length out) 1 && subset_str out (fl_out f))
  then (f, Err AssertionError)
  else
    match inp, x with
    | None, EnExpr _ => (f, Err AssertionError)
    | _, _ =>
        let ins := match inp with
                   | Some i => i
                   | None => match x with EnIcon _ sy _ => dedup_str sy | EnExpr _ => [] end
                   end in
        let f1 := with_deps f (set_put (fl_deps f) out (Some ins)) in
        if negb (subset_str out (fl_out f)) then (f1, Err AssertionError)
        else if negb (subset_str ins (fl_inp f)) then (f1, Err AssertionError)
        else
          let '(fs, ps, r) := set_partials (fl_inp f) (fl_deps f1) (fl_funcs f1) [] in
          (with_partials (with_funcs f1 fs) ps, r)
    end.

(** Functional.add_func (functional.py 110-173): the object afterwards, whether or
    not it raises. *)
Definition add_func (f : functional) (spec : fspecn) (g : fgiven) : functional * result unit :=
  match parse_spec spec with
  | Err e => (f, Err e)
  | Ok (out, inp) =>
      if set_mem (fl_deps f) out then (f, Err AssertionError)
      else
        let f1 := with_deps f (set_put (fl_deps f) out inp) in
        match make_entry g with
        | Err e => (f1, Err e)
        | Ok x =>
            let f2 := with_funcs f1 (set_put (fl_funcs f1) out x) in
            match fl_iconic f2 with
            | None => add_checks (with_iconic f2 (Some (entry_iconic x))) out inp x
            | Some b =>
                if Bool.eqb b (entry_iconic x) then add_checks f2 out inp x
                else (f2, Err AssertionError)
            end
        end
  end.

(** len() and bool() of a functional (functional.py 88-94, 136). *)
Definition fl_len (f : functional) : nat := length (fl_deps f).
Definition fl_bool (f : functional) : bool := negb (Nat.eqb (fl_len f) 0).

(** functional[out](args, kwds) (functional.py 180-198): the partial call of the
    Expression; iconic calls are not modelled (None). *)
Definition fl_call (f : functional) (out : idents) (args : list (parg V)) (kwds : odict V)
    : result (option (outcome V)) :=
  let! k := parse_identifiers out in
  if existsb (seteq_str k) (fl_partials f) then
    match set_get (fl_funcs f) k with
    | None => Err KeyError
    | Some (EnExpr e) =>
        let! o := e_call sub e (fl_args f ++ args)%list (od_update (fl_kwds f) kwds) in Ok (Some o)
    | Some (EnIcon _ _ _) => Ok None
    end
  else Err KeyError.

(** A history of add_func calls. *)
Definition add_all (f : functional) (l : list (fspecn * fgiven)) : functional :=
  fold_left (fun f sg => fst (add_func f (fst sg) (snd sg))) l f.

(** Dependence.add_func (dependence.py 270-273): [assert self._func] is the truth
    value of the Functional. *)
Definition dep_add_func (f : functional) (spec : fspecn) (g : fgiven) : functional * result unit :=
  if fl_bool f then add_func f spec g else (f, Err AssertionError).

End Functional.
Arguments functional : clear implicits.
Arguments fgiven : clear implicits.
Arguments fentry : clear implicits.
