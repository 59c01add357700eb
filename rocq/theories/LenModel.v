(** Model of the lengths of variables and fields and of membership in variables
    (probayes/variable.py, field.py, rf.py, rv_utils.py): len(x), bool(x), v in x,
    field.eval_length(), and numpy.isin as called by variables.

    Not modelled here: set_ufun() without a transformation and no_ucov (TransModel),
    assignments that raise (VariableModel), other changes of fields (FieldModel). *)
From Coq Require Import String ZArith Bool Arith List.
From Verif Require Import Base Num VariableModel.
Import ListNotations.
Local Open Scope list_scope.

Section Lengths.
Context {T : Type} {N : Num T} {TR : Trunc T}.

(** ** Lengths of fields *)

(** A variable: its set and its transformation. *)
Definition lvar : Type := (vstate T * option (ufun T))%type.

(** variable.py 294-297, length as an element of an array of floats; None stands for
    inf, and for nan if there is no set. *)
Definition len_of (v : lvar) : option T :=
  match vlength (fst v) (snd v) with Ok (Some x) => Some (as_num x) | _ => None end.

(** A field: names and variables in order, and the lengths it keeps (field.py 41-42). *)
Record lfield : Type := mkLF { lf_names : list string; lf_vars : list lvar; lf_lens : list (option T) }.

(** field.py 320-325, and rf.py 133-138, whose variables are all random (FieldModel):
    the lengths are kept and the root of the sum of squares is returned. *)
Fixpoint all_some {A} (l : list (option A)) : option (list A) :=
  match l with
  | [] => Some []
  | None :: _ => None
  | Some x :: l => match all_some l with Some r => Some (x :: r) | None => None end
  end.
Definition eval_length (f : lfield) : lfield * option T :=
  let lens := map len_of (lf_vars f) in
  (mkLF (lf_names f) (lf_vars f) lens,
   option_map (fun l => n_sqrt (fold_right n_add n0 (map (fun x => n_mul x x) l))) (all_some lens)).

(** Changes: x.vset = a and x.set_ufun(u) of the i-th variable, field.eval_length(), and
    field.add_var(x) of a variable with another name (field.py 195-212, _refresh). *)
Inductive lchange : Type :=
| LSet (i : nat) (a : arg T)
| LUfun (i : nat) (u : ufun T)
| LEval
| LAdd (name : string) (v : lvar).

Fixpoint lupd (l : list lvar) (i : nat) (h : lvar -> result lvar) : result (list lvar) :=
  match l, i with
  | [], _ => Err IndexError
  | v :: l, O => let! v' := h v in Ok (v' :: l)
  | v :: l, S i => let! l' := lupd l i h in Ok (v :: l')
  end.

Definition assign (a : arg T) (v : lvar) : result lvar :=
  match set_vset (fst v) a with (s, Ok _) => Ok (s, snd v) | (_, Err e) => Err e end.
(** variable.py 480-482: of real variables only *)
Definition transform (u : ufun T) (v : lvar) : result lvar :=
  match vs_vtype (fst v) with Some VFloat => Ok (fst v, Some u) | _ => Err AssertionError end.

Definition l_change (f : lfield) (c : lchange) : result lfield :=
  match c with
  | LSet i a => let! vs := lupd (lf_vars f) i (assign a) in Ok (mkLF (lf_names f) vs (lf_lens f))
  | LUfun i u => let! vs := lupd (lf_vars f) i (transform u) in Ok (mkLF (lf_names f) vs (lf_lens f))
  | LEval => Ok (fst (eval_length f))
  | LAdd n v => Ok (fst (eval_length (mkLF (lf_names f ++ [n]) (lf_vars f ++ [v]) (lf_lens f))))
  end.
Definition l_run (f : lfield) (h : list lchange) : result lfield := fold_res l_change h f.

(** Field(x1, ..., xn) *)
Definition make_lf (l : list (string * lvar)) : lfield := fst (eval_length (mkLF (map fst l) (map snd l) [])).

(** ** len(x) and bool(x) *)

(** variable.py 304-306: Python takes nothing but integers from __len__, and the lengths of
    real variables are floats; bool(x) is that len(x) is not nought, as there is no
    __bool__. *)
Definition py_len (v : lvar) : result Z :=
  match vlength (fst v) (snd v) with
  | Ok (Some (PI n)) => Ok n
  | _ => Err TypeError
  end.
Definition py_bool (v : lvar) : result bool := let! n := py_len v in Ok (negb (Z.eqb n 0)).

(** ** numpy.isin(x, vset, assume_unique=True) *)

(** numpy has three ways to do it and chooses by the number of elements and their types:
    comparing with each element of the set, a table of the elements, or sorting. *)
Inductive isin_way : Type := Loop | Table | Sort.

(** Sorting: both arrays are concatenated and sorted by a stable algorithm, every element
    is compared to the one after it, and what comes out is put where the element was.  With
    assume_unique=False numpy first makes both arrays unique. *)
Fixpoint ins (a : nat * T) (l : list (nat * T)) : list (nat * T) :=
  match l with
  | [] => [a]
  | b :: l' => if n_leb (snd a) (snd b) then a :: l else b :: ins a l'
  end.
Definition stable_sort (l : list (nat * T)) : list (nat * T) := fold_right ins [] l.
Fixpoint same_as_next (l : list (nat * T)) : list (nat * bool) :=
  match l with
  | [] => []
  | (i, x) :: l' => (i, match l' with [] => false | (_, y) :: _ => n_eqb x y end) :: same_as_next l'
  end.
Definition put_back (l : list (nat * bool)) (i : nat) : bool := existsb (fun p => Nat.eqb (fst p) i && snd p) l.
Definition isin (w : isin_way) (xs vset : list T) : list bool :=
  match w with
  | Loop | Table => map (fun x => existsb (n_eqb x) vset) xs
  | Sort =>
      let ar := xs ++ vset in
      let flags := same_as_next (stable_sort (combine (seq 0 (length ar)) ar)) in
      map (put_back flags) (seq 0 (length xs))
  end.

(** variable.py 327-328 and 350-367: inside(x) of an array, flattened; None without a set. *)
Definition inside_all (w : isin_way) (s : vstate T) (xs : list (pyval T)) : option (list bool) :=
  match vs_vset s with
  | None => None
  | Some l =>
      match vs_vtype s with
      | Some VFloat => all_some (map (inside s) xs)
      | _ => Some (isin w (map as_num xs) (map as_num (vset_vals l)))
      end
  end.

(** variable.py 308-311 with Python's bool() of what __contains__ returns: of None, of a
    number (one element), and of an array, which must not have more than one element. *)
Definition contains (w : isin_way) (s : vstate T) (xs : list (pyval T)) : result bool :=
  match inside_all w s xs with
  | None => Ok false
  | Some [b] => Ok b
  | Some [] => Ok false (* with a warning *)
  | Some _ => Err ValueError
  end.

(** rv_utils.py 35-38 (rv.py 305-320): the default probability of an array of values. *)
Definition uniform_all (w : isin_way) (s : vstate T) (p p_zero : T) (xs : list (pyval T)) : option (list T) :=
  option_map (map (fun b : bool => if b then p else p_zero)) (inside_all w s xs).

End Lengths.
Arguments lfield : clear implicits.
Arguments lvar : clear implicits.
Arguments lchange : clear implicits.
