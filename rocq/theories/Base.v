(** Python-level vocabulary shared by all models: exceptions as values,
    insertion-ordered dictionaries, list helpers.  No file of /repo is modelled
    here; these definitions fix the meaning of the Python built-ins used there. *)
From Coq Require Import String Ascii ZArith Bool Arith Lia List.
Import ListNotations.
Set Implicit Arguments.

(** ** Exceptions *)

(** The exception classes the code can raise (explicitly, or implicitly through
    a Python or numpy operation). *)
Inductive exn : Type :=
| AssertionError | ValueError | TypeError | KeyError | IndexError
| AttributeError | AxisError | NameError | StopIteration | ZeroDivisionError.

Inductive result (A : Type) : Type :=
| Ok (a : A)
| Err (e : exn).
Arguments Ok {A} a.
Arguments Err {A} e.

Definition bind {A B} (r : result A) (f : A -> result B) : result B :=
  match r with Ok a => f a | Err e => Err e end.

Notation "'let!' x ':=' e 'in' f" :=
  (bind e (fun x => f)) (at level 200, x pattern, e at level 100, f at level 200,
   right associativity).

(** [assert b] : Python's assert statement. *)
Definition assert_ (b : bool) : result unit := if b then Ok tt else Err AssertionError.

Definition is_ok {A} (r : result A) : bool := match r with Ok _ => true | Err _ => false end.

(** Left fold in the result monad: a Python [for] loop whose body may raise. *)
Fixpoint fold_res {A S} (f : S -> A -> result S) (l : list A) (s : S) : result S :=
  match l with
  | [] => Ok s
  | a :: l' => let! s' := f s a in fold_res f l' s'
  end.

(** Monadic map: a list comprehension whose body may raise. *)
Fixpoint map_res {A B} (f : A -> result B) (l : list A) : result (list B) :=
  match l with
  | [] => Ok []
  | a :: l' => let! b := f a in let! bs := map_res f l' in Ok (b :: bs)
  end.

(** ** Insertion-ordered dictionaries keyed by strings (dict / OrderedDict) *)

Definition odict (A : Type) := list (string * A).

Fixpoint od_get {A} (d : odict A) (k : string) : option A :=
  match d with
  | [] => None
  | (k', v) :: d' => if String.eqb k k' then Some v else od_get d' k
  end.

(** [d[k] = v] and [d.update({k: v})]: an existing key keeps its position. *)
Fixpoint od_set {A} (d : odict A) (k : string) (v : A) : odict A :=
  match d with
  | [] => [(k, v)]
  | (k', v') :: d' => if String.eqb k k' then (k', v) :: d' else (k', v') :: od_set d' k v
  end.

Definition od_mem {A} (d : odict A) (k : string) : bool :=
  match od_get d k with Some _ => true | None => false end.

(** [d.pop(k)] without its return value. *)
Fixpoint od_del {A} (d : odict A) (k : string) : odict A :=
  match d with
  | [] => []
  | (k', v) :: d' => if String.eqb k k' then d' else (k', v) :: od_del d' k
  end.

Definition od_keys {A} (d : odict A) : list string := map fst d.
Definition od_vals {A} (d : odict A) : list A := map snd d.

(** [d.update(e)] / [{**d, **e}]. *)
Definition od_update {A} (d e : odict A) : odict A :=
  fold_left (fun acc kv => od_set acc (fst kv) (snd kv)) e d.

(** [dict(pairs)] / [OrderedDict(pairs)]. *)
Definition od_of_list {A} (l : list (string * A)) : odict A := od_update [] l.

(** [d[k]] with KeyError. *)
Definition od_getR {A} (d : odict A) (k : string) : result A :=
  match od_get d k with Some v => Ok v | None => Err KeyError end.

Definition mem_str (k : string) (l : list string) : bool := existsb (String.eqb k) l.

(** Membership of all elements, i.e. set inclusion. *)
Definition subset_str (l m : list string) : bool := forallb (fun k => mem_str k m) l.

(** Equality of the sets of elements of two lists. *)
Definition seteq_str (l m : list string) : bool := subset_str l m && subset_str m l.

Fixpoint dedup_str (l : list string) : list string :=
  match l with
  | [] => []
  | k :: l' => k :: filter (fun x => negb (String.eqb k x)) (dedup_str l')
  end.

Fixpoint nodup_str (l : list string) : bool :=
  match l with
  | [] => true
  | k :: l' => negb (mem_str k l') && nodup_str l'
  end.

Fixpoint list_eqb {A} (eqb : A -> A -> bool) (l m : list A) : bool :=
  match l, m with
  | [], [] => true
  | a :: l', b :: m' => eqb a b && list_eqb eqb l' m'
  | _, _ => false
  end.

(** ** Lists *)

Fixpoint set_nth {A} (n : nat) (x : A) (l : list A) : list A :=
  match l, n with
  | [], _ => []
  | _ :: l', 0 => x :: l'
  | y :: l', S n' => y :: set_nth n' x l'
  end.

Definition insert_nth {A} (n : nat) (x : A) (l : list A) : list A :=
  firstn n l ++ x :: skipn n l.

Fixpoint zip_with {A B C} (f : A -> B -> C) (l : list A) (m : list B) : list C :=
  match l, m with
  | a :: l', b :: m' => f a b :: zip_with f l' m'
  | _, _ => []
  end.

(** Python index normalisation of [l[d]] for a sequence of length n:
    negative indices count from the end. *)
Definition py_index (n : nat) (d : Z) : option nat :=
  if (0 <=? d)%Z then
    if (d <? Z.of_nat n)%Z then Some (Z.to_nat d) else None
  else
    if (- Z.of_nat n <=? d)%Z then Some (Z.to_nat (d + Z.of_nat n)) else None.

Definition py_indexR (n : nat) (d : Z) : result nat :=
  match py_index n d with Some i => Ok i | None => Err IndexError end.
