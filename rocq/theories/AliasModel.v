(** Model of the lists that variables have as their sets (probayes/variable.py): lists are
    objects that are converted in place, kept by the variable, given out by x.vset, and
    may be shared with the caller, with other variables and with the module's defaults.

    Not modelled here: tuples within lists that are shared (tuples do not change), numpy
    arrays given as sets (copied), names and icons (VariableModel, IdentModel). *)
From Coq Require Import String ZArith Bool Arith List.
From Verif Require Import Base Num VariableModel.
Import ListNotations.
Local Open Scope list_scope.

Section Alias.
Context {T : Type} {N : Num T} {TR : Trunc T}.

(** The lists of a program by number; the first three are DEFAULT_VSETS (variable.py
    24-26) for bool, int and float. *)
Definition heap : Type := list (list (elem T)).
Definition default_at (t : vtype) : nat := match t with VBool => 0 | VInt => 1 | VFloat => 2 end.
Definition start_heap : heap := [default_vset VBool; default_vset VInt; default_vset VFloat].
Definition read (h : heap) (a : nat) : list (elem T) := nth a h [].
Fixpoint write (h : heap) (a : nat) (l : list (elem T)) : heap :=
  match h, a with
  | [], _ => []
  | _ :: h, O => l :: h
  | x :: h, S a => x :: write h a l
  end.

(** A variable: its type, which list is its set, and what that list was when limits and
    length were last made from it (variable.py 249-369). *)
Record avar : Type := mkAV { av_type : option vtype; av_at : option nat; av_seen : list (elem T) }.
Record world : Type := mkWorld { w_heap : heap; w_vars : list avar }.
Definition start : world := mkWorld start_heap [].

(** x.vset and x.vtype as VariableModel has them. *)
Definition state_of (h : heap) (v : avar) : vstate T := mkVS (av_type v) (option_map (read h) (av_at v)).

(** variable.py 192-208: one element of the loop that converts the list in place. *)
Definition cast1 (own vt : option vtype) (e : elem T) : result (elem T * option vtype) :=
  match e with
  | Tup a =>
      let t := match vt with Some t => t | None => VFloat end in
      Ok (match a with AV v => Tup (AV (cast t v)) | AOO _ => e end, Some t)
  | Bare (AOO b) => Ok (e, Some (match vt with Some t => t | None => VFloat end))
  | Bare (AV v) =>
      match vt with
      | None => let t := vtype_of v in Ok (Bare (AV (cast t v)), Some t)
      | Some t =>
          match own with
          | None => if vtype_eqb t (vtype_of v) then Ok (Bare (AV (cast t v)), vt) else Err TypeError
          | Some _ => Ok (Bare (AV (cast t v)), vt)
          end
      end
  end.
(** The loop: what the list is afterwards, also if it raises. *)
Fixpoint cast_in_place (own vt : option vtype) (l : list (elem T)) : list (elem T) * result (option vtype) :=
  match l with
  | [] => ([], Ok vt)
  | e :: l' =>
      match cast1 own vt e with
      | Err x => (l, Err x)
      | Ok (e', vt') => let (r, o) := cast_in_place own vt' l' in (e' :: r, o)
      end
  end.

(** variable.py 266-268: real limits in the wrong order make a new list. *)
Definition reversed (vt : option vtype) (l : list (elem T)) : bool :=
  match vt, l with
  | Some VFloat, [e0; e1] => atom_ltb (atom_of e1) (atom_of e0)
  | _, _ => false
  end.

(** variable.py 209-219 and 249-277, for the list at a, after which the list at a is l. *)
Definition finish (h : heap) (v : avar) (a : nat) (l : list (elem T)) (vt : option vtype) : heap * avar * option exn :=
  match eval_vlims vt l with
  | Err e => (h, mkAV vt (Some a) (av_seen v), Some e)
  | Ok l' => if reversed vt l then ((h ++ [l'])%list, mkAV vt (Some (length h)) l', None)
             else (h, mkAV vt (Some a) l', None)
  end.

(** variable.py 169-219: x.vset = the list at a *)
Definition assign_list (h : heap) (v : avar) (a : nat) : heap * avar * option exn :=
  let (l, o) := cast_in_place (av_type v) (av_type v) (read h a) in
  let h := write h a l in
  match o with
  | Err e => (h, v, Some e)
  | Ok vt => finish h v a l vt
  end.

(** What is given: nothing, the list at a, the set of the j-th variable, or a set, range,
    tuple or array, of which a new list is made (variable.py 174-187). *)
Inductive source : Type := FromNone | FromList (a : nat) | FromVar (j : nat) | FromOther (g : arg T).
Definition new_list (g : arg T) : result (list (elem T)) :=
  match g with
  | ASet l => Ok (map Bare (sort_atoms l))
  | ATuple l => match sort_atoms l with [x; y] => Ok [Tup x; Tup y] | _ => Err AssertionError end
  | AArray l => Ok (map Bare (sort_atoms (map AV l)))
  | _ => Err AssertionError
  end.
(** The list that is converted, None if it is made from other things. *)
Definition source_at (w : world) (v : avar) (s : source) : option nat :=
  match s with
  | FromNone => option_map default_at (av_type v)
  | FromList a => Some a
  | FromVar j => match nth_error (w_vars w) j with Some u => av_at u | None => None end
  | FromOther _ => None
  end.
Definition assign_source (w : world) (v : avar) (s : source) : heap * avar * option exn :=
  match s, source_at w v s with
  | FromOther g, _ =>
      match new_list g with
      | Err e => (w_heap w, v, Some e)
      | Ok l => assign_list (w_heap w ++ [l])%list v (length (w_heap w))
      end
  | _, Some a => assign_list (w_heap w) v a
  | _, None => (w_heap w, v, Some AssertionError)
  end.

(** Programs: a list is made, or edited in place; x.vset is edited in place; a set is
    assigned; a variable is made of a type and of a set (variable.py 107-120, 228-241; the
    set is not an empty list). *)
Inductive act : Type :=
| MakeList (l : list (elem T))
| Edit (a : nat) (l : list (elem T))
| EditVset (i : nat) (l : list (elem T))
| Assign (i : nat) (s : source)
| New (t : option vtype) (s : source).

Fixpoint set_var (l : list avar) (i : nat) (v : avar) : list avar :=
  match l, i with
  | [], _ => []
  | _ :: l, O => v :: l
  | x :: l, S i => x :: set_var l i v
  end.

Definition blank_var (t : option vtype) : avar := mkAV t None [].

(** The world after an act, also if it raises; a constructor that raises leaves no
    variable. *)
Definition do_act (w : world) (c : act) : world * option exn :=
  match c with
  | MakeList l => (mkWorld (w_heap w ++ [l])%list (w_vars w), None)
  | Edit a l => (mkWorld (write (w_heap w) a l) (w_vars w), None)
  | EditVset i l =>
      match nth_error (w_vars w) i with
      | Some v => match av_at v with
                  | Some a => (mkWorld (write (w_heap w) a l) (w_vars w), None)
                  | None => (w, Some TypeError)
                  end
      | None => (w, Some NameError)
      end
  | Assign i s =>
      match nth_error (w_vars w) i with
      | Some v => let '(h, v', e) := assign_source w v s in (mkWorld h (set_var (w_vars w) i v'), e)
      | None => (w, Some NameError)
      end
  | New t s =>
      let t0 := match t, s with None, FromNone => Some VBool | _, _ => t end in
      let '(h, v, e) := match t0 with
                        | Some t1 => assign_list (w_heap w) (blank_var t0) (default_at t1)
                        | None => (w_heap w, blank_var None, None)
                        end in
      match e with
      | Some e => (mkWorld h (w_vars w), Some e)
      | None =>
          match s with
          | FromNone => (mkWorld h (w_vars w ++ [v])%list, None)
          | _ =>
              let '(h', v', e') := assign_source (mkWorld h (w_vars w)) v s in
              match e' with
              | Some e' => (mkWorld h' (w_vars w), Some e')
              | None => (mkWorld h' (w_vars w ++ [v'])%list, None)
              end
          end
      end
  end.
Definition program (w : world) (p : list act) : world := fold_left (fun w c => fst (do_act w c)) p w.

(** x.vset of the i-th variable. *)
Definition vset_of (w : world) (i : nat) : option (list (elem T)) :=
  match nth_error (w_vars w) i with Some v => option_map (read (w_heap w)) (av_at v) | None => None end.

(** x.length of the i-th variable (variable.py 294-297, without a transformation). *)
Definition length_of (w : world) (i : nat) : result (option (pyval T)) :=
  match nth_error (w_vars w) i with Some v => vlength (mkVS (av_type v) (Some (av_seen v))) None | None => Err NameError end.

End Alias.
Arguments avar : clear implicits.
Arguments world : clear implicits.
Arguments act : clear implicits.
Arguments source : clear implicits.
