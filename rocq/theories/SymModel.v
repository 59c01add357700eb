(** Symbolic expressions: expr.py, variable_utils.py, the iconic parts of
    expression.py and parts of sympy_prob.py. *)
From Coq Require Import String ZArith Bool Arith List.
From Verif Require Import Base Num Tensor Names MVModel.
Import ListNotations.

(** ** variable_utils.py *)

(** What keys are made of: strings, objects with a string for a name (variables and
    symbols), objects whose name is not a string, and other objects. *)
Inductive xsub : Type := SubStr (s : string) | SubNamed (s : string) | SubBadName | SubOther.
Inductive xkey : Type := XKStr (s : string) | XKOne (x : xsub) | XKMany (l : list xsub).

(** variable_utils.py 34-43, the name of one part of a key. *)
Definition sub_name (x : xsub) : result string :=
  match x with
  | SubStr s | SubNamed s => Ok s
  | SubBadName => Err AssertionError
  | SubOther => Err KeyError
  end.

(** variable_utils.py 26-44, the string standing for a key. *)
Definition key_name (k : xkey) : result string :=
  match k with
  | XKStr s => Ok s
  | XKOne x => sub_name x
  | XKMany l => let! ns := map_res sub_name l in Ok (join "," ns)
  end.

(** An argument: a dictionary or anything else. *)
Inductive xarg (V : Type) : Type := XDict (d : list (xkey * V)) | XPlain (v : V).
Arguments XDict {V}. Arguments XPlain {V}.

(** variable_utils.py 27-30, 45-48 *)
Definition remapped (remap : odict string) (s : string) : string :=
  match od_get remap s with Some s' => s' | None => s end.

(** variable_utils.py 19-48, the loop over the arguments.  Without a remap, dictionaries
    of strings are added at once (lines 22-23), which is the same as key by key. *)
Definition parse_entry {V} (remap : odict string) (acc : odict V) (kv : xkey * V) : result (odict V) :=
  let! n := key_name (fst kv) in Ok (od_set acc (remapped remap n) (snd kv)).
Definition parse_arg {V} (remap : odict string) (acc : odict V) (a : xarg V) : result (odict V) :=
  match a with
  | XDict d => fold_res (parse_entry remap) d acc
  | XPlain _ => Err AssertionError
  end.

(** parse_as_str_dict( *args, remap=remap, **kwds) (variable_utils.py 7-51);
    an empty remap is as good as none.  The keywords do
    not include the reserved name remap itself. *)
Definition parse_as_str_dict {V} (remap : odict string) (args : list (xarg V)) (kwds : odict V) : result (odict V) :=
  match args with
  | [] => Ok kwds
  | _ => let! d := fold_res (parse_arg remap) args [] in Ok (od_update d kwds)
  end.

(** ** sort_ordered_dict (expr.py 32-63) *)

Inductive xorder : Type := OrdList (l : list (option Z)) | OrdDict (d : odict (option Z)).

Definition strict_up (l : list nat) : bool :=
  forallb (fun p => fst p <? snd p)%nat (combine l (tl l)).

(** expr.py 54-63: the keys with an order take, from first to last, the places of
    such keys; [sorted] are the keys still to be placed. *)
Fixpoint place_sorted {A} (d : odict A) (given : list (option Z)) (keys sorted : list string) : result (odict A) :=
  match keys, given with
  | k :: keys', None :: given' =>
      let! v := od_getR d k in let! r := place_sorted d given' keys' sorted in Ok ((k, v) :: r)
  | _ :: keys', Some _ :: given' =>
      match sorted with
      | s :: sorted' => let! v := od_getR d s in let! r := place_sorted d given' keys' sorted' in Ok ((s, v) :: r)
      | [] => Err IndexError
      end
  | _, _ => Ok []
  end.

(** expr.py 32-63.  [argsort] is np.argsort, which need not be stable; the order
    is given as a list or a dictionary.  np.diff(sort_order) is positive
    throughout when sort_order increases. *)
Definition sort_ordered_dict {A} (argsort : list Z -> list nat) (d : odict A) (order : xorder) (reverse : bool)
    : result (odict A) :=
  let keys := od_keys d in
  let! given :=
    match order with
    | OrdList l => let! _ := assert_ (Nat.eqb (length d) (length l)) in Ok l
    | OrdDict o => let! _ := assert_ (seteq_str keys (od_keys o)) in map_res (od_getR o) keys
    end in
  let pairs := flat_map (fun kg => match snd kg with Some z => [(fst kg, z)] | None => [] end) (combine keys given) in
  if (length pairs <? 2)%nat then Ok d
  else
    let ix := argsort (map snd pairs) in
    let ix := if reverse then rev ix else ix in
    if strict_up ix then Ok d
    else place_sorted d given keys (map (fun i => nth i (map fst pairs) EmptyString) ix).

(** ** Expr (expr.py 66-275) *)

Section Sym.
Context {T : Type} {N : Num T}.

(** What an expression is evaluated at: numbers, booleans and arrays. *)
Inductive xval : Type := XNum (x : T) | XBool (b : bool) | XArr (t : tensor T).

(** An expression: its free symbols in the order in which Python iterates over the
    set expr.free_symbols (expr.py 17-29), each with whether sympy reads its name as
    that symbol (not so for symbols made with assumptions such as real=True); its value
    as a function of those of the symbols; whether one of the default functions for
    arrays could be made (expr.py 10-14, 122-124, 140-162); and the optional remap
    (expr.py 89-91, 126-133). *)
Record sexpr : Type := mkSE {
  se_syms : list (string * bool);
  se_fun : (string -> T) -> T;
  se_np : bool;
  se_remap : odict string
}.

(** The results: a number, an array, or a sympy expression with symbols left. *)
Inductive xres : Type := RNumber (x : T) | RArray (t : tensor T) | RLeft.

(** expr.py 189-190, booleans become integers; 194. *)
Definition unbool (v : xval) : xval := match v with XBool b => XNum (if b then n1 else n0) | _ => v end.
Definition isarray (v : xval) : bool := match v with XArr _ => true | _ => false end.

(** A scalar as an array of no axes. *)
Definition as_arr (v : xval) : tensor T :=
  match v with XNum x => tscalar x | XBool b => tscalar (if b then n1 else n0) | XArr t => t end.

(** The first axis of more than one value (expr.py 195-199). *)
Fixpoint first_wide (i : nat) (sh : list nat) : option nat :=
  match sh with [] => None | n :: sh' => if (1 <? n)%nat then Some i else first_wide (S i) sh' end.
Definition vec_dim (v : xval) : option nat :=
  match v with XArr t => first_wide 0 (shape t) | _ => None end.

Definition env_of (keys : list string) (nums : list T) (k : string) : T :=
  match od_get (combine keys nums) k with Some x => x | None => n0 end.

(** Expr.__call__, parsing the arguments (expr.py 168-180). *)
Definition se_values (e : sexpr) (args : list (xarg xval)) (kwds : odict xval) : result (odict xval) :=
  let keys := map fst (se_syms e) in
  let plain := map (fun a => match a with XPlain v => Some v | XDict _ => None end) args in
  if match kwds with [] => true | _ => false end && Nat.eqb (length args) (length keys)
     && forallb (fun o => match o with Some _ => true | None => false end) plain
  then Ok (od_of_list (combine keys (flat_map (fun o => match o with Some v => [v] | None => [] end) plain)))
  else parse_as_str_dict (se_remap e) args kwds.

(** expr.subs(values) (expr.py 149, 209-221): sympy turns the names into symbols
    without assumptions, so that others are left in the expression.  Simplified: sympy
    could still drop symbols that are left, as in 0*x. *)
Definition subs (e : sexpr) (env : string -> T) : xres :=
  if forallb snd (se_syms e) then RNumber (se_fun e env) else RLeft.

(** The function for arrays, ufuncify or lambdify (expr.py 208-212, 219-220): elementwise
    with broadcasting. *)
Definition np_fun (e : sexpr) (evalues : list xval) : result xres :=
  let keys := map fst (se_syms e) in
  let ts := map as_arr evalues in
  let! sh := bcast_all (map (@shape T) ts) in
  Ok (RArray (mkT sh (fun idx => se_fun e (env_of keys (map (fun t => get t (bcast_idx (shape t) idx)) ts))))).

(** expr.py 227-229: whether the arrays are sorted, np.max(np.diff(vec_dims)) > 0. *)
Definition ascends (l : list nat) : bool := existsb (fun p => fst p <? snd p)%nat (combine l (tl l)).

(** The loop over arrays without such a function (expr.py 223-256).  meshgrid
    flattens its arguments and puts the first two axes in exchange; float() of an
    expression with symbols left raises TypeError. *)
Definition mesh_fun (argsort : list Z -> list nat) (e : sexpr) (values : odict xval) (evalues : list xval) : result xres :=
  let keys := map fst (se_syms e) in
  let arrays := map isarray evalues in
  let dims := map vec_dim evalues in
  let wide := flat_map (fun o => match o with Some i => [i] | None => [] end) dims in
  let! (values', evalues') :=
    if (1 <? length wide)%nat && ascends wide
    then let! v := sort_ordered_dict argsort values (OrdList (map (option_map Z.of_nat) dims)) true in Ok (v, od_vals v)
    else Ok (values, evalues) in
  let meshed := map (fun v => to_list (as_arr v))
        (map snd (filter (fun p => fst p) (combine arrays evalues'))) in
  let sh := swap2 (map (@length T) meshed) in
  let column (idx : list nat) (j : nat) := nth (nth j (swap2 idx) 0) (nth j meshed []) n0 in
  let array_keys := map snd (filter (fun p => fst p) (combine arrays keys)) in
  if forallb snd (se_syms e) then
    let! scal := map_res (fun p => match p with
                                   | (true, k) => Ok (k, n0)
                                   | (false, k) => let! v := od_getR values' k in Ok (k, get (as_arr v) []) end)
                         (combine arrays keys) in
    Ok (RArray (mkT sh (fun idx =>
      let cols := combine array_keys (map (column idx) (seq 0 (length array_keys))) in
      se_fun e (fun k => match od_get cols k with
                         | Some x => x
                         | None => match od_get scal k with Some x => x | None => n0 end
                         end))))
  else if Nat.eqb (prod_list sh) 0 then Ok (RArray (mkT sh (fun _ => n0))) else Err TypeError.

(** Expr.__call__ from line 183 on.  The keys are looked up in turn; no types can be
    mixed (lines 200-205), since the only one of efun is that of arrays. *)
Definition se_eval (argsort : list Z -> list nat) (e : sexpr) (values : odict xval) : result xres :=
  let keys := map fst (se_syms e) in
  let! evalues := map_res (fun k => let! v := od_getR values k in Ok (unbool v)) keys in
  let values := od_update values (combine keys evalues) in
  if negb (existsb isarray evalues)
  then Ok (subs e (env_of keys (map (fun v => get (as_arr v) []) evalues)))
  else if se_np e then np_fun e evalues
  else mesh_fun argsort e values evalues.

(** Expr.__call__ (expr.py 164-256). *)
Definition se_call (argsort : list Z -> list nat) (e : sexpr) (args : list (xarg xval)) (kwds : odict xval) : result xres :=
  let! values := se_values e args kwds in se_eval argsort e values.

End Sym.

Arguments xval T : clear implicits.
Arguments xres T : clear implicits.
Arguments sexpr T : clear implicits.

(** ** Iconic expressions in Expression (expression.py 157-193, 232-240, 304-345) *)

(** A single expression, a tuple or a dictionary of them. *)
Inductive icon_spec (E : Type) : Type := ISingle (e : E) | ITuple (l : list E) | IDict (d : odict E).
Arguments ISingle {E}. Arguments ITuple {E}. Arguments IDict {E}.

Inductive ikey : Type := IKNone | IKInt (z : Z) | IKStr (s : string).
Definition ikey_eqb (a b : ikey) : bool :=
  match a, b with
  | IKNone, IKNone => true
  | IKInt x, IKInt y => Z.eqb x y
  | IKStr x, IKStr y => String.eqb x y
  | _, _ => false
  end.

(** expression.py 327-331: among the solutions the first of
    those printed shortest. *)
Definition shortest {E} (repr : E -> string) (e : E) (l : list E) : E :=
  fold_left (fun best x => if (String.length (repr x) <? String.length (repr best))%nat then x else best) l e.

(** Expression._set_partials for iconic expressions (expression.py 309-345).  The
    expressions of a tuple are kept in a dictionary (lines 232-236), so the test for
    a tuple in line 337 fails and no key -1 is added.  [inverses] are sympy's
    solutions for a single expression of n symbols declared invertible.  An empty tuple
    is not iconic, and leaves call unbound in line 363. *)
Definition icon_partials {E} (repr : E -> string) (s : icon_spec E) (invertible : bool) (n : nat) (inverses : list E)
    : result (list (ikey * E)) :=
  match s with
  | ISingle e =>
      if invertible then
        match n, inverses with
        | O, _ => Err IndexError
        | _, [] => Err AssertionError
        | _, i :: l => let inv := shortest repr i l in
            Ok [(IKNone, e); (IKInt 0, e); (IKInt 1, inv); (IKInt (-1), inv)]
        end
      else Ok [(IKNone, e)]
  | ITuple [] => Err NameError
  | ITuple l => Ok (combine (map (fun i => IKInt (Z.of_nat i)) (seq 0 (length l))) l)
  | IDict d => Ok (map (fun ke => (IKStr (fst ke), snd ke)) d)
  end.

(** Expression.__init__ (expression.py 170-190): whether the expression counts
    as multiple; n is the number of symbols of a single one.  Only those may be
    declared invertible (lines 181-183). *)
Definition icon_multi {E} (s : icon_spec E) (invertible : bool) (n : nat) : result bool :=
  match s with
  | ISingle _ => Ok (invertible && Nat.eqb n 1)
  | _ => let! _ := assert_ (negb invertible) in Ok true
  end.

Fixpoint icon_get {E} (l : list (ikey * E)) (k : ikey) : result E :=
  match l with
  | [] => Err KeyError
  | (k', e) :: l' => if ikey_eqb k k' then Ok e else icon_get l' k
  end.

(** Expression.__getitem__ (expression.py 467-482) *)
Definition icon_item {E} (repr : E -> string) (s : icon_spec E) (invertible : bool) (n : nat) (inverses : list E) (k : ikey)
    : result E :=
  let! multi := icon_multi s invertible n in
  let! l := icon_partials repr s invertible n inverses in
  let! _ := assert_ (match k with IKNone => true | _ => multi end) in
  icon_get l k.

(** ** sympy_prob.py *)

(** A sympy object: whether it has a cdf, whether it has arguments, and these. *)
Inductive sobj : Type := SObj (cdf : bool) (has_args : bool) (args : list sobj).

(** sympy_obj_from_dist(obj, True) (sympy_prob.py 21-47): the first object with a cdf
    found depth first.  Objects with a cdf count as true. *)
Fixpoint find_cdf (o : sobj) : option sobj :=
  match o with
  | SObj cdf has_args args =>
      if cdf then Some o
      else if has_args
      then (fix go (l : list sobj) := match l with
            | [] => None
            | x :: l' => match find_cdf x with Some r => Some r | None => go l' end
            end) args
      else None
  end.
Definition obj_from_dist (o : sobj) : result sobj :=
  match find_cdf o with Some r => Ok r | None => Err ValueError end.
