(** Property theorems about symbolic expressions (C172-C181). *)
From Coq Require Import String ZArith QArith Bool Arith Lia List Sorting.Sorted Sorting.Permutation.
From Verif Require Import Base Num Tensor SymModel Sym_Spec Sym_Parse Sym_Proofs Sym_More Sym_Ex.
Import ListNotations.
Local Close Scope Q_scope.

(** C172: dictionaries and keywords are read as one: under each name, renamed by the
    remap in the case of dictionaries, is the last value given, keywords coming last. *)
Theorem C172_last_value_given :
  forall (V : Type) (remap : odict string), NoDup (od_keys remap) ->
  forall (args : list (xarg V)) kwds d, NoDup (od_keys kwds) ->
  parse_as_str_dict remap args kwds = Ok d ->
  NoDup (od_keys d) /\
  exists l, entries remap args l /\ forall n v, od_get d n = Some v <-> last_given (l ++ kwds)%list n v.
Proof. exact @parse_ok. Qed.
Print Assumptions C172_last_value_given.

(** C172: they are accepted if and only if all the arguments are dictionaries with
    keys that have names. *)
Theorem C172_accepted_iff :
  forall (V : Type) (remap : odict string), NoDup (od_keys remap) ->
  forall (args : list (xarg V)) kwds,
  (exists d, parse_as_str_dict remap args kwds = Ok d) <-> exists l, entries remap args l.
Proof. exact @parse_iff. Qed.
Print Assumptions C172_accepted_iff.

Theorem C172_not_a_dictionary :
  forall (V : Type) (remap : odict string), NoDup (od_keys remap) ->
  forall (args1 : list (xarg V)) l v args2 kwds, entries remap args1 l ->
  parse_as_str_dict remap (args1 ++ XPlain v :: args2)%list kwds = Err AssertionError.
Proof. exact @parse_plain. Qed.
Print Assumptions C172_not_a_dictionary.

Example C172_instance :
  let remap := [("z", "x")]%string in
  let args := [XDict [(XKStr "x"%string, 1%Z); (XKOne (SubNamed "y"), 2%Z)];
               XDict [(XKStr "z"%string, 3%Z); (XKMany [SubNamed "a"; SubStr "b"], 4%Z)]] in
  entries remap args [("x", 1%Z); ("y", 2%Z); ("x", 3%Z); ("a,b", 4%Z)]%string /\
  parse_as_str_dict remap args [("y", 5%Z); ("z", 6%Z)]%string
  = Ok [("x", 3%Z); ("y", 5%Z); ("a,b", 4%Z); ("z", 6%Z)]%string.
Proof.
  split; [|reflexivity].
  apply (more_entries _ _ [("x", 1%Z); ("y", 2%Z)]%string _ [("x", 3%Z); ("a,b", 4%Z)]%string).
  - repeat constructor; eexists; (split; [repeat constructor|]); split; try reflexivity;
      right; cbn; (split; [intros [C|[]]; discriminate|reflexivity]).
  - apply (more_entries _ _ [("x", 3%Z); ("a,b", 4%Z)]%string _ []); [|constructor].
    constructor; [|constructor; [|constructor]].
    + exists "z"%string. split; [constructor|]. split; [left; left; reflexivity|reflexivity].
    + exists "a,b"%string. split; [apply (called_many [SubNamed "a"; SubStr "b"] ["a"; "b"]%string); repeat constructor|].
      split; [right; cbn; split; [intros [C|[]]; discriminate|reflexivity]|reflexivity].
Qed.

(** C173: called with numbers by name, an expression has its value at these numbers. *)
Theorem C173_value_by_name :
  forall (T : Type) (N : Num T) argsort (e : sexpr T) kwds,
  readable e -> determined e -> scalars_for e kwds ->
  se_call argsort e [] kwds = Ok (RNumber (se_fun e (at_place kwds []))).
Proof. exact @call_scalars. Qed.
Print Assumptions C173_value_by_name.

(** C173: the order of the keywords does not matter, with numbers or with a function
    for arrays; nor that of the symbols, with numbers. *)
Theorem C173_keyword_order :
  forall (T : Type) (N : Num T) argsort (e : sexpr T) kwds kwds',
  NoDup (od_keys kwds) -> Permutation kwds kwds' -> se_np e = true \/ scalars_for e kwds ->
  se_call argsort e [] kwds = se_call argsort e [] kwds'.
Proof. exact @call_order. Qed.
Print Assumptions C173_keyword_order.

Theorem C173_symbol_order :
  forall (T : Type) (N : Num T) argsort (e e' : sexpr T) kwds,
  readable e -> determined e -> scalars_for e kwds ->
  Permutation (se_syms e) (se_syms e') -> (forall env, se_fun e' env = se_fun e env) ->
  se_call argsort e' [] kwds = se_call argsort e [] kwds.
Proof. exact @named_any_order. Qed.
Print Assumptions C173_symbol_order.

(** C173: a dictionary does the same as keywords, and every symbol needs a value. *)
Theorem C173_dictionary :
  forall (T : Type) (N : Num T) argsort (e : sexpr T) kwds,
  se_remap e = [] -> NoDup (od_keys kwds) ->
  se_call argsort e [XDict (map (fun kv => (XKStr (fst kv), snd kv)) kwds)] [] = se_call argsort e [] kwds.
Proof. exact @call_dict. Qed.
Print Assumptions C173_dictionary.

Theorem C173_missing_symbol :
  forall (T : Type) (N : Num T) argsort (e : sexpr T) kwds k,
  In k (symbols e) -> ~ In k (od_keys kwds) -> se_call argsort e [] kwds = Err KeyError.
Proof. exact @call_missing. Qed.
Print Assumptions C173_missing_symbol.

Example C173_instance :
  let kwds := [("y", XBool true); ("x", XNum (5 # 1)%Q); ("w", XNum 0%Q)]%string in
  readable (minus false) /\ determined (minus false) /\ scalars_for (minus false) kwds /\
  se_call argsort_ex (minus false) [] kwds = Ok (RNumber (4 # 1)%Q).
Proof.
  repeat split; [repeat constructor|apply minus_determined|].
  intros k [<-|[<-|[]]]; cbn; eexists; split; try reflexivity; exact I.
Qed.

(** C174: positional arguments are those of the symbols in the order in which Python
    iterates over them, and another number of arguments is refused. *)
Theorem C174_positional :
  forall (T : Type) (N : Num T) argsort (e : sexpr T) vs,
  NoDup (symbols e) -> length vs = length (symbols e) ->
  se_call argsort e (map XPlain vs) [] = se_call argsort e [] (combine (symbols e) vs).
Proof. exact @call_positional. Qed.
Print Assumptions C174_positional.

Theorem C174_other_number :
  forall (T : Type) (N : Num T) argsort (e : sexpr T) v vs,
  length (v :: vs) <> length (symbols e) ->
  se_call argsort e (map XPlain (v :: vs)) [] = Err AssertionError.
Proof. exact @call_wrong_number. Qed.
Print Assumptions C174_other_number.

(** C174 (false of the code): the set of symbols has no order, and the same positional
    call of the same expression has its arguments exchanged in the other order. *)
Theorem C174_position_refuted :
  forall (T : Type) (N : Num T) argsort (e e' : sexpr T) a b x y ba bb,
  a <> b -> se_syms e = [(a, ba); (b, bb)] -> se_syms e' = [(b, bb); (a, ba)] -> readable e -> determined e ->
  (forall env, se_fun e' env = se_fun e env) ->
  se_call argsort e [XPlain (XNum x); XPlain (XNum y)] [] = Ok (RNumber (se_fun e (two a b x y))) /\
  se_call argsort e' [XPlain (XNum x); XPlain (XNum y)] [] = Ok (RNumber (se_fun e (two a b y x))).
Proof. exact @positional_swapped. Qed.
Print Assumptions C174_position_refuted.

Example C174_instance :
  let e' := mkSE [("y", true); ("x", true)]%string (se_fun (minus true)) true [] in
  readable (minus true) /\ determined (minus true) /\
  se_call argsort_ex (minus true) [XPlain (XNum (5 # 1)%Q); XPlain (XNum (3 # 1)%Q)] [] = Ok (RNumber (2 # 1)%Q) /\
  se_call argsort_ex e' [XPlain (XNum (5 # 1)%Q); XPlain (XNum (3 # 1)%Q)] [] = Ok (RNumber ((-2) # 1)%Q).
Proof. repeat split; [repeat constructor|apply minus_determined]. Qed.

(** C175: with a function for arrays, the result has the broadcast shape, and at each
    place the value of the expression at the values there; shapes that cannot be
    broadcast raise what numpy raises. *)
Theorem C175_arrays_elementwise :
  forall (T : Type) (N : Num T) argsort (e : sexpr T) kwds,
  se_np e = true -> determined e -> incl (symbols e) (od_keys kwds) -> array_for e kwds ->
  match bcast_all (map (axes_of kwds) (symbols e)) with
  | Ok sh => exists t, se_call argsort e [] kwds = Ok (RArray t) /\ shape t = sh /\
                       forall idx, get t idx = se_fun e (at_place kwds idx)
  | Err x => se_call argsort e [] kwds = Err x
  end.
Proof. exact @call_arrays. Qed.
Print Assumptions C175_arrays_elementwise.

Example C175_instance :
  let kwds := [("x", XArr col); ("y", XArr row)]%string in
  incl (symbols (minus true)) (od_keys kwds) /\ array_for (minus true) kwds /\
  bcast_all (map (axes_of kwds) (symbols (minus true))) = Ok [3; 2] /\
  exists t, se_call argsort_ex (minus true) [] kwds = Ok (RArray t) /\ get t [2; 1] = (28 # 1)%Q.
Proof.
  repeat split; [intros k H; exact H| |eexists; split; reflexivity].
  exists "x"%string, col. cbn. auto.
Qed.

(** C176: without one, one array gives the values one by one, but in a single axis
    whatever its shape. *)
Theorem C176_one_array_flattened :
  forall (T : Type) (N : Num T) argsort (e : sexpr T) kwds k t,
  NoDup (symbols e) -> NoDup (od_keys kwds) -> se_np e = false -> one_array e kwds k t ->
  readable e -> determined e ->
  exists u, se_call argsort e [] kwds = Ok (RArray u) /\ shape u = [length (to_list t)] /\
     forall i, get u [i] = se_fun e (fun k' => if String.eqb k' k then item t i else at_place kwds [] k').
Proof. exact @call_one. Qed.
Print Assumptions C176_one_array_flattened.

(** C176 (false of the code): two arrays along a first and a later axis have their
    values exchanged: the value at i, j is that of the expression with the first symbol
    at the j-th value of the second array and the second at the i-th of the first. *)
Theorem C176_exchanged_refuted :
  forall (T : Type) (N : Num T) argsort (e : sexpr T) a b ta tb,
  a <> b -> symbols e = [a; b] -> readable e -> determined e -> se_np e = false ->
  forall d0 d1, sorting argsort -> along ta d0 -> along tb d1 -> d0 < d1 ->
  exists t, se_call argsort e [] [(a, XArr ta); (b, XArr tb)] = Ok (RArray t) /\
    shape t = [length (to_list ta); length (to_list tb)] /\
    forall i j, get t [i; j] = se_fun e (two a b (item tb j) (item ta i)).
Proof. exact @mesh_exchanged. Qed.
Print Assumptions C176_exchanged_refuted.

(** C176: otherwise the result is the table of all pairs, also for arrays along the
    same axis, which are not taken elementwise. *)
Theorem C176_table :
  forall (T : Type) (N : Num T) argsort (e : sexpr T) a b ta tb,
  a <> b -> symbols e = [a; b] -> readable e -> determined e -> se_np e = false ->
  ~ (exists d0 d1, along ta d0 /\ along tb d1 /\ d0 < d1) ->
  exists t, se_call argsort e [] [(a, XArr ta); (b, XArr tb)] = Ok (RArray t) /\
    shape t = [length (to_list tb); length (to_list ta)] /\
    forall i j, get t [j; i] = se_fun e (two a b (item ta i) (item tb j)).
Proof. exact @mesh_outer. Qed.
Print Assumptions C176_table.

(** C176 (false of the code): with the keywords the other way round the values are not
    exchanged, but the axes are. *)
Theorem C176_keyword_order_refuted :
  forall (T : Type) (N : Num T) argsort (e : sexpr T) a b ta tb,
  a <> b -> symbols e = [a; b] -> readable e -> determined e -> se_np e = false ->
  forall d0 d1, sorting argsort -> along ta d0 -> along tb d1 -> d0 < d1 ->
  exists t, se_call argsort e [] [(b, XArr tb); (a, XArr ta)] = Ok (RArray t) /\
    shape t = [length (to_list tb); length (to_list ta)] /\
    forall i j, get t [j; i] = se_fun e (two a b (item ta i) (item tb j)).
Proof. exact @mesh_other_order. Qed.
Print Assumptions C176_keyword_order_refuted.

Example C176_instance :
  sorting argsort_ex /\ readable (minus false) /\ determined (minus false) /\ along col 0 /\ along row 1 /\
  (exists t, se_call argsort_ex (minus false) [] [("x", XArr col); ("y", XArr row)]%string = Ok (RArray t) /\
             shape t = [3; 2] /\ get t [2; 1] = ((-28) # 1)%Q) /\
  (exists t, se_call argsort_ex (minus false) [] [("x", XArr row); ("y", XArr col)]%string = Ok (RArray t) /\
             shape t = [3; 2] /\ get t [2; 1] = ((-28) # 1)%Q) /\
  one_array (minus false) [("x", XArr col); ("y", XNum 1%Q)]%string "x" col.
Proof.
  split; [exact argsort_ex_sorting|]. split; [repeat constructor|]. split; [apply minus_determined|].
  split; [exact col_along|]. split; [exact row_along|].
  split; [eexists; repeat split|]. split; [eexists; repeat split|].
  split; [cbn; auto|]. split; [reflexivity|].
  intros k' [<-|[<-|[]]] H; [destruct H; reflexivity|]. cbn. eexists. split; [reflexivity|exact I].
Qed.

(** C177 (false of the code): an expression with a remap takes the new name from a
    dictionary, but not as a keyword. *)
Theorem C177_remapped_keyword_refuted :
  forall (T : Type) (N : Num T) argsort (e : sexpr T) s k v,
  symbols e = [s] -> readable e -> determined e ->
  NoDup (od_keys (se_remap e)) -> In (k, s) (se_remap e) -> k <> s -> scalar v ->
  se_call argsort e [XDict [(XKStr k, v)]] [] = Ok (RNumber (se_fun e (fun _ => number v))) /\
  se_call argsort e [] [(k, v)] = Err KeyError.
Proof. exact @remap_dict_only. Qed.
Print Assumptions C177_remapped_keyword_refuted.

(** C177 (false of the code): with a symbol whose name sympy does not read as that
    symbol, numbers do not give a number; one array without a function for arrays raises
    TypeError. *)
Theorem C177_left_unevaluated_refuted :
  forall (T : Type) (N : Num T) argsort (e : sexpr T) kwds,
  ~ readable e -> scalars_for e kwds -> se_call argsort e [] kwds = Ok RLeft.
Proof. exact @call_left. Qed.
Print Assumptions C177_left_unevaluated_refuted.

Theorem C177_array_unevaluated_refuted :
  forall (T : Type) (N : Num T) argsort (e : sexpr T) kwds k t,
  NoDup (symbols e) -> NoDup (od_keys kwds) -> se_np e = false -> one_array e kwds k t ->
  ~ readable e -> tsize t <> 0 -> se_call argsort e [] kwds = Err TypeError.
Proof. exact @call_one_left. Qed.
Print Assumptions C177_array_unevaluated_refuted.

Example C177_instance :
  let e := mkSE [("_x_cdf", true)]%string (fun g : string -> Q => g "_x_cdf"%string) true [("x", "_x_cdf")]%string in
  let e' := mkSE [("x", false)]%string (fun g : string -> Q => g "x"%string) false [] in
  readable e /\ determined e /\ In ("x", "_x_cdf")%string (se_remap e) /\
  ~ readable e' /\ one_array e' [("x", XArr col)]%string "x" col /\
  se_call argsort_ex e' [] [("x", XNum 1%Q)]%string = Ok RLeft.
Proof.
  split; [repeat constructor|]. split; [intros g h H; cbn; apply H; cbn; auto|].
  split; [left; reflexivity|]. split; [intros H; inversion H; discriminate|].
  split; [|reflexivity]. split; [left; reflexivity|]. split; [reflexivity|].
  intros k' [<-|[]] H; destruct H; reflexivity.
Qed.

(** C178: a dictionary sorted by an order keeps its entries; those without an order stay
    in their places and the others take their places in order. *)
Theorem C178_sorted :
  forall (A : Type) argsort (d : odict A) given reverse,
  sorting argsort -> NoDup (od_keys d) -> length given = length d ->
  exists r ranks,
    sort_ordered_dict argsort d (OrdList given) reverse = Ok r /\ length ranks = length r /\
    Permutation (combine d given) (combine r ranks) /\
    StronglySorted (along_order reverse) (somes ranks) /\
    forall i, nth_error given i = Some None -> nth_error r i = nth_error d i /\ nth_error ranks i = Some None.
Proof. exact @sort_list. Qed.
Print Assumptions C178_sorted.

Theorem C178_order_by_key :
  forall (A : Type) argsort (d : odict A) o reverse given,
  NoDup (od_keys o) -> incl (od_keys o) (od_keys d) -> Forall2 (fun k g => In (k, g) o) (od_keys d) given ->
  sort_ordered_dict argsort d (OrdDict o) reverse = sort_ordered_dict argsort d (OrdList given) reverse.
Proof. exact @sort_dict. Qed.
Print Assumptions C178_order_by_key.

Theorem C178_other_keys :
  forall (A : Type) argsort (d : odict A) o reverse k,
  (In k (od_keys d) /\ ~ In k (od_keys o)) \/ (In k (od_keys o) /\ ~ In k (od_keys d)) ->
  sort_ordered_dict argsort d (OrdDict o) reverse = Err AssertionError.
Proof. exact @sort_dict_refused. Qed.
Print Assumptions C178_other_keys.

Theorem C178_other_length :
  forall (A : Type) argsort (d : odict A) given reverse, length given <> length d ->
  sort_ordered_dict argsort d (OrdList given) reverse = Err AssertionError.
Proof. exact @sort_list_length. Qed.
Print Assumptions C178_other_length.

Example C178_instance :
  let d := [("a", 1); ("b", 2); ("c", 3); ("d", 4)]%string in
  let given := [Some 2; None; Some 0; Some 1]%Z in
  sorting argsort_ex /\ NoDup (od_keys d) /\
  sort_ordered_dict argsort_ex d (OrdList given) false = Ok [("c", 3); ("b", 2); ("d", 4); ("a", 1)]%string /\
  sort_ordered_dict argsort_ex d (OrdDict [("d", Some 1); ("c", Some 0); ("b", None); ("a", Some 2)]%string%Z) false
  = Ok [("c", 3); ("b", 2); ("d", 4); ("a", 1)]%string.
Proof.
  split; [exact argsort_ex_sorting|]. split; [repeat constructor; cbn; intuition discriminate|].
  split; reflexivity.
Qed.

(** C179: expressions in a tuple of symbolic expressions are found by their index. *)
Theorem C179_index :
  forall (E : Type) (repr : E -> string) l n inv i, l <> [] ->
  icon_item repr (ITuple l) false n inv (IKInt (Z.of_nat i))
  = match nth_error l i with Some e => Ok e | None => Err KeyError end.
Proof. exact @icon_tuple. Qed.
Print Assumptions C179_index.

(** C179 (false of the code): unlike tuples of functions (C82), they have no last one
    at -1. *)
Theorem C179_last_refuted :
  forall (E : Type) (repr : E -> string) l n inv z, l <> [] -> (z < 0)%Z ->
  icon_item repr (ITuple l) false n inv (IKInt z) = Err KeyError.
Proof. exact @icon_tuple_negative. Qed.
Print Assumptions C179_last_refuted.

(** C179: those in a dictionary are found by their key. *)
Theorem C179_key :
  forall (E : Type) (repr : E -> string) d n inv k,
  icon_item repr (IDict d) false n inv (IKStr k) = match od_get d k with Some e => Ok e | None => Err KeyError end.
Proof. exact @icon_dict. Qed.
Print Assumptions C179_key.

(** C179: an empty tuple is refused. *)
Theorem C179_empty :
  forall (E : Type) (repr : E -> string) n inv k, icon_item repr (ITuple []) false n inv k = Err NameError.
Proof. exact @icon_empty. Qed.
Print Assumptions C179_empty.

Example C179_instance :
  icon_item (fun s : string => s) (ITuple ["x"; "y"]%string) false 0 [] (IKInt 1) = Ok "y"%string.
Proof. reflexivity. Qed.

(** C180: an invertible expression of one symbol has itself at 0 and, at 1 and -1, the
    first of the solutions printed shortest. *)
Theorem C180_inverse :
  forall (E : Type) (repr : E -> string) e i l, exists x, first_shortest repr (i :: l) x /\
  icon_item repr (ISingle e) true 1 (i :: l) (IKInt 0) = Ok e /\
  icon_item repr (ISingle e) true 1 (i :: l) (IKInt 1) = Ok x /\
  icon_item repr (ISingle e) true 1 (i :: l) (IKInt (-1)) = Ok x /\
  icon_item repr (ISingle e) true 1 (i :: l) IKNone = Ok e.
Proof. exact @icon_inverse. Qed.
Print Assumptions C180_inverse.

(** C180 (false of the code for several symbols): one declared invertible is accepted
    and solved, but its inverse cannot be reached. *)
Theorem C180_several_symbols_refuted :
  forall (E : Type) (repr : E -> string) e n inv k, 1 < n -> k <> IKNone -> inv <> [] ->
  icon_item repr (ISingle e) true n inv k = Err AssertionError.
Proof. exact @icon_inverse_many. Qed.
Print Assumptions C180_several_symbols_refuted.

(** C180: several expressions cannot be declared invertible. *)
Theorem C180_several_refused :
  forall (E : Type) (repr : E -> string) s n inv k, (forall e, s <> ISingle e) ->
  icon_item repr s true n inv k = Err AssertionError.
Proof. exact @icon_several_refused. Qed.
Print Assumptions C180_several_refused.

Example C180_several_instance : forall e : string, ITuple ["x"; "y"]%string <> ISingle e.
Proof. discriminate. Qed.

Example C180_instance :
  icon_item (fun s : string => s) (ISingle "x**2")%string true 1 ["-sqrt(y)"; "sqrt(y)"]%string (IKInt (-1))
  = Ok "sqrt(y)"%string.
Proof. reflexivity. Qed.

(** C181: the object of a sympy distribution is found if and only if there is one with a
    cdf within it. *)
Theorem C181_found_iff :
  forall o, (exists r, obj_from_dist o = Ok r) <-> exists r, within o r /\ has_cdf r = true.
Proof. exact obj_found. Qed.
Print Assumptions C181_found_iff.

Theorem C181_found :
  forall o r, obj_from_dist o = Ok r -> within o r /\ has_cdf r = true.
Proof. exact obj_has_cdf. Qed.
Print Assumptions C181_found.

Theorem C181_first_argument :
  forall args1 x args2 r, Forall (fun y => obj_from_dist y = Err ValueError) args1 -> obj_from_dist x = Ok r ->
  obj_from_dist (SObj false true (args1 ++ x :: args2)%list) = Ok r.
Proof. exact obj_first. Qed.
Print Assumptions C181_first_argument.

Example C181_instance :
  let leaf := SObj false true [] in
  let dist := SObj true true [leaf] in
  within (SObj false true [leaf; SObj false true [leaf; dist]]) dist /\
  obj_from_dist (SObj false true [leaf; SObj false true [leaf; dist]; SObj true true []]) = Ok dist.
Proof.
  split; [|reflexivity].
  apply (within_arg _ _ (SObj false true [SObj false true []; SObj true true [SObj false true []]])); [right; left; reflexivity|].
  apply (within_arg _ _ (SObj true true [SObj false true []])); [right; left; reflexivity|constructor].
Qed.
