(** Property theorems about expressions and Func objects (C44, C45, C81-C87, C182). *)
From Coq Require Import String Ascii ZArith Bool Arith Lia List.
From Verif Require Import Base ExprModel Expr_Spec Expr_Proofs Expr_More Expr_Map.
Import ListNotations.
Local Open Scope string_scope.

(** C44: a call through an 'order' mapping whose entries do not interfere routes
    every argument to its declared place. *)
Theorem C44_order_call :
  forall (V : Type) (sub : V -> V -> V) s cargs ckw m (e : expression V) key id lk argc args kwds,
  make_expression s cargs ckw (Some m) None = Ok e -> m <> [] ->
  e_getitem e key = Ok (Fun id lk argc) ->
  not_sole_dict (cargs ++ args)%list ->
  NoDup (od_keys ckw) ->
  no_interference order_uses m -> from_start m ->
  supplied order_uses m (od_update ckw kwds) ->
  exists fargs fkw,
    e_item_call sub e key args kwds = Ok (Called id fargs fkw) /\
    routed order_uses order_value m (cargs ++ args)%list (od_update ckw kwds) fargs fkw.
Proof. exact @order_call. Qed.
Print Assumptions C44_order_call.

(** C44 (false of the code for other mappings): if an earlier entry writes the
    keyword [k] of a later one, the value the caller gave for [k] reaches nobody:
    the call is the same whatever that value is. *)
Theorem C44_overwritten_keyword_refuted :
  forall (V : Type) (sub : V -> V -> V) s cargs ckw (m1 m2 : mapping) k t (e : expression V) key args kwds v,
  make_expression s cargs ckw (Some (m1 ++ (k, t) :: m2)%list) None = Ok e ->
  not_sole_dict (cargs ++ args)%list ->
  NoDup (od_keys kwds) -> In k (od_keys kwds) ->
  ~ In k (od_keys m1) -> (exists k', In (k', MStr k) m1) ->
  e_item_call sub e key args (od_set kwds k v) = e_item_call sub e key args kwds.
Proof. exact @order_lost. Qed.
Print Assumptions C44_overwritten_keyword_refuted.

(** C44: a mapped keyword that nobody supplies makes the call raise. *)
Theorem C44_missing_keyword :
  forall (V : Type) (sub : V -> V -> V) s cargs ckw m (e : expression V) key id lk argc args kwds k,
  make_expression s cargs ckw (Some m) None = Ok e ->
  e_getitem e key = Ok (Fun id lk argc) ->
  not_sole_dict (cargs ++ args)%list -> NoDup (od_keys ckw) ->
  In k (od_keys m) -> ~ In k (od_keys ckw) -> ~ In k (od_keys kwds) ->
  (forall k', ~ In (k', MStr k) m) ->
  exists err, e_item_call sub e key args kwds = Err err.
Proof. exact @order_missing. Qed.
Print Assumptions C44_missing_keyword.

Definition named (id : nat) : item Z := Fun id Named 3.

(** x goes to position 1, y to position 0, z is renamed, w is dropped, v passes. *)
Example C44_instance :
  let m := [("x", MInt 1); ("y", MInt 0); ("z", MStr "loc"); ("w", MNone)] in
  exists e, make_expression (ESingle (named 7)) [] [] (Some m) None = Ok e /\
    e_getitem e KNone = Ok (named 7) /\ no_interference order_uses m /\ from_start m /\
    e_item_call Z.sub e KNone [] [("x", 1%Z); ("y", 2%Z); ("z", 3%Z); ("w", 4%Z); ("v", 5%Z)]
    = Ok (Called 7 [PVal 2%Z; PVal 1%Z] [("v", 5%Z); ("loc", 3%Z)]).
Proof.
  eexists. split; [reflexivity|]. split; [reflexivity|]. split; [|split; [|reflexivity]].
  - unfold no_interference, order_uses.
    repeat (apply FOP_cons;
      [repeat (apply Forall_cons;
         [split; [cbn; intros j -> E; discriminate E|
          split; [cbn; intros E; first [reflexivity | discriminate E]|
                  cbn; intros q Eq Er; subst; first [discriminate Eq | inversion Eq]]]|]); apply Forall_nil|]).
    apply FOP_nil.
  - intros k i H. cbn in H.
    repeat (destruct H as [H|H]; [inversion H; lia|]). destruct H.
Qed.

(** Swapping two names loses the second value: the function gets a alone. *)
Example C44_swap :
  exists e, make_expression (ESingle (named 7)) [] [] (Some [("a", MStr "b"); ("b", MStr "a")]) None = Ok e /\
    e_item_call Z.sub e KNone [] [("a", 1%Z); ("b", 2%Z)] = Ok (Called 7 [] [("a", 1%Z)]).
Proof. eexists. split; reflexivity. Qed.

(** C45: a call through a 'delta' mapping whose entries do not interfere passes
    for every key x' the difference of x' and x at the declared place. *)
Theorem C45_delta_call :
  forall (V : Type) (sub : V -> V -> V) s cargs ckw m (e : expression V) key id lk argc args kwds,
  make_expression s cargs ckw None (Some m) = Ok e -> m <> [] ->
  e_getitem e key = Ok (Fun id lk argc) ->
  not_sole_dict (cargs ++ args)%list ->
  NoDup (od_keys ckw) -> ~ In ""%string (od_keys m) ->
  no_interference delta_uses m -> from_start m ->
  supplied delta_uses m (od_update ckw kwds) ->
  exists fargs fkw,
    e_item_call sub e key args kwds = Ok (Called id fargs fkw) /\
    routed delta_uses (delta_value sub) m (cargs ++ args)%list (od_update ckw kwds) fargs fkw.
Proof. exact @delta_call. Qed.
Print Assumptions C45_delta_call.

(** C45 (false of the code otherwise): a mapping that passes both x and the
    difference x' - x can never be called. *)
Theorem C45_value_and_difference_refuted :
  forall (V : Type) (sub : V -> V -> V) s cargs ckw m (e : expression V) key id lk argc args kwds x t t',
  make_expression s cargs ckw None (Some m) = Ok e ->
  e_getitem e key = Ok (Fun id lk argc) ->
  not_sole_dict (cargs ++ args)%list -> NoDup (od_keys ckw) ->
  In (x, t) m -> In ((x ++ "'")%string, t') m -> (forall k, ~ In (k, MStr x) m) ->
  exists err, e_item_call sub e key args kwds = Err err.
Proof. exact @delta_both. Qed.
Print Assumptions C45_value_and_difference_refuted.

Example C45_instance :
  exists e, make_expression (ESingle (named 7)) [] [] None
      (Some [("x'", MInt 0); ("y", MStr "at")]) = Ok e /\
    e_item_call Z.sub e KNone [] [("x", 1%Z); ("x'", 5%Z); ("y", 2%Z)]
    = Ok (Called 7 [PVal 4%Z] [("at", 2%Z)]).
Proof. eexists. split; reflexivity. Qed.

Example C45_instance_both :
  exists e, make_expression (ESingle (named 7)) [] [] None
      (Some [("x'", MInt 0); ("x", MInt 1)]) = Ok e /\
    e_item_call Z.sub e KNone [] [("x", 1%Z); ("x'", 5%Z)] = Err KeyError.
Proof. eexists. split; reflexivity. Qed.

(** C81 (false of the code): the length of an expression made from a tuple of n
    functions is n + 1. *)
Theorem C81_tuple_length_refuted :
  forall (V : Type) l cargs ckw order delta (e : expression V),
  make_expression (ETuple l) cargs ckw order delta = Ok e ->
  e_len e = Ok (S (length l)).
Proof. exact @tuple_len. Qed.
Print Assumptions C81_tuple_length_refuted.

(** C81: an empty tuple is never accepted. *)
Theorem C81_empty_tuple_refuted :
  forall (V : Type) cargs ckw order delta (e : expression V),
  make_expression (ETuple []) cargs ckw order delta <> Ok e.
Proof. exact @empty_tuple. Qed.
Print Assumptions C81_empty_tuple_refuted.

Example C81_instance :
  exists e, make_expression (ETuple [named 1; named 2]) [] [] None None = Ok e /\ e_len e = Ok 3.
Proof. eexists. split; reflexivity. Qed.

(** C82: indices 0 .. n-1 give the functions in order, -1 the last, and all other
    integers raise KeyError. *)
Theorem C82_tuple_index :
  forall (V : Type) l cargs ckw order delta (e : expression V) z,
  make_expression (ETuple l) cargs ckw order delta = Ok e ->
  e_getitem e (KInt z) = match (if (z =? -1)%Z then nth_error l (length l - 1)
                                else if (0 <=? z)%Z then nth_error l (Z.to_nat z) else None)
                         with Some it => Ok it | None => Err KeyError end.
Proof. exact @tuple_index. Qed.
Print Assumptions C82_tuple_index.

(** C82: a multiple expression cannot be called, and says so with the wrong
    exception (TypeError from building the message). *)
Theorem C82_multiple_not_called :
  forall (V : Type) (sub : V -> V -> V) (e : expression V) args kwds,
  e_ismulti e = true -> e_call sub e args kwds = Err TypeError.
Proof. exact @multi_call_never. Qed.
Print Assumptions C82_multiple_not_called.

(** C82: a single expression is called directly and not indexed by integers. *)
Theorem C82_single :
  forall (V : Type) (sub : V -> V -> V) s cargs ckw order delta (e : expression V) it args kwds,
  s = ESingle it ->
  make_expression s cargs ckw order delta = Ok e ->
  e_getitem e KNone = Ok it /\
  e_call sub e args kwds = e_item_call sub e KNone args kwds /\
  (forall z, e_getitem e (KInt z) = Err AssertionError) /\
  e_len e = Err TypeError.
Proof. exact @single_call. Qed.
Print Assumptions C82_single.

Example C82_instance :
  exists e, make_expression (ETuple [named 1; named 2; named 3]) [] [] None None = Ok e /\
    e_getitem e (KInt 1) = Ok (named 2) /\ e_getitem e (KInt (-1)) = Ok (named 3) /\
    e_getitem e (KInt (-2)) = Err KeyError /\ e_ismulti e = true.
Proof. eexists. repeat split; reflexivity. Qed.

(** C83 (false of the code): set_order on an expression with a delta mapping
    raises, and yet from then on every call uses the rejected mapping. *)
Theorem C83_rejected_order_refuted :
  forall (V : Type) (sub : V -> V -> V) s cargs ckw md m (e e2 : expression V),
  make_expression s cargs ckw None (Some md) = Ok e ->
  make_expression s cargs ckw (Some m) None = Ok e2 -> m <> [] ->
  snd (e_set_order e (Some m)) = Err AssertionError /\
  forall key args kwds,
    e_item_call sub (fst (e_set_order e (Some m))) key args kwds = e_item_call sub e2 key args kwds.
Proof. exact @rejected_order. Qed.
Print Assumptions C83_rejected_order_refuted.

Example C83_instance :
  exists e e2,
    make_expression (ESingle (named 7)) [] [] None (Some [("x'", MInt 0)]) = Ok e /\
    make_expression (ESingle (named 7)) [] [] (Some [("x", MInt 0)]) None = Ok e2 /\
    e_item_call Z.sub e KNone [] [("x", 1%Z); ("x'", 5%Z)] = Ok (Called 7 [PVal 4%Z] []) /\
    e_item_call Z.sub e2 KNone [] [("x", 1%Z); ("x'", 5%Z)] = Ok (Called 7 [PVal 1%Z] [("x'", 5%Z)]).
Proof. eexists. eexists. repeat split; reflexivity. Qed.

(** C84: without mappings a function (not a lambda without parameters) gets the
    stored positional arguments followed by the given ones, and all keywords, the
    given ones overriding the stored ones. *)
Theorem C84_given_keywords_override :
  forall (V : Type) (sub : V -> V -> V) s cargs ckw (e : expression V) key id lk argc args kwds,
  make_expression s cargs ckw None None = Ok e ->
  e_getitem e key = Ok (Fun id lk argc) ->
  not_sole_dict (cargs ++ args)%list -> NoDup (od_keys kwds) ->
  (lk <> Lambda \/ argc <> 0) ->
  exists fkw, e_item_call sub e key args kwds = Ok (Called id (cargs ++ args)%list fkw) /\
    forall k, od_get fkw k = match od_get kwds k with Some v => Some v | None => od_get ckw k end.
Proof. exact @given_wins. Qed.
Print Assumptions C84_given_keywords_override.

(** C84 (false of Func): there the stored keywords override the given ones. *)
Theorem C84_func_stored_override_refuted :
  forall (V : Type) (sub : V -> V -> V) l cargs ckw (f : func V) i id lk argc args kwds,
  make_func (FTuple l) cargs ckw None None = Ok f ->
  nth_error l i = Some (Fun id lk argc) -> not_sole_dict args -> NoDup (od_keys ckw) ->
  exists fkw, snd (f_do_call sub (fst (f_getitem f (Z.of_nat i))) args kwds)
              = Ok (FOut (Called id (cargs ++ args)%list fkw)) /\
    forall k, od_get fkw k = match od_get ckw k with Some v => Some v | None => od_get kwds k end.
Proof. exact @func_at. Qed.
Print Assumptions C84_func_stored_override_refuted.

Example C84_instance :
  exists e f,
    make_expression (ETuple [named 7]) [] [("s", 1%Z)] None None = Ok e /\
    make_func (FTuple [named 7]) [] [("s", 1%Z)] None None = Ok f /\
    e_item_call Z.sub e (KInt 0) [] [("s", 2%Z)] = Ok (Called 7 [] [("s", 2%Z)]) /\
    snd (f_do_call Z.sub (fst (f_getitem f 0)) [] [("s", 2%Z)]) = Ok (FOut (Called 7 [] [("s", 1%Z)])).
Proof. eexists. eexists. repeat split; reflexivity. Qed.

(** C85: a sole dictionary argument is the same as its entries as keywords. *)
Theorem C85_sole_dictionary :
  forall (V : Type) (sub : V -> V -> V) s ckw order delta (e : expression V) key id lk argc kwds d,
  make_expression s [] ckw order delta = Ok e ->
  e_getitem e key = Ok (Fun id lk argc) ->
  NoDup (od_keys kwds) ->
  e_item_call sub e key [PDict d] kwds = e_item_call sub e key [] (od_update kwds d).
Proof. exact @sole_dict. Qed.
Print Assumptions C85_sole_dictionary.

Example C85_instance :
  exists e, make_expression (ESingle (named 7)) [] [("s", 1%Z)] None None = Ok e /\
    e_item_call Z.sub e KNone [PDict [("x", 3%Z)]] [("y", 4%Z)]
    = Ok (Called 7 [] [("s", 1%Z); ("y", 4%Z); ("x", 3%Z)]).
Proof. eexists. repeat split; reflexivity. Qed.

(** C86 (false of the code): a lambda without parameters is called and the
    keywords given to it are dropped without an error. *)
Theorem C86_keywords_dropped_refuted :
  forall (V : Type) (sub : V -> V -> V) s ckw (e : expression V) key id kwds,
  make_expression s [] ckw None None = Ok e ->
  e_getitem e key = Ok (Fun id Lambda 0) ->
  e_item_call sub e key [] kwds = Ok (Called id [] []).
Proof. exact @no_arg_lambda. Qed.
Print Assumptions C86_keywords_dropped_refuted.

(** C86: positional arguments it refuses. *)
Theorem C86_arguments_refused :
  forall (V : Type) (sub : V -> V -> V) s cargs ckw (e : expression V) key id args kwds,
  make_expression s cargs ckw None None = Ok e ->
  e_getitem e key = Ok (Fun id Lambda 0) ->
  not_sole_dict (cargs ++ args)%list -> (cargs ++ args)%list <> [] ->
  e_item_call sub e key args kwds = Err AssertionError.
Proof. exact lambda_arguments. Qed.
Print Assumptions C86_arguments_refused.

Example C86_instance :
  exists e, make_expression (ESingle (Fun 7 Lambda 0 : item Z)) [] [("s", 1%Z)] None None = Ok e /\
    e_getitem e KNone = Ok (Fun 7 Lambda 0).
Proof. eexists. split; reflexivity. Qed.

(** C87: func[i](...) depends only on the index and the arguments, whatever
    indexing and calling happened before. *)
Theorem C87_indexed_call_history :
  forall (V : Type) (sub : V -> V -> V) l cargs ckw order delta (f : func V) ops i args kwds,
  make_func (FTuple l) cargs ckw order delta = Ok f ->
  snd (f_do_call sub (fst (f_getitem (f_run sub f ops) i)) args kwds)
  = snd (f_do_call sub (fst (f_getitem f i)) args kwds).
Proof. exact @func_immediate. Qed.
Print Assumptions C87_indexed_call_history.

(** C87 (false of the code for held handles): after h = func[i]; func[j] the
    handle h calls function j, whatever i is. *)
Theorem C87_held_handle_refuted :
  forall (V : Type) (sub : V -> V -> V) l cargs ckw (f : func V) i j id lk argc args kwds,
  make_func (FTuple l) cargs ckw None None = Ok f ->
  nth_error l j = Some (Fun id lk argc) -> not_sole_dict args ->
  snd (f_do_call sub (fst (f_getitem (fst (f_getitem f i)) (Z.of_nat j))) args kwds)
  = Ok (FOut (Called id (cargs ++ args)%list (od_update kwds ckw))).
Proof. exact @func_two. Qed.
Print Assumptions C87_held_handle_refuted.

(** C87 (false of the code for held handles): a handle works once; its second
    call raises. *)
Theorem C87_second_call_refuted :
  forall (V : Type) (sub : V -> V -> V) l cargs ckw order delta (f : func V) i id lk argc args kwds args' kwds',
  make_func (FTuple l) cargs ckw order delta = Ok f ->
  nth_error l i = Some (Fun id lk argc) ->
  exists err,
    snd (f_do_call sub (fst (f_do_call sub (fst (f_getitem f (Z.of_nat i))) args kwds)) args' kwds') = Err err.
Proof. exact @func_again. Qed.
Print Assumptions C87_second_call_refuted.

Example C87_instance :
  exists f, make_func (FTuple [named 1; named 2]) [] [] None None = Ok f /\
    snd (f_do_call Z.sub (fst (f_getitem f 0)) [PVal 5%Z] []) = Ok (FOut (Called 1 [PVal 5%Z] [])) /\
    snd (f_do_call Z.sub (fst (f_getitem (fst (f_getitem f 0)) 1)) [PVal 5%Z] [])
    = Ok (FOut (Called 2 [PVal 5%Z] [])).
Proof. eexists. repeat split; reflexivity. Qed.

(** C182: a mapping is accepted as order or delta if and only if its values are integers
    without gaps, names and None. *)
Theorem C182_order_accepted_iff :
  forall (V : Type) (e : expression V) m, snd (e_maps e) = None ->
  (snd (e_set_order e (Some m)) = Ok tt <-> acceptable m).
Proof. exact set_order_iff. Qed.
Print Assumptions C182_order_accepted_iff.

Theorem C182_delta_accepted_iff :
  forall (V : Type) (e : expression V) m, fst (e_maps e) = None ->
  (snd (e_set_delta e (Some m)) = Ok tt <-> acceptable m).
Proof. exact set_delta_iff. Qed.
Print Assumptions C182_delta_accepted_iff.

Example C182_instance :
  exists e : expression Z, make_expression (ESingle (named 1)) [] [] None None = Ok e /\
    snd (e_set_order e (Some [("x", MInt 3); ("y", MInt 2); ("z", MStr "w")])) = Ok tt /\
    snd (e_set_order e (Some [("x", MInt 0); ("y", MInt 2)])) = Err AssertionError /\
    snd (e_set_delta e (Some [("x", MOther)])) = Err AttributeError.
Proof. eexists. split; [reflexivity|]. repeat split. Qed.
