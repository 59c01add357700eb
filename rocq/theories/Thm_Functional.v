(** Property theorems about functionals (C46, C88-C91). *)
From Coq Require Import String Ascii ZArith Bool Arith Lia List.
From Verif Require Import Base Names ExprModel Expr_Spec FunctionalModel Functional_Spec Functional_Proofs
  Functional_More.
Import ListNotations.
Local Open Scope string_scope.

(** C46: an accepted function adds exactly one dependence, of new outputs among
    those of the output graph, on inputs among those of the input graph. *)
Theorem C46_accepted_function :
  forall (V : Type) (f : functional V) spec g,
  snd (add_func f spec g) = Ok tt ->
  exists out inp ins, parse_spec spec = Ok (out, inp) /\ (forall i, inp = Some i -> ins = i) /\
    ~ registered f out /\ incl out (fl_out f) /\ incl ins (fl_inp f) /\
    fl_deps (fst (add_func f spec g)) = (fl_deps f ++ [(out, Some ins)])%list.
Proof. exact @accepted. Qed.
Print Assumptions C46_accepted_function.

(** C46 (false of the code): the dependences are left alone only if the
    specification cannot be read or its outputs were registered before; every
    other rejected call changes them. *)
Theorem C46_rejected_call_unchanged_refuted :
  forall (V : Type) (f : functional V) spec g,
  fl_deps (fst (add_func f spec g)) = fl_deps f <->
  (exists e, parse_spec spec = Err e) \/
  (exists out inp, parse_spec spec = Ok (out, inp) /\ registered f out).
Proof. exact @unchanged_iff. Qed.
Print Assumptions C46_rejected_call_unchanged_refuted.

(** C46: so a call, rejected or not, takes its outputs for good: whatever is done
    later, no function for them is accepted any more. *)
Theorem C46_outputs_taken :
  forall (V : Type) (f : functional V) spec g out inp,
  parse_spec spec = Ok (out, inp) -> ~ registered f out ->
  let f' := fst (add_func f spec g) in
  fl_len f' = S (fl_len f) /\ registered f' out /\
  forall l spec' inp' g', parse_spec spec' = Ok (out, inp') -> raises (add_all f' l) spec' g'.
Proof. exact @output_taken. Qed.
Print Assumptions C46_outputs_taken.

Definition fn (id : nat) : espec Z := ESingle (Fun id Named 2).

(** A function of an unknown input is rejected, the corrected call as well. *)
Example C46_instance :
  let f := after (V := Z) ["y"; "z"] ["x"; "w"] [] [] [] in
  let bad := SpDict [(IStr "y", IStr "typo")] in
  let good := SpDict [(IStr "y", IStr "x")] in
  let g := GExpr (fn 1) [] [] None None in
  let f' := fst (add_func f bad g) in
  snd (add_func f good g) = Ok tt /\
  snd (add_func f bad g) = Err AssertionError /\ ~ registered f ["y"] /\
  snd (add_func f' good g) = Err AssertionError /\ fl_len f' = 1.
Proof.
  do 2 (split; [reflexivity|]). split; [|split; reflexivity].
  intros [o [i [[] _]]].
Qed.

(** C88: no function with a delta mapping can be added. *)
Theorem C88_delta_function_rejected :
  forall (V : Type) (f : functional V) spec s cargs ckw m,
  raises f spec (GExpr s cargs ckw None (Some m)).
Proof. exact @delta_raises. Qed.
Print Assumptions C88_delta_function_rejected.

(** C88: trying it with a specification naming all the inputs closes the
    functional: no call of any later history succeeds. *)
Theorem C88_delta_function_closes :
  forall (V : Type) out inp fargs fkw l spec o ins s cargs ckw m (e : expression V),
  let f := after out inp fargs fkw l in
  let g := GExpr s cargs ckw None (Some m) in
  parse_spec spec = Ok (o, Some ins) -> ~ registered f o ->
  make_expression s cargs ckw None (Some m) = Ok e -> incl (inputs out inp) ins ->
  raises f spec g /\ closed_forever (fst (add_func f spec g)).
Proof. exact @closed_delta. Qed.
Print Assumptions C88_delta_function_closes.

(** C88: so does a function given without its inputs. *)
Theorem C88_missing_inputs_close :
  forall (V : Type) out inp fargs fkw l spec o s cargs ckw delta (e : expression V),
  let f := after out inp fargs fkw l in
  let g := GExpr s cargs ckw None delta in
  parse_spec spec = Ok (o, None) -> ~ registered f o ->
  make_expression s cargs ckw None delta = Ok e -> inputs out inp <> [] ->
  raises f spec g /\ closed_forever (fst (add_func f spec g)).
Proof. exact @closed_no_inputs. Qed.
Print Assumptions C88_missing_inputs_close.

Example C88_instance :
  let l := [(SpDict [(IStr "y", IStr "x")], GExpr (fn 1) [] [] None None)] in
  let f := after (V := Z) ["y"; "z"; "t"] ["x"; "w"] [] [] l in
  let m := [("x", MInt 0)] in
  let spec := SpDict [(IStr "z", IStr "x"); (IStr "t", IStr "w")] in
  (exists ins, parse_spec spec = Ok (["z"; "t"], Some ins) /\ incl (inputs ["y"; "z"; "t"] ["x"; "w"]) ins) /\
  (exists e, make_expression (fn 2) [] [] None (Some m) = Ok e) /\ ~ registered f ["z"; "t"] /\
  (exists e, make_expression (fn 2) [] [] None None = Ok e) /\ ~ registered f ["z"] /\
  parse_spec (SpOut (IdStr "z")) = Ok (["z"], None).
Proof.
  split; [exists ["x"; "w"]; split; [reflexivity|apply incl_refl]|].
  split; [eexists; reflexivity|].
  assert (D : fl_deps (after (V := Z) ["y"; "z"; "t"] ["x"; "w"] [] []
      [(SpDict [(IStr "y", IStr "x")], GExpr (fn 1) [] [] None None)]) = [(["y"], Some ["x"])]) by reflexivity.
  split; [|split; [eexists; reflexivity|split; [|reflexivity]]].
  - intros [o [i [IN E]]]. rewrite D in IN. destruct IN as [IN|[]]. inversion IN; subst.
    specialize (E "y"). cbn in E. destruct E as [E _]. destruct (E (or_introl eq_refl)) as [X|[X|[]]]; discriminate.
  - intros [o [i [IN E]]]. rewrite D in IN. destruct IN as [IN|[]]. inversion IN; subst.
    specialize (E "y"). cbn in E. destruct E as [E _]. destruct (E (or_introl eq_refl)) as [X|[]]; discriminate.
Qed.

(** C89: functional[out](args, kwds) passes on the positional arguments and every
    keyword but the inputs the function does not depend on ... *)
Theorem C89_call_drops_unneeded_inputs :
  forall (V : Type) (sub : V -> V -> V) out inp fargs fkw l spec o ins id lk argc cargs ckw f' iname args kwds,
  let f := after out inp fargs fkw l in
  NoDup out -> NoDup inp -> parse_spec spec = Ok (o, Some ins) ->
  add_func f spec (GExpr (ESingle (Fun id lk argc)) cargs ckw None None) = (f', Ok tt) ->
  parse_identifiers iname = Ok o ->
  (lk <> Lambda \/ argc <> 0) ->
  not_sole_dict (cargs ++ fargs ++ args)%list -> NoDup (od_keys ckw) -> NoDup (od_keys kwds) ->
  NoDup (od_keys fkw) ->
  (forall j, In j (inputs out inp) -> ~ In j ins ->
     In j (od_keys ckw) \/ In j (od_keys fkw) \/ In j (od_keys kwds)) ->
  exists kw, fl_call sub f' iname args kwds = Ok (Some (Called id (cargs ++ fargs ++ args)%list kw)) /\
    forall j,
      (In j (inputs out inp) /\ ~ In j ins -> od_get kw j = None) /\
      (~ (In j (inputs out inp) /\ ~ In j ins) ->
         od_get kw j = match od_get kwds j with
                       | Some v => Some v
                       | None => match od_get fkw j with Some v => Some v | None => od_get ckw j end
                       end).
Proof. exact @call_all_inputs. Qed.
Print Assumptions C89_call_drops_unneeded_inputs.

(** ... but the inputs it does not depend on must be supplied: leaving one of them
    out makes the call raise. *)
Theorem C89_unneeded_inputs_are_required :
  forall (V : Type) (sub : V -> V -> V) out inp fargs fkw l spec o ins id lk argc cargs ckw f' iname args kwds j,
  let f := after out inp fargs fkw l in
  parse_spec spec = Ok (o, Some ins) ->
  add_func f spec (GExpr (ESingle (Fun id lk argc)) cargs ckw None None) = (f', Ok tt) ->
  parse_identifiers iname = Ok o ->
  not_sole_dict (cargs ++ fargs ++ args)%list -> NoDup (od_keys ckw) ->
  In j (inputs out inp) -> ~ In j ins ->
  ~ In j (od_keys ckw) -> ~ In j (od_keys fkw) -> ~ In j (od_keys kwds) ->
  exists err, fl_call sub f' iname args kwds = Err err.
Proof. exact @call_missing_input. Qed.
Print Assumptions C89_unneeded_inputs_are_required.

Example C89_instance :
  let f := after (V := Z) ["y"; "z"] ["x"; "w"] [] [] [] in
  let spec := SpDict [(IStr "y", IStr "x")] in
  exists f', add_func f spec (GExpr (fn 1) [] [("s", 9%Z)] None None) = (f', Ok tt) /\
    fl_call Z.sub f' (IdStr "y") [] [("x", 1%Z); ("w", 2%Z)]
      = Ok (Some (Called 1 [] [("s", 9%Z); ("x", 1%Z)])) /\
    fl_call Z.sub f' (IdStr "y") [] [("x", 1%Z)] = Err KeyError.
Proof. eexists. repeat split. Qed.

(** C90: Dependence.add_func never adds a function: after any number of attempts
    the functional is as empty as before and the next attempt raises. *)
Theorem C90_dependence_add_func_never_works :
  forall (V : Type) out inp cargs ckw l spec g,
  let f := fold_left (fun f sg => fst (dep_add_func f (fst sg) (snd sg))) l
             (make_functional (V := V) out inp cargs ckw) in
  f = make_functional out inp cargs ckw /\ dep_add_func f spec g = (f, Err AssertionError).
Proof. exact @dep_never. Qed.
Print Assumptions C90_dependence_add_func_never_works.

Example C90_instance :
  let f := make_functional (V := Z) ["y"] ["x"] [] [] in
  let spec := SpDict [(IStr "y", IStr "x")] in
  let g := GExpr (fn 1) [] [] None None in
  snd (add_func f spec g) = Ok tt /\ dep_add_func f spec g = (f, Err AssertionError).
Proof. split; reflexivity. Qed.

(** C91: the first function that is an expression at all, accepted or not, fixes
    whether the functional holds symbolic or ordinary functions: no function of
    the other kind is accepted later. *)
Theorem C91_kinds_never_mix :
  forall (V : Type) (f : functional V) spec g out inp x l spec' g' x',
  parse_spec spec = Ok (out, inp) -> ~ registered f out ->
  make_entry g = Ok x -> fl_iconic f = None ->
  make_entry g' = Ok x' -> entry_iconic x' <> entry_iconic x ->
  raises (add_all (fst (add_func f spec g)) l) spec' g'.
Proof. exact @kind_fixed_raises. Qed.
Print Assumptions C91_kinds_never_mix.

Example C91_instance :
  let f := make_functional (V := Z) ["y"; "z"] ["x"] [] [] in
  let g := GIcon 3 ["q"] in
  snd (add_func f (SpOut (IdStr "y")) g) = Err AssertionError /\ fl_iconic f = None /\
  snd (add_func f (SpDict [(IStr "z", IStr "x")]) (GExpr (fn 1) [] [] None None)) = Ok tt /\
  snd (add_func (fst (add_func f (SpOut (IdStr "y")) g)) (SpDict [(IStr "z", IStr "x")])
         (GExpr (fn 1) [] [] None None)) = Err AssertionError.
Proof. repeat split. Qed.
