(** Theorems about fields. *)
From Coq Require Import String Ascii ZArith Bool Arith Lia List Reals Lra.
From Verif Require Import Base Num Tensor Names VariableModel FieldModel Field_Spec Field_Proofs Field_Delta Field_Dims Field_More.
Import ListNotations.
Local Open Scope list_scope.
Local Open Scope nat_scope.

Local Definition var (i : nat) (s : string) : fvar R :=
  mkFV i s (mkVS (Some VFloat) (Some [Bare (AV (PF 0%R)); Bare (AV (PF 1%R))])) false.
Local Definition rvar (i : nat) (s : string) : fvar R :=
  mkFV i s (mkVS (Some VFloat) (Some [Bare (AV (PF 0%R)); Bare (AV (PF 1%R))])) true.

(** C47: a field is made of the variables it is given, in order. *)
Theorem C47_construction :
  forall (stoch : bool) (vs : list (fvar R)), vs <> [] -> distinct_objects vs -> distinct_names vs -> allowed stoch vs ->
  exists f, make_field stoch (AddMany (map Some vs)) = Ok f /\ holds f vs /\
    fd_nodes f = vs /\ fd_nvars f = Some (length vs).
Proof. exact construct. Qed.
Print Assumptions C47_construction.

(** C47 (false of the code): a random field takes no plain variables. *)
Theorem C47_plain_refuted :
  forall (vs : list (fvar R)) (v : fvar R), distinct_objects vs -> distinct_names vs -> In v vs -> fv_stoch v = false ->
  make_field true (AddMany (map Some vs)) = Err AttributeError.
Proof. exact plain_refused. Qed.
Print Assumptions C47_plain_refuted.

(** C47: after any history, adding one new variable puts it after the others. *)
Theorem C47_add_one :
  forall (f : field R) (v : fvar R), reachable f ->
  distinct_objects (fd_nodes f ++ [v]) -> distinct_names (fd_nodes f ++ [v]) ->
  allowed (fd_stoch f) (fd_nodes f ++ [v]) ->
  exists f', add_var f (AddOne (Some v)) = (f', Ok tt) /\ holds f' (fd_nodes f ++ [v]).
Proof. exact one_accepted. Qed.
Print Assumptions C47_add_one.

(** C47: a variable that is already there is refused and nothing changes. *)
Theorem C47_add_again :
  forall (f : field R) (v : fvar R), reachable f -> mem_var v (fd_nodes f) = true ->
  add_var f (AddOne (Some v)) = (f, Err AssertionError).
Proof. exact member_refused. Qed.
Print Assumptions C47_add_again.

(** C47 (false of the code): no collection is ever accepted by a field that
    exists, whatever its elements. *)
Theorem C47_add_collection_refuted :
  forall (f : field R) (l : list (option (fvar R))), reachable f ->
  exists e, snd (add_var f (AddMany l)) = Err e /\
    let f' := fst (add_var f (AddMany l)) in
    fd_keys f' = fd_keys f /\ fd_varlist f' = fd_varlist f /\ fd_nvars f' = fd_nvars f.
Proof. exact collection_refused. Qed.
Print Assumptions C47_add_collection_refuted.

(** C47 (false of the code): the variables of a refused collection are in the
    field once a further variable is accepted. *)
Theorem C47_refused_variables_appear :
  forall (f : field R) (vs : list (fvar R)) (v : fvar R), reachable f -> vs <> [] ->
  distinct_objects (fd_nodes f ++ vs ++ [v]) -> distinct_names (fd_nodes f ++ vs ++ [v]) ->
  allowed (fd_stoch f) (fd_nodes f ++ vs ++ [v]) ->
  exists f1 f2, add_var f (AddMany (map Some vs)) = (f1, Err AssertionError) /\
    fd_keys f1 = fd_keys f /\ fd_varlist f1 = fd_varlist f /\
    add_var f1 (AddOne (Some v)) = (f2, Ok tt) /\ holds f2 (fd_nodes f ++ vs ++ [v]).
Proof. exact refused_shows_up. Qed.
Print Assumptions C47_refused_variables_appear.

Example C47_instance :
  exists f, make_field false (AddMany [Some (var 0 "a"); Some (var 1 "b")]) = Ok f /\ reachable f /\
    fd_nodes f = [var 0 "a"; var 1 "b"] /\
    distinct_objects (fd_nodes f ++ [var 2 "c"; var 3 "d"] ++ [var 4 "e"]) /\
    distinct_names (fd_nodes f ++ [var 2 "c"; var 3 "d"] ++ [var 4 "e"]) /\
    allowed (fd_stoch f) (fd_nodes f ++ [var 2 "c"; var 3 "d"] ++ [var 4 "e"]).
Proof.
  eexists. split; [reflexivity|]. split.
  { exists false, (AddMany [Some (var 0 "a"); Some (var 1 "b")]). eexists. exists []. split; reflexivity. }
  split; [reflexivity|]. split; [|split].
  - cbv. repeat constructor; cbn; intuition discriminate.
  - unfold distinct_names. cbn. repeat constructor; cbn; intuition discriminate.
  - intros v I. cbn in I. intuition; subst; reflexivity.
Qed.

Example C47_plain_instance :
  distinct_objects [rvar 0 "a"; var 1 "b"; rvar 2 "c"] /\ distinct_names [rvar 0 "a"; var 1 "b"; rvar 2 "c"] /\
  In (var 1 "b") [rvar 0 "a"; var 1 "b"; rvar 2 "c"] /\ fv_stoch (var 1 "b") = false.
Proof.
  split; [|split; [|split; [right; left; reflexivity|reflexivity]]];
    unfold distinct_objects, distinct_names; repeat constructor; cbn; intuition; discriminate.
Qed.

(** C92: a & b has the variables of a, then those of b whose names are new; where
    both have a name, the variable is that of b. *)
Theorem C92_union :
  forall (a b : operand R), op_built a -> op_built b -> op_stoch a = op_stoch b -> coherent (op_vars a ++ op_vars b) ->
  exists f, and_op a b = Ok f /\ built f /\ fd_stoch f = op_stoch b /\
    fd_keys f = od_keys (op_dict a) ++
                filter (fun k => negb (mem_str k (od_keys (op_dict a)))) (od_keys (op_dict b)) /\
    forall k, od_get (fd_vars f) k = match od_get (op_dict b) k with
                                     | Some v => Some v | None => od_get (op_dict a) k end.
Proof. exact union_spec. Qed.
Print Assumptions C92_union.

(** C92 (false of the code): random and plain variables do not unite, unless the plain
    ones on the left are all replaced by random ones of the same names. *)
Theorem C92_mixed_refuted :
  forall (a b : operand R), op_built a -> op_built b -> coherent (op_vars a ++ op_vars b) ->
  (op_stoch a = true -> op_stoch b = false ->
     and_op a b = Err (match a with OpVar _ => TypeError | OpField _ => AttributeError end)) /\
  (op_stoch a = false -> op_stoch b = true ->
     ((forall k, In k (od_keys (op_dict a)) -> In k (od_keys (op_dict b))) -> exists f, and_op a b = Ok f) /\
     ((exists k, In k (od_keys (op_dict a)) /\ ~ In k (od_keys (op_dict b))) -> and_op a b = Err AttributeError)).
Proof. exact union_mixed. Qed.
Print Assumptions C92_mixed_refuted.

Example C92_mixed_instance :
  op_built (OpVar (rvar 0 "a")) /\ op_built (OpVar (var 1 "b")) /\
  coherent (op_vars (OpVar (rvar 0 "a")) ++ op_vars (OpVar (var 1 "b"))) /\
  and_op (OpVar (rvar 0 "a")) (OpVar (var 1 "b")) = Err TypeError /\
  and_op (OpVar (var 1 "b")) (OpVar (rvar 0 "a")) = Err AttributeError /\
  exists f, and_op (OpVar (var 1 "a")) (OpVar (rvar 0 "a")) = Ok f.
Proof.
  split; [exact I|]. split; [exact I|]. split; [|split; [reflexivity|split; [reflexivity|eexists; reflexivity]]].
  intros v w Iv Iw E. cbn in Iv, Iw. intuition; subst; try reflexivity; discriminate.
Qed.

(** C92: & is associative. *)
Theorem C92_associative :
  forall (a b c : operand R), op_built a -> op_built b -> op_built c -> op_stoch a = op_stoch b -> op_stoch b = op_stoch c ->
  coherent (op_vars a ++ op_vars b ++ op_vars c) ->
  exists ab bc f g, and_op a b = Ok ab /\ and_op b c = Ok bc /\
    and_op (OpField ab) c = Ok f /\ and_op a (OpField bc) = Ok g /\
    fd_keys f = fd_keys g /\ fd_vars f = fd_vars g.
Proof. exact union_assoc. Qed.
Print Assumptions C92_associative.

(** C92: f & f has the variables of f. *)
Theorem C92_idempotent :
  forall (f : field R), built f -> coherent (fd_varlist f) ->
  exists g, and_op (OpField f) (OpField f) = Ok g /\ fd_keys g = fd_keys f /\ fd_vars g = fd_vars f.
Proof. exact union_self. Qed.
Print Assumptions C92_idempotent.

Example C92_instance :
  exists f g, make_field false (AddMany [Some (var 0 "a"); Some (var 1 "b")]) = Ok f /\
    make_field false (AddMany [Some (var 1 "b"); Some (var 2 "c")]) = Ok g /\
    op_built (OpField f) /\ op_built (OpField g) /\ op_built (OpVar (var 3 "a")) /\
    coherent (op_vars (OpField f) ++ op_vars (OpField g) ++ op_vars (OpVar (var 3 "a"))) /\
    (exists h, and_op (OpField f) (OpField g) = Ok h /\ fd_keys h = ["a"; "b"; "c"]%string).
Proof.
  do 2 eexists. split; [reflexivity|]. split; [reflexivity|].
  split; [left; exists false, (AddMany [Some (var 0 "a"); Some (var 1 "b")]); reflexivity|].
  split; [left; exists false, (AddMany [Some (var 1 "b"); Some (var 2 "c")]); reflexivity|].
  split; [exact I|]. split.
  - intros v w Iv Iw E. cbn in Iv, Iw. intuition; subst; try reflexivity; discriminate.
  - destruct (and_op _ _) as [h|e] eqn:E; [exists h; split; [reflexivity|]|]; cbv in E; inversion E; reflexivity.
Qed.

(** C49: without scaling, a spherical step of radius x has length |x|, in the
    direction of the draw. *)
Theorem C49_radius :
  forall (f : field R) (lens u : list R) (vds : list (dconf R)) (x : R) (bound : bool) (rs : nat -> drnd R),
  sphere_ok f lens u ->
  exists c l, f_set_delta (fd_keys f) (map Some lens) vds (GTup x) [] false bound = Ok (c, vds) /\
    f_eval_delta f (map Some lens) c vds rs u = Ok (Sphere l) /\
    length l = length (fd_keys f) /\ sumsq l = (x * x)%R /\ exists t, l = map (fun y => (t * y)%R) u.
Proof. exact sphere_unscaled. Qed.
Print Assumptions C49_radius.

(** C49 (false of the code): with scale=True the lengths enter twice, once in the
    radius and once in each component. *)
Theorem C49_scaled_refuted :
  forall (f : field R) (lens u : list R) (vds : list (dconf R)) (x : R) (bound : bool) (rs : nat -> drnd R),
  sphere_ok f lens u ->
  exists c l, f_set_delta (fd_keys f) (map Some lens) vds (GTup x) [] true bound = Ok (c, vds) /\
    f_eval_delta f (map Some lens) c vds rs u = Ok (Sphere l) /\
    length l = length (fd_keys f) /\ (sumsq l * sumsq u = x * x * sumsq lens * sumsq (prods u lens))%R.
Proof. exact sphere_scaled. Qed.
Print Assumptions C49_scaled_refuted.

(** C49: for n variables of the same length L the step has length sqrt n * |x| * L^2. *)
Theorem C49_scaled_equal_lengths :
  forall (f : field R) (L : R) (u : list R) (vds : list (dconf R)) (x : R) (bound : bool) (rs : nat -> drnd R) (n : nat),
  n = length (fd_keys f) -> sphere_ok f (repeat L n) u ->
  exists c l, f_set_delta (fd_keys f) (map Some (repeat L n)) vds (GTup x) [] true bound = Ok (c, vds) /\
    f_eval_delta f (map Some (repeat L n)) c vds rs u = Ok (Sphere l) /\
    sumsq l = (INR n * (x * L * L) * (x * L * L))%R.
Proof. exact sphere_equal. Qed.
Print Assumptions C49_scaled_equal_lengths.

(** C49 (false of the code): exempting a variable of the field from a spherical
    step makes every evaluation fail. *)
Theorem C49_exempt_refuted :
  forall (f : field R) (lens : list (option R)) (un : odict R) (vds : list (dconf R)) (x : R) (scale bound : bool)
    (c : fconf R) (vds' : list (dconf R)) (k : string) (rs : nat -> drnd R) (u : list R),
  f_set_delta (fd_keys f) lens vds (GTup x) un scale bound = Ok (c, vds') ->
  In k (fd_keys f) -> od_mem un k = true ->
  exists e, f_eval_delta f lens c vds' rs u = Err e.
Proof. exact sphere_named. Qed.
Print Assumptions C49_exempt_refuted.

Example C49_instance :
  exists f, make_field false (AddMany [Some (var 0 "a"); Some (var 1 "b")]) = Ok f /\
    sphere_ok f [1; 2]%R [1; -1]%R /\ sphere_ok f (repeat 2%R 2) [3; 0]%R /\
    exists c, f_set_delta (fd_keys f) (map Some [1; 2]%R) [] (GTup 5%R) [("a"%string, 1%R)] false false = Ok (c, []).
Proof.
  eexists. split; [reflexivity|]. unfold sphere_ok. cbn [fd_keys].
  assert (ND : NoDup (od_keys (vars_of [var 0 "a"; var 1 "b"]))) by (repeat constructor; cbn; intuition discriminate).
  split; [|split].
  - split; [exact ND|]. split; [discriminate|]. split; [reflexivity|]. split; [reflexivity|].
    exists 1%R. split; [left; reflexivity|lra].
  - split; [exact ND|]. split; [discriminate|]. split; [reflexivity|]. split; [reflexivity|].
    exists 3%R. split; [left; reflexivity|lra].
  - eexists. reflexivity.
Qed.

(** C93 (false of the code): a dictionary of deltas is accepted and ignored: the
    steps are those of the variables' own defaults, whatever the dictionary. *)
Theorem C93_dictionary_refuted :
  forall (f : field R) (lens : list (option R)) (vds : list (dconf R)) (d1 d2 : odict (delta R)) (un : odict R)
    (scale bound : bool) (c1 c2 : fconf R) (vds1 vds2 : list (dconf R)) (rs : nat -> drnd R) (u : list R),
  f_set_delta (fd_keys f) lens vds (GDict d1) un scale bound = Ok (c1, vds1) ->
  f_set_delta (fd_keys f) lens vds (GDict d2) un scale bound = Ok (c2, vds2) ->
  vds1 = vds /\ vds2 = vds /\ f_eval_delta f lens c1 vds1 rs u = f_eval_delta f lens c2 vds2 rs u.
Proof. exact (@dict_same R _ _). Qed.
Print Assumptions C93_dictionary_refuted.

(** C93: so if the variables have no default there is no step. *)
Theorem C93_dictionary_no_step :
  forall (f : field R) (lens : list (option R)) (dd : odict (delta R)) (un : odict R) (scale bound : bool)
    (c : fconf R) vds' (rs : nat -> drnd R) (u : list R) (vds : list (dconf R)),
  f_set_delta (fd_keys f) lens vds (GDict dd) un scale bound = Ok (c, vds') ->
  length vds = length (fd_varlist f) -> (forall dc, In dc vds -> dc_delta dc = DNone) ->
  f_eval_delta f lens c vds' rs u = Ok (Steps (repeat DNone (length (fd_varlist f)))).
Proof. exact dict_no_step. Qed.
Print Assumptions C93_dictionary_no_step.

Example C93_instance :
  exists f c vds, make_field false (AddMany [Some (var 0 "a"); Some (var 1 "b")]) = Ok f /\
    vds = [mkDC DNone false false; mkDC DNone false false] /\
    f_set_delta (fd_keys f) (map Some [1; 2]%R) vds
      (GDict [("b"%string, DScal (PF 7%R)); ("a"%string, DScal (PF 3%R))]) [] false false = Ok (c, vds) /\
    length vds = length (fd_varlist f) /\ (forall dc, In dc vds -> dc_delta dc = DNone).
Proof.
  do 3 eexists. split; [reflexivity|]. split; [reflexivity|]. split; [reflexivity|]. split; [reflexivity|].
  intros dc [<-|[<-|[]]]; reflexivity.
Qed.

(** C94: a number gives every variable that step, times its length if scaled,
    except those with a value of their own in the optional dictionary. *)
Theorem C94_number :
  forall (f : field R) (lens : list R) (lengths : list (option R)) (vds : list (dconf R)) (x : R) (un : odict R)
    (scale bound : bool),
  NoDup (fd_keys f) -> length (fd_varlist f) = length (fd_keys f) ->
  NoDup (od_keys un) -> (forall k, In k (od_keys un) -> In k (fd_keys f)) ->
  length lens = length (fd_keys f) -> (scale = true -> lengths = map Some lens) ->
  exists c vds', f_set_delta (fd_keys f) lengths vds (GNum x) un scale bound = Ok (c, vds') /\
    forall rs u, f_eval_delta f lengths c vds' rs u
      = Ok (Steps (map (step_of un scale x) (combine (fd_keys f) lens))).
Proof. exact number_step. Qed.
Print Assumptions C94_number.

Example C94_instance :
  exists f, make_field false (AddMany [Some (var 0 "a"); Some (var 1 "b")]) = Ok f /\
    NoDup (fd_keys f) /\ length (fd_varlist f) = length (fd_keys f) /\
    (forall k, In k (od_keys [("b"%string, 9%R)]) -> In k (fd_keys f)) /\
    map (step_of [("b"%string, 9%R)] true 2%R) (combine (fd_keys f) [3; 4]%R)
    = [DDelta (PF (2 * 3)%R); DDelta (PF 9%R)].
Proof.
  eexists. split; [reflexivity|]. split; [repeat constructor; cbn; intuition discriminate|].
  split; [reflexivity|]. split; [cbn; intuition|]. reflexivity.
Qed.

(** C48: evaluating a field whose variables each have one value puts every key
    that needs an axis (array or shared) on its own axis, in the order of the
    variables, and keeps scalars scalar. *)
Theorem C48_axes :
  forall (f : field R) (values : odict (fentry R)) (m : nat) (r : nat -> rnd R) (A : string -> tensor (pyval R)),
  map (@fv_name R) (fd_varlist f) = fd_keys f -> covers values (fd_keys f) -> arrays_shared values ->
  forallb (@entry_scalar R) (od_vals values) = false ->
  (forall i v, nth_error (fd_varlist f) i = Some v ->
     exists o x, gives values o (fv_name v) x /\ eval_val v x (r i) = Ok (A (fv_name v)) /\
       (shape (A (fv_name v)) = [] <-> dimensionless x = true)) ->
  exists vals dims, f_evaluate f values m r = Ok (vals, dims) /\
    od_keys vals = fd_keys f /\ od_keys dims = fd_keys f /\
    forall k, In k (fd_keys f) -> exists a d, od_get vals k = Some a /\ od_get dims k = Some d /\
      to_list a = to_list (A k) /\ placed values (fd_keys f) m A k a d.
Proof. exact evaluate_axes. Qed.
Print Assumptions C48_axes.

(** C48: the axes of different keys differ. *)
Theorem C48_axes_distinct :
  forall (values : odict (fentry R)) (keys : list string), NoDup (axes values keys).
Proof. exact axes_nodup. Qed.
Print Assumptions C48_axes_distinct.

(** C48: numbers only give numbers and no axes. *)
Theorem C48_scalars :
  forall (f : field R) (values : odict (fentry R)) (m : nat) (r : nat -> rnd R),
  forallb (@entry_scalar R) (od_vals values) = true ->
  exists vals, f_evaluate f values m r = Ok (vals, []) /\ od_keys vals = od_keys values /\
    forall k a, In (k, a) vals -> exists y, In (k, One (FNum y)) values /\ a = tscalar y.
Proof. exact evaluate_scalars. Qed.
Print Assumptions C48_scalars.

(** C48 (false of the code): a value that turns out scalar, as None for a float
    variable, takes an axis away from the following variables. *)
Theorem C48_scalar_takes_axis_refuted :
  forall (f : field R) (vx vy : fvar R) (y : pyval R) (n : nat) (a : tensor (pyval R)) (r : nat -> rnd R),
  fd_keys f = ["x"; "y"]%string -> fd_varlist f = [vx; vy] -> fv_name vx = "x"%string -> fv_name vy = "y"%string ->
  eval_val vx FNone (r 0) = Ok (tscalar y) -> shape a = [n] ->
  exists b, f_evaluate f [("x", One FNone); ("y", One (FArr a))]%string 0 r
      = Ok ([("x", tscalar y); ("y", b)], [("x", None); ("y", Some 1)])%string /\
    shape b = [1; n] /\ to_list b = to_list a.
Proof. exact scalar_takes_axis. Qed.
Print Assumptions C48_scalar_takes_axis_refuted.

(** C48 (false of the code): numbers under a shared key add an axis of size one to
    everything else. *)
Theorem C48_shared_scalars_take_axis_refuted :
  forall (f : field R) (vx vy vz : fvar R) (p q : pyval R) (n : nat) (a : tensor (pyval R)) (r : nat -> rnd R),
  fd_keys f = ["x"; "y"; "z"]%string -> fd_varlist f = [vx; vy; vz] ->
  fv_name vx = "x"%string -> fv_name vy = "y"%string -> fv_name vz = "z"%string -> shape a = [n] ->
  exists b, f_evaluate f [("x", One (FArr a)); ("y,z", Many [FNum p; FNum q])]%string 0 r
      = Ok ([("x", b); ("y", tscalar p); ("z", tscalar q)], [("x", Some 0); ("y", None); ("z", None)])%string /\
    shape b = [n; 1] /\ to_list b = to_list a.
Proof. exact shared_scalars_take_axis. Qed.
Print Assumptions C48_shared_scalars_take_axis_refuted.

Example C48_instance :
  let arr := of_list (PF 0%R) [PF 1; PF 2; PF 3]%R in
  let values := [("a", One (FArr arr)); ("b,d", Many [FArr arr; FArr arr]); ("c", One (FNum (PF 5)))]%string%R in
  exists f, make_field false (AddMany [Some (var 0 "a"); Some (var 1 "b"); Some (var 2 "c"); Some (var 3 "d")]) = Ok f /\
    map (@fv_name R) (fd_varlist f) = fd_keys f /\ covers values (fd_keys f) /\ arrays_shared values /\
    axes values (fd_keys f) = ["a"; "b,d"]%string /\
    (exists y, eval_val (var 0 "a") FNone (mkRnd 0 [] (fun _ => 0%R)) = Ok (tscalar y)).
Proof.
  cbv zeta. eexists. split; [reflexivity|]. split; [reflexivity|]. split; [|split; [|split]].
  - split; [repeat constructor; cbn; intuition discriminate|]. split; [cbn; intuition; subst; reflexivity|].
    split; [repeat constructor; cbn; intuition discriminate|]. split; [cbn; intuition|].
    intros o e I. cbn in I. destruct I as [I|[I|[I|[]]]]; inversion I; subst; try reflexivity. split; reflexivity.
  - intros o k x [[-> [S H]]|[S [i [l [I [H1 H2]]]]]] S'; [congruence|]. cbn in I.
    destruct I as [I|[I|[I|[]]]]; inversion I; subst. destruct i as [|[|i]]; cbn in H2; inversion H2; try reflexivity.
    destruct i; discriminate.
  - reflexivity.
  - eexists. reflexivity.
Qed.

(** C95 (false of the code): with a shared key only its last name is looked up, so
    any other name in it is accepted. *)
Theorem C95_shared_key_unchecked_refuted :
  forall (f : field R) (k : string), In k (fd_keys f) -> shared k = false ->
  forall (t : string) (x : fval R), shared t = false ->
  parse_entry f ((t ++ "," ++ k)%string, One x) = Ok ((t ++ "," ++ k)%string, Many [x; x]).
Proof. exact shared_key_unchecked. Qed.
Print Assumptions C95_shared_key_unchecked_refuted.

(** C95: a key of one name must be a name of the field. *)
Theorem C95_single_key_checked :
  forall (f : field R) (k : string) (e : fentry R), shared k = false ->
  (In k (fd_keys f) /\ parse_entry f (k, e) = Ok (k, e)) \/
  (~ In k (fd_keys f) /\ parse_entry f (k, e) = Err AssertionError).
Proof. exact single_key. Qed.
Print Assumptions C95_single_key_checked.

Example C95_instance :
  exists f, make_field false (AddMany [Some (var 0 "a"); Some (var 1 "b")]) = Ok f /\
    In "b"%string (fd_keys f) /\ shared "b" = false /\ shared "nonsense" = false.
Proof. eexists. split; [reflexivity|]. cbn. auto. Qed.

(** C147: values given under single names are kept; variables left out get the set {0}
    if the field has a float variable and no variable is given {0} under its own name,
    and otherwise None. *)
Theorem C147_left_out :
  forall (f : field R) (values vs : odict (fentry R)), NoDup (od_keys values) -> f_parse_args f values = Ok vs ->
  (forall o e, In (o, e) values -> shared o = false -> od_get vs o = Some e) /\
  forall k, In k (fd_keys f) -> ~ In k (flat_map subkeys (od_keys values)) ->
  let floats := exists v, In v (fd_varlist f) /\ vs_vtype (fv_state v) = Some VFloat in
  let asked := exists o, shared o = false /\ In (o, One (FUnit 0%Z)) values in
  (floats /\ ~ asked -> od_get vs k = Some (One (FUnit 0%Z))) /\ (~ floats \/ asked -> od_get vs k = Some (One FNone)).
Proof. exact left_out_gen. Qed.
Print Assumptions C147_left_out.

Example C147_instance :
  exists f, make_field false (AddMany [Some (var 0 "a"); Some (var 1 "b")]) = Ok f /\
    (exists vs, f_parse_args f [("a", One (FNum (PF 1%R)))]%string = Ok vs) /\
    (exists v, In v (fd_varlist f) /\ vs_vtype (fv_state v) = Some VFloat) /\
    In "b"%string (fd_keys f) /\ ~ In "b"%string (flat_map subkeys ["a"]%string).
Proof.
  eexists. split; [reflexivity|]. split; [eexists; reflexivity|]. split; [eexists; split; [left; reflexivity|reflexivity]|].
  split; [right; left; reflexivity|]. cbn. intuition discriminate.
Qed.

(** C94: a field without a delta steps only if it has one variable, which has a default
    of its own; then that is its delta. *)
Theorem C94_own_default :
  forall (f : field R) (lens : list (option R)) (vds vds' : list (dconf R)) (c : fconf R) (un : odict R) (scale bound : bool) rs u,
  f_set_delta (fd_keys f) lens vds GNone un scale bound = Ok (c, vds') ->
  f_eval_delta f lens c vds' rs u = Ok match map (@dc_delta R) vds with
                                       | [DNone] => NoStep
                                       | [d] => OwnDelta d
                                       | _ => NoStep
                                       end.
Proof. intros f lens vds vds' c un scale bound rs u. apply own_default_gen. Qed.
Print Assumptions C94_own_default.

Example C94_own_default_instance :
  let dc := mkDC (DScal (PF 2%R)) false false in
  exists c vds', f_set_delta ["a"]%string [Some 1%R] [dc] GNone [] false false = Ok (c, vds') /\ map (@dc_delta R) [dc] = [DScal (PF 2%R)].
Proof. eexists. eexists. split; reflexivity. Qed.
