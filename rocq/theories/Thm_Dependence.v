(** Theorems about dependences. *)
From Coq Require Import String Ascii ZArith Bool Arith Lia List Reals.
From Verif Require Import Base Num Tensor PScales PScales_Spec PScales_Prod Names VariableModel FieldModel Field_Spec
  DependenceModel Dependence_Spec Dependence_Proofs Dependence_More Dependence_Ops SDUtils SDUtils_Spec SDUtils_Proofs.
Import ListNotations.
Local Open Scope list_scope.
Local Open Scope nat_scope.

Local Definition var (i : nat) (s : string) : fvar R :=
  mkFV i s (mkVS (Some VFloat) (Some [Bare (AV (PF 0%R)); Bare (AV (PF 1%R))])) false.
Local Definition world (i : nat) : fvar R :=
  nth i [var 0 "x"; var 1 "y"; var 2 "z"] (var i "u").

(** C50: x | y of variables or fields.  The variables of x are the leafs, those of
    y the roots, with an arc from each root to each leaf; every variable is in
    the class its arcs say, and in no other, exactly if x and y share none. *)
Theorem C50_conditional :
  forall (w : nat -> fvar R) (x y : darg R), built_arg w x -> built_arg w y -> is_plain x -> is_plain y ->
  arg_stoch x = arg_stoch y ->
  exists d, or_op x y = Ok d /\ dp_stoch d = arg_stoch x /\
    (forall v, In v (dp_nodes d) <-> In v (arg_vars x) \/ In v (arg_vars y)) /\
    (forall v u, arc d v u <-> In v (arg_vars y) /\ In u (arg_vars x)) /\
    fd_varlist (dp_leafs d) = arg_vars x /\ dp_stems d = [] /\
    (exists r, dp_roots d = Some r /\ dp_preds d = Some r /\ fd_varlist r = arg_vars y) /\
    dp_name d = (join "," (map (@fv_name R) (arg_vars x)) ++ "|" ++ join "," (map (@fv_name R) (arg_vars y)))%string /\
    (classified d <-> disjoint (arg_vars x) (arg_vars y)).
Proof. exact (@conditional R). Qed.
Print Assumptions C50_conditional.

(** C50: composing dependences neither in series nor in parallel gives the right
    classes on every graph, and the right predecessors of the leafs. *)
Theorem C50_any_graph :
  forall (w : nat -> fvar R) (stoch : bool) (ds : list (dep R)) (d : dep R),
  (forall x, In x ds -> built_arg w (ADep x)) -> make_dep stoch (map (@ADep R) ds) = Ok d ->
  dp_arch d = ArchNone -> distinct_names (dp_nodes d) -> classified d /\ preds_right d.
Proof. exact (@composed_class R). Qed.
Print Assumptions C50_any_graph.

(** C96: however dependences are composed, the result has their variables and
    their arcs. *)
Theorem C96_union :
  forall (w : nat -> fvar R) (stoch : bool) (ds : list (dep R)) (d : dep R),
  (forall x, In x ds -> built_arg w (ADep x)) -> make_dep stoch (map (@ADep R) ds) = Ok d ->
  (forall v, In v (dp_nodes d) <-> exists x, In x ds /\ In v (dp_nodes x)) /\
  (forall v u, arc d v u <-> exists x, In x ds /\ arc x v u).
Proof. exact (@composed_union R). Qed.
Print Assumptions C96_union.

(** C50: composing x | y1, x | y2, ... in parallel gives the right classes. *)
Theorem C50_parallel :
  forall (w : nat -> fvar R) (x : darg R) (ys : list (darg R)) (ds : list (dep R)),
  built_arg w x -> (forall b, In b ys -> built_arg w b) -> is_plain x -> (forall b, In b ys -> is_plain b) ->
  Forall2 (fun y d => or_op x y = Ok d) ys ds -> 2 <= length ys ->
  (forall b, In b ys -> disjoint (arg_vars x) (arg_vars b)) ->
  (forall v u, In v (arg_vars x ++ flat_map (@arg_vars R) ys) -> In u (arg_vars x ++ flat_map (@arg_vars R) ys) ->
     fv_name v = fv_name u -> v = u) ->
  exists d, make_dep (arg_stoch x) (map (@ADep R) ds) = Ok d /\ dp_arch d = ArchParallel (length ds) /\
    (forall v, is_leaf d v <-> In v (arg_vars x)) /\ (forall v, ~ is_stem d v) /\
    (forall v, is_root d v <-> exists b, In b ys /\ In v (arg_vars b)) /\
    classified d /\ preds_right d.
Proof. exact (@parallel R). Qed.
Print Assumptions C50_parallel.

(** C50 (false of the code): in the chain (y | z) & (x | y) the variables of y have
    incoming and outgoing arcs but are in no class, and what is called the
    predecessors of the leafs has no arc to any of them. *)
Theorem C50_chain_refuted :
  forall (w : nat -> fvar R) (x y z : darg R) (d1 d2 d : dep R),
  built_arg w x -> built_arg w y -> built_arg w z -> is_plain x -> is_plain y -> is_plain z ->
  or_op x y = Ok d1 -> or_op y z = Ok d2 -> and_dep (ADep d2) (ADep d1) = Ok d ->
  disjoint (arg_vars y) (arg_vars x) -> disjoint (arg_vars y) (arg_vars z) ->
  (forall v, In v (arg_vars y) -> In v (dp_nodes d) /\ outgoing d v /\ incoming d v /\
     ~ is_leaf d v /\ ~ is_stem d v /\ ~ is_root d v) /\
  (disjoint (arg_vars x) (arg_vars z) -> forall v u, is_leaf d u -> arc d v u -> ~ is_pred d v) /\
  ~ classified d.
Proof. exact (@serial_wrong R). Qed.
Print Assumptions C50_chain_refuted.

(** ... and such a chain can always be built, even from x | y and y | x, a cycle
    in which every variable has both kinds of arcs. *)
Theorem C50_chain_accepted :
  forall (w : nat -> fvar R) (x y z : darg R),
  built_arg w x -> built_arg w y -> built_arg w z -> is_plain x -> is_plain y -> is_plain z ->
  arg_stoch x = arg_stoch y -> arg_stoch y = arg_stoch z ->
  exists d1 d2 d, or_op x y = Ok d1 /\ or_op y z = Ok d2 /\ and_dep (ADep d2) (ADep d1) = Ok d /\
    dp_arch d = ArchSerial 2 /\
    (forall v u, arc d v u <-> (In v (arg_vars y) /\ In u (arg_vars x)) \/ (In v (arg_vars z) /\ In u (arg_vars y))) /\
    (forall v, In v (dp_nodes d) <-> In v (arg_vars x) \/ In v (arg_vars y) \/ In v (arg_vars z)) /\
    (forall v, is_leaf d v <-> In v (arg_vars x)) /\ (forall v, ~ is_stem d v) /\
    (forall v, is_root d v <-> In v (arg_vars z)) /\ (forall v, is_pred d v <-> In v (arg_vars z)).
Proof. exact (@serial R). Qed.
Print Assumptions C50_chain_accepted.

(** ... and so for chains of any length. *)
Theorem C50_long_chain_refuted :
  forall (w : nat -> fvar R) (stoch : bool) (ds : list (dep R)) (d : dep R),
  (forall x, In x ds -> built_arg w (ADep x)) -> make_dep stoch (map (@ADep R) ds) = Ok d ->
  dp_arch d = ArchSerial (length ds) -> exists d0, hd_error ds = Some d0 /\ dp_leafs d = dp_leafs d0 /\
    dp_roots d = dp_roots (last ds d0) /\ dp_stems d = [] /\ dp_preds d = dp_roots d.
Proof. exact (@serial_classes R). Qed.
Print Assumptions C50_long_chain_refuted.

Example C50_instance :
  let x := AVar (var 0 "x") in let y := AVar (var 1 "y") in let z := AVar (var 2 "z") in
  built_arg world x /\ built_arg world y /\ built_arg world z /\
  disjoint (arg_vars y) (arg_vars x) /\ disjoint (arg_vars y) (arg_vars z) /\ disjoint (arg_vars x) (arg_vars z) /\
  (* x|y with y|z the other way round is neither serial nor parallel *)
  exists d1 d2 d, or_op x y = Ok d1 /\ or_op y z = Ok d2 /\ make_dep false [ADep d2; ADep d1] = Ok d /\
    dp_arch d = ArchNone /\ map (@fv_name R) (od_vals (dp_stems d)) = ["y"%string].
Proof.
  cbv zeta. assert (D : forall a b : fvar R, a <> b -> disjoint [a] [b]).
  { intros a b NE v [<-|[]] [E|[]]. auto. }
  do 3 (split; [constructor; reflexivity|]). cbn [arg_vars].
  do 3 (split; [apply D; unfold var; congruence|]).
  do 3 eexists. split; [reflexivity|]. split; [reflexivity|]. split; [reflexivity|]. split; reflexivity.
Qed.

(** C97: a dependence is made of one or two variables or fields; three or more are
    always refused ... *)
Theorem C97_three_arguments_refuted :
  forall (stoch : bool) (args : list (darg R)), 3 <= length args -> (forall a, In a args -> is_plain a) ->
  exists e, make_dep stoch args = Err e.
Proof. exact (@three_fail R). Qed.
Print Assumptions C97_three_arguments_refuted.

(** ... after the variables of all but the last have been put into the list of the
    first field, which belongs to the caller. *)
Theorem C97_first_field_changed_refuted :
  forall (stoch : bool) (f1 f2 f3 : field R) (fs : list (field R)),
  def_fields stoch (f1 :: f2 :: f3 :: fs) =
  (Err AssertionError, fd_varlist f1 ++ flat_map (@fd_varlist R) (removelast (f2 :: f3 :: fs))).
Proof. exact (@many_fields R). Qed.
Print Assumptions C97_first_field_changed_refuted.

(** C97: dependences without roots cannot be composed with any other. *)
Theorem C97_rootless_refuted :
  forall (stoch : bool) (ds : list (dep R)) (x : dep R), In x ds -> dp_roots x = None ->
  (forall y, In y ds -> (dp_stoch y || negb stoch)%bool = true) ->
  make_dep stoch (map (@ADep R) ds) = Err AttributeError.
Proof. exact (@rootless_fail R). Qed.
Print Assumptions C97_rootless_refuted.

(** C97: nor can dependences be mixed with variables and fields. *)
Theorem C97_mixed :
  forall (stoch : bool) (args : list (darg R)) (a : darg R) (d : dep R),
  In a args -> is_plain a -> In (ADep d) args -> exists e, make_dep stoch args = Err e.
Proof. exact (@mixed_fail R). Qed.
Print Assumptions C97_mixed.

Example C97_instance :
  exists d, make_dep false [AVar (var 0 "x")] = Ok d /\ dp_roots d = None /\ dp_stoch d = false /\
    is_plain (AVar (var 1 "y")).
Proof. eexists. split; [reflexivity|]. split; [reflexivity|]. split; [reflexivity|exact I]. Qed.

(** C98: x | y succeeds for variables and fields of the same kind (C50_conditional)
    and refuses a mixture of random and plain ones ... *)
Theorem C98_kinds :
  forall (w : nat -> fvar R) (x y : darg R), built_arg w x -> built_arg w y -> is_plain x -> is_plain y ->
  arg_stoch x <> arg_stoch y -> or_op x y = Err TypeError.
Proof. exact (@conditional_mixed R). Qed.
Print Assumptions C98_kinds.

(** ... and (false of the code) raises for every dependence on either side. *)
Theorem C98_or_refuted :
  forall (x y : darg R), ~ (is_plain x /\ is_plain y) -> exists e, or_op x y = Err e.
Proof. exact (@or_dep_fail R). Qed.
Print Assumptions C98_or_refuted.

Example C98_instance :
  exists d, or_op (AVar (var 0 "x")) (AVar (var 1 "y")) = Ok d /\ ~ (is_plain (ADep d) /\ is_plain (AVar (var 2 "z"))) /\
    built_arg world (AVar (var 0 "x")).
Proof. eexists. split; [reflexivity|]. split; [intros [[] _]|constructor; reflexivity]. Qed.

(** C99: joining a field to a dependence joins it to the leafs. *)
Theorem C99_field_and :
  forall (w : nat -> fvar R) (f g r : field R) (d : dep R),
  built_arg w (AField f) -> built_arg w (AField g) -> built_arg w (AField r) ->
  fd_stoch f = fd_stoch g -> or_op (AField g) (AField r) = Ok d ->
  exists j, and_op (OpField f) (OpField g) = Ok j /\ and_dep (AField f) (ADep d) = or_op (AField j) (AField r).
Proof. exact (@and_field R). Qed.
Print Assumptions C99_field_and.

(** C99 (false of the code): on the other side it always raises, ... *)
Theorem C99_dependence_and_refuted :
  forall (d : dep R) (b : darg R), is_plain b -> exists e, and_dep (ADep d) b = Err e.
Proof. exact (@and_left_fail R). Qed.
Print Assumptions C99_dependence_and_refuted.

(** ... a variable cannot be joined to a dependence with stems, roots, or two leafs
    besides it, ... *)
Theorem C99_variable_and_refuted :
  forall (v : fvar R) (d : dep R),
  (dp_stems d <> [] \/ dp_roots d <> None \/
    2 <= length (fold_left (@add_node R) (v :: fd_varlist (dp_leafs d)) []) - 1) ->
  exists e, and_dep (AVar v) (ADep d) = Err e.
Proof. exact (@and_var_fail R). Qed.
Print Assumptions C99_variable_and_refuted.

(** ... and joining v to the dependence of a single variable u conditions v on u. *)
Theorem C99_variable_conditioned_refuted :
  forall (w : nat -> fvar R) (v u : fvar R) (d : dep R) (s : bool),
  belongs w v -> belongs w u -> v <> u -> fv_stoch v = fv_stoch u ->
  make_dep s [AVar u] = Ok d -> and_dep (AVar v) (ADep d) = or_op (AVar v) (AVar u).
Proof. exact (@and_var_conditions R). Qed.
Print Assumptions C99_variable_conditioned_refuted.

Example C99_instance :
  exists f g r d, make_field false (AddOne (Some (var 0 "x"))) = Ok f /\ make_field false (AddOne (Some (var 1 "y"))) = Ok g /\
    make_field false (AddOne (Some (var 2 "z"))) = Ok r /\ or_op (AField g) (AField r) = Ok d /\
    built_arg world (AField f) /\ built_arg world (AField g) /\ built_arg world (AField r) /\ dp_roots d <> None /\
    exists e, make_dep false [AVar (var 1 "y")] = Ok e.
Proof.
  do 4 eexists. do 4 (split; [reflexivity|]).
  assert (B : forall i s f, world i = var i s -> make_field false (AddOne (Some (var i s))) = Ok f -> built_arg world (AField f)).
  { intros i s f W H. constructor; [left; eauto|]. cbn in H. inversion H; subst. cbn. repeat constructor. exact W. }
  split; [eapply (B 0 "x"%string); reflexivity|]. split; [eapply (B 1 "y"%string); reflexivity|].
  split; [eapply (B 2 "z"%string); reflexivity|]. split; [discriminate|]. eexists. reflexivity.
Qed.

(** C100: removing the primes of proposed values: [names] are the names without
    primes.  Where at least one key is primed, the values come back under these in
    order, unless two of them coincide ... *)
Theorem C100_desuffix :
  forall (A : Type) (c : ascii) (d : odict A) (names : list string),
  Forall (fun k => k <> EmptyString) (od_keys d) ->
  (exists k, In k (od_keys d) /\ ends_in c k) -> Forall2 (unprimed_as c) (od_keys d) names ->
  (NoDup names -> desuffix d c = Ok (combine names (od_vals d))) /\
  (~ NoDup names -> desuffix d c = Err AssertionError).
Proof. exact @desuffix_some. Qed.
Print Assumptions C100_desuffix.

(** ... but (false of the code) a dictionary without primed keys is always refused. *)
Theorem C100_no_suffix_refuted :
  forall (A : Type) (c : ascii) (d : odict A), Forall (fun k => k <> EmptyString) (od_keys d) ->
  (forall k, In k (od_keys d) -> ~ ends_in c k) -> desuffix d c = Err TypeError.
Proof. exact @desuffix_none. Qed.
Print Assumptions C100_no_suffix_refuted.

(** C101 *)
Theorem C101_get_suffixed :
  forall (A : Type) (c : ascii) (d : odict A), Forall (fun k => k <> EmptyString) (od_keys d) -> NoDup (od_keys d) ->
  exists e, get_suffixed d true c = Ok e /\ NoDup (od_keys e) /\
    forall k v, In (k, v) e <-> In (prime c k, v) d.
Proof. exact @get_suffixed_spec. Qed.
Print Assumptions C101_get_suffixed.

Example C100_instance :
  let d := [("x'", 1); ("y", 2)]%string in
  Forall (fun k => k <> EmptyString) (od_keys d) /\ (exists k, In k (od_keys d) /\ ends_in "'" k) /\
  Forall2 (unprimed_as "'") (od_keys d) ["x"; "y"]%string /\ NoDup (od_keys d) /\
  get_suffixed d true "'" = Ok [("x", 1)]%string.
Proof.
  cbv zeta. split; [repeat constructor; discriminate|]. split; [exists "x'"%string; split; [left; auto|exists "x"%string; reflexivity]|].
  split. { constructor; [left; reflexivity|]. constructor; [|constructor]. right. split; [reflexivity|].
    intros [[|a [|b s]] E]; discriminate. }
  split; [repeat constructor; cbn; intros H; repeat destruct H as [H|H]; try discriminate; auto|reflexivity].
Qed.

(** C102: the probability of dependences in parallel is the product of theirs ... *)
Theorem C102_parallel :
  forall (V : Type) (parts : list (part V)) (values : odict V) (dims : odict nat) (ts : list (tensor R)) (s : list nat),
  parts <> [] -> Forall2 (evals values dims) parts ts -> Forall (fun p => linear_scale (pt_pscale p)) parts ->
  bcast_all (map (@shape R) ts) = Ok s ->
  exists t ps, arch_prob false parts values dims = Ok t /\ shape t = s /\ linear_scale ps /\
    forall idx, in_range s idx -> denote ps (get t idx) = Rprod (factors_at ts (map (@pt_pscale R V) parts) idx).
Proof. exact parallel_prob. Qed.
Print Assumptions C102_parallel.

(** ... but (false of the code) in series it is the probability of one alone. *)
Theorem C102_serial_refuted :
  forall (V : Type) (parts : list (part V)) (p : part V) (values : odict V) (dims : odict nat) (ts : list (tensor R)) (t : tensor R),
  Forall2 (evals values dims) parts ts -> evals values dims p t ->
  arch_prob true (parts ++ [p]) values dims = Ok t.
Proof. exact serial_prob. Qed.
Print Assumptions C102_serial_refuted.

Example C102_instance :
  let half : part unit := mkPart ["x"%string] (PSFloat 1%R) (fun _ _ => Ok (tscalar (1/2)%R)) in
  Forall2 (evals [] []) [half; half] [tscalar (1/2)%R; tscalar (1/2)%R] /\ linear_scale (pt_pscale half) /\
  bcast_all (map (@shape R) [tscalar (1/2)%R; tscalar (1/2)%R]) = Ok [].
Proof.
  cbv zeta. split; [repeat constructor|]. split; [|reflexivity]. split; [split; cbn; auto|cbn].
  - apply Rlt_le, Rlt_0_1.
  - destruct (Req_EM_T 1 0) as [E|E]; [exfalso; revert E; apply R1_neq_R0|reflexivity].
Qed.
