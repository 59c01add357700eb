(** The probabilities of a field with a multivariate distribution of scipy. *)
From Coq Require Import String ZArith Reals Lra Bool Arith Lia List.
From Verif Require Import Base Num Tensor PScales PScales_Spec Names Distr PDModel PD_Spec PD_Examples VariableModel Var_Spec RVModel FieldModel
  Field_Spec RFModel RF_Spec RF_Proofs RF_Thm SDModel SD_Spec SD_Ex MVModel MV_Spec MV_Thm MV_Ex.
Import ListNotations.
Local Open Scope R_scope.

(** C160 is false: with two or three variables, some of them arrays, the probability
    at a position is the distribution's density at the point with the first two
    coordinates exchanged. *)
Theorem C160_coordinates_refuted :
  forall (F : Fmt R) (TR : Trunc R) (leafs roots : list (rv R)) (values : odict (fentry R))
    (x : nat -> fval R) (a : nat -> values_in R) (r : nat -> rnd R) (A : nat -> tensor (pyval R)),
  let vs := (leafs ++ roots)%list in
  printable F -> leafs <> [] -> named_apart (names_of vs) -> scales_ok vs ->
  NoDup (od_keys values) -> incl (od_keys values) (names_of vs) ->
  (forall i v, nth_error vs i = Some v -> evaluates v values (x i) (a i) (r i) (A i)) ->
  let L := filter (needs_axis values) (names_of vs) in
  length vs = 2%nat \/ length vs = 3%nat -> L <> [] -> no_single vs A ->
  exists d0, make_sd leafs roots None = Ok d0 /\ forall m given d, mv_dim m = length vs -> mv_set_prob d0 m given = Ok d ->
  exists p vals, sd_call d values NoIid r = Ok (p, vals) /\ valid_pd p L /\
    od_keys (p_marg p) = names_of leafs /\ od_keys (p_cond p) = names_of roots /\ p_pscale p = sd_pscale d /\
    (forall i v, nth_error vs i = Some v -> variable p (rv_name v) = Some (var_of (to_value (A i)))) /\
    forall s, in_bounds p L s ->
      prob_at p L s = denote (spec_of (sd_pscale d)) (density m (spec_of (sd_pscale d)) (flipped (point values vs A s))).
Proof.
  exact (fun F TR leafs roots values x a r A PR NL NA SC ND IN HE => mv_coordinates leafs roots values x a r A PR NL NA SC ND IN HE).
Qed.
Print Assumptions C160_coordinates_refuted.

(** x in 0, 1 and y in 0, 1, 2; a density a + 2b of (a, b): at x = 1, y = 2 the
    probability is 4, not 5. *)
Example C160_instance : forall (TR : Trunc R) (r : nat -> rnd R),
  let s k := if String.eqb k "x" then 1%nat else 2%nat in
  exists d0 d p vals, make_sd mv_two [] None = Ok d0 /\ mv_set_prob d0 mv_m (Some (PSFloat 1)) = Ok d /\
    @sd_call R RNum fmt_ex d (mv_lists mv_xy mv_two) NoIid r = Ok (p, vals) /\ point (mv_lists mv_xy mv_two) mv_two (mv_A mv_xy) s = [1; 2] /\
    mv_prob mv_m [1; 2] = 5 /\ (in_bounds p ["x"; "y"]%string s -> prob_at p ["x"; "y"]%string s = 4).
Proof.
  intros TR r s. destruct mv_two_ok as (NA & SC). destruct (mv_two_given r) as (H1 & H2 & H3 & H4 & H5).
  destruct (mv_set mv_two mv_m NA SC ltac:(discriminate)) as (d0 & d & E0 & E1 & E2).
  destruct (C160_coordinates_refuted fmt_ex TR mv_two [] (mv_lists mv_xy mv_two) (mv_x mv_xy) (mv_a mv_xy) r (mv_A mv_xy)
    ex_printable ltac:(discriminate) NA SC H1 H2 H3 (or_introl eq_refl) ltac:(discriminate) H5) as (d0' & E0' & H).
  rewrite E0 in E0'. injection E0' as <-. destruct (H mv_m _ d eq_refl E1) as (p & vals & C1 & _ & _ & _ & _ & _ & C2).
  exists d0, d, p, vals. split; [exact E0|]. split; [exact E1|]. split; [exact C1|]. split; [reflexivity|]. split; [cbn; lra|].
  intros IB. change ["x"; "y"]%string with (filter (needs_axis (mv_lists mv_xy mv_two)) (names_of (mv_two ++ []))) in IB |- *.
  rewrite (C2 s IB). rewrite E2. unfold denote, density. cbn. destruct (Req_EM_T 1 0); cbn; lra.
Qed.

(** C161 is false: if all variables are given numbers then the coordinates are taken
    in the order of the request and then flipped, so that the probability of a point
    depends on the order in which its coordinates are named. *)
Theorem C161_numbers_refuted :
  forall (F : Fmt R) (TR : Trunc R) (leafs roots : list (rv R)) (values : odict (fentry R))
    (x : nat -> fval R) (a : nat -> values_in R) (r : nat -> rnd R) (A : nat -> tensor (pyval R)),
  let vs := (leafs ++ roots)%list in
  printable F -> leafs <> [] -> named_apart (names_of vs) -> scales_ok vs ->
  NoDup (od_keys values) -> incl (od_keys values) (names_of vs) ->
  (forall i v, nth_error vs i = Some v -> evaluates v values (x i) (a i) (r i) (A i)) ->
  (2 <= length vs)%nat -> numbers_only values ->
  exists d0, make_sd leafs roots None = Ok d0 /\ forall m given d, mv_dim m = length vs -> mv_set_prob d0 m given = Ok d ->
  exists p vals, sd_call d values NoIid r = Ok (p, vals) /\ valid_pd p [] /\
    forall s, prob_at p [] s = denote (spec_of (sd_pscale d)) (density m (spec_of (sd_pscale d)) (flipped (numbers_of values))).
Proof.
  exact (fun F TR leafs roots values x a r A PR NL NA SC ND IN HE => mv_numbers leafs roots values x a r A PR NL NA SC ND IN HE).
Qed.
Print Assumptions C161_numbers_refuted.

(** x = 1 and y = 2, in one order and the other. *)
Example C161_instance : forall (TR : Trunc R) (r : nat -> rnd R),
  exists d0 d p vals p' vals', make_sd mv_two [] None = Ok d0 /\ mv_set_prob d0 mv_m (Some (PSFloat 1)) = Ok d /\
    @sd_call R RNum fmt_ex d (mv_nums true) NoIid r = Ok (p, vals) /\ @sd_call R RNum fmt_ex d (mv_nums false) NoIid r = Ok (p', vals') /\
    forall s, prob_at p [] s = 4 /\ prob_at p' [] s = 5.
Proof.
  intros TR r. destruct mv_two_ok as (NA & SC). destruct (mv_nums_given r true) as (H1 & H2 & H3 & H4). destruct (mv_nums_given r false) as (K1 & K2 & K3 & K4).
  destruct (mv_set mv_two mv_m NA SC ltac:(discriminate)) as (d0 & d & E0 & E1 & E2).
  destruct (C161_numbers_refuted fmt_ex TR mv_two [] (mv_nums true) mv_nx mv_na r mv_nA
    ex_printable ltac:(discriminate) NA SC H1 H2 H3 ltac:(cbn; lia) H4) as (d1 & D1 & H). rewrite E0 in D1. injection D1 as <-.
  destruct (C161_numbers_refuted fmt_ex TR mv_two [] (mv_nums false) mv_nx mv_na r mv_nA
    ex_printable ltac:(discriminate) NA SC K1 K2 K3 ltac:(cbn; lia) K4) as (d1 & D1 & K). rewrite E0 in D1. injection D1 as <-.
  destruct (H mv_m _ d eq_refl E1) as (p & vals & C1 & _ & C2). destruct (K mv_m _ d eq_refl E1) as (p' & vals' & C1' & _ & C2').
  exists d0, d, p, vals, p', vals'. repeat (split; [assumption|]). intros s. rewrite C2, C2', E2. unfold denote, density. cbn.
  destruct (Req_EM_T 1 0); cbn; split; lra.
Qed.

(** C162 is false of four variables and more: the axes of the grid are those of the
    variables in another order, so that the call raises unless the sizes agree in
    that order, and if they do the probabilities are those of other positions. *)
Theorem C162_axes_refuted :
  forall (F : Fmt R) (TR : Trunc R) (leafs roots : list (rv R)) (values : odict (fentry R))
    (x : nat -> fval R) (a : nat -> values_in R) (r : nat -> rnd R) (A : nat -> tensor (pyval R)),
  let vs := (leafs ++ roots)%list in
  printable F -> leafs <> [] -> named_apart (names_of vs) -> scales_ok vs ->
  NoDup (od_keys values) -> incl (od_keys values) (names_of vs) ->
  (forall i v, nth_error vs i = Some v -> evaluates v values (x i) (a i) (r i) (A i)) ->
  let L := filter (needs_axis values) (names_of vs) in
  (2 <= length vs)%nat -> L = names_of vs -> no_single vs A ->
  forall size : string -> nat, (forall i v, nth_error vs i = Some v -> size (rv_name v) = tsize (A i)) ->
  ((4 <= length vs)%nat -> grid_axes (names_of vs) <> names_of vs) /\
  exists d0, make_sd leafs roots None = Ok d0 /\ forall m given d, mv_dim m = length vs -> mv_set_prob d0 m given = Ok d ->
  (map size (grid_axes (names_of vs)) <> map size (names_of vs) -> sd_call d values NoIid r = Err AssertionError) /\
  (map size (grid_axes (names_of vs)) = map size (names_of vs) -> exists p vals, sd_call d values NoIid r = Ok (p, vals) /\ valid_pd p L /\
    forall s s', in_bounds p L s -> map s' (grid_axes (names_of vs)) = map s (names_of vs) ->
      prob_at p L s = denote (spec_of (sd_pscale d)) (density m (spec_of (sd_pscale d)) (flipped (point values vs A s')))).
Proof.
  exact (fun F TR leafs roots values x a r A PR NL NA SC ND IN HE N2 LN NS size =>
    mv_axes_sized leafs roots values x a r A size PR NL NA SC ND IN HE N2 LN NS).
Qed.
Print Assumptions C162_axes_refuted.

(** Four variables with two values each. *)
Example C162_instance : forall r : nat -> rnd R,
  named_apart (names_of mv_four) /\ scales_ok mv_four /\
  (forall i v, nth_error mv_four i = Some v -> evaluates v (mv_lists mv_wxyz mv_four) (mv_x mv_wxyz i) (mv_a mv_wxyz i) (r i) (mv_A mv_wxyz i)) /\
  filter (needs_axis (mv_lists mv_wxyz mv_four)) (names_of mv_four) = names_of mv_four /\ no_single mv_four (mv_A mv_wxyz) /\
  (exists d0 d, make_sd mv_four [] None = Ok d0 /\ mv_set_prob d0 mv_m4 (Some (PSFloat 1)) = Ok d /\ sd_pscale d = Lin 1) /\
  grid_axes (names_of mv_four) = ["x"; "y"; "w"; "z"]%string /\
  (forall i v, nth_error mv_four i = Some v -> 2%nat = tsize (mv_A mv_wxyz i)).
Proof.
  intros r. destruct mv_four_ok as (NA & SC). destruct (mv_four_given r) as (_ & _ & H3 & H4 & H5).
  split; [exact NA|]. split; [exact SC|]. split; [exact H3|]. split; [exact H4|]. split; [exact H5|].
  split; [apply mv_set; [exact NA|exact SC|discriminate]|]. split; [reflexivity|].
  intros [|[|[|[|i]]]] v I; [reflexivity|reflexivity|reflexivity|reflexivity|destruct i; discriminate].
Qed.

(** C163 is false: an array of one value among the arguments is refused, for its axis
    is dropped from the probabilities. *)
Theorem C163_single_refuted :
  forall (F : Fmt R) (TR : Trunc R) (leafs roots : list (rv R)) (values : odict (fentry R))
    (x : nat -> fval R) (a : nat -> values_in R) (r : nat -> rnd R) (A : nat -> tensor (pyval R)),
  let vs := (leafs ++ roots)%list in
  printable F -> leafs <> [] -> named_apart (names_of vs) -> scales_ok vs ->
  NoDup (od_keys values) -> incl (od_keys values) (names_of vs) ->
  (forall i v, nth_error vs i = Some v -> evaluates v values (x i) (a i) (r i) (A i)) ->
  (2 <= length vs)%nat -> (exists i v, nth_error vs i = Some v /\ shape (A i) = [1%nat]) ->
  exists d0, make_sd leafs roots None = Ok d0 /\ forall m given d, mv_dim m = length vs -> mv_set_prob d0 m given = Ok d ->
  sd_call d values NoIid r = Err AssertionError.
Proof.
  exact (fun F TR leafs roots values x a r A PR NL NA SC ND IN HE => mv_single leafs roots values x a r A PR NL NA SC ND IN HE).
Qed.
Print Assumptions C163_single_refuted.

(** One value of x, two of y. *)
Example C163_instance : forall r : nat -> rnd R,
  NoDup (od_keys (mv_lists mv_lone mv_two)) /\ incl (od_keys (mv_lists mv_lone mv_two)) (names_of mv_two) /\
  (forall i v, nth_error mv_two i = Some v -> evaluates v (mv_lists mv_lone mv_two) (mv_x mv_lone i) (mv_a mv_lone i) (r i) (mv_A mv_lone i)) /\
  exists i v, nth_error mv_two i = Some v /\ shape (mv_A mv_lone i) = [1%nat].
Proof. exact mv_lone_given. Qed.

(** C163, a field of one variable: numbers have the distribution's density, arrays are
    refused whatever their size. *)
Theorem C163_one_variable_refuted :
  forall (F : Fmt R) (TR : Trunc R) (v : rv R) (values : odict (fentry R)) (x : fval R) (a : values_in R) (r : nat -> rnd R) (A : tensor (pyval R)),
  printable F -> named_apart [rv_name v] -> scales_ok [v] -> NoDup (od_keys values) -> incl (od_keys values) [rv_name v] ->
  evaluates v values x a (r 0%nat) A ->
  exists d0, make_sd [v] [] None = Ok d0 /\ forall m given d, mv_dim m = 1%nat -> mv_set_prob d0 m given = Ok d ->
  (shape A <> [] -> tsize A <> 1%nat -> sd_call d values NoIid r = Err ValueError) /\
  (shape A = [1%nat] -> sd_call d values NoIid r = Err AssertionError) /\
  (shape A = [] -> exists p vals, sd_call d values NoIid r = Ok (p, vals) /\ valid_pd p [] /\
    forall s, prob_at p [] s = denote (spec_of (sd_pscale d)) (density m (spec_of (sd_pscale d)) [num (get A [])])).
Proof. exact (fun F TR v values x a r A => mv_one v values x a r A). Qed.
Print Assumptions C163_one_variable_refuted.

(** Three values of x. *)
Example C163_one_variable_instance : forall r : rnd R,
  evaluates (mv_rv "x"%string) [("x"%string, One (mv_arr [0; 1; 2]))] (mv_arr [0; 1; 2]) (VGiven (map PF [0; 1; 2]) false) r (of_list (PF 0) (map PF [0; 1; 2])) /\
  shape (of_list (PF 0) (map PF [0; 1; 2])) <> [] /\ tsize (of_list (PF 0) (map PF [0; 1; 2])) <> 1%nat.
Proof.
  intros r. split; [|split; discriminate]. split; [reflexivity|]. split; [apply sr_arr|]. split; [reflexivity|]. right. split; [reflexivity|].
  exists 3%nat. split; [lia|reflexivity].
Qed.

(** C164: whatever function was set as the probability, a distribution that a call
    returns is a valid one: it has the axes of the arrays, each variable holds its
    values, and its probabilities are what the function returned, which has the shape
    of the arrays. *)
Theorem C164_accepted :
  forall (F : Fmt R) (TR : Trunc R) (leafs roots : list (rv R)) (values : odict (fentry R))
    (x : nat -> fval R) (a : nat -> values_in R) (r : nat -> rnd R) (A : nat -> tensor (pyval R)),
  let vs := (leafs ++ roots)%list in
  printable F -> leafs <> [] -> named_apart (names_of vs) -> scales_ok vs ->
  NoDup (od_keys values) -> incl (od_keys values) (names_of vs) ->
  (forall i v, nth_error vs i = Some v -> evaluates v values (x i) (a i) (r i) (A i)) ->
  forall size : string -> nat, (forall i v, nth_error vs i = Some v -> size (rv_name v) = tsize (A i)) ->
  let L := filter (needs_axis values) (names_of vs) in
  exists d0, make_sd leafs roots None = Ok d0 /\ forall fn given d, sd_set_prob d0 (Some fn) given = Ok d ->
  forall p vals, sd_call d values NoIid r = Ok (p, vals) ->
    valid_pd p L /\ od_keys (p_marg p) = names_of leafs /\ od_keys (p_cond p) = names_of roots /\ p_pscale p = sd_pscale d /\
    (forall i v, nth_error vs i = Some v -> variable p (rv_name v) = Some (var_of (to_value (A i)))) /\
    exists dims t, fn vals dims = Ok t /\ p_prob p = Some t /\ shape t = map size L.
Proof.
  exact (fun F TR leafs roots values x a r A PR NL NA SC ND IN HE size =>
    fn_accepted_sized leafs roots values x a r A size PR NL NA SC ND IN HE).
Qed.
Print Assumptions C164_accepted.

(** The call of C160 returns a distribution. *)
Example C164_instance : forall (TR : Trunc R) (r : nat -> rnd R),
  exists d0 d p vals, make_sd mv_two [] None = Ok d0 /\ sd_set_prob d0 (Some (mv_eval mv_m false)) (Some (PSFloat 1)) = Ok d /\
    @sd_call R RNum fmt_ex d (mv_lists mv_xy mv_two) NoIid r = Ok (p, vals).
Proof.
  intros TR r. destruct (C160_instance TR r) as (d0 & d & p & vals & E0 & E1 & E2 & _). exists d0, d, p, vals. split; [exact E0|]. split; [|exact E2].
  exact (mv_set_linear d0 d E1 E0).
Qed.
