(** Property theorems about variables (C39, C40, C64-C72, C183). *)
From Coq Require Import String ZArith Reals Lra Lia Bool Arith List Permutation.
From Verif Require Import Base Num RNumLemmas Likelihoods VariableModel Var_Spec Var_Proofs Var_Proofs2 Var_Delta Var_More Var_Move.
Import ListNotations.
Local Open Scope R_scope.

(** C39: {n} gives |n| members of the set, any two of them equally often up to
    one; for n > 0 in cyclic order. *)
Theorem C39_evenly :
  forall (t : vtype) (vals : list (pyval R)) u (n : Z) (r : rnd R),
  t <> VFloat -> NoDup vals -> vals <> [] -> (t = VBool -> length vals = 2%nat) ->
  n <> 0%Z -> (forall q, n = Zneg q -> shuffle (Pos.to_nat q) (r_perm r)) ->
  exists out, evaluate (discrete t vals) u (VSet n) r = Ok (OArray out) /\
    length out = Z.abs_nat n /\
    (forall v, In v out -> In v vals) /\
    (forall v w, In v vals -> In w vals -> (count_occ pyval_dec out v <= S (count_occ pyval_dec out w))%nat) /\
    ((0 < n)%Z -> forall i, (i < length out)%nat -> nth_error out i = nth_error vals (i mod length vals)).
Proof. exact evaluate_even. Qed.
Print Assumptions C39_evenly.

(** C39: {0} gives one member, None all of them. *)
Theorem C39_zero_and_none :
  forall (t : vtype) (vals : list (pyval R)) u (r : rnd R), t <> VFloat ->
  evaluate (discrete t vals) u VNone r = Ok (OArray vals) /\
  ((r_int r < length vals)%nat -> exists v, evaluate (discrete t vals) u (VSet 0) r = Ok (OScalar v) /\ In v vals).
Proof. intros. split; [apply evaluate_all; assumption|apply evaluate_zero; assumption]. Qed.
Print Assumptions C39_zero_and_none.

(** C39 (false of the code for one-element sets of bools): more than one value is
    an error. *)
Theorem C39_single_bool_refuted :
  forall (v : pyval R) u (n : Z) (r : rnd R), (2 <= n)%Z ->
  evaluate (discrete VBool [v]) u (VSet n) r = Err IndexError.
Proof. exact evaluate_single_bool. Qed.
Print Assumptions C39_single_bool_refuted.

Example C39_instance :
  let r := mkRnd 1 [3; 0; 4; 2; 1]%nat (fun _ => 0) in
  VInt <> VFloat /\ NoDup ([PI 7; PI 9] : list (pyval R)) /\ shuffle 5 (r_perm r) /\
  evaluate (discrete VInt [PI 7; PI 9]) None (VSet (-5)) r = Ok (OArray [PI 9; PI 7; PI 7; PI 7; PI 9]).
Proof.
  cbn [r_perm]. split; [discriminate|]. split; [repeat constructor; cbn; intuition discriminate|]. split.
  - unfold shuffle. cbn.
    apply NoDup_Permutation; [repeat constructor; cbn; intuition discriminate..|]. cbn. intuition.
  - reflexivity.
Qed.

(** C40: with bound=True values inside an interval stay inside: arrays always,
    scalars if both or none of the limits are excluded. *)
Theorem C40_bounded_interval :
  forall (e0 e1 : elem R) u dc (scalar : bool) values d r out,
  limit_le (atom_of e0) (atom_of e1) -> scalar = false \/ is_tup e0 = is_tup e1 ->
  Forall (fun v => inside (interval e0 e1) v = Some true) values ->
  apply_delta (interval e0 e1) u dc scalar values d (Some true) r = Ok out ->
  Forall (fun v => inside (interval e0 e1) v = Some true) out /\ length out = length values.
Proof. exact apply_interval. Qed.
Print Assumptions C40_bounded_interval.

(** C40: and there is an answer to every non-zero number. *)
Theorem C40_bounded_answers :
  forall (e0 e1 : elem R) u dc (scalar : bool) values (x : R) r,
  limit_le (atom_of e0) (atom_of e1) -> x <> 0 ->
  exists out, apply_delta (interval e0 e1) u dc scalar values (DScal (PF x)) (Some true) r = Ok out.
Proof. exact apply_interval_total. Qed.
Print Assumptions C40_bounded_answers.

(** C40 (false of the code for scalars in half-open intervals): the result is
    inside exactly if the step does not hit the excluded limit. *)
Theorem C40_half_open_low_refuted :
  forall (L U : R) dc (x d : R) r, L < x <= U -> d <> 0 ->
  exists w, apply_delta (interval (Tup (AV (PF L))) (Bare (AV (PF U)))) None dc true [PF x] (DScal (PF d)) (Some true) r
            = Ok [PF w] /\
    (inside (interval (Tup (AV (PF L))) (Bare (AV (PF U)))) (PF w) = Some true <-> x + d <> L).
Proof. exact half_open_low. Qed.
Print Assumptions C40_half_open_low_refuted.

Theorem C40_half_open_high_refuted :
  forall (L U : R) dc (x d : R) r, L <= x < U -> d <> 0 ->
  exists w, apply_delta (interval (Bare (AV (PF L))) (Tup (AV (PF U)))) None dc true [PF x] (DScal (PF d)) (Some true) r
            = Ok [PF w] /\
    (inside (interval (Bare (AV (PF L))) (Tup (AV (PF U)))) (PF w) = Some true <-> x + d <> U).
Proof. exact half_open_high. Qed.
Print Assumptions C40_half_open_high_refuted.

(** C40: values of a discrete variable stay between its smallest and largest
    member. *)
Theorem C40_bounded_discrete :
  forall (t : vtype) (vals : list (pyval R)) u dc (scalar : bool) values d r out,
  t <> VFloat -> vals <> [] -> Forall (spanned vals) values ->
  apply_delta (discrete t vals) u dc scalar values d (Some true) r = Ok out ->
  Forall (spanned vals) out /\ length out = length values.
Proof. exact apply_discrete. Qed.
Print Assumptions C40_bounded_discrete.

(** C40: but need not be members of it: between the limits an integer is
    returned unchanged, member or not. *)
Theorem C40_discrete_membership_refuted :
  forall (zs : list Z) dc (x d : Z) r, zs <> [] -> d <> 0%Z ->
  spanned (map PI zs) (PI (x + d)) ->
  exists w, apply_delta (discrete VInt (map PI zs)) None dc true [PI x] (DScal (PI d)) (Some true) r = Ok [w] /\
    num w = IZR (x + d) /\ (inside (discrete VInt (map PI zs)) w = Some true <-> In (x + d)%Z zs).
Proof. exact apply_int_gap. Qed.
Print Assumptions C40_discrete_membership_refuted.

Example C40_instance :
  limit_le (atom_of (Tup (AV (PF 0)))) (atom_of (Bare (AV (PF 1)))) /\
  inside (interval (Tup (AV (PF 0))) (Bare (AV (PF 1)))) (PF (1 / 2)) = Some true /\
  0 < 1 / 2 <= 1 /\ (- (1 / 2) : R) <> 0 /\ 1 / 2 + - (1 / 2) = 0 /\
  spanned (map PI [0; 5]%Z) (PI (0 + 3)) /\ ~ In (0 + 3)%Z [0; 5]%Z.
Proof.
  split; [cbn; lra|]. split; [apply inside_interval_iff; cbn; lra|]. split; [lra|]. split; [lra|]. split; [lra|].
  split; [exists (PI 0), (PI 5); cbn; repeat split; auto; lra|]. cbn. intuition lia.
Qed.

(** C64: a float variable contains what lies between its two limits, given in
    either order, strictly where a limit is in a tuple. *)
Theorem C64_interval_membership :
  forall (nm : string) (e0 e1 : elem R), valid_name nm = true ->
  exists s, make_variable (Some nm) (AList [e0; e1]) (AType VFloat) = Ok (nm, s) /\
    forall x : R, inside s (PF x) = Some true <->
       (limit_le (atom_of e0) (atom_of e1) /\ over e0 x /\ under e1 x) \/
       (~ limit_le (atom_of e0) (atom_of e1) /\ over e1 x /\ under e0 x).
Proof.
  intros nm e0 e1 V. destruct (float_limits nm e0 e1 V) as (f0 & f1 & E & H). exists (interval f0 f1). split; auto.
  intros x. rewrite inside_interval_iff. apply H.
Qed.
Print Assumptions C64_interval_membership.

(** C64: membership in a discrete variable. *)
Theorem C64_discrete_membership :
  forall (t : vtype) (vals : list (pyval R)) (v : pyval R), t <> VFloat ->
  exists b, inside (discrete t vals) v = Some b /\ (b = true <-> In (num v) (map num vals)).
Proof. exact inside_discrete. Qed.
Print Assumptions C64_discrete_membership.

Example C64_instance : valid_name "x" = true /\
  ~ limit_le (atom_of (Tup (AV (PF 3)))) (atom_of (Bare (AV (PI 1)))) /\
  over (Bare (AV (PI 1))) 1 /\ under (Tup (AV (PF 3))) 1.
Proof. split; [reflexivity|]. cbn. lra. Qed.

(** C65: the n > 0 values a float variable gives are inside, with any invertible
    transformation that maps the limits to numbers. *)
Theorem C65_grid_inside :
  forall u (e0 e1 : elem R) (a b : R) (n : Z) (r : rnd R), good_ufun u e0 e1 a b -> (0 < n)%Z ->
  exists out, evaluate (interval e0 e1) u (VSet n) r = Ok (OArray out) /\ Z.of_nat (length out) = n /\
    forall v, In v out -> inside (interval e0 e1) v = Some true.
Proof. exact evaluate_grid_inside. Qed.
Print Assumptions C65_grid_inside.

(** C65: drawn values are inside, except (false of the code) that an excluded
    lower limit is returned if the number drawn is zero. *)
Theorem C65_draw_inside_iff :
  forall (e0 e1 : elem R) (L U : pyval R) (n : Z) (r : rnd R),
  atom_of e0 = AV L -> atom_of e1 = AV U -> num L < num U -> (n <= 0)%Z -> (forall i, 0 <= r_unif r i < 1) ->
  exists o, evaluate (interval e0 e1) None (VSet n) r = Ok o /\
    length (answer o) = Nat.max 1 (Z.abs_nat n) /\
    forall i, (i < length (answer o))%nat -> exists x, nth_error (answer o) i = Some (PF x) /\
      num L <= x < num U /\
      (inside (interval e0 e1) (PF x) = Some true <-> is_tup e0 = false \/ 0 < r_unif r i).
Proof. exact evaluate_draw. Qed.
Print Assumptions C65_draw_inside_iff.

(** A logarithmic variable over [1, e^2). *)
Example C65_instance :
  good_ufun (Some (mkUfun ln exp (fun _ => AOO true))) (Bare (AV (PF 1))) (Tup (AV (PF (exp 2)))) 0 2 /\
  good_ufun None (Tup (AV (PF 1))) (Bare (AV (PF 3))) 1 3.
Proof.
  split; unfold good_ufun; cbn.
  - split; [exists (PF (ln 1)), (PF (ln (exp 2))); repeat split; cbn; [apply ln_1|apply ln_exp]|].
    split; [lra|]. split.
    + intros x. unfold strictly_between, Rmin, Rmax. destruct (Rle_dec 0 2); [|lra]. intros [A B].
      split; [rewrite <- exp_0|]; apply exp_increasing; auto.
    + split; [|discriminate]. intros _. rewrite exp_0. split; [lra|]. rewrite <- exp_0. apply exp_increasing. lra.
  - split; [exists (PF 1), (PF 3); auto|]. split; [lra|]. split.
    + intros x. unfold strictly_between, Rmin, Rmax. destruct (Rle_dec 1 3); lra.
    + split; [discriminate|]. intros _. lra.
Qed.

(** C66 (false of the code): a zero perturbation is replaced by the default. *)
Theorem C66_zero_delta_refuted :
  forall s u dc (scalar : bool) values (z : pyval R) bound r, num z = 0 ->
  apply_delta s u dc scalar values (DScal z) bound r = apply_delta s u dc scalar values DNone bound r.
Proof. exact zero_delta_default. Qed.
Print Assumptions C66_zero_delta_refuted.

Theorem C66_zero_delta_moves_refuted :
  forall (e0 e1 : elem R) (d : R) (scale : bool) (xs : list R) (z : pyval R) (scalar : bool) r, num z = 0 ->
  apply_delta (interval e0 e1) None (mkDC (DScal (PF d)) scale false) scalar (map PF xs) (DScal z) None r
  = Ok (map (fun x => PF (x + d)) xs).
Proof. exact zero_delta_moves. Qed.
Print Assumptions C66_zero_delta_moves_refuted.

Example C66_instance : num (PI 0) = 0 /\ num (PF 0) = 0.
Proof. split; reflexivity. Qed.

(** C67: whatever the arguments, a variable that is created has a valid name, a
    type, a set whose elements have this type, and for floats two limits in
    order. *)
Theorem C67_constructor_well_made :
  forall nm (vset vt : arg R) (n : string) (s : vstate R),
  make_variable nm vset vt = Ok (n, s) -> well_made s /\ nm = Some n /\ valid_name n = true.
Proof. exact make_variable_made. Qed.
Print Assumptions C67_constructor_well_made.

(** C67: assigning the set keeps it so. *)
Theorem C67_assignment_well_made :
  forall (s s' : vstate R) (a : arg R), set_vset s a = (s', Ok tt) -> well_made s'.
Proof. exact set_vset_made. Qed.
Print Assumptions C67_assignment_well_made.

(** C67: type and set may be given in either order. *)
Theorem C67_either_order :
  forall nm (vset vt : arg R), is_container vset = true -> is_container vt = false ->
  make_variable nm vset vt = make_variable nm vt vset.
Proof. exact make_swap. Qed.
Print Assumptions C67_either_order.

(** C67 (false of the code): assigning the type does not convert the set, so the
    variable is no longer well made. *)
Theorem C67_retype_refuted :
  forall (s : vstate R) t0 l t v e, vs_vtype s = Some t0 -> vs_vset s = Some l -> Forall (typed t0) l ->
  In e l -> atom_of e = AV v -> t <> t0 ->
  exists s', set_vtype s (AType t) = (s', Ok tt) /\ vs_vset s' = Some l /\ ~ well_made s'.
Proof. exact retype_breaks. Qed.
Print Assumptions C67_retype_refuted.

Example C67_instance :
  make_variable (T := R) (Some "x"%string) (ATuple [AV (PI 0); AOO true]) (AType VFloat) =
    Ok ("x"%string, interval (Tup (AV (PF 0))) (Tup (AOO true))) /\
  is_container (ATuple (T := R) [AV (PI 0); AOO true]) = true /\
  make_variable (T := R) (Some "i"%string) (AList [Bare (AV (PI 3)); Bare (AV (PF 0))]) ANone = Err TypeError.
Proof.
  repeat split.
Qed.

(** C68 (false of the code): Variable() without a name, numpy arrays of several
    values as sets, and variables(names, vtype) are documented but always
    refused. *)
Theorem C68_documented_forms_refuted :
  (forall vset vt : arg R, make_variable None vset vt = Err ValueError) /\
  (forall nm (v w : pyval R) l vt, is_container vt = false ->
     exists e, make_variable nm (AArray (v :: w :: l)) vt = Err e) /\
  (forall names t, names <> [] -> exists e, variables (T := R) names (AType t) ANone = Err e).
Proof. exact (conj no_name (conj array_refused variables_by_type)). Qed.
Print Assumptions C68_documented_forms_refuted.

(** C69 (false of the code): a refused assignment of the set of a float variable
    has replaced the set. *)
Theorem C69_refused_set_stored_refuted :
  forall (e0 e1 : elem R) (xs : list R), length xs <> 2%nat ->
  set_vset (interval e0 e1) (AList (map (fun x => Bare (AV (PF x))) xs)) =
  (mkVS (Some VFloat) (Some (map (fun x : R => Bare (AV (PF x))) xs)), Err AssertionError).
Proof. exact refused_set_stored. Qed.
Print Assumptions C69_refused_set_stored_refuted.

Example C69_instance : length [1; 2; 3] <> 2%nat.
Proof. discriminate. Qed.

(** C70 (false of the code): the log hypervolume is never the log of the length:
    it is the length. *)
Theorem C70_lhv_refuted :
  forall (s : vstate R) u len, vlength s u = Ok (Some len) -> 0 < num len ->
  exists x, lhv s u = Ok (Some x) /\ num x <> ln (num len).
Proof. exact lhv_not_log. Qed.
Print Assumptions C70_lhv_refuted.

Example C70_instance : vlength (discrete VInt [PI 0; PI 1; PI 2]) None = Ok (Some (PI 3)) /\ 0 < num (PI 3).
Proof. split; [reflexivity|cbn; lra]. Qed.

(** C71: perturbations of a bool by a number flip exactly if it is odd. *)
Theorem C71_bool_parity :
  forall (vals : list (pyval R)) u dc (scalar : bool) (bs : list bool) (k : Z) r, k <> 0%Z ->
  apply_delta (discrete VBool vals) u dc scalar (map PB bs) (DScal (PI k)) (Some false) r
  = Ok (map (fun b => PB (xorb b (Z.odd k))) bs).
Proof. exact bool_parity. Qed.
Print Assumptions C71_bool_parity.

(** C71: a tuple (d) gives d or -d, a list [d] of a float variable a number of
    [-d,d), of an integer variable the integer drawn from -d..d-1. *)
Theorem C71_random_ranges :
  forall (s : vstate R) u dc r, dc_delta dc = DNone ->
  (forall d : R, vs_vtype s = Some VFloat ->
     exists x, eval_delta s u dc (DTup [PF d]) r = Ok (DDelta (PF x)) /\
       x = (if Rlt_dec (1 / 2) (d_unif r 0) then d else - d)) /\
  (forall d : R, vs_vtype s = Some VFloat -> 0 < d -> 0 <= d_unif r 0 < 1 ->
     exists x, eval_delta s u dc (DList [PF d]) r = Ok (DDelta (PF x)) /\ - d <= x < d) /\
  (forall d : Z, vs_vtype s = Some VInt -> d <> 0%Z ->
     eval_delta s u dc (DList [PI d]) r = if (0 <? d)%Z then Ok (DDelta (PI (d_int r))) else Err ValueError).
Proof.
  intros s u dc r D. split; [|split]; intros.
  - apply eval_tuple; assumption.
  - apply eval_list_float; assumption.
  - apply eval_list_int; assumption.
Qed.
Print Assumptions C71_random_ranges.

(** C71 (false of the code): a tuple with a probability keeps a bool only if the
    number drawn is above one half and below the probability, so for a
    probability up to one half it always flips. *)
Theorem C71_bool_tuple_refuted :
  forall (vals : list (pyval R)) u dc (scalar : bool) (bs : list bool) (p : R) r,
  apply_delta (discrete VBool vals) u dc scalar (map PB bs) (DTup [PF p]) (Some false) r
  = Ok (map (fun b => PB (if Rlt_dec (1 / 2) (d_unif r 0) then
                            if Rlt_dec (d_unif r 0) p then b else negb b else negb b)) bs).
Proof. exact bool_tuple. Qed.
Print Assumptions C71_bool_tuple_refuted.

Example C71_instance : (3 <> 0)%Z /\ Z.odd 3 = true /\ dc_delta (mkDC (T := R) DNone false false) = DNone.
Proof. split; [lia|]. split; reflexivity. Qed.

(** C72 (false of the code): the flag to scale the default perturbation by the
    length makes no difference to its application. *)
Theorem C72_scale_refuted :
  forall (s : vstate R) u d (b : bool) (scalar : bool) values bound r, (forall v, d <> DDelta v) ->
  apply_delta s u (mkDC d true b) scalar values DNone bound r =
  apply_delta s u (mkDC d false b) scalar values DNone bound r.
Proof. exact scale_ignored. Qed.
Print Assumptions C72_scale_refuted.

Example C72_instance : forall v, DScal (T := R) (PF (1 / 2)) <> DDelta v.
Proof. discriminate. Qed.

(** C183: a perturbation by d adds d to the transformed values of a real variable. *)
Theorem C183_transformed_space :
  forall (e0 e1 : elem R) (u : option (ufun R)) (dc : dconf R) (scalar : bool) (xs : list R) (d : R) (r : drnd R), d <> 0 ->
  apply_delta (interval e0 e1) u dc scalar (map PF xs) (DScal (PF d)) (Some false) r =
  Ok (map (fun x => PF (match u with Some u => u_inv u (u_fwd u x + d) | None => x + d end)) xs).
Proof. exact scalar_moves. Qed.
Print Assumptions C183_transformed_space.

(** C183: with a logarithmic scale it multiplies them by exp d. *)
Theorem C183_logarithmic :
  forall (e0 e1 : elem R) (f : bool -> atom R) (dc : dconf R) (scalar : bool) (xs : list R) (d : R) (r : drnd R),
  d <> 0 -> Forall (fun x => 0 < x) xs ->
  apply_delta (interval e0 e1) (Some (mkUfun ln exp f)) dc scalar (map PF xs) (DScal (PF d)) (Some false) r =
  Ok (map (fun x => PF (x * exp d)) xs).
Proof. exact scalar_scales. Qed.
Print Assumptions C183_logarithmic.

Example C183_instance : ln 2 <> 0 /\ Forall (fun x => 0 < x) [1; 3].
Proof. split; [apply Rgt_not_eq; rewrite <- ln_1; apply ln_increasing; lra|repeat constructor; lra]. Qed.
