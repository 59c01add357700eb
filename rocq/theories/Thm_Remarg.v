(** Property theorems: redistribution of probabilities over another grid (C26, C105). *)
From Coq Require Import String ZArith Reals List.
From Verif Require Import Base Num Tensor PScales PScales_Spec Names_Spec Distr PDModel PD_Spec PD_Simple_Spec
  PD_Remarg_Spec PD_Examples PD_ProdThm PD_Remarg PD_RemargThm.
Import ListNotations.
Local Open Scope R_scope.

(** C26: every value lies in exactly one cell of an ordered, non-empty column of edges. *)
Theorem C26_one_cell :
  forall (l : list R) (x : R), l <> [] -> ascending l \/ descending l -> exists! i, in_cell l x i.
Proof. exact one_cell. Qed.
Print Assumptions C26_one_cell.

Example C26_cell_met : [0; 10] <> [] /\ (ascending [0; 10] \/ descending [0; 10]).
Proof. exact ex_cell. Qed.

(** C26: the result has the variables of the grid, and each of its entries holds the sum
    of the probabilities at exactly those positions of p whose values all lie in that
    cell of the grid ([here] tells which these are).  Under a log scale this needs sums
    that a float can hold: at least the smallest positive one. *)
Theorem C26_cells_sum :
  forall (F : Fmt R) (p : pd R) (L : list string) (d : dist R) (G : list string) (vals : odict (tensor R)),
  valid_pd p L -> fine_scale p -> p_cond p = [] -> L <> [] -> grid d G ->
  (log_scaled p -> forall b, in_bounds p L b -> prob_at p L b <= npi) ->
  NoDup (od_keys vals) -> incl (od_keys vals) (od_keys (d_dims d)) ->
  (forall k, In k G -> exists v, od_get vals k = Some v /\ shape v = map (size_of p) L) ->
  exists q, remarginalise p d vals = Ok q /\ valid_pd q G /\ p_keylist q = od_keys (d_vals d) /\
    od_keys (p_marg q) = od_keys (d_vals d) /\ p_pscale q = p_pscale p /\
    (forall k, variable q k = match od_get (d_vals d) k with Some v => Some (var_of v) | None => None end) /\
    (forall a here, in_bounds q G a ->
       (forall b, in_bounds p L b -> (here b = true <-> forall k, In k G -> in_cell (edges d k) (assigned vals L k b) (a k))) ->
       (log_scaled p -> npz <= sum_over (sized p L) (fun b => if here b then prob_at p L b else 0) (fun _ => 0%nat)) ->
       prob_at q G a = sum_over (sized p L) (fun b => if here b then prob_at p L b else 0) (fun _ => 0%nat)).
Proof. exact @remarg_moves. Qed.
Print Assumptions C26_cells_sum.

(** C26: the total probability is unchanged. *)
Theorem C26_total :
  forall (F : Fmt R) (p : pd R) (L : list string) (d : dist R) (G : list string) (vals : odict (tensor R)),
  valid_pd p L -> fine_scale p -> ~ log_scaled p -> p_cond p = [] -> L <> [] -> grid d G ->
  NoDup (od_keys vals) -> incl (od_keys vals) (od_keys (d_dims d)) ->
  (forall k, In k G -> exists v, od_get vals k = Some v /\ shape v = map (size_of p) L) ->
  exists q, remarginalise p d vals = Ok q /\ total q G = total p L.
Proof. exact @remarg_total. Qed.
Print Assumptions C26_total.

(** p(x,y) = 1/6 for 2 values of x and 3 of y, moved to a grid u = 0, 10 that also has
    the scalar w. *)
Example C26_met : exists p d, scl_make (/ 6) (PSFloat 1) = Ok p /\ gr_make = Ok d /\ 
  let L := ["x"; "y"]%string in let G := ["u"]%string in
  @valid_pd fmt_ex p L /\ fine_scale p /\ ~ log_scaled p /\ p_cond p = [] /\ L <> [] /\ @grid fmt_ex d G /\
  NoDup (od_keys gr_vals) /\ incl (od_keys gr_vals) (od_keys (d_dims d)) /\
  (forall k, In k G -> exists v, od_get gr_vals k = Some v /\ shape v = map (size_of p) L).
Proof. exact ex_remarg. Qed.

(** C26: a distribution without columns is refused. *)
Theorem C26_scalar_refused :
  forall (F : Fmt R) (p : pd R) (L : list string), valid_pd p L -> L = [] ->
  forall (d : dist R) (vals : odict (tensor R)), remarginalise p d vals = Err AssertionError.
Proof. exact @issing_some. Qed.
Print Assumptions C26_scalar_refused.

Example C26_scalar_met : exists p, rs_make = Ok p /\ @valid_pd fmt_ex p [].
Proof. exact ex_remarg_scalar. Qed.

(** C105 (conditional variables are unchanged) is false: whenever remarginalise returns
    anything, nothing in it is conditional. *)
Theorem C105_conditionals_kept_refuted :
  forall (F : Fmt R) (p : pd R) (L : list string) (d : dist R) (G : list string) (vals : odict (tensor R)) (q : pd R),
  valid_pd p L -> grid d G -> remarginalise p d vals = Ok q -> p_cond q = [].
Proof. exact @remarg_no_cond. Qed.
Print Assumptions C105_conditionals_kept_refuted.

(** p(x|z) moved to the grid u: the result has the variables u and z. *)
Example C105_met : exists p d q, rc_make = Ok p /\ gs_make = Ok d /\ @valid_pd fmt_ex p ["z"; "x"]%string /\ @grid fmt_ex d ["u"]%string /\
  od_keys (p_cond p) = ["z"]%string /\ @remarginalise R RNum fmt_ex p d gr_vals = Ok q /\ p_keylist q = ["u"; "z"]%string.
Proof. exact ex_remarg_cond. Qed.
