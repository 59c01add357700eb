(** Property theorems about marginalisation (C13, C14, C15). *)
From Coq Require Import String ZArith Reals List.
From Verif Require Import Base Num Tensor PScales PScales_Spec Names_Spec Distr PDModel PD_Spec PD_Marg PD_Marg2
  PD_MargRefute PD_MargThm PD_MargIff PD_MargEx PD_Examples.
Import ListNotations.
Local Open Scope R_scope.

(** C13: marginalise returns the distribution over the remaining variables, with
    their names and values, the given scale, and at every position the sum of the
    probabilities over all positions of the removed ones.  For log scales the
    probabilities must be representable: none above exp(log of the largest
    float), no sum below the smallest positive float. *)
Theorem C13_marginalise_sums_out :
  forall (F : Fmt R) (p : pd R) (L keys : list string),
  valid_pd p L -> fine_scale p -> key_ordered p L ->
  incl keys (od_keys (p_marg p)) -> incl keys L -> without keys (p_keylist p) <> [] ->
  exists q, marginalise p keys = Ok q /\ valid_pd q (without keys L) /\
    p_keylist q = without keys (p_keylist p) /\
    od_keys (p_marg q) = without keys (od_keys (p_marg p)) /\
    p_cond q = p_cond p /\ p_pscale q = p_pscale p /\
    (forall k, In k (p_keylist q) -> variable q k = variable p k) /\
    forall a, in_bounds p (without keys L) a ->
      (log_scaled p -> (forall b, in_bounds p L b -> prob_at p L b <= npi) /\
                       npz <= sum_over (sized p (restrict keys L)) (prob_at p L) a) ->
      prob_at q (without keys L) a = sum_over (sized p (restrict keys L)) (prob_at p L) a.
Proof. exact marginalise_sums_out. Qed.
Print Assumptions C13_marginalise_sums_out.

(** C13: marginal(keys) is marginalise of every other marginal column. *)
Theorem C13_marginal_complements :
  forall (F : Fmt R) (p : pd R) (L keys : list string),
  valid_pd p L -> incl keys (od_keys (p_marg p)) ->
  (forall k, In k (od_keys (p_marg p)) -> ~ In k L -> In k keys) ->
  marginal p keys =
  marginalise p (filter (fun k => mem_str k (od_keys (p_marg p)) && mem_str k L
                                  && negb (mem_str k keys))%bool (p_keylist p)).
Proof. exact @marginal_is_marginalise. Qed.
Print Assumptions C13_marginal_complements.

Example C13_hypotheses_met :
  exists p : pd R, @ex_make = Ok p /\ @valid_pd fmt_ex p ["x"; "y"; "z"]%string /\
    fine_scale p /\ key_ordered p ["x"; "y"; "z"]%string /\
    incl ["x"]%string (od_keys (p_marg p)) /\ incl ["x"]%string ["x"; "y"; "z"]%string /\
    without ["x"]%string (p_keylist p) <> [] /\ ~ log_scaled p /\
    in_bounds p (without ["x"]%string ["x"; "y"; "z"]%string) (fun _ => 1%nat) /\
    incl ["y"; "w"]%string (od_keys (p_marg p)) /\
    (forall k, In k (od_keys (p_marg p)) -> ~ In k ["x"; "y"; "z"]%string -> In k ["y"; "w"]%string).
Proof. exact ex_c13. Qed.

(** C14: the total probability is unchanged. *)
Theorem C14_total_conserved :
  forall (F : Fmt R) (p : pd R) (L keys : list string),
  valid_pd p L -> fine_scale p -> key_ordered p L ->
  incl keys (od_keys (p_marg p)) -> incl keys L -> without keys (p_keylist p) <> [] ->
  (log_scaled p -> (forall b, in_bounds p L b -> prob_at p L b <= npi) /\
     forall a, in_bounds p (without keys L) a ->
       npz <= sum_over (sized p (restrict keys L)) (prob_at p L) a) ->
  exists q, marginalise p keys = Ok q /\ total q (without keys L) = total p L.
Proof. exact marginalise_conserves_total. Qed.
Print Assumptions C14_total_conserved.

(** C14: removing variables in two calls is removing them in one. *)
Theorem C14_composes :
  forall (F : Fmt R) (p : pd R) (L k1 k2 : list string),
  valid_pd p L -> fine_scale p -> key_ordered p L ->
  incl (k1 ++ k2) (od_keys (p_marg p)) -> incl (k1 ++ k2) L ->
  (forall k, In k k1 -> ~ In k k2) ->
  without (k1 ++ k2) (p_keylist p) <> [] ->
  (log_scaled p -> (forall b, in_bounds p L b -> prob_at p L b <= npi) /\
     (forall a, in_bounds p L a ->
        npz <= sum_over (sized p (restrict k1 L)) (prob_at p L) a <= npi) /\
     (forall a, in_bounds p L a ->
        npz <= sum_over (sized p (restrict (k1 ++ k2) L)) (prob_at p L) a)) ->
  exists q1 q2 q, marginalise p k1 = Ok q1 /\ marginalise q1 k2 = Ok q2 /\
    marginalise p (k1 ++ k2) = Ok q /\ same_pd q q2 (without (k1 ++ k2) L).
Proof. exact @marginalise_compose. Qed.
Print Assumptions C14_composes.

Example C14_hypotheses_met :
  exists p : pd R, @ex_make = Ok p /\ @valid_pd fmt_ex p ["x"; "y"; "z"]%string /\
    fine_scale p /\ key_ordered p ["x"; "y"; "z"]%string /\
    incl (["x"%string] ++ ["y"%string]) (od_keys (p_marg p)) /\
    incl (["x"%string] ++ ["y"%string]) ["x"; "y"; "z"]%string /\
    (forall k, In k ["x"]%string -> ~ In k ["y"]%string) /\
    without (["x"%string] ++ ["y"%string]) (p_keylist p) <> [] /\ ~ log_scaled p.
Proof. exact ex_c14. Qed.

(** C15 is false.  What holds: correctness on every layout for which the removed
    axes below each kept axis are as many as the removed keys before its key. *)
Theorem C15_aligned_layouts :
  forall (F : Fmt R) (p : pd R) (L keys : list string),
  valid_pd p L -> fine_scale p ->
  incl keys (od_keys (p_marg p)) -> incl keys L ->
  (forall k, In k (without keys L) ->
    length (restrict keys (before k (p_keylist p))) = length (restrict keys (before k L))) ->
  without keys (p_keylist p) <> [] ->
  exists q, marginalise p keys = Ok q /\ valid_pd q (without keys L) /\
    forall a, in_bounds p (without keys L) a ->
      (log_scaled p -> (forall b, in_bounds p L b -> prob_at p L b <= npi) /\
                       npz <= sum_over (sized p (restrict keys L)) (prob_at p L) a) ->
      prob_at q (without keys L) a = sum_over (sized p (restrict keys L)) (prob_at p L) a.
Proof. exact marginalise_aligned. Qed.
Print Assumptions C15_aligned_layouts.

(** C15, exactly: the variables that are left lie along the axes that are left, in
    their order, if and only if the layout is such. *)
Theorem C15_correct_iff :
  forall (F : Fmt R) (p : pd R) (L keys : list string),
  valid_pd p L -> fine_scale p -> incl keys (od_keys (p_marg p)) -> incl keys L -> without keys (p_keylist p) <> [] ->
  ((exists q, marginalise p keys = Ok q /\ valid_pd q (without keys L)) <->
   forall k, In k (without keys L) ->
     length (restrict keys (before k (p_keylist p))) = length (restrict keys (before k L))).
Proof. exact @correct_iff. Qed.
Print Assumptions C15_correct_iff.

(** C15: for any distribution, variables that share an axis included, a variable that
    is left is moved down by the number of removed keys before it in the order of the
    keys, wherever the axes are... *)
Theorem C15_placed :
  forall (F : Fmt R) (p : pd R) (keys : list string) (q : pd R) (k : string) (v : value R) (d : Z),
  NoDup (p_keylist p) -> d_aresing (p_d p) = map (fun kv => issingleton (snd kv)) (p_vals p) ->
  marginalise p keys = Ok q -> ~ In k keys ->
  od_get (p_vals p) k = Some v -> issingleton v = false -> od_get (p_dims p) k = Some (Some d) ->
  od_get (p_dims q) k = Some (Some (d - Z.of_nat (length (restrict keys (before k (p_keylist p)))))%Z).
Proof. exact @kept_place. Qed.
Print Assumptions C15_placed.

(** ... so that (refuted) keys that share an axis are counted one by one. *)
Theorem C15_shared_counted_refuted :
  forall (F : Fmt R) (p : pd R) (keys : list string) (q : pd R) (k : string) (v : value R) (d : Z),
  NoDup (p_keylist p) -> d_aresing (p_d p) = map (fun kv => issingleton (snd kv)) (p_vals p) ->
  marginalise p keys = Ok q -> NoDup keys -> ~ In k keys -> incl keys (before k (p_keylist p)) ->
  od_get (p_vals p) k = Some v -> issingleton v = false -> od_get (p_dims p) k = Some (Some d) ->
  od_get (p_dims q) k = Some (Some (d - Z.of_nat (length keys))%Z).
Proof. exact @counts_keys. Qed.
Print Assumptions C15_shared_counted_refuted.

(* p(z,x,y,w) with x and y along axis 0, z along axis 1 and w along axis 2: without
   x and y two axes are left and w ends along axis 0 instead of axis 1. *)
Example ex_c15_counted (F : Fmt R) : exists (p q : pd R) v, marginalise p ["x"; "y"]%string = Ok q /\ NoDup (p_keylist p) /\
  d_aresing (p_d p) = map (fun kv => issingleton (snd kv)) (p_vals p) /\
  incl ["x"; "y"]%string (before "w" (p_keylist p)) /\ od_get (p_vals p) "w"%string = Some v /\ issingleton v = false /\
  od_get (p_dims p) "x"%string = Some (Some 0%Z) /\ od_get (p_dims p) "y"%string = Some (Some 0%Z) /\
  od_get (p_dims p) "w"%string = Some (Some 2%Z) /\ od_get (p_dims q) "w"%string = Some (Some 0%Z).
Proof. exact (zxyw_real F). Qed.

(** C15 refuted: any p(x,y) with y along the first axis cannot be marginalised over x. *)
Theorem C15_transposed_raises_refuted :
  forall (F : Fmt R) (p : pd R) (x y : string),
  valid_pd p [y; x] -> fine_scale p -> p_keylist p = [x; y] -> od_keys (p_marg p) = [x; y] ->
  marginalise p [x] = Err IndexError.
Proof. exact @marginalise_transposed_raises. Qed.
Print Assumptions C15_transposed_raises_refuted.

(** C15 refuted: any p(y,u,v,z) with axes in the order u,y,z,v and equally many
    values of y and z gives, without error, a result in which the probabilities
    of y and z are exchanged. *)
Theorem C15_exchanged_refuted :
  forall (F : Fmt R) (p : pd R) (u v y z : string) (n : nat),
  valid_pd p [u; y; z; v] -> fine_scale p -> ~ log_scaled p ->
  p_keylist p = [y; u; v; z] -> incl [u; v] (od_keys (p_marg p)) ->
  size_of p y = n -> size_of p z = n ->
  exists q, marginalise p [u; v] = Ok q /\ valid_pd q [z; y] /\ p_keylist q = [y; z] /\
    variable q y = variable p y /\ variable q z = variable p z /\
    forall a, (a y < n)%nat -> (a z < n)%nat -> prob_at q [z; y] a =
      sum_over (sized p [u; v]) (prob_at p [u; y; z; v])
        (fun k => if String.eqb k y then a z else if String.eqb k z then a y else a k).
Proof. exact @marginalise_interleaved. Qed.
Print Assumptions C15_exchanged_refuted.

(** C15 refuted: p(x,y,z) with x and y sharing axis 0 and z on axis 1 cannot be
    marginalised over x and y. *)
Theorem C15_shared_axis_raises_refuted :
  forall (F : Fmt R) (p : pd R) (x y z : string) (a b c : tensor R) (t : tensor R),
  x <> y -> x <> z -> y <> z ->
  p_vals p = [(x, VArr a); (y, VArr b); (z, VArr c)] ->
  p_dims p = [(x, Some 0%Z); (y, Some 0%Z); (z, Some 1%Z)] ->
  d_aresing (p_d p) = [false; false; false] ->
  od_keys (p_marg p) = [x; y; z] -> p_pscale p = Lin 1 ->
  p_prob p = Some t -> ndim t = 2%nat ->
  tsize c = list_max (shape c) -> shape c <> [] ->
  ~ In z disallowed -> Forall (fun ke => good_entry (snd ke) /\ key_of (snd ke) (fst ke)) (p_marg p) ->
  p_cond p = [] ->
  marginalise p [x; y] = Err IndexError.
Proof. exact @marginalise_shared_raises. Qed.
Print Assumptions C15_shared_axis_raises_refuted.

Example C15_hypotheses_met_transposed :
  exists p : pd R, @ext_make = Ok p /\ @valid_pd fmt_ex p ["y"; "x"]%string /\ fine_scale p /\
    p_keylist p = ["x"; "y"]%string /\ od_keys (p_marg p) = ["x"; "y"]%string.
Proof. exact ex_c15_transposed. Qed.

Example C15_hypotheses_met_exchanged :
  exists p : pd R, @exi_make = Ok p /\ @valid_pd fmt_ex p ["u"; "y"; "z"; "v"]%string /\ fine_scale p /\
    ~ log_scaled p /\ p_keylist p = ["y"; "u"; "v"; "z"]%string /\
    incl ["u"; "v"]%string (od_keys (p_marg p)) /\ size_of p "y" = 2%nat /\ size_of p "z" = 2%nat.
Proof. exact ex_c15_exchanged. Qed.

Example C15_hypotheses_met_shared :
  exists (p : pd R) (a b c t : tensor R), @exs_make = Ok p /\
    p_vals p = [("x", VArr a); ("y", VArr b); ("z", VArr c)]%string /\
    p_dims p = [("x", Some 0%Z); ("y", Some 0%Z); ("z", Some 1%Z)]%string /\
    d_aresing (p_d p) = [false; false; false] /\
    od_keys (p_marg p) = ["x"; "y"; "z"]%string /\ p_pscale p = Lin 1 /\
    p_prob p = Some t /\ ndim t = 2%nat /\ tsize c = list_max (shape c) /\ shape c <> [] /\
    ~ In "z"%string disallowed /\
    Forall (fun ke => good_entry (snd ke) /\ key_of (snd ke) (fst ke)) (p_marg p) /\ p_cond p = [].
Proof. exact ex_c15_shared. Qed.
