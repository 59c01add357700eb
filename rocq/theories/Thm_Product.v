(** Property theorems about products of distributions (C18, C20, C21, C184). *)
From Coq Require Import String ZArith QArith Reals List.
From Verif Require Import Base Num Tensor PScales PScales_Spec Distr Distr_Proofs PDModel PDUtils PD_Spec PD_Product_Spec PD_Cond_Spec
  PD_Examples PD_Product1 PD_Product3 PD_ProductEx PD_Counts PD_CountsEx PD_Scalars Names_Spec.
Import ListNotations.
Local Open Scope R_scope.

(** C18: the product of factors to which the product rule applies succeeds; its
    marginals are those of the factors in order, its conditionals the unbound
    ones, its variables hold what they hold in the factors, and at every position
    its probability is the product of the factors' probabilities at that position,
    whatever the axis orders of the factors.  The variables of the product lie on its
    axes in the order of its name, its scale is the product of the factors' scales and
    it is logarithmic if one of theirs is. *)
Theorem C18_product_pointwise :
  forall (F : Fmt R) (args : list (pd R)) (axes : pd R -> list string),
  multipliable args axes ->
  exists q L, product args PSNone = Ok (Some q) /\ valid_pd q L /\
    in_name_order q L /\ od_keys (p_marg q) = marginals args /\
    (forall k, In k (od_keys (p_cond q)) <-> In k (conditionals args) /\ ~ In k (marginals args)) /\
    (forall p k, In p args -> In k (p_keylist p) -> variable q k = variable p k) /\
    (forall p k, In p args -> In k (p_keylist p) -> entry q k = entry p k) /\
    (linear_scale (spec_of (p_pscale q)) \/ plain_scale (spec_of (p_pscale q))) /\
    factor (spec_of (p_pscale q)) = Rprod (map (fun p => factor (spec_of (p_pscale p))) args) /\
    (log_scaled q <-> exists p, In p args /\ log_scaled p) /\
    forall a, in_bounds q L a -> log_safe args axes a ->
      prob_at q L a = Rprod (map (fun p => prob_at p (axes p) a) args).
Proof. exact @product_multipliable. Qed.
Print Assumptions C18_product_pointwise.

(** p(y|x), laid out with x on axis 0 and y on axis 1, times p(x). *)
Example C18_hypotheses_met : exists p q : pd R, pri_make = Ok p /\ lik_make 2 = Ok q /\
  @multipliable fmt_ex [q; p] ex_axes /\
  exists a, a = (fun k => if String.eqb k "y" then 2 else 1)%nat /\ log_safe [q; p] ex_axes a /\
    map (fun r => prob_at r (ex_axes r) a) [q; p] = [/ 3; 3 / 4].
Proof. exact ex_c18. Qed.

(** Scalars only, one of them a count, in logarithms: p(n={3}|x=5) times p(x=5). *)
Example C18_hypotheses_met_scalars : exists p q : pd R, cnt_make = Ok p /\ pnt_make = Ok q /\
  @multipliable fmt_ex [p; q] (fun _ => []) /\
  (forall a, log_safe [p; q] (fun _ => []) a) /\ forall a, map (fun r => prob_at r [] a) [p; q] = [exp (-2); exp (-1)].
Proof. exact ex_c18_scalars. Qed.

(** C18 fails when a column is a conditional common to the factors: p(x|z) and
    p(y|z), with the same three values of z, cannot be multiplied. *)
Theorem C18_common_column_refuted :
  exists p q, xz_q = Ok p /\ yz_q = Ok q /\ @product Q _ fmt_q [p; q] PSNone = Err TypeError.
Proof. exact ex_common_column. Qed.
Print Assumptions C18_common_column_refuted.

(** C20: product raises when two factors have a marginal in common, unless the
    factors are repetitions over the same variables holding counts. *)
Theorem C20_product_overlap_raises :
  forall (F : Fmt R) (args : list (pd R)) (given : pspec R) (l1 l2 l3 : list (pd R)) (p1 p2 : pd R) (k : string),
  args = l1 ++ p1 :: l2 ++ p2 :: l3 -> In k (od_keys (p_marg p1)) -> In k (od_keys (p_marg p2)) ->
  ~ repetitions args -> exists e, product args given = Err e.
Proof. exact @product_overlap. Qed.
Print Assumptions C20_product_overlap_raises.

Example C20_hypotheses_met : exists p q : pd R, pri_make = Ok p /\ ex_make = Ok q /\
  In "x"%string (od_keys (p_marg p)) /\ In "x"%string (od_keys (p_marg q)) /\
  [p; q] = [] ++ p :: [] ++ q :: [] /\ ~ repetitions [p; q].
Proof. exact ex_c20. Qed.

(** The exception is a real one: samples p(x=4,n={2}) and p(x=4,n={3}) are
    multiplied to p(x=4,n={5}). *)
Example C20_repetitions_accepted :
  let p := @make_pd Q _ fmt_q "x,n" [("x", VNum 4%Q); ("n", VSet [SEint 2])]%string (Some []) (Some (tscalar (1#2))) (PSFloat 1%Q) in
  let q := @make_pd Q _ fmt_q "x,n" [("x", VNum 4%Q); ("n", VSet [SEint 3])]%string (Some []) (Some (tscalar (1#3))) (PSFloat 1%Q) in
  exists r, (let! p := p in let! q := q in @product Q _ fmt_q [p; q] PSNone) = Ok r /\
    match r with Some r => (od_get (p_vals r) "n", option_map (fun t => Qred (get t [])) (p_prob r)) | None => (None, None) end
    = (Some (VSet [SEint 5]), Some (1#6)%Q).
Proof. cbv zeta. apply made. vm_compute. reflexivity. Qed.

(** C21: a column which is a conditional of one factor and a marginal of another
    and whose values differ between the first factor holding it and a later one
    makes product raise. *)
Theorem C21_product_mismatch_raises :
  forall (F : Fmt R) (args : list (pd R)) (given : pspec R) (k : string) (p q c m : pd R) (L : list string) (v w : value R),
  first_two args k p q -> In c args -> In m args -> valid_pd c L -> In k L ->
  od_get (p_cond c) k = Some k -> od_get (p_marg m) k = Some k ->
  od_get (p_vals p) k = Some v -> od_get (p_vals q) k = Some w -> differ (raveled_value v) (raveled_value w) ->
  exists e, product args given = Err e.
Proof. exact @product_differ. Qed.
Print Assumptions C21_product_mismatch_raises.

Example C21_hypotheses_met : exists (p q : pd R) v w, pri_make = Ok p /\ lik_make 7 = Ok q /\
  first_two [p; q] "x" p q /\ In q [p; q] /\ In p [p; q] /\ @valid_pd fmt_ex q ["x"; "y"]%string /\
  In "x"%string ["x"; "y"]%string /\ od_get (p_cond q) "x" = Some "x"%string /\ od_get (p_marg p) "x" = Some "x"%string /\
  od_get (p_vals p) "x" = Some v /\ od_get (p_vals q) "x" = Some w /\ differ (raveled_value v) (raveled_value w).
Proof. exact ex_c21. Qed.

(** C21 refuted for scalars: a product that is accepted holds the value of the first
    factor that holds the variable, whatever the other factors hold... *)
Theorem C21_scalar_mismatch_refuted :
  forall (F : Fmt R) (args : list (pd R)) (given : pspec R) (r m c p q : pd R) (k e : string) (v : value R),
  product args given = Ok (Some r) -> NoDup (marginals args) -> In m args -> In c args ->
  od_vals (p_marg m) <> od_vals (p_marg c) -> od_get (p_marg m) k = Some e -> key_of e k ->
  first_two args k p q -> od_get (p_vals p) k = Some v ->
  issingleton v = true -> v <> VSet [SEnone] -> ~ counted p k -> od_get (p_vals r) k = Some v.
Proof. exact @product_first. Qed.
Print Assumptions C21_scalar_mismatch_refuted.

(** ... and p(x=a) times p(y=c|x=b) is accepted although a and b differ. *)
Theorem C21_scalars_accepted_refuted :
  forall (F : Fmt R) (a b c pa pb : R), F a = "5"%string -> F b = "6"%string -> F c = "1"%string ->
  exists p q r, make_pd "x" [("x", VNum a)]%string (Some []) (Some (tscalar pa)) (PSFloat 1) = Ok p /\
    make_pd "y|x" [("y", VNum c); ("x", VNum b)]%string (Some []) (Some (tscalar pb)) (PSFloat 1) = Ok q /\
    NoDup (marginals [p; q]) /\ od_vals (p_marg p) <> od_vals (p_marg q) /\
    od_get (p_marg p) "x"%string = Some "x=5"%string /\ od_get (p_cond q) "x"%string = Some "x=6"%string /\
    od_get (p_vals p) "x"%string = Some (VNum a) /\ od_get (p_vals q) "x"%string = Some (VNum b) /\
    product [p; q] PSNone = Ok (Some r).
Proof. exact @x_y_accepted. Qed.
Print Assumptions C21_scalars_accepted_refuted.

(* At Q, where products compute: p(x=5) times p(y=1|x=6) holds x=5. *)
Example ex_c21_scalar : exists p q r : pd Q,
  od_get (p_marg p) "x" <> None /\ od_get (p_vals p) "x" = Some (VNum 5%Q) /\
  od_get (p_cond q) "x" <> None /\ od_get (p_vals q) "x" = Some (VNum 6%Q) /\
  @product Q _ fmt_q [p; q] PSNone = Ok (Some r) /\ od_get (p_vals r) "x" = Some (VNum 5%Q).
Proof. exact ex_scalar_mismatch. Qed.

(** C184: the product of repetitions holds the total of their counts. *)
Theorem C184_counts_add :
  forall (F : Fmt R) (args : list (pd R)) (given : pspec R) (r : pd R) (K : list string) (k : string) (zs : list Z),
  overlapping args -> product args given = Ok (Some r) ->
  NoDup K -> (forall p, In p args -> od_keys (p_vals p) = K) -> In k K ->
  hold_counts args k zs -> od_get (p_vals r) k = Some (VSet [SEint (total_count zs)]).
Proof. intros F args given r K k zs O H ND HK I HZ. exact (proj1 (product_counts args given r K O H ND HK k I) zs HZ). Qed.
Print Assumptions C184_counts_add.

(** C184 (false of the code): of the other variables it holds the first factor's
    values, whatever the others hold. *)
Theorem C184_other_values_refuted :
  forall (F : Fmt R) (p : pd R) (rest : list (pd R)) (given : pspec R) (r : pd R) (K : list string) (k : string) (v : value R),
  overlapping (p :: rest) -> product (p :: rest) given = Ok (Some r) ->
  NoDup K -> (forall q, In q (p :: rest) -> od_keys (p_vals q) = K) -> In k K ->
  od_get (p_vals p) k = Some v -> issingleton v = true -> v <> VSet [SEnone] ->
  (forall q, In q (p :: rest) -> ~ counted q k) ->
  od_get (p_vals r) k = Some v.
Proof.
  intros F p rest given r K k v O H ND HK I G S NV NC.
  exact (proj2 (product_counts (p :: rest) given r K O H ND HK k I) p rest v eq_refl G S NV NC).
Qed.
Print Assumptions C184_other_values_refuted.

(** p(x=v,n={2}) times p(x=w,n={3}), for any v and w, equal or not. *)
Example C184_hypotheses_met : forall v w a b : R, exists p q r, rep v 2 a = Ok p /\ rep w 3 b = Ok q /\
  @product R _ fmt_ex [p; q] PSNone = Ok (Some r) /\ overlapping [p; q] /\
  od_keys (p_vals p) = ["x"; "n"]%string /\ od_keys (p_vals q) = ["x"; "n"]%string /\
  hold_counts [p; q] "n" [2; 3]%Z /\
  od_get (p_vals p) "x" = Some (VNum v) /\ od_get (p_vals q) "x" = Some (VNum w) /\
  (forall s, In s [p; q] -> ~ counted s "x").
Proof. exact ex_counts. Qed.
