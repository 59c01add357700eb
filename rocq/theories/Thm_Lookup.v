(** Property theorems about looking up the variables of a distribution (C122, C123). *)
From Coq Require Import String Ascii ZArith Reals Bool Arith List.
From Verif Require Import Base Num Tensor Names Names_Spec PScales Distr PDModel PD_Spec PD_Simple_Spec PD_Examples
  LookupModel Lookup_Spec Lookup_Proofs Lookup_Thm.
Import ListNotations.
Local Open Scope R_scope.

(** C122: calling a distribution with 'marg' or 'cond' returns exactly the variables
    on that side, each with its values: a flat array for a variable on an axis, the
    value itself for another. *)
Theorem C122_parts :
  forall (F : Fmt R) (p : pd R) (L : list string) (which : string) (keys : list string),
  valid_pd p L ->
  which = "marg"%string /\ keys = od_keys (p_marg p) \/ which = "cond"%string /\ keys = od_keys (p_cond p) ->
  keys <> [] ->
  exists vals, pd_parts p which = Ok vals /\ NoDup (od_keys vals) /\ (forall k, In k (od_keys vals) <-> In k keys) /\
    forall k, In k keys -> exists v, od_get vals k = Some (Single v) /\ variable p k = Some (var_of v) /\
      (In k L -> exists l, v = VArr (of_list 0 l)) /\ (~ In k L -> od_get (p_vals p) k = Some v).
Proof. exact (@parts_ok). Qed.
Print Assumptions C122_parts.

Example C122_instance : exists p, @valid_pd fmt_ex p ["x"; "y"; "z"]%string /\ od_keys (p_marg p) = ["x"; "y"; "w"]%string /\
  od_keys (p_cond p) = ["z"]%string /\ p_keylist p = ["x"; "y"; "w"; "z"]%string.
Proof. exact ex_parts. Qed.

(** The condition on keys cannot be dropped: with no conditional variable at all,
    'cond' returns every variable rather than none. *)
Theorem C122_no_conditionals_refuted :
  forall (F : Fmt R) (p : pd R) (L : list string),
  valid_pd p L -> p_cond p = [] ->
  pd_parts p "cond" = pd_parts p "marg" /\
  exists vals, pd_parts p "cond" = Ok vals /\ vals <> [] /\ forall k, In k (od_keys vals) <-> In k (od_keys (p_marg p)).
Proof. exact (@no_cond_parts). Qed.
Print Assumptions C122_no_conditionals_refuted.

Example C122_no_conditionals_instance : exists p, @valid_pd fmt_ex p ["y"; "x"]%string /\ p_cond p = [].
Proof. exact ex_no_cond. Qed.

(** C123: looking up variables groups the columns asked for on one axis under their
    joined names, in order, and returns every other variable asked for by itself. *)
Theorem C123_lookup :
  forall (name : string) (vals : odict (value R)) (dims : odict (option Z)) (d : dist R) (keys : list string),
  NoDup (od_keys vals) -> vals <> [] -> make_dist name vals (Some dims) = Ok d -> keys <> [] ->
  (forall k, In k (od_keys vals) -> In k keys -> ~ occurs ","%char k) ->
  lookup d keys = Ok (map (answer d keys) (filter (leads d keys) (d_keylist d))).
Proof. exact lookup_made. Qed.
Print Assumptions C123_lookup.

Example C123_lookup_instance : exists d, make_dist "t,u,x,y,z" ex_pair (Some ex_pair_dims) = Ok d /\
  lookup d ["y"; "t"; "z"; "u"]%string =
    Ok [("t,y", Shared [VArr (of_list 0 [1; 2; 3]); VArr (of_list 0 [7; 8; 9])]); ("u", Single (VNum 5)); ("z", Single (VArr (of_list 0 [1; 2])))]%string.
Proof. exact ex_pair_ok. Qed.

(** Asked for as a distribution, variables come back with their values and axes,
    and only if the columns among them are the first axes without a gap. *)
Theorem C123_as_distribution :
  forall (F : Fmt R) (p : pd R) (L keys : list string),
  valid_pd p L -> keys <> [] -> (exists k, In k keys /\ In k (p_keylist p)) ->
  ((exists q, lookup_dist (p_d p) keys = Ok q) <-> exists m, restrict keys L = firstn m L) /\
  forall q, lookup_dist (p_d p) keys = Ok q ->
    d_name q = join "," (restrict keys (p_keylist p)) /\ d_keylist q = restrict keys (p_keylist p) /\
    forall k, In k (d_keylist q) -> od_get (d_dims q) k = od_get (p_dims p) k /\
      exists v w, od_get (d_vals q) k = Some v /\ od_get (p_vals p) k = Some w /\ var_of v = var_of w.
Proof. exact (@as_dist_iff). Qed.
Print Assumptions C123_as_distribution.

Example C123_as_distribution_instance : exists p, @valid_pd fmt_ex p ["x"; "y"; "z"]%string /\
  (exists q, lookup_dist (p_d p) ["x"; "w"]%string = Ok q) /\ ~ exists q, lookup_dist (p_d p) ["z"]%string = Ok q.
Proof. exact ex_as_dist. Qed.
