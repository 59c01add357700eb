(** What product may accept. *)
From Coq Require Import String ZArith Reals List.
From Verif Require Import Base Num Tensor PScales PScales_Spec Distr PDModel PD_Spec.
Import ListNotations.
Local Open Scope R_scope.

(** The variable k of p is a count ({z}). *)
Definition counted (p : pd R) (k : string) : Prop := exists z, od_get (p_vals p) k = Some (VSet [SEint z]).

(** Independent repetitions: all have the same variables, the same ones of them
    being counts, and at least one. *)
Definition repetitions (args : list (pd R)) : Prop :=
  exists marg cond,
    (forall p, In p args -> od_keys (p_marg p) = marg /\ od_keys (p_cond p) = cond) /\
    (forall p q k, In p args -> In q args -> In k marg -> (counted p k <-> counted q k)) /\
    (exists k, In k marg /\ forall p, In p args -> counted p k).

(** The column m differs from l: by more than 1e-8 plus a relative 1e-5 at some
    position, or in size, neither of them being a single value. *)
Definition differ (l m : list R) : Prop :=
  (exists i x y, nth_error l i = Some x /\ nth_error m i = Some y /\
     Rabs (x - y) > / 100000000 + / 100000 * Rabs y) \/
  length l <> length m /\ length l <> 1%nat /\ length m <> 1%nat.

(** p is the first of args holding the variable k, and q a later one. *)
Definition first_two (args : list (pd R)) (k : string) (p q : pd R) : Prop :=
  exists l1 l2 l3, args = l1 ++ p :: l2 ++ q :: l3 /\ forall r, In r l1 -> od_get (p_vals r) k = None.

Definition marginals (args : list (pd R)) : list string := flat_map (fun p => od_keys (p_marg p)) args.
Definition conditionals (args : list (pd R)) : list string := flat_map (fun p => od_keys (p_cond p)) args.

(** k is a conditional of p and a marginal of none of args. *)
Definition unbound (args : list (pd R)) (p : pd R) (k : string) : Prop :=
  In k (od_keys (p_cond p)) /\ ~ In k (marginals args).

(** How p's name spells the variable k: k, k=5 or k=[]. *)
Definition entry (p : pd R) (k : string) : option string := od_get (p_marg p ++ p_cond p) k.

(** Factors to which the product rule applies; axes gives the column variable on
    each axis of a factor. *)
Record multipliable {F : Fmt R} (args : list (pd R)) (axes : pd R -> list string) : Prop := {
  (* well-formed, at least one column or several factors each with a marginal, and a
     count belongs to one factor only *)
  mu_valid : forall p, In p args -> valid_pd p (axes p);
  mu_some : (exists p, In p args /\ axes p <> []) \/
            ((2 <= length args)%nat /\ forall p, In p args -> p_marg p <> []);
  mu_counts : forall l1 p l2 q l3 k, args = l1 ++ p :: l2 ++ q :: l3 -> counted p k -> ~ In k (p_keylist q);
  (* a column is spelled the same (x or x=[]) in all factors, and variables hold the same *)
  mu_spelled : forall p q k, In p args -> In q args -> In k (axes p) -> In k (axes q) -> entry p k = entry q k;
  mu_same : forall p q k, In p args -> In q args -> In k (p_keylist p) -> In k (p_keylist q) ->
      variable p k = variable q k;
  (* disjoint marginals *)
  mu_disjoint : NoDup (marginals args);
  (* factors with unbound conditionals have the same ones, and the unbound
     columns belong to one factor only *)
  mu_common : forall p q k k', In p args -> In q args -> unbound args p k -> unbound args q k' ->
      In k (od_keys (p_cond q));
  mu_column : forall l1 p l2 q l3 k, args = l1 ++ p :: l2 ++ q :: l3 ->
      unbound args p k -> unbound args q k -> ~ In k (axes p);
  (* all linear, or each plainly linear or plainly logarithmic *)
  mu_scales : (forall p, In p args -> linear_scale (spec_of (p_pscale p))) \/
              (forall p, In p args -> plain_scale (spec_of (p_pscale p)))
}.

(** Where logarithms are taken of linear factors, these must not be below the
    smallest positive float. *)
Definition log_safe (args : list (pd R)) (axes : pd R -> list string) (a : assignment) : Prop :=
  (exists p, In p args /\ log_scaled p) ->
  forall p, In p args -> ~ log_scaled p -> npz <= prob_at p (axes p) a.

(** The factors hold the counts zs of the variable k. *)
Definition hold_counts (args : list (pd R)) (k : string) (zs : list Z) : Prop :=
  Forall2 (fun p z => od_get (p_vals p) k = Some (VSet [SEint z])) args zs.
Definition total_count (zs : list Z) : Z := fold_right Z.add 0%Z zs.

(** Two of the factors have a marginal in common. *)
Definition overlapping (args : list (pd R)) : Prop :=
  exists l1 p l2 q l3 k, args = (l1 ++ p :: l2 ++ q :: l3)%list /\ In k (od_keys (p_marg p)) /\ In k (od_keys (p_marg q)).
