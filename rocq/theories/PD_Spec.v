(** Specification vocabulary for probability distributions.

    A distribution over variables is described independently of how its arrays
    are laid out: a variable is either a scalar or a column of values, and the
    distribution gives a probability to every assignment of positions to the
    column variables. *)
From Coq Require Import String ZArith Reals Bool Arith List Permutation.
From Verif Require Import Base Num Tensor PScales PScales_Spec Names Names_Spec Distr PDModel.
Import ListNotations.
Local Open Scope R_scope.

(** *** Assignments of positions to variables, and sums over them *)

Definition assignment := string -> nat.

Definition upd (a : assignment) (k : string) (i : nat) : assignment :=
  fun x => if String.eqb x k then i else a x.

Fixpoint sum_n (n : nat) (f : nat -> R) : R :=
  match n with 0%nat => 0 | S m => sum_n m f + f m end.

Fixpoint prod_n (n : nat) (f : nat -> R) : R :=
  match n with 0%nat => 1 | S m => prod_n m f * f m end.

(** Sum of f over all positions of the listed (variable, number of values) pairs,
    the other variables staying where the assignment a has them. *)
Fixpoint sum_over (ks : list (string * nat)) (f : assignment -> R) (a : assignment) : R :=
  match ks with
  | [] => f a
  | (k, n) :: ks' => sum_n n (fun i => sum_over ks' f (upd a k i))
  end.

(** The same with products. *)
Fixpoint prod_over (ks : list (string * nat)) (f : assignment -> R) (a : assignment) : R :=
  match ks with
  | [] => f a
  | (k, n) :: ks' => prod_n n (fun i => prod_over ks' f (upd a k i))
  end.

Section Spec.
Context {F : Fmt R}.

(** *** Variables *)

Inductive var : Type :=
| Scal (v : value R)     (* a number, string or counted ({n}) value *)
| Col (l : list R).      (* a column of values *)

Definition var_of (v : value R) : var :=
  match v with
  | VArr a => match shape a with [] => Scal v | _ => Col (to_list a) end
  | _ => Scal v
  end.

(** What p holds for variable k. *)
Definition variable (p : pd R) (k : string) : option var :=
  match od_get (p_vals p) k with Some v => Some (var_of v) | None => None end.

(** Number of values of a column variable. *)
Definition size_of (p : pd R) (k : string) : nat :=
  match variable p k with Some (Col l) => length l | _ => 0%nat end.

(** (variable, size) pairs *)
Definition sized (p : pd R) (ks : list string) : list (string * nat) :=
  map (fun k => (k, size_of p k)) ks.

(** *** Well-formed distributions

    [valid_pd p L]: p holds probabilities for the variables of its name, and its
    column variables are those of L, the j-th of L lying along axis j. *)
Record valid_pd (p : pd R) (L : list string) : Prop := {
  (* variables: distinct, at least one, none reserved *)
  vp_keys : NoDup (p_keylist p);
  vp_some : p_keylist p <> [];
  vp_reserved : forall k, In k (p_keylist p) -> ~ In k ["attrs"; "prob"; "pscale"]%string;
  (* columns on distinct axes, everything else scalar without axis *)
  vp_axes : NoDup L;
  vp_incl : incl L (p_keylist p);
  vp_scalar : forall k v, od_get (p_vals p) k = Some v -> ~ In k L ->
      issingleton v = true /\ od_get (p_dims p) k = Some None;
  vp_column : forall j k, nth_error L j = Some k ->
      exists a n, od_get (p_vals p) k = Some (VArr a) /\ (0 < n)%nat /\
        shape a = repeat 1%nat j ++ n :: repeat 1%nat (length L - S j) /\
        nth_error (p_shape p) j = Some n /\
        od_get (p_dims p) k = Some (Some (Z.of_nat j));
  vp_dims : incl (od_keys (p_dims p)) (p_keylist p) /\ NoDup (od_keys (p_dims p));
  vp_shape : length (p_shape p) = length L;
  vp_ndim : d_ndim (p_d p) = Some (length L);
  vp_aresing : d_aresing (p_d p) = map (fun kv => issingleton (snd kv)) (p_vals p);
  vp_issing : d_issing (p_d p) = Some (forallb (fun kv => issingleton (snd kv)) (p_vals p));
  (* probabilities of that shape *)
  vp_prob : exists t, p_prob p = Some t /\ shape t = p_shape p;
  vp_pscale : eval_pscale (spec_of (p_pscale p)) = Ok (p_pscale p);
  (* names: every variable is either marginal or conditional, entries are keyed,
     and those of scalars show the value *)
  vp_names : Permutation (od_keys (p_marg p) ++ od_keys (p_cond p)) (p_keylist p);
  vp_entries : Forall (fun ke => good_entry (snd ke) /\ key_of (snd ke) (fst ke))
                      (p_marg p ++ p_cond p);
  vp_rendered : forall k v e, od_get (p_vals p) k = Some v -> ~ In k L ->
      od_get (p_marg p ++ p_cond p) k = Some e -> e = (k ++ "=" ++ fmt_value v)%string;
  vp_name : p_name p = margcond_str (od_vals (p_marg p)) (od_vals (p_cond p))
}.

(** The axes follow the order of the keys. *)
Definition key_ordered (p : pd R) (L : list string) : Prop :=
  L = filter (fun k => mem_str k L) (p_keylist p).

(** The probability p gives to an assignment (L: the variable on each axis). *)
Definition prob_at (p : pd R) (L : list string) (a : assignment) : R :=
  match p_prob p with
  | Some t => denote (spec_of (p_pscale p)) (get t (map a L))
  | None => 0
  end.

Definition in_bounds (p : pd R) (L : list string) (a : assignment) : Prop :=
  forall k, In k L -> (a k < size_of p k)%nat.

(** The scale of p is positive and not within rounding of another one (see
    PScales_Spec); all linear scales c with c = 1 or |ln c| above the smallest
    positive float, and all log scales but 1+0j, qualify. *)
Definition fine_scale (p : pd R) : Prop :=
  valid_scale (spec_of (p_pscale p)) /\ no_tiny_gap (spec_of (p_pscale p)) PSNone.

Definition log_scaled (p : pd R) : Prop := log_kind (spec_of (p_pscale p)) = true.

(** Keys without those listed. *)
Definition without (ks : list string) (l : list string) : list string :=
  filter (fun k => negb (mem_str k ks)) l.

Definition restrict (ks : list string) (l : list string) : list string :=
  filter (fun k => mem_str k ks) l.

(** Total probability. *)
Definition total (p : pd R) (L : list string) : R :=
  sum_over (sized p L) (prob_at p L) (fun _ => 0%nat).

(** Same distribution: same variables, names, scale and probabilities. *)
Definition same_pd (p q : pd R) (L : list string) : Prop :=
  p_keylist q = p_keylist p /\ p_marg q = p_marg p /\ p_cond q = p_cond p /\
  p_pscale q = p_pscale p /\
  (forall k, In k (p_keylist p) -> variable q k = variable p k) /\
  (forall a, in_bounds p L a -> prob_at q L a = prob_at p L a).

End Spec.

(** What precedes an element in a list. *)
Fixpoint before (k : string) (l : list string) : list string :=
  match l with
  | [] => []
  | x :: l' => if String.eqb x k then [] else x :: before k l'
  end.
