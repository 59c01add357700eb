(** Specification vocabulary for sorting: distributions whose columns may share axes. *)
From Coq Require Import String ZArith Reals Bool Arith Permutation Sorted List.
From Verif Require Import Base Num Tensor PScales PScales_Spec Names Names_Spec Distr Distr_Spec PDModel PD_Spec.
Import ListNotations.
Local Open Scope R_scope.

(** As valid_pd, but several columns may lie along one axis (of n); they are of the
    same size then. *)
Record laid_out {F : Fmt R} (p : pd R) (n : nat) : Prop := {
  lo_keys : NoDup (p_keylist p);
  lo_some : p_keylist p <> [];
  lo_axes : naxes (p_dims p) n;
  lo_natural : forall k d, od_get (p_dims p) k = Some (Some d) -> (0 <= d)%Z;
  lo_dims : forall k, In k (p_keylist p) -> od_get (p_dims p) k <> None;
  lo_described : describes (p_vals p) (p_dims p) n;
  lo_kept : forall k, od_get (p_vals p) k <> Some (VSet [SEnone]);
  lo_shape : length (p_shape p) = n;
  lo_size : forall k a j, column (p_vals p) k a -> on_axis n (p_dims p) k j ->
    nth_error (p_shape p) j = Some (tsize a);
  lo_nonempty : forall k a, column (p_vals p) k a -> (0 < tsize a)%nat;
  lo_prob : exists t, p_prob p = Some t /\ shape t = p_shape p;
  lo_pscale : eval_pscale (spec_of (p_pscale p)) = Ok (p_pscale p);
  lo_names : Permutation (od_keys (p_marg p) ++ od_keys (p_cond p)) (p_keylist p);
  lo_entries : Forall (fun ke => good_entry (snd ke) /\ key_of (snd ke) (fst ke)) (p_marg p ++ p_cond p);
  lo_rendered : forall k v e, od_get (p_vals p) k = Some v -> issingleton v = true ->
      od_get (p_marg p ++ p_cond p) k = Some e -> e = (k ++ "=" ++ fmt_value v)%string;
  lo_name : p_name p = margcond_str (od_vals (p_marg p)) (od_vals (p_cond p))
}.

(** The probability at a position of the array. *)
Definition prob_pos (p : pd R) (idx : list nat) : R :=
  match p_prob p with Some t => denote (spec_of (p_pscale p)) (get t idx) | None => 0 end.

(** The elements of l at the positions ix. *)
Definition pick (l : list R) (ix : list nat) : list R := map (fun i => nth i l 0) ix.

(** ix is an outcome of np.argsort(l). *)
Definition argsort (l : list R) (ix : list nat) : Prop :=
  Permutation ix (seq 0 (length l)) /\ StronglySorted Rle (pick l ix).

(** idx with position i on axis j *)
Definition moved (j i : nat) (idx : list nat) : list nat := set_nth j i idx.
