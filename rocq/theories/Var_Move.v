(** Scalar perturbations of real variables act in the transformed space. *)
From Coq Require Import String ZArith Reals Lra Lia Bool Arith List.
From Verif Require Import Base Num RNumLemmas VariableModel Var_Spec.
Import ListNotations.
Local Open Scope R_scope.

Lemma scalar_moves e0 e1 u dc scalar (xs : list R) d r : d <> 0 ->
  apply_delta (interval e0 e1) u dc scalar (map PF xs) (DScal (PF d)) (Some false) r =
  Ok (map (fun x => PF (match u with Some u => u_inv u (u_fwd u x + d) | None => x + d end)) xs).
Proof.
  intros H. unfold apply_delta. cbn [interval vs_vtype delta_or].
  assert (TV : v_true (T := R) (PF d) = true).
  { unfold v_true. cbn [as_num]. rewrite (proj2 (Reqb_false_iff d n0)); auto. }
  rewrite TV. cbn [bind]. destruct u as [u|]; rewrite !map_map; reflexivity.
Qed.

Lemma scalar_scales e0 e1 f dc scalar (xs : list R) d r : d <> 0 -> Forall (fun x => 0 < x) xs ->
  apply_delta (interval e0 e1) (Some (mkUfun ln exp f)) dc scalar (map PF xs) (DScal (PF d)) (Some false) r =
  Ok (map (fun x => PF (x * exp d)) xs).
Proof.
  intros H F. rewrite scalar_moves by auto. f_equal. apply map_ext_in. intros x I. f_equal. cbn [u_inv u_fwd].
  rewrite exp_plus, exp_ln; auto. rewrite Forall_forall in F. auto.
Qed.
