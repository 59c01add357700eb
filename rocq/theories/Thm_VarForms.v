(** Property theorems: the forms of a variable's set and the types of its values
    (C108, C109), and what a summation of samples counts (C110). *)
From Coq Require Import String ZArith Reals Lra Lia List Permutation.
From Verif Require Import Base Num SPModel SP_Collect VariableModel Var_Spec Var_Forms_Spec Var_Forms.
Import ListNotations.
Local Open Scope R_scope.

(** C108: a tuple of two numbers, in either order, is the open interval between them. *)
Theorem C108_tuple_open :
  forall (nm : string) (a b : pyval R), valid_name nm = true ->
  exists s, make_variable (Some nm) (ATuple [AV a; AV b]) (AType VFloat) = Ok (nm, s) /\
    forall x : R, inside s (PF x) = Some true <-> Rmin (num a) (num b) < x < Rmax (num a) (num b).
Proof. exact tuple_form. Qed.
Print Assumptions C108_tuple_open.

(** C108: a list gives a discrete variable its values in the order of the list, converted
    to its type. *)
Theorem C108_list_discrete :
  forall (nm : string) (t : vtype) (vs : list (pyval R)), valid_name nm = true -> t <> VFloat -> vs <> [] ->
  exists ws, make_variable (Some nm) (AList (map (fun v => Bare (AV v)) vs)) (AType t) = Ok (nm, discrete t ws) /\
    Forall2 (converted t) vs ws.
Proof. exact list_form. Qed.
Print Assumptions C108_list_discrete.

(** C108: a set gives them in ascending order. *)
Theorem C108_set_sorted :
  forall (nm : string) (t : vtype) (vs : list (pyval R)), valid_name nm = true -> t <> VFloat -> vs <> [] ->
  exists us ws, Permutation vs us /\ ascends us /\ Forall2 (converted t) us ws /\
    make_variable (Some nm) (ASet (map AV vs)) (AType t) = Ok (nm, discrete t ws).
Proof. exact set_form. Qed.
Print Assumptions C108_set_sorted.

Example C108_met : valid_name "x" = true /\ VInt <> VFloat /\ [PF (5 / 2); PF (- 3 / 2)] <> [] /\
  converted VInt (PF (- 3 / 2)) (PI (-1)).
Proof.
  split; [reflexivity|]. do 2 (split; [discriminate|]). exists (-1)%Z. split; [reflexivity|]. right. cbn. lra.
Qed.

(** C109: perturbing values of the type of a variable gives values of that type. *)
Theorem C109_type_kept :
  forall (s : vstate R) (t : vtype) u dc scalar values d bound r out, vs_vtype s = Some t ->
  (forall l, vs_vset s = Some l -> Forall (typed t) l) ->
  Forall (fun v => vtype_of v = t) values -> apply_delta s u dc scalar values d bound r = Ok out ->
  Forall (fun v => vtype_of v = t) out.
Proof. exact apply_typed. Qed.
Print Assumptions C109_type_kept.

(** C109: an int variable moved by a float drops the fraction of the sum. *)
Theorem C109_int_by_float :
  forall vals dc (xs : list Z) scalar (d : R) r, d <> 0 ->
  exists zs, apply_delta (discrete VInt vals) None dc scalar (map PI xs) (DScal (PF d)) (Some false) r = Ok (map PI zs) /\
    Forall2 (fun x z => truncated (IZR x + d) z) xs zs.
Proof. exact int_by_float. Qed.
Print Assumptions C109_int_by_float.

Example C109_met : vs_vtype (discrete VInt [PI 0; PI 9]) = Some VInt /\
  (forall l, vs_vset (discrete VInt [PI 0; PI 9]) = Some l -> Forall (typed VInt) l) /\
  Forall (fun v : pyval R => vtype_of v = VInt) [PI 4] /\ 5 / 2 <> 0 /\ truncated (IZR 4 + 5 / 2) 6.
Proof.
  split; [reflexivity|]. split; [intros l E; injection E as <-; repeat constructor|]. split; [repeat constructor|].
  split; [lra|]. left. lra.
Qed.

(** C110: every sample whose update is not False counts once, in order: accepted
    proposals, and the state kept when a proposal is not accepted. *)
Theorem C110_all_counted :
  forall (D Sc : Type) (l : list (opqrstuv (D := D) (Sc := Sc))) (ds : list D),
  Forall2 (fun x d => x_u x <> VFalse /\ x_v x = Some d) l ds -> collect_verdicts l = ds.
Proof. exact @collect_all. Qed.
Print Assumptions C110_all_counted.

(** C110: the update of the metropolis and hastings samplers is never False. *)
Theorem C110_named_updates :
  forall (s : option R) (t : R), metropolis_update s t <> VFalse.
Proof. exact update_never_false. Qed.
Print Assumptions C110_named_updates.

(** C110: a sample whose update is False does not count. *)
Theorem C110_false_not_counted :
  forall (D Sc : Type) (l m : list (opqrstuv (D := D) (Sc := Sc))) x,
  x_u x = VFalse -> collect_verdicts (l ++ x :: m) = collect_verdicts (l ++ m).
Proof. exact @collect_skips. Qed.
Print Assumptions C110_false_not_counted.

Example C110_met : Forall2 (fun (x : opqrstuv (D := nat) (Sc := nat)) d => x_u x <> VFalse /\ x_v x = Some d)
  [mkFull (mkOPQR None (Some 6%nat) None None) None None VTrue (Some 6%nat);
   mkFull (mkOPQR (Some 6%nat) (Some 2%nat) None None) None None SPModel.VNone (Some 6%nat)] [6; 6]%nat.
Proof. repeat constructor; discriminate. Qed.
