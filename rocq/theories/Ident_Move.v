(** Values perturbed by Deltas of this and of other variables. *)
From Coq Require Import String ZArith Reals Lra Bool Arith List.
From Verif Require Import Base Num RNumLemmas VariableModel Var_Spec Var_Delta Var_More Var_Move IdentModel Ident_Spec Ident_Proofs.
Import ListNotations.
Local Open Scope R_scope.

Lemma taken_eq {S M} (v u : ident S M) (x : pyval R) :
  (i_type u = i_type v -> taken_as u (make_delta v x) = DDelta x) /\ (i_type u <> i_type v -> taken_as u (make_delta v x) = DTup [x]).
Proof.
  unfold taken_as, make_delta. cbn. destruct (Nat.eqb (i_type v) (i_type u)) eqn:Q.
  - apply Nat.eqb_eq in Q. split; [reflexivity|congruence].
  - apply Nat.eqb_neq in Q. split; [congruence|reflexivity].
Qed.

Lemma float_own (e0 e1 : elem R) d0 b scalar xs x r :
  apply_delta (interval e0 e1) None (mkDC d0 false b) scalar (map PF xs) (DDelta (PF x)) (Some false) r =
  Ok (map (fun y => PF (y + x)) xs).
Proof.
  unfold apply_delta, eval_delta. cbn [delta_or]. cbn -[apply_delta Rplus]. rewrite andb_false_r. cbn -[Rplus]. f_equal. rewrite !map_map.
  apply map_ext. intros y. cbn. reflexivity.
Qed.
Lemma half_ltb (u : R) : n_ltb (n_div n1 (n_ofZ 2)) u = (if Rlt_dec (1 / 2) u then true else false).
Proof.
  change (n_div n1 (n_ofZ 2)) with (1 / 2). apply eq_true_iff_eq. rewrite Rltb_iff. destruct (Rlt_dec (1 / 2) u); intuition discriminate.
Qed.

Lemma float_tuple (e0 e1 : elem R) d0 b scalar xs x r :
  apply_delta (interval e0 e1) None (mkDC d0 false b) scalar (map PF xs) (DTup [PF x]) (Some false) r =
  Ok (map (fun y => PF (if Rlt_dec (1 / 2) (d_unif r 0) then y + x else y - x)) xs).
Proof.
  unfold apply_delta, eval_delta. cbn [delta_or interval vs_vtype dc_delta dc_scale bind]. rewrite half_ltb, !andb_false_r.
  destruct (Rlt_dec (1 / 2) (d_unif r 0)); cbn -[Rplus Rminus]; f_equal; rewrite !map_map; apply map_ext; intros y; first [reflexivity|unfold revtype, v_add; cbn [vtype_of vtype_eqb as_num]; rewrite n_opp_R; reflexivity].
Qed.

Lemma bool_own vals u dc scalar (bs : list bool) k r :
  apply_delta (T := R) (discrete VBool vals) u dc scalar (map PB bs) (DDelta (PI k)) (Some false) r =
  Ok (map (fun b => PB (xorb b (Z.odd k))) bs).
Proof.
  unfold apply_delta. cbn [discrete vs_vtype delta_or bind]. rewrite !map_map. f_equal. apply map_ext. intros b. unfold revtype. cbn [vtype_of vtype_eqb].
  f_equal. rewrite Z.odd_add. destruct b; reflexivity.
Qed.

Lemma bool_tuple_int vals u dc scalar (bs : list bool) k r :
  apply_delta (T := R) (discrete VBool vals) u dc scalar (map PB bs) (DTup [PI k]) (Some false) r =
  apply_delta (T := R) (discrete VBool vals) u dc scalar (map PB bs) (DTup [PF (IZR k)]) (Some false) r.
Proof. reflexivity. Qed.

Section Moves.
Context {S M : Type} (symbol : string -> list string -> S) (members : S -> odict M) (own : list string).
Variables (h1 h2 : list (step S)) (i j : nat) (v u : ident S M).
Hypothesis Hv : the_var (history symbol members own start h1) i v.
Hypothesis Hu : the_var (history symbol members own (history symbol members own start h1) h2) j u.

Lemma moves_own : j = i -> (forall e, In e h2 -> ~ renames_well i e) ->
  (forall e0 e1 d0 b scalar xs (x : R) r,
   apply_delta (interval e0 e1) None (mkDC d0 false b) scalar (map PF xs) (taken_as u (make_delta v (PF x))) (Some false) r =
   Ok (map (fun y => PF (y + x)) xs)) /\
  (forall vals f dc scalar bs k r,
   apply_delta (T := R) (discrete VBool vals) f dc scalar (map PB bs) (taken_as u (make_delta v (PI k))) (Some false) r =
   Ok (map (fun b => PB (xorb b (Z.odd k))) bs)).
Proof.
  intros J K. assert (Q : i_type u = i_type v) by (apply (class_kept symbol members own h2 Hv (good_history symbol members own h1 good_start) Hu); auto).
  split; intros; rewrite (proj1 (taken_eq v u _) Q); [apply float_own|apply bool_own].
Qed.

Lemma moves_other : (j <> i \/ exists e, In e h2 /\ renames_well i e) ->
  (forall e0 e1 d0 b scalar xs (x : R) r,
   apply_delta (interval e0 e1) None (mkDC d0 false b) scalar (map PF xs) (taken_as u (make_delta v (PF x))) (Some false) r =
   Ok (map (fun y => PF (if Rlt_dec (1 / 2) (d_unif r 0) then y + x else y - x)) xs)) /\
  (forall vals f dc scalar bs k r,
   apply_delta (T := R) (discrete VBool vals) f dc scalar (map PB bs) (taken_as u (make_delta v (PI k))) (Some false) r =
   Ok (map (fun b => PB (if Rlt_dec (1 / 2) (d_unif r 0) then
                           if Rlt_dec (d_unif r 0) (IZR k) then b else negb b else negb b)) bs)).
Proof.
  intros J. assert (Q : i_type u <> i_type v).
  { intros Q. apply (class_kept symbol members own h2 Hv (good_history symbol members own h1 good_start) Hu) in Q as [Q1 Q2].
    destruct J as [J|(e & I & R)]; [contradiction|apply (Q2 e I R)]. }
  split; intros; rewrite (proj2 (taken_eq v u _) Q); [apply float_tuple|rewrite bool_tuple_int; apply bool_tuple].
Qed.
End Moves.
