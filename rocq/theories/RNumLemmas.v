(** Facts about the numeric instance at the reals. *)
From Coq Require Import ZArith Reals Lra Lia Bool.
From Verif Require Import Num.
Local Open Scope R_scope.

Lemma Rleb_iff (x y : R) : n_leb x y = true <-> x <= y.
Proof. cbn. unfold Rleb. destruct (Rle_dec x y); split; intros; auto; discriminate. Qed.

Lemma Rleb_false_iff (x y : R) : n_leb x y = false <-> y < x.
Proof.
  cbn. unfold Rleb. destruct (Rle_dec x y); split; intros; auto; try discriminate; lra.
Qed.

Lemma Rltb_iff (x y : R) : n_ltb x y = true <-> x < y.
Proof. unfold n_ltb. rewrite negb_true_iff. apply Rleb_false_iff. Qed.

Lemma Rltb_false_iff (x y : R) : n_ltb x y = false <-> y <= x.
Proof. unfold n_ltb. rewrite negb_false_iff. apply Rleb_iff. Qed.

Lemma Reqb_iff (x y : R) : n_eqb x y = true <-> x = y.
Proof.
  unfold n_eqb. rewrite andb_true_iff, !Rleb_iff. split; intros; lra.
Qed.

Lemma Reqb_false_iff (x y : R) : n_eqb x y = false <-> x <> y.
Proof.
  split; intros H.
  - intros E. apply Reqb_iff in E. congruence.
  - destruct (n_eqb x y) eqn:E; auto. apply Reqb_iff in E. contradiction.
Qed.

Lemma Reqb_refl (x : R) : n_eqb x x = true.
Proof. apply Reqb_iff. reflexivity. Qed.

Lemma n0_R : (n0 : R) = 0. Proof. reflexivity. Qed.
Lemma n1_R : (n1 : R) = 1. Proof. reflexivity. Qed.
Lemma n_opp_R (x : R) : n_opp x = - x.
Proof. unfold n_opp. cbn. lra. Qed.

Lemma n_abs_R (x : R) : n_abs x = Rabs x.
Proof.
  unfold n_abs. destruct (n_leb n0 x) eqn:E.
  - apply Rleb_iff in E. rewrite n0_R in E. rewrite Rabs_right; lra.
  - apply Rleb_false_iff in E. rewrite n0_R in E. rewrite n_opp_R, Rabs_left; lra.
Qed.

Lemma n_max_R (x y : R) : n_max x y = Rmax x y.
Proof.
  unfold n_max, Rmax. destruct (n_leb x y) eqn:E.
  - apply Rleb_iff in E. destruct (Rle_dec x y); lra.
  - apply Rleb_false_iff in E. destruct (Rle_dec x y); lra.
Qed.

Lemma n_min_R (x y : R) : n_min x y = Rmin x y.
Proof.
  unfold n_min, Rmin. destruct (n_leb x y) eqn:E.
  - apply Rleb_iff in E. destruct (Rle_dec x y); lra.
  - apply Rleb_false_iff in E. destruct (Rle_dec x y); lra.
Qed.

(** The thresholds of constants.py as real numbers. *)
Lemma pow1022_pos : (1 < 2 ^ 1022)%Z.
Proof. apply Z.pow_gt_1; lia. Qed.

Lemma npz_eq : (npz : R) = / IZR (2 ^ 1022).
Proof. unfold npz. change (1 / IZR (2 ^ 1022) = / IZR (2 ^ 1022)). unfold Rdiv. ring. Qed.

Lemma npz_pos : 0 < (npz : R).
Proof.
  rewrite npz_eq. apply Rinv_0_lt_compat. apply (IZR_lt 0). pose proof pow1022_pos. lia.
Qed.

Lemma npz_lt_1 : npz < 1.
Proof.
  rewrite npz_eq. rewrite <- Rinv_1. apply Rinv_lt_contravar.
  - rewrite Rmult_1_l. apply (IZR_lt 0). pose proof pow1022_pos. lia.
  - apply (IZR_lt 1). exact pow1022_pos.
Qed.

Lemma npz_le_half : npz <= 1 / 2.
Proof.
  rewrite npz_eq. replace (1 / 2) with (/ 2) by lra. apply Rinv_le_contravar; [lra|].
  apply (IZR_le 2). discriminate.
Qed.

Lemma npi_big : 1022 < npi.
Proof. unfold npi. apply (IZR_lt 1022). vm_compute. reflexivity. Qed.

Lemma npi_pos : 0 < npi.
Proof. pose proof npi_big. lra. Qed.

Lemma nni_eq : (nni : R) = - npi.
Proof. unfold nni. apply n_opp_R. Qed.

Lemma log_npi_eq : (log_npi : R) = ln npi.
Proof. reflexivity. Qed.

Lemma log_npi_pos : 0 < log_npi.
Proof.
  rewrite log_npi_eq, <- ln_1. apply ln_increasing; pose proof npi_big; lra.
Qed.

Lemma ln2_lt_1 : ln 2 < 1.
Proof.
  assert (H : ln 2 < ln (exp 1)).
  { apply ln_increasing; [lra|]. pose proof (exp_ineq1 1 ltac:(lra)). lra. }
  rewrite ln_exp in H. exact H.
Qed.

Lemma ln_npz : ln npz = - (1022 * ln 2).
Proof.
  rewrite npz_eq, ln_Rinv.
  - f_equal. change 1022%Z with (Z.of_nat 1022).
    rewrite <- pow_IZR. rewrite ln_pow by lra.
    f_equal. rewrite INR_IZR_INZ. reflexivity.
  - apply (IZR_lt 0). pose proof pow1022_pos. lia.
Qed.

Lemma nni_le_ln_npz : nni <= ln npz.
Proof.
  rewrite nni_eq, ln_npz. pose proof npi_big. pose proof ln2_lt_1.
  assert (0 < ln 2) by (rewrite <- ln_1; apply ln_increasing; lra).
  lra.
Qed.

Lemma npz_le_npi : npz <= npi.
Proof. pose proof npz_lt_1. pose proof npi_big. lra. Qed.

Global Opaque npz npi nni log_npi.
Global Arguments n_opp : simpl never.
Global Arguments n_abs : simpl never.
Global Arguments n_eqb : simpl never.
Global Arguments n_ltb : simpl never.
Global Arguments n_max : simpl never.
Global Arguments n_min : simpl never.
Global Arguments n0 : simpl never.
Global Arguments n1 : simpl never.
(** Show the model's 0 and 1 as real constants. *)
Ltac rn := change (@n0 R RNum) with 0%R in *; change (@n1 R RNum) with 1%R in *;
           change (@n_add R RNum) with Rplus in *; change (@n_sub R RNum) with Rminus in *;
           change (@n_mul R RNum) with Rmult in *; change (@n_div R RNum) with Rdiv in *;
           change (@n_exp R RNum) with exp in *; change (@n_ln R RNum) with ln in *.
Ltac rlra := rn; lra.
