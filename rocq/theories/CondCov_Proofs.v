From Coq Require Import Reals List ZArith Bool Arith Lia Lra FunctionalExtensionality.
From Verif Require Import Base Num RNumLemmas OdLemmas Likelihoods Lik_Slice Var_Proofs2 CondCovModel CondCov_Spec.
Import ListNotations.
Local Open Scope R_scope.
Local Existing Instance RNum.

Lemma sumn_Rsum n (f : nat -> R) : sumn n f = Rsum n f.
Proof. induction n; cbn; [reflexivity|]. rewrite IHn. reflexivity. Qed.

Lemma Rsum_ext n f g : (forall j, (j < n)%nat -> f j = g j) -> Rsum n f = Rsum n g.
Proof. induction n; intros H; cbn; [reflexivity|]. rewrite IHn, H by (intros; try apply H; lia). reflexivity. Qed.

Lemma Rsum_plus n f g : Rsum n (fun j => f j + g j) = Rsum n f + Rsum n g.
Proof. induction n; cbn; [lra|]. rewrite IHn. lra. Qed.

Lemma Rsum_scal n c f : Rsum n (fun j => c * f j) = c * Rsum n f.
Proof. induction n; cbn; [lra|]. rewrite IHn. lra. Qed.

Lemma Rsum_scal_r n c f : Rsum n (fun j => f j * c) = Rsum n f * c.
Proof. induction n; cbn; [lra|]. rewrite IHn. lra. Qed.

Lemma Rsum_minus n f g : Rsum n (fun j => f j - g j) = Rsum n f - Rsum n g.
Proof. induction n; cbn; [lra|]. rewrite IHn. lra. Qed.

Lemma Rsum_zero n f : (forall j, (j < n)%nat -> f j = 0) -> Rsum n f = 0.
Proof. induction n; intros H; cbn; [reflexivity|]. rewrite IHn, H by (intros; try apply H; lia). lra. Qed.

Lemma Rsum_swap n m (f : nat -> nat -> R) :
  Rsum n (fun j => Rsum m (fun k => f j k)) = Rsum m (fun k => Rsum n (fun j => f j k)).
Proof.
  induction n; cbn.
  - symmetry. apply Rsum_zero. reflexivity.
  - rewrite IHn, <- Rsum_plus. reflexivity.
Qed.

Lemma Rsum_delta n f k : (k < n)%nat -> Rsum n (fun j => f j * delta j k) = f k.
Proof.
  induction n; intros H; [lia|]. cbn. unfold delta at 2. destruct (Nat.eqb_spec n k) as [->|NE].
  - rewrite Rsum_zero; [lra|]. intros j J. unfold delta. destruct (Nat.eqb_spec j k); [lia|lra].
  - rewrite IHn by lia. lra.
Qed.

Lemma Rsum_delta_l n f k : (k < n)%nat -> Rsum n (fun j => delta k j * f j) = f k.
Proof.
  intros H. rewrite <- (Rsum_delta n f k H). apply Rsum_ext. intros j _. unfold delta.
  rewrite Nat.eqb_sym. lra.
Qed.

Lemma skip_lt i m j : (j < m)%nat -> (i <= m)%nat -> (skip i j < S m)%nat /\ skip i j <> i.
Proof. unfold skip. intros. destruct (Nat.ltb_spec j i); lia. Qed.

Lemma skip_inj i j k : skip i j = skip i k -> j = k.
Proof. unfold skip. destruct (Nat.ltb_spec j i), (Nat.ltb_spec k i); lia. Qed.

Lemma Rsum_split m i f : (i <= m)%nat -> Rsum (S m) f = f i + Rsum m (fun j => f (skip i j)).
Proof.
  induction m; intros H.
  - assert (i = O) by lia. subst. cbn. lra.
  - destruct (Nat.eq_dec i (S m)) as [->|NE].
    + change (Rsum (S (S m)) f) with (Rsum (S m) f + f (S m)).
      rewrite (Rsum_ext (S m) (fun j => f (skip (S m) j)) f); [lra|].
      intros j J. unfold skip. destruct (Nat.ltb_spec j (S m)); [reflexivity|lia].
    + change (Rsum (S (S m)) f) with (Rsum (S m) f + f (S m)). rewrite IHm by lia.
      change (Rsum (S m) (fun j => f (skip i j))) with (Rsum m (fun j => f (skip i j)) + f (skip i m)).
      replace (skip i m) with (S m); [lra|]. unfold skip. destruct (Nat.ltb_spec m i); lia.
Qed.

Lemma inverse_sym n a b : symmetric n a -> is_inverse n a b -> symmetric n b.
Proof.
  intros SY IV j k J K.
  (* b j k = sum_l b j l * (sum_q a l q * b k q) *)
  assert (E : forall l, (l < n)%nat -> Rsum n (fun q => a l q * b k q) = delta l k).
  { intros l L. destruct (IV k l K L) as [_ H]. rewrite (Rsum_ext n _ (fun q => b k q * a q l)).
    - rewrite H. unfold delta. rewrite Nat.eqb_sym. reflexivity.
    - intros q Q. rewrite (SY l q L Q). lra. }
  transitivity (Rsum n (fun l => b j l * Rsum n (fun q => a l q * b k q))).
  - rewrite (Rsum_ext n _ (fun l => b j l * delta l k)) by (intros l L; rewrite E by exact L; reflexivity).
    symmetry. apply (Rsum_delta n (fun l => b j l)). exact K.
  - rewrite (Rsum_ext n _ (fun l => Rsum n (fun q => b j l * a l q * b k q))).
    2:{ intros l L. rewrite <- Rsum_scal. apply Rsum_ext. intros; lra. }
    rewrite Rsum_swap.
    rewrite (Rsum_ext n _ (fun q => delta j q * b k q)).
    + apply (Rsum_delta_l n (fun q => b k q)). exact J.
    + intros q Q. rewrite Rsum_scal_r. f_equal. apply (IV j q J Q).
Qed.

Section Schur.
Variables (m i : nat) (S_ P C : nat -> nat -> R).
Hypothesis I : (i <= m)%nat.
Hypothesis SY : symmetric (S m) S_.
Hypothesis PD : positive_definite (S m) S_.
Hypothesis IP : is_inverse (S m) S_ P.
Hypothesis IC : is_inverse m (minor S_ i) C.

Let r := skip i.
Definition cf (k : nat) := Rsum m (fun j => S_ i (skip i j) * C j k).
Definition s2 := S_ i i - Rsum m (fun k => cf k * S_ (skip i k) i).

Lemma rlt j : (j < m)%nat -> (skip i j < S m)%nat. Proof. intros. apply skip_lt; lia. Qed.

Lemma minor_sym : symmetric m (minor S_ i).
Proof. intros j k J K. unfold minor. apply SY; apply rlt; assumption. Qed.

Lemma C_sym : symmetric m C.
Proof. apply (inverse_sym _ _ _ minor_sym IC). Qed.

(** sum over the rows of C applied to column i of S *)
Lemma cf_sym k : (k < m)%nat -> cf k = Rsum m (fun l => C k l * S_ (skip i l) i).
Proof.
  intros K. apply Rsum_ext. intros j J. rewrite (C_sym j k J K), (SY i (skip i j)); [lra|lia|apply rlt; exact J].
Qed.

Lemma s2_pos : 0 < s2.
Proof.
  set (v := fun j => if Nat.eqb j i then 1 else
     - Rsum m (fun l => C (if Nat.ltb j i then j else pred j) l * S_ (skip i l) i)).
  assert (Vi : v i = 1) by (unfold v; rewrite Nat.eqb_refl; reflexivity).
  assert (Vr : forall k, (k < m)%nat -> v (skip i k) = - cf k).
  { intros k K. rewrite cf_sym by exact K. unfold v, skip. destruct (Nat.ltb_spec k i) as [L|L].
    - destruct (Nat.eqb_spec k i); [lia|]. destruct (Nat.ltb_spec k i); [reflexivity|lia].
    - destruct (Nat.eqb_spec (S k) i); [lia|]. destruct (Nat.ltb_spec (S k) i); [lia|reflexivity]. }
  assert (Q : quad (S m) S_ v = s2).
  { unfold quad. rewrite (Rsum_split m i) by exact I.
    rewrite (Rsum_zero m).
    - rewrite (Rsum_split m i) by exact I. rewrite Vi. unfold s2, cf.
      rewrite (Rsum_ext m _ (fun k => -1 * (cf k * S_ (skip i k) i))).
      + rewrite Rsum_scal. unfold cf. lra.
      + intros k K. rewrite Vr by exact K. rewrite (SY i (skip i k)); [lra|lia|apply rlt; exact K].
    - intros j J. rewrite (Rsum_split m i) by exact I. rewrite Vi.
      rewrite (Rsum_ext m _ (fun k => - v (skip i j) * (minor S_ i j k * cf k))).
      2:{ intros k K. rewrite (Vr k) by exact K. unfold minor. lra. }
      rewrite Rsum_scal.
      assert (E : Rsum m (fun k => minor S_ i j k * cf k) = S_ (skip i j) i).
      { rewrite (Rsum_ext m _ (fun k => Rsum m (fun l => minor S_ i j k * C k l * S_ (skip i l) i))).
        2:{ intros k K. rewrite cf_sym by exact K. rewrite <- Rsum_scal. apply Rsum_ext. intros; lra. }
        rewrite Rsum_swap.
        rewrite (Rsum_ext m _ (fun l => delta j l * S_ (skip i l) i)).
        - apply (Rsum_delta_l m (fun l => S_ (skip i l) i)). exact J.
        - intros l L. rewrite Rsum_scal_r. f_equal. apply (IC j l J L). }
      rewrite E. lra. }
  rewrite <- Q. apply PD. exists i. split; [lia|]. rewrite Vi. lra.
Qed.

Lemma schur_row (y a : nat -> R) :
  (forall j, (j < S m)%nat -> Rsum (S m) (fun k => S_ j k * a k) = y j) ->
  (forall j, (j < m)%nat -> a (skip i j) = Rsum m (fun k => C j k * y (skip i k)) - cf j * a i) /\
  s2 * a i = y i - Rsum m (fun k => cf k * y (skip i k)).
Proof.
  intros H.
  assert (A : forall j, (j < m)%nat -> a (skip i j) = Rsum m (fun k => C j k * y (skip i k)) - cf j * a i).
  { intros j J.
    rewrite (Rsum_ext m _ (fun k => C j k * S_ (skip i k) i * a i + Rsum m (fun l => C j k * minor S_ i k l * a (skip i l)))).
    2:{ intros k K. rewrite <- (H (skip i k) (rlt k K)), (Rsum_split m i) by exact I.
        rewrite Rmult_plus_distr_l, <- Rsum_scal. rewrite <- Rmult_assoc. f_equal.
        apply Rsum_ext. intros l L. unfold minor. lra. }
    rewrite Rsum_plus, Rsum_scal_r, <- cf_sym by exact J. rewrite Rsum_swap.
    rewrite (Rsum_ext m _ (fun l => delta j l * a (skip i l))).
    - rewrite (Rsum_delta_l m (fun l => a (skip i l)) j J). lra.
    - intros l L. rewrite Rsum_scal_r. f_equal. apply (IC j l J L). }
  split; [exact A|].
  rewrite <- (H i) by lia. rewrite (Rsum_split m i) by exact I.
  rewrite (Rsum_ext m (fun j => S_ i (skip i j) * a (skip i j))
    (fun j => Rsum m (fun k => S_ i (skip i j) * C j k * y (skip i k)) - (cf j * S_ (skip i j) i) * a i)).
  2:{ intros j J. rewrite A by exact J. rewrite Rmult_minus_distr_l, <- Rsum_scal. f_equal.
      - apply Rsum_ext. intros; lra.
      - rewrite (SY i (skip i j)); [lra|lia|apply rlt; exact J]. }
  rewrite Rsum_minus, Rsum_scal_r, Rsum_swap.
  rewrite (Rsum_ext m (fun k => Rsum m (fun j => S_ i (skip i j) * C j k * y (skip i k))) (fun k => cf k * y (skip i k))).
  - unfold s2. lra.
  - intros k K. rewrite Rsum_scal_r. reflexivity.
Qed.

Lemma solves y : forall j, (j < S m)%nat ->
  Rsum (S m) (fun k => S_ j k * Rsum (S m) (fun l => P k l * y l)) = y j.
Proof.
  intros j J.
  rewrite (Rsum_ext (S m) _ (fun k => Rsum (S m) (fun l => S_ j k * P k l * y l))).
  2:{ intros k K. rewrite <- Rsum_scal. apply Rsum_ext. intros; lra. }
  rewrite Rsum_swap. rewrite (Rsum_ext (S m) _ (fun l => delta j l * y l)).
  - apply (Rsum_delta_l (S m) y). exact J.
  - intros l L. rewrite Rsum_scal_r. f_equal. apply (IP j l J L).
Qed.

Lemma schur_quad y :
  quad (S m) P y = (y i - Rsum m (fun k => cf k * y (skip i k))) ^ 2 / s2 + quad m C (fun j => y (skip i j)).
Proof.
  set (a := fun k => Rsum (S m) (fun l => P k l * y l)).
  destruct (schur_row y a (solves y)) as [A B].
  assert (Q : quad (S m) P y = Rsum (S m) (fun j => y j * a j)).
  { apply Rsum_ext. intros j _. unfold a. rewrite <- Rsum_scal. apply Rsum_ext. intros; lra. }
  rewrite Q, (Rsum_split m i) by exact I.
  rewrite (Rsum_ext m _ (fun j => Rsum m (fun k => y (skip i j) * C j k * y (skip i k)) - (cf j * y (skip i j)) * a i)).
  2:{ intros j J. rewrite A by exact J. rewrite Rmult_minus_distr_l, <- Rsum_scal. f_equal; [|lra].
      apply Rsum_ext. intros; lra. }
  rewrite Rsum_minus, Rsum_scal_r.
  change (Rsum m (fun j => Rsum m (fun k => y (skip i j) * C j k * y (skip i k)))) with (quad m C (fun j => y (skip i j))).
  rewrite <- B. pose proof s2_pos.
  replace (y i) with (s2 * a i + Rsum m (fun k => cf k * y (skip i k))) by (rewrite B; lra).
  field. lra.
Qed.

Lemma precision : s2 * P i i = 1.
Proof.
  set (y := delta i).
  destruct (schur_row y (fun k => Rsum (S m) (fun l => P k l * y l)) (solves y)) as [_ B].
  rewrite (Rsum_ext (S m) _ (fun l => P i l * delta l i)) in B
    by (intros l _; unfold y, delta; rewrite Nat.eqb_sym; reflexivity).
  rewrite (Rsum_delta (S m) (fun l => P i l)) in B by lia. rewrite B.
  rewrite Rsum_zero.
  - unfold y, delta. rewrite Nat.eqb_refl. lra.
  - intros k K. unfold y, delta. destruct (Nat.eqb_spec i (skip i k)) as [E|]; [|lra].
    destruct (skip_lt i m k K I). congruence.
Qed.

End Schur.

(** ** scan *)
Lemma scan_nums mean (args : list (carg R)) : forall i idx dmu idx' dmu' j,
  scan mean args i idx dmu = Ok (idx', dmu') ->
  (forall x, nth_error args j = Some (CNum x) -> dmu' (i + j)%nat = x - mean (i + j)%nat) /\
  (j < i -> dmu' j = dmu j)%nat.
Proof.
  induction args as [|[x|k] args IH]; intros i idx dmu idx' dmu' j H; cbn in H.
  - injection H as <- <-. split; [|reflexivity]. intros x E. destruct j; discriminate.
  - split.
    + intros z E. destruct j as [|j].
      * injection E as <-. destruct (IH _ _ _ _ _ i H) as [_ K]. rewrite Nat.add_0_r, K by lia.
        rewrite Nat.eqb_refl. reflexivity.
      * destruct (IH _ _ _ _ _ j H) as [K _]. replace (i + S j)%nat with (S i + j)%nat by lia. apply K. exact E.
    + intros J. destruct (IH _ _ _ _ _ j H) as [_ K]. rewrite K by lia.
      destruct (Nat.eqb_spec j i); [lia|reflexivity].
  - destruct idx; [discriminate|]. split.
    + intros z E. destruct j as [|j]; [discriminate|].
      destruct (IH _ _ _ _ _ j H) as [K _]. replace (i + S j)%nat with (S i + j)%nat by lia. apply K. exact E.
    + intros J. destruct (IH _ _ _ _ _ j H) as [_ K]. apply K. lia.
Qed.

Lemma scan_some mean (args : list (carg R)) : forall i q dmu,
  (forall j k, nth_error args j <> Some (CSet k)) ->
  exists dmu', scan mean args i q dmu = Ok (q, dmu').
Proof.
  induction args as [|[x|k] args IH]; intros i q dmu H; cbn.
  - eauto.
  - apply IH. intros j k. apply (H (S j) k).
  - destruct (H 0%nat k eq_refl).
Qed.

Lemma scan_set mean (args : list (carg R)) : forall i p k dmu,
  nth_error args p = Some (CSet k) ->
  (forall j k', nth_error args j = Some (CSet k') -> j = p) ->
  exists dmu', scan mean args i None dmu = Ok (Some ((i + p)%nat, k), dmu').
Proof.
  induction args as [|[x|k0] args IH]; intros i p k dmu H U.
  - destruct p; discriminate.
  - destruct p as [|p]; [discriminate|]. cbn [scan].
    destruct (IH (S i) p k (fun j => if j =? i then n_sub x (mean i) else dmu j)%nat H) as (d & D).
    { intros j k' E. specialize (U (S j) k' E). lia. }
    exists d. rewrite D. replace (i + S p)%nat with (S i + p)%nat by lia. reflexivity.
  - assert (p = O) by (symmetry; apply (U O k0); reflexivity). subst p. injection H as ->. cbn.
    rewrite Nat.add_0_r. apply scan_some. intros j k' E. specialize (U (S j) k' E). lia.
Qed.

Lemma scan_two mean (args : list (carg R)) : forall i q dmu,
  (exists j k, nth_error args j = Some (CSet k)) -> scan mean args i (Some q) dmu = Err ValueError.
Proof.
  induction args as [|[x|k0] args IH]; intros i q dmu (j & k & H); cbn.
  - destruct j; discriminate.
  - apply IH. destruct j; [discriminate|]. exists j, k. exact H.
  - reflexivity.
Qed.

Lemma scan_two' mean (args : list (carg R)) : forall i dmu j k j' k', (j < j')%nat ->
  nth_error args j = Some (CSet k) -> nth_error args j' = Some (CSet k') ->
  scan mean args i None dmu = Err ValueError.
Proof.
  induction args as [|[x|k0] args IH]; intros i dmu j k j' k' L H H'.
  - destruct j; discriminate.
  - destruct j; [discriminate|]. destruct j'; [lia|]. cbn. apply (IH _ _ j k j' k'); [lia|exact H|exact H'].
  - cbn. apply scan_two. destruct j'; [lia|]. exists j', k'. exact H'.
Qed.

Section Interp.
Variable inv : nat -> (nat -> nat -> R) -> nat -> nat -> R.
Variables Phi PhiInv : R -> R.

Definition cmean (n : nat) (mean : nat -> R) (S_ : nat -> nat -> R) (x : nat -> R) (i : nat) : R :=
  mean i + Rsum (n - 1) (fun k =>
    Rsum (n - 1) (fun j => S_ i (skip i j) * inv (n - 1)%nat (minor S_ i) j k) * (x (skip i k) - mean (skip i k))).

Definition cvar (n : nat) (S_ : nat -> nat -> R) (i : nat) : R :=
  S_ i i - Rsum (n - 1) (fun k =>
    Rsum (n - 1) (fun j => S_ i (skip i j) * inv (n - 1)%nat (minor S_ i) j k) * S_ (skip i k) i).

Lemma coef_cf n S_ i k : coef inv n S_ i k = cf (n - 1) i S_ (inv (n - 1)%nat (minor S_ i)) k.
Proof. unfold coef. rewrite sumn_Rsum. reflexivity. Qed.

Lemma stdv_s2 n S_ i : stdv inv n S_ i = sqrt (cvar n S_ i).
Proof.
  unfold stdv, cvar. rn. change (@n_sqrt R RNum) with sqrt. rewrite sumn_Rsum. apply (f_equal sqrt). apply (f_equal (fun z => S_ i i - z)). apply Rsum_ext. intros k _.
  unfold coef. rewrite sumn_Rsum. reflexivity.
Qed.

Lemma interp_value n mean S_ lims i k x args us junk :
  asks n i k x args ->
  let c := make_cc inv Phi n mean S_ lims in
  let s := sqrt (cvar n S_ i) in
  interp PhiInv c args us junk =
    Ok (umap (fun p => cmean n mean S_ x i + s * PhiInv p)
         (uniform (Phi ((fst (lims i) - mean i) / s)) (Phi ((snd (lims i) - mean i) / s)) (Some k) false false us)).
Proof.
  intros (L & I & E & H). cbv zeta. unfold interp. cbn [make_cc cc_n cc_mean cc_coef cc_stdv cc_cdfs fst snd].
  rewrite L, Nat.eqb_refl. cbn [bind].
  assert (U : forall j k', nth_error args j = Some (CSet k') -> j = i).
  { intros j k' F. destruct (Nat.eq_dec j i) as [|NE]; [assumption|].
    assert (J : (j < n)%nat) by (rewrite <- L; apply nth_error_Some; rewrite F; discriminate).
    rewrite (H j J NE) in F. discriminate. }
  destruct (scan_set mean args 0 i k junk E U) as (d & D). rewrite D. cbn [bind plus].
  rewrite !stdv_s2.
  rn.
  replace ((fst (lims i) - mean i - 0)) with (fst (lims i) - mean i) by lra.
  replace ((snd (lims i) - mean i - 0)) with (snd (lims i) - mean i) by lra.
  replace (mean i + sumn (n - 1) (fun k0 => coef inv n S_ i k0 * d (skip i k0))) with (cmean n mean S_ x i).
  - destruct (uniform _ _ _ _ _ _); reflexivity.
  - unfold cmean. apply (f_equal (Rplus (mean i))).
    transitivity (Rsum (n - 1) (fun k0 => coef inv n S_ i k0 * d (skip i k0))); [|symmetry; apply sumn_Rsum].
    apply Rsum_ext. intros j J.
    apply (f_equal2 Rmult); [symmetry; apply sumn_Rsum|].
    assert (SK : (skip i j < S (n - 1))%nat /\ skip i j <> i) by (apply skip_lt; lia).
    destruct (scan_nums mean args 0 None junk _ _ (skip i j) D) as [K _]. cbn [plus] in K.
    rewrite (K (x (skip i j))); [reflexivity|]. apply H; lia.
Qed.

Lemma cond_quad n mean S_ P i k x (args : list (carg R)) :
  symmetric n S_ -> positive_definite n S_ -> is_inverse n S_ P ->
  is_inverse (n - 1) (minor S_ i) (inv (n - 1)%nat (minor S_ i)) ->
  asks n i k x args ->
  forall t, quad n P (fun j => at_ x i t j - mean j) = ((t - cmean n mean S_ x i) / sqrt (cvar n S_ i)) ^ 2 +
    quad (n - 1) (inv (n - 1)%nat (minor S_ i)) (fun j => x (skip i j) - mean (skip i j)).
Proof.
  intros SY PD IP IC A. pose proof A as (L & I & _ & _).
  assert (En : n = S (n - 1)) by lia.
  assert (IM : (i <= n - 1)%nat) by lia.
  assert (SP : 0 < cvar n S_ i).
  { apply (s2_pos (n - 1) i S_ (inv (n - 1)%nat (minor S_ i)) IM); rewrite <- ?En; assumption. }
  intros t. rewrite En at 1.
  rewrite (schur_quad (n - 1) i S_ P (inv (n - 1)%nat (minor S_ i)) IM); rewrite <- ?En; try assumption.
  unfold at_ at 1. rewrite Nat.eqb_refl.
  change (s2 (n - 1) i S_ (inv (n - 1)%nat (minor S_ i))) with (cvar n S_ i).
  assert (SQ : sqrt (cvar n S_ i) * sqrt (cvar n S_ i) = cvar n S_ i) by (apply sqrt_sqrt; lra).
  assert (SN : 0 < sqrt (cvar n S_ i)) by (apply sqrt_lt_R0; exact SP).
  assert (AT : forall j, (j < n - 1)%nat -> at_ x i t (skip i j) = x (skip i j)).
  { intros j J. unfold at_. destruct (skip_lt i (n - 1) j J IM) as [_ NE].
    destruct (Nat.eqb_spec (skip i j) i); [contradiction|reflexivity]. }
  f_equal.
  - rewrite <- SQ at 1.
    replace (t - mean i - Rsum (n - 1) _) with (t - cmean n mean S_ x i).
    + field. lra.
    + unfold cmean.
      rewrite (Rsum_ext (n - 1) (fun k0 => cf (n - 1) i S_ (inv (n - 1)%nat (minor S_ i)) k0 * (at_ x i t (skip i k0) - mean (skip i k0)))
        (fun k0 => Rsum (n - 1) (fun j => S_ i (skip i j) * inv (n - 1)%nat (minor S_ i) j k0) * (x (skip i k0) - mean (skip i k0)))).
      * lra.
      * intros j J. rewrite AT by exact J. reflexivity.
  - apply Rsum_ext. intros j J. apply Rsum_ext. intros l Ll. rewrite !AT by assumption. reflexivity.
Qed.

Lemma interp_conditional n mean S_ P lims i k x args us junk :
  symmetric n S_ -> positive_definite n S_ -> is_inverse n S_ P ->
  is_inverse (n - 1) (minor S_ i) (inv (n - 1)%nat (minor S_ i)) ->
  asks n i k x args ->
  exists m s c, 0 < s /\
    (forall t, quad n P (fun j => at_ x i t j - mean j) = ((t - m) / s) ^ 2 + c) /\
    interp PhiInv (make_cc inv Phi n mean S_ lims) args us junk =
      Ok (umap (fun p => m + s * PhiInv p)
           (uniform (Phi ((fst (lims i) - mean i) / s)) (Phi ((snd (lims i) - mean i) / s)) (Some k) false false us)).
Proof.
  intros SY PD IP IC A. pose proof A as (L & I & _ & _).
  assert (En : n = S (n - 1)) by lia.
  assert (IM : (i <= n - 1)%nat) by lia.
  assert (SP : 0 < cvar n S_ i).
  { apply (s2_pos (n - 1) i S_ (inv (n - 1)%nat (minor S_ i)) IM); rewrite <- ?En; assumption. }
  exists (cmean n mean S_ x i), (sqrt (cvar n S_ i)),
    (quad (n - 1) (inv (n - 1)%nat (minor S_ i)) (fun j => x (skip i j) - mean (skip i j))).
  split; [apply sqrt_lt_R0; exact SP|]. split; [|apply (interp_value n mean S_ lims i k x args us junk A)].
  apply (cond_quad n mean S_ P i k x args SY PD IP IC A).
Qed.

(** *** Errors *)
Lemma interp_two n mean S_ lims args us junk j k j' k' :
  length args = n -> j <> j' -> nth_error args j = Some (CSet k) -> nth_error args j' = Some (CSet k') ->
  interp PhiInv (make_cc inv Phi n mean S_ lims) args us junk = Err ValueError.
Proof.
  intros L NE H H'. unfold interp. cbn [make_cc cc_n cc_mean]. rewrite L, Nat.eqb_refl. cbn [bind].
  destruct (Nat.lt_ge_cases j j') as [LT|GE].
  - rewrite (scan_two' mean args 0 junk j k j' k' LT H H'). reflexivity.
  - rewrite (scan_two' mean args 0 junk j' k' j k); [reflexivity|lia|assumption|assumption].
Qed.

Lemma interp_none n mean S_ lims args us junk :
  length args = n -> (forall j k, nth_error args j <> Some (CSet k)) ->
  interp PhiInv (make_cc inv Phi n mean S_ lims) args us junk = Err AssertionError.
Proof.
  intros L H. unfold interp. cbn [make_cc cc_n cc_mean]. rewrite L, Nat.eqb_refl. cbn [bind].
  destruct (scan_some mean args 0 None junk H) as (d & D). rewrite D. reflexivity.
Qed.

(** *** Limits *)
Hypothesis CP : cdf_pair Phi PhiInv.

Lemma Phi_le x y : x <= y -> Phi x <= Phi y.
Proof. intros [L| ->]; [|lra]. left. apply CP. exact L. Qed.

Lemma Phi_le_inv x y : Phi x <= Phi y -> x <= y.
Proof. intros H. destruct (Rle_lt_dec x y) as [|L]; [assumption|]. apply CP in L. lra. Qed.

Lemma PhiInv_between a b p : Phi a <= p <= Phi b -> a <= PhiInv p <= b.
Proof.
  intros H. pose proof (proj2 (proj2 CP) p a b H) as E.
  split; apply Phi_le_inv; rewrite E; apply H.
Qed.

Lemma uniform_in a b k us p : a < b -> (forall j, 0 <= us j < 1) ->
  sample_of (uniform a b (Some k) false false us) p -> a <= p <= b.
Proof.
  intros L U H. destruct (Z_le_gt_dec k 0) as [K|K].
  - pose proof (uniform_random a b (Some k) false false us L U K) as R.
    destruct (uniform a b (Some k) false false us) as [y|l]; cbn in H.
    + subst. lra.
    + destruct R as [_ R]. rewrite Forall_forall in R. specialize (R p H). lra.
  - destruct k as [|q|q]; try lia.
    destruct (uniform_within a b q false false us p) as [B|[[-> _]|[-> _]]]; [apply Rlt_not_eq; exact L| | |lra|lra].
    + destruct (uniform a b (Some (Zpos q)) false false us); exact H.
    + unfold strictly_between, Rmin, Rmax in B. destruct (Rle_dec a b); lra.
Qed.

Lemma between_limits s d k us y m lo hi :
  0 < s -> lo < hi -> (forall j, 0 <= us j < 1) ->
  sample_of (umap (fun p => m + s * PhiInv p) (uniform (Phi ((lo - d) / s)) (Phi ((hi - d) / s)) (Some k) false false us)) y ->
  lo + (m - d) <= y <= hi + (m - d).
Proof.
  intros S0 L U H.
  assert (LT : (lo - d) / s < (hi - d) / s) by (apply Rmult_lt_compat_r; [apply Rinv_0_lt_compat; exact S0|lra]).
  assert (E : exists p, y = m + s * PhiInv p /\
    sample_of (uniform (Phi ((lo - d) / s)) (Phi ((hi - d) / s)) (Some k) false false us) p).
  { destruct (uniform _ _ _ _ _ _) as [p|l]; cbn in H |- *.
    - exists p. split; [symmetry; exact H|reflexivity].
    - apply in_map_iff in H. destruct H as (p & <- & HI). exists p. split; [reflexivity|exact HI]. }
  destruct E as (p & -> & Q). apply uniform_in in Q; [|apply CP; exact LT|exact U].
  apply PhiInv_between in Q. destruct Q as [Q1 Q2].
  apply (Rmult_le_compat_l s) in Q1; [|lra]. apply (Rmult_le_compat_l s) in Q2; [|lra].
  replace (s * ((lo - d) / s)) with (lo - d) in Q1 by (field; lra).
  replace (s * ((hi - d) / s)) with (hi - d) in Q2 by (field; lra). lra.
Qed.

Lemma reached s d y m lo hi :
  0 < s -> lo < hi -> lo + (m - d) <= y < hi + (m - d) ->
  exists u, 0 <= u < 1 /\
    m + s * PhiInv (draw (Phi ((lo - d) / s)) (Phi ((hi - d) / s)) u) = y.
Proof.
  intros S0 L [Y1 Y2]. set (a := Phi ((lo - d) / s)). set (b := Phi ((hi - d) / s)). set (p := Phi ((y - m) / s)).
  assert (IS : 0 < / s) by (apply Rinv_0_lt_compat; exact S0).
  assert (AB : a < b) by (apply CP, Rmult_lt_compat_r; [exact IS|lra]).
  assert (AP : a <= p) by (apply Phi_le, Rmult_le_compat_r; lra).
  assert (PB : p < b) by (apply CP, Rmult_lt_compat_r; [exact IS|lra]).
  exists ((p - a) / (b - a)). split.
  - split.
    + apply Rmult_le_pos; [lra|]. left. apply Rinv_0_lt_compat. lra.
    + apply (Rmult_lt_reg_r (b - a)); [lra|]. unfold Rdiv. rewrite Rmult_assoc, Rinv_l by lra. lra.
  - unfold draw. rn. replace (a + (b - a) * ((p - a) / (b - a))) with p by (field; lra).
    unfold p. rewrite (proj1 (proj2 CP)). field. lra.
Qed.

Lemma gaussian_unique n P mu x i m s m' s' :
  conditional_gaussian n P mu x i m s -> conditional_gaussian n P mu x i m' s' -> m = m' /\ s = s'.
Proof.
  intros (S0 & c & H) (S0' & c' & H').
  assert (E : forall t, ((t - m) / s) ^ 2 + c = ((t - m') / s') ^ 2 + c') by (intros t; rewrite <- H, <- H'; reflexivity).
  set (A := / s) in *. set (A' := / s') in *.
  assert (PA : 0 < A) by (apply Rinv_0_lt_compat; exact S0).
  assert (PA' : 0 < A') by (apply Rinv_0_lt_compat; exact S0').
  unfold Rdiv in E. fold A in E. fold A' in E.
  pose proof (E 0) as E0. pose proof (E 1) as E1. pose proof (E (-1)) as E2.
  assert (Q : A * A = A' * A') by nra.
  assert (AA : A = A').
  { assert (Z : (A - A') * (A + A') = 0) by lra. apply Rmult_integral in Z. lra. }
  split.
  - rewrite <- AA in *. assert (Z : (A * A) * (m - m') = 0) by nra.
    apply Rmult_integral in Z. destruct Z as [Z|Z]; [nra|lra].
  - rewrite <- (Rinv_inv s). rewrite <- (Rinv_inv s'). fold A A'. rewrite AA. reflexivity.
Qed.

Lemma gaussian_interp n mean S_ P lims i k x args us junk m s :
  symmetric n S_ -> positive_definite n S_ -> is_inverse n S_ P ->
  is_inverse (n - 1) (minor S_ i) (inv (n - 1)%nat (minor S_ i)) ->
  asks n i k x args -> conditional_gaussian n P mean x i m s ->
  interp PhiInv (make_cc inv Phi n mean S_ lims) args us junk =
      Ok (umap (fun p => m + s * PhiInv p)
           (uniform (Phi ((fst (lims i) - mean i) / s)) (Phi ((snd (lims i) - mean i) / s)) (Some k) false false us)).
Proof.
  intros SY PD IP IC A G.
  destruct (interp_conditional n mean S_ P lims i k x args us junk SY PD IP IC A) as (m' & s' & c & S0 & Q & E).
  assert (G' : conditional_gaussian n P mean x i m' s') by (split; [exact S0|exists c; exact Q]).
  destruct (gaussian_unique _ _ _ _ _ _ _ _ _ G G') as [-> ->]. exact E.
Qed.

Lemma limits_shift n mean S_ P lims i k x args us junk m s o y :
  symmetric n S_ -> positive_definite n S_ -> is_inverse n S_ P ->
  is_inverse (n - 1) (minor S_ i) (inv (n - 1)%nat (minor S_ i)) ->
  asks n i k x args -> conditional_gaussian n P mean x i m s ->
  fst (lims i) < snd (lims i) -> (forall j, 0 <= us j < 1) ->
  interp PhiInv (make_cc inv Phi n mean S_ lims) args us junk = Ok o -> sample_of o y ->
  fst (lims i) + (m - mean i) <= y <= snd (lims i) + (m - mean i).
Proof.
  intros SY PD IP IC A G L U E H.
  rewrite (gaussian_interp n mean S_ P lims i k x args us junk m s SY PD IP IC A G) in E. injection E as <-.
  apply (between_limits s (mean i) k us y m (fst (lims i)) (snd (lims i)) (proj1 G) L U H).
Qed.

Lemma limits_iff n mean S_ P lims i x args junk m s :
  symmetric n S_ -> positive_definite n S_ -> is_inverse n S_ P ->
  is_inverse (n - 1) (minor S_ i) (inv (n - 1)%nat (minor S_ i)) ->
  asks n i 0%Z x args -> conditional_gaussian n P mean x i m s ->
  fst (lims i) < snd (lims i) ->
  (forall us o y, (forall j, 0 <= us j < 1) ->
     interp PhiInv (make_cc inv Phi n mean S_ lims) args us junk = Ok o -> sample_of o y ->
     fst (lims i) <= y <= snd (lims i)) <-> m = mean i.
Proof.
  intros SY PD IP IC A G L. split.
  - intros H. set (d := m - mean i).
    assert (R : forall y, fst (lims i) + d <= y < snd (lims i) + d -> fst (lims i) <= y <= snd (lims i)).
    { intros y Y. destruct (reached s (mean i) y m (fst (lims i)) (snd (lims i)) (proj1 G) L Y) as (u & U & E).
      apply (H (fun _ => u) (UScalar y)); [intros _; exact U| |reflexivity].
      rewrite (gaussian_interp n mean S_ P lims i 0%Z x args (fun _ => u) junk m s SY PD IP IC A G).
      cbn [uniform umap]. rewrite E. reflexivity. }
    destruct (Rtotal_order d 0) as [N|[Z|Po]].
    + specialize (R (fst (lims i) + d)). lra.
    + unfold d in Z. lra.
    + specialize (R (Rmax (fst (lims i) + d) (snd (lims i) + d / 2))).
      unfold Rmax in R. destruct (Rle_dec _ _); lra.
  - intros -> us o y U E H.
    pose proof (limits_shift n mean S_ P lims i 0%Z x args us junk (mean i) s o y SY PD IP IC A G L U E H). lra.
Qed.

End Interp.

Lemma interp_gaussian inv Phi PhiInv n mean S_ P lims i k x args us junk :
  symmetric n S_ -> positive_definite n S_ -> is_inverse n S_ P ->
  is_inverse (n - 1) (minor S_ i) (inv (n - 1)%nat (minor S_ i)) ->
  asks n i k x args ->
  exists m s, conditional_gaussian n P mean x i m s /\
    m = mean i + Rsum (n - 1) (fun b => Rsum (n - 1) (fun a =>
          S_ i (skip i a) * inv (n - 1)%nat (minor S_ i) a b) * (x (skip i b) - mean (skip i b))) /\
    s ^ 2 = S_ i i - Rsum (n - 1) (fun b => Rsum (n - 1) (fun a =>
          S_ i (skip i a) * inv (n - 1)%nat (minor S_ i) a b) * S_ (skip i b) i) /\
    s ^ 2 = / P i i /\
    interp PhiInv (make_cc inv Phi n mean S_ lims) args us junk =
      Ok (umap (fun p => m + s * PhiInv p)
           (uniform (Phi ((fst (lims i) - mean i) / s)) (Phi ((snd (lims i) - mean i) / s)) (Some k) false false us)).
Proof.
  intros SY PD IP IC A.
  destruct (interp_conditional inv Phi PhiInv n mean S_ P lims i k x args us junk SY PD IP IC A) as (m & s & c & S0 & Q & E).
  pose proof A as (L & I & _ & _).
  assert (En : n = S (n - 1)) by lia.
  assert (IM : (i <= n - 1)%nat) by lia.
  assert (SP : 0 < cvar inv n S_ i).
  { apply (s2_pos (n - 1) i S_ (inv (n - 1)%nat (minor S_ i)) IM); rewrite <- ?En; assumption. }
  assert (PR : cvar inv n S_ i * P i i = 1).
  { apply (precision (n - 1) i S_ P (inv (n - 1)%nat (minor S_ i)) IM); rewrite <- ?En; assumption. }
  assert (SQ : sqrt (cvar inv n S_ i) ^ 2 = cvar inv n S_ i) by (rewrite <- Rsqr_pow2; apply Rsqr_sqrt; lra).
  assert (G : conditional_gaussian n P mean x i m s) by (split; [exact S0|exists c; exact Q]).
  exists (cmean inv n mean S_ x i), (sqrt (cvar inv n S_ i)). split.
  - assert (G2 : exists c, forall t, quad n P (fun j => at_ x i t j - mean j) = ((t - cmean inv n mean S_ x i) / sqrt (cvar inv n S_ i)) ^ 2 + c).
    2:{ split; [apply sqrt_lt_R0; exact SP|exact G2]. }
    exists (quad (n - 1) (inv (n - 1)%nat (minor S_ i)) (fun j => x (skip i j) - mean (skip i j))).
    apply (cond_quad inv n mean S_ P i k x args SY PD IP IC A).
  - split; [reflexivity|]. split; [exact SQ|]. split.
    + rewrite SQ. apply (Rmult_eq_reg_r (P i i)); [|intros Z; rewrite Z in PR; lra].
      rewrite PR. symmetry. apply Rinv_l. intros Z. rewrite Z in PR. lra.
    + apply interp_value. exact A.
Qed.

(** ** A concrete covariance: [[2,1],[1,2]], and a distribution function with a closed form *)
Definition ex_cov (j k : nat) : R := if Nat.eqb j k then 2 else 1.
Definition ex_prec (j k : nat) : R := if Nat.eqb j k then 2 / 3 else - 1 / 3.
Definition ex_inv (n : nat) (a : nat -> nat -> R) (j k : nat) : R := / a 0%nat 0%nat.
Definition logistic (x : R) : R := exp x / (1 + exp x).
Definition logit (p : R) : R := ln (p / (1 - p)).

Lemma ex_sym : symmetric 2 ex_cov.
Proof. intros j k _ _. unfold ex_cov. rewrite Nat.eqb_sym. reflexivity. Qed.

Lemma ex_pd : positive_definite 2 ex_cov.
Proof.
  intros x (j & J & NZ). unfold quad, ex_cov. cbn.
  assert (H : 0 < x 0%nat * x 0%nat + x 1%nat * x 1%nat).
  { destruct j as [|[|j]]; [| |lia]; pose proof (Rle_0_sqr (x 0%nat)); pose proof (Rle_0_sqr (x 1%nat));
      pose proof (Rsqr_pos_lt _ NZ); unfold Rsqr in *; lra. }
  pose proof (Rle_0_sqr (x 0%nat + x 1%nat)) as Q. unfold Rsqr in Q. lra.
Qed.

Lemma ex_is_inv : is_inverse 2 ex_cov ex_prec.
Proof.
  intros [|[|j]] [|[|k]] J K; try lia; cbn; unfold ex_cov, ex_prec, delta; cbn; split; field.
Qed.

Lemma ex_minor_inv i : (i < 2)%nat -> is_inverse (2 - 1) (minor ex_cov i) (ex_inv (2 - 1)%nat (minor ex_cov i)).
Proof.
  intros I [|j] [|k] J K; cbn in J, K; try lia. destruct i as [|[|i]]; [| |lia];
  cbn; unfold ex_inv, minor, ex_cov, delta; cbn; split; field.
Qed.

Lemma ex_asks x : asks 2 0 0%Z (fun _ => x) [CSet 0%Z; CNum x].
Proof. split; [reflexivity|]. split; [lia|]. split; [reflexivity|]. intros [|[|j]] J NE; try lia; reflexivity. Qed.

Lemma logistic_pos x : 0 < logistic x < 1.
Proof.
  unfold logistic. pose proof (exp_pos x). split.
  - apply Rdiv_lt_0_compat; lra.
  - apply (Rmult_lt_reg_r (1 + exp x)); [lra|]. unfold Rdiv. rewrite Rmult_assoc, Rinv_l; lra.
Qed.

Lemma logistic_pair : cdf_pair logistic logit.
Proof.
  assert (LT : forall x y, x < y -> logistic x < logistic y).
  { intros x y L. unfold logistic. pose proof (exp_pos x). pose proof (exp_pos y). apply exp_increasing in L.
    apply (Rmult_lt_reg_r ((1 + exp x) * (1 + exp y))); [nra|].
    replace (exp x / (1 + exp x) * ((1 + exp x) * (1 + exp y))) with (exp x * (1 + exp y)) by (field; lra).
    replace (exp y / (1 + exp y) * ((1 + exp x) * (1 + exp y))) with (exp y * (1 + exp x)) by (field; lra). nra. }
  split; [exact LT|]. split.
  - intros x. unfold logit, logistic. pose proof (exp_pos x).
    replace (exp x / (1 + exp x) / (1 - exp x / (1 + exp x))) with (exp x).
    + apply ln_exp.
    + field. lra.
  - intros p x y [A B]. pose proof (logistic_pos x). pose proof (logistic_pos y).
    unfold logit, logistic. rewrite exp_ln.
    + field. lra.
    + apply Rdiv_lt_0_compat; lra.
Qed.

Lemma ex_gaussian x : conditional_gaussian 2 ex_prec (fun _ => 0) (fun _ => x) 0 (x / 2) (sqrt (3 / 2)).
Proof.
  assert (P : 0 < sqrt (3 / 2)) by (apply sqrt_lt_R0; lra).
  assert (Q : sqrt (3 / 2) * sqrt (3 / 2) = 3 / 2) by (apply sqrt_sqrt; lra).
  split; [exact P|]. exists (x * x / 2). intros t. unfold quad, at_, ex_prec. cbn.
  replace ((t - x / 2) / sqrt (3 / 2) * ((t - x / 2) / sqrt (3 / 2) * 1))
    with ((t - x / 2) * (t - x / 2) / (sqrt (3 / 2) * sqrt (3 / 2))) by (field; lra).
  rewrite Q. field.
Qed.
