(** Putting a distribution on another scale (PD.rescaled). *)
From Coq Require Import Ascii String ZArith Reals Lra Bool Arith Lia Permutation List.
From Verif Require Import Base Num Tensor TensorBcast OdLemmas TensorLemmas RNumLemmas PScales PScales_Spec PScales_Proofs PScales_Prod
  Names Names_Spec Distr Distr_Spec PDModel PD_Spec PD_Sort_Spec PD_Rescaled_Spec PD_Sort PD_Marg PD_Examples PD_SortEx.
Import ListNotations.
Local Open Scope R_scope.

Section Rescaled.
Context {F : Fmt R}.

Lemma held_not_unit (p : pd R) n : laid_out p n -> ~ unit_log (spec_of (p_pscale p)).
Proof.
  intros V U. pose proof (eval_ok _ _ (lo_pscale _ _ V)) as O. unfold unit_log in U.
  destruct (p_pscale p) as [c|re im]; cbn in *; [discriminate|]. injection U as -> ->. apply O; auto.
Qed.

Lemma rescale_evaled (t : tensor R) s ps rs : eval_pscale s = Ok ps -> rescale t (spec_of ps) rs = rescale t s rs.
Proof. intros E. unfold rescale. rewrite (eval_idem _ _ E), E. reflexivity. Qed.

Lemma rescaled_layout (p : pd R) n s t : laid_out p n -> is_scale s ->
  p_prob p = Some t -> forall t', rescale t (spec_of (p_pscale p)) s = Ok t' -> shape t' = shape t ->
  exists q, rescaled p s = Ok q /\ laid_out q n /\ same_layout p q /\ eval_pscale s = Ok (p_pscale q) /\
    p_prob q = Some t'.
Proof.
  intros V IS Et t' Er Sh. destruct (lo_prob _ _ V) as (t0 & Et0 & St). rewrite Et0 in Et. injection Et as ->.
  destruct (eval_valid s IS) as [ps Hs].
  destruct (remake p n (p_vals p) t' s ps V) as (q & Eq & Vq & Q1 & Q2 & Q3 & Q4 & Q5 & Q6 & Q7 & Q8); auto.
  - intros k a C. exists a. auto.
  - congruence.
  - apply eval_idem with (s := s). exact Hs.
  - exists q. unfold rescaled, p_probR. rewrite Et0. cbn [bind]. rewrite Er. cbn [bind].
    split; [exact Eq|]. split; [exact Vq|]. split; [|split; [congruence|exact Q6]].
    unfold same_layout. do 5 (split; [assumption|]). intros k.
    destruct (in_dec string_dec k (p_keylist p)) as [I|I].
    + rewrite Q8 by exact I. unfold variable. destruct (od_get (p_vals p) k); reflexivity.
    + unfold variable. assert (I' : ~ In k (p_keylist q)) by congruence.
      apply od_get_none in I. apply od_get_none in I'.
      change (od_get (p_vals p) k = None) in I. change (od_get (p_vals q) k = None) in I'.
      rewrite I, I'. reflexivity.
Qed.

Lemma rescaled_keeps (p : pd R) (n : nat) (s : pspec R) : laid_out p n ->
  valid_scale (spec_of (p_pscale p)) -> valid_scale s -> ~ unit_log s -> no_tiny_gap (spec_of (p_pscale p)) s ->
  exists q, rescaled p s = Ok q /\ laid_out q n /\ same_layout p q /\
    factor (spec_of (p_pscale q)) = factor s /\ log_kind (spec_of (p_pscale q)) = log_kind s /\
    forall idx,
      (~ log_scaled p -> log_kind s = true -> npz <= prob_pos p idx / factor (spec_of (p_pscale p))) ->
      (log_scaled p -> log_kind s = false -> prob_pos p idx / factor s <= npi) ->
      prob_pos q idx = prob_pos p idx.
Proof.
  intros V Vp Vs Us G. destruct (lo_prob _ _ V) as (t & Et & St).
  destruct (rescale_preserves t _ s Vp Vs (held_not_unit p n V) Us G) as (t' & Er & Sh & D).
  destruct (rescaled_layout p n s t V (proj1 Vs) Et t' Er Sh) as (q & Eq & Vq & SL & Ev & Eq').
  exists q. split; [exact Eq|]. split; [exact Vq|]. split; [exact SL|].
  pose proof (eval_denote s (p_pscale q)) as ED.
  split; [apply (ED 0 Ev Us)|]. split; [apply (ED 0 Ev Us)|].
  intros idx H1 H2. unfold prob_pos in *. rewrite Eq', Et in *. rewrite (proj1 (ED _ Ev Us)).
  apply D.
  - intros K1 K2. rewrite <- (denote_held (spec_of (p_pscale p))) by assumption. apply H1; [|exact K2].
    unfold log_scaled. congruence.
  - intros K1 K2. apply H2; assumption.
Qed.

Lemma rescaled_back (p : pd R) (n : nat) (s : pspec R) : laid_out p n ->
  valid_scale (spec_of (p_pscale p)) -> valid_scale s -> ~ unit_log s -> no_tiny_gap (spec_of (p_pscale p)) s ->
  (forall idx, in_range (p_shape p) idx ->
     representable (spec_of (p_pscale p)) (prob_pos p idx) /\ representable s (prob_pos p idx)) ->
  exists q r t u, rescaled p s = Ok q /\ rescaled q (spec_of (p_pscale p)) = Ok r /\ same_layout p r /\
    p_pscale r = p_pscale p /\ p_prob p = Some t /\ p_prob r = Some u /\ teq u t.
Proof.
  intros V Vp Vs Us G Rep. destruct (lo_prob _ _ V) as (t & Et & St).
  destruct (rescale_round_trip t _ s Vp Vs (held_not_unit p n V) Us G) as (t1 & t2 & E1 & E2 & T).
  { intros idx I. rewrite St in I. specialize (Rep idx I). unfold prob_pos in Rep. rewrite Et in Rep. exact Rep. }
  destruct (rescale_preserves t _ s Vp Vs (held_not_unit p n V) Us G) as (t1' & E1' & Sh & _).
  rewrite E1 in E1'. injection E1' as <-.
  destruct (rescaled_layout p n s t V (proj1 Vs) Et t1 E1 Sh) as (q & Eq & Vq & SL & Ev & Eq').
  pose proof (rescale_evaled t1 s (p_pscale q) (spec_of (p_pscale p)) Ev) as RE. rewrite E2 in RE.
  destruct T as [T1 T2].
  destruct (rescaled_layout q n (spec_of (p_pscale p)) t1 Vq (proj1 Vp) Eq' t2 RE) as (r & Er & Vr & SL' & Ev' & Er').
  { congruence. }
  exists q, r, t, t2. split; [exact Eq|]. split; [exact Er|]. split.
  { unfold same_layout in *. destruct SL as (?&?&?&?&?&Hv), SL' as (?&?&?&?&?&Hv').
    do 5 (split; [congruence|]). intros k. rewrite Hv'. apply Hv. }
  split; [|split; [exact Et|split; [exact Er'|split; assumption]]].
  pose proof (lo_pscale _ _ V) as L. congruence.
Qed.
End Rescaled.

Lemma npz_le_sixth : npz <= / 6.
Proof.
  rewrite npz_eq. apply Rinv_le_contravar; [lra|]. apply IZR_le. change 6%Z with (6 * 2 ^ 0)%Z.
  apply Z.le_trans with (2 ^ 3)%Z; [cbn; lia|]. apply Z.pow_le_mono_r; lia.
Qed.

Section Ex.
Let F : Fmt R := fmt_ex.
Existing Instance F.

(** p(x,u|z) on the linear scale, to be put on the log scale with offset 2. *)
Lemma ex_rescaled : exists p, srt_make = Ok p /\ laid_out p 2 /\ valid_scale (spec_of (p_pscale p)) /\ ~ log_scaled p /\
  valid_scale (PSCplx 2 0) /\ ~ unit_log (PSCplx 2 0) /\ log_kind (PSCplx 2 0) = true /\
  no_tiny_gap (spec_of (p_pscale p)) (PSCplx 2 0) /\
  (forall idx, in_range (p_shape p) idx ->
     representable (spec_of (p_pscale p)) (prob_pos p idx) /\ representable (PSCplx 2 0) (prob_pos p idx)).
Proof.
  destruct srt_ok as (p & E & V & Sh & S & P & _). exists p. split; [exact E|]. split; [exact V|].
  unfold log_scaled. rewrite S. cbn [spec_of].
  assert (PZ : forall idx, prob_pos p idx = get srt_prob idx).
  { intros idx. unfold prob_pos. rewrite P, S. cbn [spec_of]. unfold denote. rewrite log_kind_one, factor_one. lra. }
  pose proof npz_pos. pose proof npz_lt_1. pose proof npi_big.
  split; [unfold valid_scale; cbn; split; [exact I|lra]|].
  split; [rewrite log_kind_one; discriminate|].
  split; [unfold valid_scale; cbn; auto|]. split; [intros U; inversion U; lra|]. split; [reflexivity|].
  split.
  { unfold no_tiny_gap. rewrite factor_one. cbn. unfold log_offset. rewrite Rabs_R0. destruct (Rlt_dec 0 npz); [|lra].
    rewrite ln_1, ln_exp. right. unfold Rminus. rewrite Rplus_0_l, Rabs_Ropp, Rabs_right by lra. lra. }
  intros idx _. rewrite PZ.
  assert (B : / 6 <= get srt_prob idx <= 1).
  { cbn. destruct idx as [|[|[|i]] [|j [|? ?]]]; lra. }
  unfold representable. split; (split; [lra|]).
  - intros _. rewrite factor_one. unfold Rdiv. rewrite Rinv_1, Rmult_1_r. pose proof npz_le_sixth. lra.
  - cbn. discriminate.
Qed.
End Ex.
