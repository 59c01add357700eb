(** Proofs about the Metropolis and Hastings scores at the reals. *)
From Coq Require Import String ZArith Reals Lra Lia Bool Arith List.
From Verif Require Import Base Num Tensor PScales PScales_Spec RNumLemmas PScales_Proofs PScales_Prod SPModel.
Import ListNotations.
Local Open Scope R_scope.

Definition plain1 (p : pscale R) (v : R) : R := resc1 p (Lin 1) v.

Lemma plain1_lin c v : plain1 (Lin c) v = c * v.
Proof.
  unfold plain1, resc1. cbn [is_log Bool.eqb andb pscale_eqb].
  destruct (n_eqb c 1) eqn:Q.
  - apply Reqb_iff in Q. subst. lra.
  - replace (c / 1) with c by lra. rewrite Q. reflexivity.
Qed.

Lemma plain1_log0 v : plain1 (Log 0 0) v = exp_logp1 v.
Proof.
  unfold plain1, resc1. cbn [is_log Bool.eqb andb p_offs].
  rewrite log_offset_0, ln_1, Rminus_0_r.
  assert (Z : n_leb npz (n_abs 0) = false).
  { apply Rleb_false_iff. rewrite n_abs_R, Rabs_R0. apply npz_pos. }
  rewrite Z. reflexivity.
Qed.

Lemma resc1_lin c v : resc1 (Lin c) (Lin 1) v = c * v.
Proof. exact (plain1_lin c v). Qed.

Lemma eval_unit : eval_pscale (PSFloat 1%R) = Ok (Lin 1).
Proof. cbn. rewrite Reqb_refl. reflexivity. Qed.

Lemma eval_linear (a : pspec R) : linear_scale a -> eval_pscale a = Ok (Lin (factor a)).
Proof.
  intros [V L]. destruct (eval_valid a (proj1 V)) as (p & E).
  assert (NU : ~ unit_log a) by (intros U; rewrite U in L; discriminate).
  destruct (eval_meaning a p E NU) as [K F]. rewrite L in K.
  destruct p as [c|re im]; [|cbn in K; discriminate]. rewrite E. cbn in F. subst. reflexivity.
Qed.

Lemma eval_log0 : eval_pscale (PSCplx 0%R 0%R) = Ok (Log 0 0).
Proof. apply (eval_spec_of (Log 0 0)). cbn. lra. Qed.

Lemma div_prob_scalar (a : pspec R) pa (s p : R) : eval_pscale a = Ok pa ->
  exists t, div_prob (tscalar s) (tscalar p) (Some (a, a)) (PSFloat n1) = Ok t /\
    scalar_of t = plain1 pa s / Rmax npz (plain1 pa p).
Proof.
  intros E. pose proof (eval_spec_of pa (eval_ok _ _ E)) as E'.
  destruct (rescale_resc1 (tscalar s) (spec_of pa) PSNone pa (Lin 1) E' eq_refl) as (ts & Es & Ss & Gs).
  destruct (rescale_resc1 (tscalar p) (spec_of pa) PSNone pa (Lin 1) E' eq_refl) as (tp & Ep & Sp & Gp).
  unfold div_prob. rewrite E. cbn [bind]. rn.
  assert (TR : truthy (PSFloat 1 : pspec R) = true).
  { cbn. apply negb_true_iff, Reqb_false_iff. rn. lra. }
  rewrite TR, Es, Ep. cbn [bind].
  destruct ts as [ss fs], tp as [sp fp]. cbn in Ss, Sp, Gs, Gp. subst ss sp.
  cbn -[rescale]. 
  match goal with |- exists t, rescale ?q _ _ = _ /\ _ =>
    destruct (rescale_resc1 q PSNone (PSFloat 1) (Lin 1) (Lin 1) eq_refl eval_unit) as (t & Et & St & Gt) end.
  exists t. split; auto. unfold scalar_of. rewrite Gt. rewrite resc1_lin.
  cbn. rewrite n_max_R, Gs, Gp. unfold plain1. rn. lra.
Qed.

Lemma metropolis_value (a : pspec R) pa (s p : R) : eval_pscale a = Ok pa ->
  metropolis_scores a (Some p) (Some s) = Ok (Some (Rmin 1 (plain1 pa s / Rmax npz (plain1 pa p)))).
Proof.
  intros E. unfold metropolis_scores. destruct (div_prob_scalar a pa s p E) as (t & Et & Gt).
  rewrite Et. cbn [bind]. rewrite Gt, n_min_R. reflexivity.
Qed.

(** Detailed balance of the clamped ratio. *)
Lemma clamped_balance z u v : 0 < z -> 0 <= u -> 0 <= v ->
  u * Rmin 1 (v / Rmax z u) = v * Rmin 1 (u / Rmax z v).
Proof.
  intros Z U V.
  assert (D : forall x y, 0 < y -> 0 <= x -> (x <= y -> Rmin 1 (x / y) = x / y) /\ (y <= x -> Rmin 1 (x / y) = 1)).
  { intros x y Y X. split; intros L.
    - apply Rmin_right. apply (Rmult_le_reg_r y); auto. unfold Rdiv. rewrite Rmult_assoc, Rinv_l, Rmult_1_r, Rmult_1_l; lra.
    - apply Rmin_left. apply (Rmult_le_reg_r y); auto. unfold Rdiv. rewrite Rmult_assoc, Rinv_l, Rmult_1_r, Rmult_1_l; lra. }
  assert (MU : 0 < Rmax z u) by (pose proof (Rmax_l z u); lra).
  assert (MV : 0 < Rmax z v) by (pose proof (Rmax_l z v); lra).
  destruct (D v (Rmax z u) MU V) as [A1 A2]. destruct (D u (Rmax z v) MV U) as [B1 B2].
  destruct (Rle_dec z u) as [ZU|ZU]; destruct (Rle_dec z v) as [ZV|ZV].
  - rewrite (Rmax_right z u), (Rmax_right z v) in * by lra.
    destruct (Rle_dec u v) as [L|L].
    + rewrite A2, B1 by lra. field. lra.
    + rewrite A1, B2 by lra. field. lra.
  - rewrite (Rmax_right z u), (Rmax_left z v) in * by lra. rewrite A1, B2 by lra. field. lra.
  - rewrite (Rmax_left z u), (Rmax_right z v) in * by lra. rewrite A2, B1 by lra. field. lra.
  - rewrite (Rmax_left z u), (Rmax_left z v) in * by lra. rewrite A1, B1 by lra. field. lra.
Qed.

Lemma metropolis_balance (a : pspec R) (x y : R) : linear_scale a -> 0 <= x -> 0 <= y ->
  exists axy ayx,
    metropolis_scores a (Some x) (Some y) = Ok (Some axy) /\
    metropolis_scores a (Some y) (Some x) = Ok (Some ayx) /\
    0 <= axy <= 1 /\ 0 <= ayx <= 1 /\
    denote a x * axy = denote a y * ayx /\
    (npz <= denote a x -> axy = Rmin 1 (denote a y / denote a x)).
Proof.
  intros LA X Y. pose proof (eval_linear a LA) as E. assert (F := factor_pos a (proj1 LA)).
  rewrite !(metropolis_value a _ _ _ E), !plain1_lin.
  assert (DN : forall v, denote a v = factor a * v).
  { intros v. unfold denote. rewrite (proj2 LA). reflexivity. }
  rewrite !DN.
  assert (PX : 0 <= factor a * x) by (apply Rmult_le_pos; lra).
  assert (PY : 0 <= factor a * y) by (apply Rmult_le_pos; lra).
  assert (UN : forall u v, 0 <= u -> 0 <= v -> 0 <= Rmin 1 (u / Rmax npz v) <= 1).
  { intros u v Hu Hv. split; [|apply Rmin_l]. apply Rmin_glb; [lra|].
    apply Rmult_le_pos; auto. left. apply Rinv_0_lt_compat.
    pose proof npz_pos. pose proof (Rmax_l npz v). lra. }
  eexists _, _. split; [reflexivity|]. split; [reflexivity|]. split; [auto|]. split; [auto|]. split.
  - apply clamped_balance; auto. apply npz_pos.
  - intros L. rewrite Rmax_right by auto. reflexivity.
Qed.

(** The update accepts with the score as probability: for a threshold t drawn
    from [0,1], exactly when t <= score. *)
Lemma metropolis_accepts_iff (s t : R) : metropolis_update (Some s) t = VTrue <-> t <= s.
Proof.
  unfold metropolis_update. destruct (n_leb t s) eqn:E.
  - apply Rleb_iff in E. tauto.
  - apply Rleb_false_iff in E. split; [discriminate|lra].
Qed.

Lemma hastings_value (x y q r : R) : 0 < q -> 0 < r ->
  hastings_scores (PSFloat 1) (Some x) (Some y) (Some q) (Some r) =
  Ok (Some (Rmin 1 (y * q / Rmax npz (x * r)))).
Proof.
  intros Q Rp. unfold hastings_scores. rn.
  destruct (rescale_resc1 (tscalar q) (PSFloat 1) (PSFloat 1) (Lin 1) (Lin 1) eval_unit eval_unit) as (tq & Eq & _ & Gq).
  destruct (rescale_resc1 (tscalar r) (PSFloat 1) (PSFloat 1) (Lin 1) (Lin 1) eval_unit eval_unit) as (tr & Er & _ & Gr).
  assert (Sq : scalar_of tq = q).
  { unfold scalar_of. rewrite Gq, resc1_lin. cbn. lra. }
  assert (Sr : scalar_of tr = r).
  { unfold scalar_of. rewrite Gr, resc1_lin. cbn. lra. }
  rewrite Eq. cbn [bind]. rewrite Sq, (proj2 (Rleb_false_iff q 0)) by lra.
  rewrite Er. cbn [bind]. rewrite Sr, (proj2 (Rleb_false_iff r 0)) by lra.
  destruct (div_prob_scalar (PSFloat 1) (Lin 1) (y * q) (x * r) eval_unit) as (t & Et & Gt).
  rn. rewrite Et. cbn [bind]. rewrite Gt, n_min_R, !plain1_lin, !Rmult_1_l. reflexivity.
Qed.

(** Balance holds for the reversed proposal densities, hence for the given ones
    only if they are equal. *)
Lemma hastings_balance (x y q r : R) : 0 < x -> 0 < y -> 0 < q -> 0 < r ->
  exists axy ayx,
    hastings_scores (PSFloat 1) (Some x) (Some y) (Some q) (Some r) = Ok (Some axy) /\
    hastings_scores (PSFloat 1) (Some y) (Some x) (Some r) (Some q) = Ok (Some ayx) /\
    (x * r) * axy = (y * q) * ayx /\
    ((x * q) * axy = (y * r) * ayx <-> q = r).
Proof.
  intros X Y Q Rp. rewrite !hastings_value by auto.
  eexists _, _. split; [reflexivity|]. split; [reflexivity|].
  set (u := x * r). set (v := y * q).
  assert (U : 0 < u) by (apply Rmult_lt_0_compat; auto).
  assert (V : 0 < v) by (apply Rmult_lt_0_compat; auto).
  assert (B : u * Rmin 1 (v / Rmax npz u) = v * Rmin 1 (u / Rmax npz v)).
  { apply clamped_balance; try lra. apply npz_pos. }
  split; auto.
  assert (AP : 0 < Rmin 1 (v / Rmax npz u)).
  { apply Rmin_glb_lt; [lra|]. apply Rmult_lt_0_compat; auto. apply Rinv_0_lt_compat.
    pose proof (Rmax_l npz u). pose proof npz_pos. lra. }
  set (A := Rmin 1 (v / Rmax npz u)) in *. set (C := Rmin 1 (u / Rmax npz v)) in *.
  split.
  - intros H. unfold u, v in B.
    (* multiply: x r A = y q C, x q A = y r C  ->  r^2 = q^2 *)
    assert (E : x * A * (q * q) = x * A * (r * r)).
    { replace (x * A * (q * q)) with (q * (x * q * A)) by ring. rewrite H.
      replace (x * A * (r * r)) with (r * (x * r * A)) by ring. rewrite B. ring. }
    assert (XA : x * A <> 0) by (apply Rgt_not_eq; apply Rmult_lt_0_compat; auto).
    apply Rmult_eq_reg_l in E; auto. apply Rsqr_inj; try lra. exact E.
  - intros ->. exact B.
Qed.

(** Log scale. *)
Lemma exp_logp1_small l : l <= ln npi -> exp_logp1 l = exp l.
Proof.
  intros H. unfold exp_logp1. rewrite (proj2 (Rleb_iff l log_npi)); auto.
Qed.

Lemma metropolis_log_iff (l l' : R) : l <= ln npi -> l' <= ln npi ->
  exists sc, metropolis_scores (PSCplx 0 0) (Some l) (Some l') = Ok (Some sc) /\
    sc = Rmin 1 (exp l' / Rmax npz (exp l)) /\
    (sc = Rmin 1 (exp (l' - l)) <-> ln npz <= l \/ ln npz <= l').
Proof.
  intros L L'. rewrite (metropolis_value _ _ _ _ eval_log0), !plain1_log0, !exp_logp1_small by auto.
  eexists. split; [reflexivity|]. split; [reflexivity|].
  pose proof npz_pos as Z. pose proof (exp_pos l) as P. pose proof (exp_pos l') as P'.
  assert (EZ : exp (ln npz) = npz) by (apply exp_ln; auto).
  assert (ED : exp (l' - l) = exp l' / exp l).
  { unfold Rminus. rewrite exp_plus, exp_Ropp. reflexivity. }
  rewrite ED.
  assert (GE : forall x y, 0 < y -> y <= x -> Rmin 1 (x / y) = 1).
  { intros x y Y XY. apply Rmin_left. apply (Rmult_le_reg_r y); auto.
    unfold Rdiv. rewrite Rmult_assoc, Rinv_l, Rmult_1_r, Rmult_1_l; lra. }
  assert (MON : forall u v, u <= v -> exp u <= exp v).
  { intros u v [H|H]; [left; apply exp_increasing; auto|subst; lra]. }
  split.
  - intros H. destruct (Rle_dec (ln npz) l) as [|N]; auto. right.
    destruct (Rle_dec (ln npz) l') as [|N']; auto. exfalso.
    assert (E1 : exp l < npz) by (rewrite <- EZ; apply exp_increasing; lra).
    assert (E2 : exp l' < npz) by (rewrite <- EZ; apply exp_increasing; lra).
    rewrite Rmax_left in H by lra.
    assert (S1 : exp l' / npz < 1).
    { apply (Rmult_lt_reg_r npz); auto. unfold Rdiv. rewrite Rmult_assoc, Rinv_l, Rmult_1_r, Rmult_1_l; lra. }
    assert (S2 : exp l' / npz < exp l' / exp l).
    { apply Rmult_lt_compat_l; auto. apply Rinv_lt_contravar; auto. apply Rmult_lt_0_compat; auto. }
    rewrite Rmin_right in H by lra.
    assert (exp l' / npz < Rmin 1 (exp l' / exp l)) by (apply Rmin_glb_lt; auto). lra.
  - intros [H|H].
    + rewrite Rmax_right; auto. rewrite <- EZ. auto.
    + destruct (Rle_dec (ln npz) l) as [K|K].
      * rewrite Rmax_right; auto. rewrite <- EZ. auto.
      * assert (E1 : exp l < npz) by (rewrite <- EZ; apply exp_increasing; lra).
        assert (E2 : npz <= exp l') by (rewrite <- EZ; auto).
        rewrite Rmax_left by lra. rewrite !GE; auto; lra.
Qed.

(** On the log scale the probabilities of the proposal multiply the log
    probabilities. *)
Lemma hastings_log_value (l l' q r : R) : q <= ln npi -> r <= ln npi ->
  hastings_scores (PSCplx 0 0) (Some l) (Some l') (Some q) (Some r) =
  Ok (Some (Rmin 1 (exp_logp1 (l' * exp q) / Rmax npz (exp_logp1 (l * exp r))))).
Proof.
  intros Q Rp. unfold hastings_scores. rn.
  destruct (rescale_resc1 (tscalar q) (PSCplx 0 0) (PSFloat 1) (Log 0 0) (Lin 1) eval_log0 eval_unit) as (tq & Eq & _ & Gq).
  destruct (rescale_resc1 (tscalar r) (PSCplx 0 0) (PSFloat 1) (Log 0 0) (Lin 1) eval_log0 eval_unit) as (tr & Er & _ & Gr).
  assert (Sq : scalar_of tq = exp q).
  { unfold scalar_of. rewrite Gq. exact (eq_trans (plain1_log0 q) (exp_logp1_small q Q)). }
  assert (Sr : scalar_of tr = exp r).
  { unfold scalar_of. rewrite Gr. exact (eq_trans (plain1_log0 r) (exp_logp1_small r Rp)). }
  rewrite Eq. cbn [bind]. rewrite Sq, (proj2 (Rleb_false_iff (exp q) 0)) by apply exp_pos.
  rewrite Er. cbn [bind]. rewrite Sr, (proj2 (Rleb_false_iff (exp r) 0)) by apply exp_pos.
  destruct (div_prob_scalar (PSCplx 0 0) (Log 0 0) (l' * exp q) (l * exp r) eval_log0) as (t & Et & Gt).
  rn. rewrite Et. cbn [bind]. rewrite Gt, n_min_R, !plain1_log0. reflexivity.
Qed.

Lemma hastings_log_symmetric (l l' d : R) :
  0 < d <= npi -> ln npz <= d * l <= ln npi -> ln npz <= d * l' <= ln npi ->
  exists axy ayx,
    hastings_scores (PSCplx 0 0) (Some l) (Some l') (Some (ln d)) (Some (ln d)) = Ok (Some axy) /\
    hastings_scores (PSCplx 0 0) (Some l') (Some l) (Some (ln d)) (Some (ln d)) = Ok (Some ayx) /\
    axy = Rmin 1 (exp (d * (l' - l))) /\
    (exp l * axy = exp l' * ayx <-> l = l' \/ d = 1).
Proof.
  intros D L L'.
  assert (Q : ln d <= ln npi).
  { destruct D as [D1 [D2|D2]]; [left; apply ln_increasing; auto|subst; lra]. }
  rewrite !hastings_log_value by auto. rewrite exp_ln by lra.
  replace (l' * d) with (d * l') by ring. replace (l * d) with (d * l) by ring.
  rewrite !exp_logp1_small by lra.
  assert (MON : forall u v, u <= v -> exp u <= exp v).
  { intros u v [H|H]; [left; apply exp_increasing; auto|subst; lra]. }
  assert (EZ : exp (ln npz) = npz) by (apply exp_ln, npz_pos).
  rewrite !Rmax_right by (rewrite <- EZ; apply MON; lra).
  assert (DV : forall u v, exp u / exp v = exp (u - v)).
  { intros u v. unfold Rminus. rewrite exp_plus, exp_Ropp. reflexivity. }
  rewrite !DV. eexists _, _. split; [reflexivity|]. split; [reflexivity|].
  split; [f_equal; f_equal; ring|].
  replace (d * l' - d * l) with (d * (l' - l)) by ring.
  replace (d * l - d * l') with (d * (l - l')) by ring.
  assert (MIN : forall u, Rmin 1 (exp u) = exp (Rmin 0 u)).
  { intros u. unfold Rmin. destruct (Rle_dec 0 u) as [H|H].
    - rewrite exp_0. destruct (Rle_dec 1 (exp u)) as [K|K]; auto.
      exfalso. apply K. rewrite <- exp_0. apply MON. auto.
    - destruct (Rle_dec 1 (exp u)) as [K|K]; auto. exfalso.
      assert (exp u < exp 0) by (apply exp_increasing; lra). rewrite exp_0 in *. lra. }
  rewrite !MIN, <- !exp_plus. split.
  - intros H. apply exp_inv in H.
    destruct (Rtotal_order l l') as [LT|[E|GT]]; auto; right.
    + rewrite Rmin_left in H by (apply Rmult_le_pos; lra).
      rewrite Rmin_right in H.
      2:{ replace (d * (l - l')) with (- (d * (l' - l))) by ring.
          assert (0 <= d * (l' - l)) by (apply Rmult_le_pos; lra). lra. }
      assert (K : (l' - l) * d = (l' - l) * 1) by lra. apply Rmult_eq_reg_l in K; lra.
    + rewrite (Rmin_left 0 (d * (l - l'))) in H by (apply Rmult_le_pos; lra).
      rewrite Rmin_right in H.
      2:{ replace (d * (l' - l)) with (- (d * (l - l'))) by ring.
          assert (0 <= d * (l - l')) by (apply Rmult_le_pos; lra). lra. }
      assert (K : (l - l') * d = (l - l') * 1) by lra. apply Rmult_eq_reg_l in K; lra.
  - intros [-> | ->]; [reflexivity|]. f_equal. rewrite !Rmult_1_l.
    destruct (Rle_dec l l').
    + rewrite Rmin_left, Rmin_right by lra. lra.
    + rewrite Rmin_right, Rmin_left by lra. lra.
Qed.

Lemma no_predecessor :
  (forall (a : pspec R) s, metropolis_scores a None (Some s) = Ok None) /\
  (forall (a : pspec R) s q r, hastings_scores a None (Some s) q r = Ok None) /\
  (forall t : R, metropolis_update None t = VTrue).
Proof. repeat split; reflexivity. Qed.
