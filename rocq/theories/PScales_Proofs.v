(** Proofs about pscales.py at the reals. *)
From Coq Require Import String ZArith Reals Lra Lia Bool Arith List.
From Verif Require Import Base Num Tensor PScales PScales_Spec RNumLemmas.
Import ListNotations.
Local Open Scope R_scope.

(** *** eval_pscale *)

Lemma eval_valid (s : pspec R) :
  is_scale s -> exists p, eval_pscale s = Ok p.
Proof.
  destruct s; cbn; intros H; try (eexists; reflexivity); try contradiction.
  - destruct (Z.eqb z 1); [|destruct (Z.eqb z 0)]; eexists; reflexivity.
  - destruct (n_eqb x n1); [|destruct (n_eqb x n0)]; eexists; reflexivity.
  - destruct (n_eqb re n1 && n_eqb im n0); [|destruct (n_eqb re n0 && n_eqb im n0)];
      eexists; reflexivity.
  - destruct H; subst; cbn; eexists; reflexivity.
Qed.

Lemma eval_invalid (s : pspec R) :
  ~ is_scale s -> eval_pscale s = Err ValueError.
Proof.
  destruct s; cbn; intros H; try (exfalso; apply H; exact I); auto.
  destruct (String.eqb s "log") eqn:E1.
  { apply String.eqb_eq in E1. exfalso; auto. }
  destruct (String.eqb s "ln") eqn:E2.
  { apply String.eqb_eq in E2. exfalso; auto. }
  reflexivity.
Qed.

(** Offset and coefficient of an evaluated scale. *)
Definition p_offs (p : pscale R) : R :=
  match p with Lin c => ln c | Log re im => log_offset re im end.

Definition p_fac (p : pscale R) : R :=
  match p with Lin c => c | Log re im => exp (log_offset re im) end.

Definition p_den (p : pscale R) (v : R) : R :=
  match p with Lin c => c * v | Log re im => exp (v + log_offset re im) end.

Definition p_ok (p : pscale R) : Prop :=
  match p with
  | Lin c => c <> 0
  | Log re im => ~ (re = 1 /\ im = 0)
  end.

Lemma log_offset_0 : log_offset 0 0 = 0.
Proof. unfold log_offset. destruct Rlt_dec; lra. Qed.

Lemma eqb_pair_iff (a b c d : R) :
  n_eqb a b && n_eqb c d = true <-> a = b /\ c = d.
Proof. rewrite andb_true_iff, !Reqb_iff. tauto. Qed.

Lemma eqb_pair_false (a b c d : R) :
  n_eqb a b && n_eqb c d = false <-> ~ (a = b /\ c = d).
Proof.
  rewrite <- eqb_pair_iff. destruct (n_eqb a b && n_eqb c d); split; intuition congruence.
Qed.

(** Evaluation is stable on evaluated scales satisfying [p_ok]. *)
Lemma eval_spec_of (p : pscale R) : p_ok p -> eval_pscale (spec_of p) = Ok p.
Proof.
  destruct p as [c|re im]; cbn; intros H.
  - destruct (n_eqb c n1) eqn:E1.
    + apply Reqb_iff in E1. subst. reflexivity.
    + destruct (n_eqb c n0) eqn:E0; [|reflexivity].
      apply Reqb_iff in E0. contradiction.
  - destruct (n_eqb re n1 && n_eqb im n0) eqn:E1.
    + apply eqb_pair_iff in E1. contradiction.
    + destruct (n_eqb re n0 && n_eqb im n0) eqn:E0; [|reflexivity].
      apply eqb_pair_iff in E0. destruct E0; subst. reflexivity.
Qed.

Lemma eval_ok (s : pspec R) p : eval_pscale s = Ok p -> p_ok p.
Proof.
  destruct s; cbn; intros H.
  - inversion H; cbn. rlra.
  - destruct (Z.eqb z 1) eqn:E1; [|destruct (Z.eqb z 0) eqn:E0]; inversion H; cbn; try rlra.
    apply Z.eqb_neq in E0. intros E. apply (eq_IZR z 0) in E. contradiction.
  - destruct (n_eqb x n1) eqn:E1; [|destruct (n_eqb x n0) eqn:E0]; inversion H; cbn; try rlra.
    apply Reqb_false_iff in E0. exact E0.
  - destruct (n_eqb re n1 && n_eqb im n0) eqn:E1;
      [|destruct (n_eqb re n0 && n_eqb im n0) eqn:E0]; inversion H; cbn; try rlra.
    apply eqb_pair_false in E1. exact E1.
  - destruct (String.eqb s "log" || String.eqb s "ln"); inversion H; cbn. rlra.
  - discriminate.
Qed.

(** The evaluated scale keeps kind, factor and denotation, except for 1+0j. *)
Lemma eval_meaning (s : pspec R) p :
  eval_pscale s = Ok p -> ~ unit_log s ->
  is_log p = log_kind s /\ p_fac p = factor s.
Proof.
  unfold unit_log.
  destruct s; cbn; intros H U.
  - inversion H; cbn; auto.
  - destruct (Z.eqb z 1) eqn:E1.
    + apply Z.eqb_eq in E1. subst. inversion H; cbn; auto.
    + destruct (Z.eqb z 0) eqn:E0; inversion H; cbn; auto.
      rn; rewrite log_offset_0, exp_0. auto.
  - destruct (n_eqb x n1) eqn:E1.
    + apply Reqb_iff in E1. subst. inversion H. cbn -[Req_EM_T]. rn.
      destruct (Req_EM_T 1 0); [lra|auto].
    + destruct (n_eqb x n0) eqn:E0; inversion H; cbn -[Req_EM_T].
      * apply Reqb_iff in E0. rewrite n0_R in E0. subst.
        destruct (Req_EM_T 0 0); [|lra]. rn; rewrite log_offset_0, exp_0. auto.
      * apply Reqb_false_iff in E0. rewrite n0_R in E0.
        destruct (Req_EM_T x 0); [contradiction|auto].
  - destruct (n_eqb re n1 && n_eqb im n0) eqn:E1.
    + apply eqb_pair_iff in E1. destruct E1 as [E1 E2].
      rewrite n1_R in E1; rewrite n0_R in E2. subst. contradiction.
    + destruct (n_eqb re n0 && n_eqb im n0) eqn:E0; inversion H; cbn; auto.
      apply eqb_pair_iff in E0. destruct E0 as [E0 E2]. subst. cbn. auto.
  - destruct (String.eqb s "log" || String.eqb s "ln"); inversion H; cbn.
    rn; rewrite log_offset_0, exp_0. auto.
  - discriminate.
Qed.

Lemma factor_pos (s : pspec R) : valid_scale s -> 0 < factor s.
Proof.
  unfold valid_scale. destruct s; cbn -[Req_EM_T]; intros [_ H]; try lra.
  - destruct (Z.eqb z 0) eqn:E; [lra|]. apply Z.eqb_neq in E. apply (IZR_lt 0). lia.
  - destruct (Req_EM_T x 0); lra.
  - apply exp_pos.
Qed.

Lemma p_den_denote (s : pspec R) p v :
  eval_pscale s = Ok p -> ~ unit_log s -> p_den p v = denote s v.
Proof.
  intros H U. destruct (eval_meaning _ _ H U) as [K Fc]. unfold denote.
  rewrite <- K, <- Fc. destruct p; cbn; auto.
  rewrite <- exp_plus. f_equal. lra.
Qed.

Lemma p_fac_offs (p : pscale R) : 0 < p_fac p -> ln (p_fac p) = p_offs p.
Proof. destruct p; cbn; intros; auto. apply ln_exp. Qed.

Lemma logp_offs_spec (p : pscale R) :
  p_ok p -> logp_offs (spec_of p) = Ok (p_offs p).
Proof.
  intros H. unfold logp_offs. rewrite eval_spec_of by auto. cbn.
  destruct p as [c|re im]; cbn; auto.
  unfold log_offset. rewrite n_abs_R.
  destruct (Rlt_dec (Rabs im) npz) as [L|L].
  - apply Rltb_iff in L. rewrite L. reflexivity.
  - assert (E : n_ltb (Rabs im) npz = false) by (apply Rltb_false_iff; lra).
    rewrite E, n_opp_R. reflexivity.
Qed.

Lemma prob_coef_spec (p : pscale R) :
  p_ok p -> prob_coef (spec_of p) = Ok (p_fac p).
Proof.
  intros H. unfold prob_coef. rewrite eval_spec_of by auto. cbn.
  destruct p as [c|re im]; cbn; auto.
  unfold log_offset. rewrite n_abs_R.
  destruct (Rlt_dec (Rabs im) npz) as [L|L].
  - apply Rltb_iff in L. rewrite L. reflexivity.
  - assert (E : n_ltb (Rabs im) npz = false) by (apply Rltb_false_iff; lra).
    rewrite E, n_opp_R. reflexivity.
Qed.

(** *** rescale on one number *)

Definition resc1 (p r : pscale R) (v : R) : R :=
  if Bool.eqb (is_log p) (is_log r) && pscale_eqb p r then v
  else match p, r with
       | Lin c, Lin d => if n_eqb (c / d) 1 then v else c / d * v
       | _, _ =>
           let v1 := if is_log p then v else log_prob1 v in
           let d := p_offs p - p_offs r in
           let v2 := if n_leb npz (n_abs d) then v1 + d else v1 in
           if is_log r then v2 else exp_logp1 v2
       end.

Lemma rescale_resc1 (prob : tensor R) ps rs p r :
  eval_pscale ps = Ok p -> eval_pscale rs = Ok r ->
  exists t, rescale prob ps rs = Ok t /\ shape t = shape prob /\
            forall idx, get t idx = resc1 p r (get prob idx).
Proof.
  intros Hp Hr. pose proof (eval_ok _ _ Hp) as Op. pose proof (eval_ok _ _ Hr) as Or.
  unfold rescale, resc1. rewrite Hp, Hr. cbn [bind].
  destruct (Bool.eqb (is_log p) (is_log r) && pscale_eqb p r).
  { eexists; split; [reflexivity|]; auto. }
  rewrite !logp_offs_spec by auto. cbn [bind].
  destruct p as [c|re im], r as [d|re' im']; cbn [is_log].
  - rn. destruct (n_eqb (c / d) 1) eqn:E;
      (eexists; split; [reflexivity|]; cbn; auto).
  - change (n_sub (p_offs (Lin c)) (p_offs (Log re' im')))
      with (p_offs (Lin c) - p_offs (Log re' im')).
    destruct (n_leb npz (n_abs (p_offs (Lin c) - p_offs (Log re' im'))));
      (eexists; split; [reflexivity|]; cbn; auto).
  - change (n_sub (p_offs (Log re im)) (p_offs (Lin d)))
      with (p_offs (Log re im) - p_offs (Lin d)).
    destruct (n_leb npz (n_abs (p_offs (Log re im) - p_offs (Lin d))));
      (eexists; split; [reflexivity|]; cbn; auto).
  - change (n_sub (p_offs (Log re im)) (p_offs (Log re' im')))
      with (p_offs (Log re im) - p_offs (Log re' im')).
    destruct (n_leb npz (n_abs (p_offs (Log re im) - p_offs (Log re' im'))));
      (eexists; split; [reflexivity|]; cbn; auto).
Qed.

Lemma pscale_eqb_eq (p r : pscale R) : pscale_eqb p r = true -> p = r.
Proof.
  destruct p, r; cbn; try discriminate.
  - intros H. apply Reqb_iff in H. subst. reflexivity.
  - intros H. apply eqb_pair_iff in H. destruct H; subst. reflexivity.
Qed.

(** Conditions under which no clamping happens. *)
Definition p_gap (p r : pscale R) : Prop :=
  p_offs p = p_offs r \/ npz <= Rabs (p_offs p - p_offs r).

Lemma gap_shift (p r : pscale R) (v : R) :
  p_gap p r ->
  (if n_leb npz (n_abs (p_offs p - p_offs r)) then v + (p_offs p - p_offs r) else v)
  = v + (p_offs p - p_offs r).
Proof.
  intros [E|G]; rewrite n_abs_R.
  - destruct (n_leb npz (Rabs (p_offs p - p_offs r))); lra.
  - apply Rleb_iff in G. rewrite G. reflexivity.
Qed.

Lemma exp_minus_ln c x : 0 < c -> exp (x - ln c) = exp x / c.
Proof.
  intros. unfold Rminus. rewrite exp_plus, exp_Ropp, exp_ln by auto. reflexivity.
Qed.

Lemma resc1_den (p r : pscale R) (v : R) :
  0 < p_fac p -> 0 < p_fac r -> p_gap p r ->
  (is_log p = false -> is_log r = true -> npz <= v) ->
  (is_log p = true -> is_log r = false -> p_den p v / p_fac r <= npi) ->
  p_den r (resc1 p r v) = p_den p v.
Proof.
  intros Fp Fr G Lo Hi. unfold resc1.
  destruct (Bool.eqb (is_log p) (is_log r) && pscale_eqb p r) eqn:E.
  { apply andb_true_iff in E. destruct E as [_ E]. apply pscale_eqb_eq in E. subst. reflexivity. }
  clear E.
  destruct p as [c|re im], r as [d|re' im'].
  - cbn in Fp, Fr. cbn [p_den]. destruct (n_eqb (c / d) 1) eqn:E1.
    + apply Reqb_iff in E1. assert (c = d) by (apply (Rmult_eq_reg_r (/ d));
        [rewrite Rinv_r; unfold Rdiv in E1; lra | apply Rinv_neq_0_compat; lra]).
      subst. reflexivity.
    + field. lra.
  - cbn [is_log]. cbv zeta. rewrite gap_shift by auto. cbn [p_den p_offs].
    cbn [is_log] in Lo. specialize (Lo eq_refl eq_refl).
    unfold log_prob1. assert (E : n_leb npz v = true) by (apply Rleb_iff; auto). rewrite E.
    cbn in Fp. pose proof npz_pos. change (n_ln v) with (ln v).
    replace (ln v + (ln c - log_offset re' im') + log_offset re' im') with (ln c + ln v) by lra.
    rewrite exp_plus, !exp_ln; lra.
  - cbn [is_log]. cbv zeta. rewrite gap_shift by auto. cbn [p_den p_offs].
    cbn [is_log p_den p_fac] in Hi. specialize (Hi eq_refl eq_refl). cbn in Fr.
    unfold exp_logp1.
    replace (v + (log_offset re im - ln d)) with (v + log_offset re im - ln d) by lra.
    assert (E : n_leb (v + log_offset re im - ln d) log_npi = true).
    { apply Rleb_iff. rewrite log_npi_eq.
      rewrite <- (ln_exp (v + log_offset re im - ln d)).
      rewrite exp_minus_ln by auto.
      destruct Hi as [Hi|Hi].
      - left. apply ln_increasing; auto. apply Rdiv_lt_0_compat; [apply exp_pos|auto].
      - rewrite Hi. lra. }
    rewrite E. change (n_exp (v + log_offset re im - ln d)) with (exp (v + log_offset re im - ln d)).
    rewrite exp_minus_ln by auto. field. lra.
  - cbn [is_log]. cbv zeta. rewrite gap_shift by auto. cbn [p_den p_offs]. f_equal. lra.
Qed.

Lemma gap_spec (s t : pspec R) p r :
  eval_pscale s = Ok p -> eval_pscale t = Ok r ->
  valid_scale s -> valid_scale t -> ~ unit_log s -> ~ unit_log t ->
  no_tiny_gap s t -> p_gap p r.
Proof.
  intros Hs Ht Vs Vt Us Ut. unfold no_tiny_gap, p_gap.
  destruct (eval_meaning _ _ Hs Us) as [_ Fs].
  destruct (eval_meaning _ _ Ht Ut) as [_ Ft].
  rewrite <- Fs, <- Ft.
  rewrite !p_fac_offs; auto.
  - rewrite Ft. apply factor_pos; auto.
  - rewrite Fs. apply factor_pos; auto.
Qed.

(** C01 *)
Lemma rescale_preserves (prob : tensor R) (s t : pspec R) :
  valid_scale s -> valid_scale t -> ~ unit_log s -> ~ unit_log t ->
  no_tiny_gap s t ->
  exists prob', rescale prob s t = Ok prob' /\ shape prob' = shape prob /\
    forall idx,
      (log_kind s = false -> log_kind t = true -> npz <= get prob idx) ->
      (log_kind s = true -> log_kind t = false ->
         denote s (get prob idx) / factor t <= npi) ->
      denote t (get prob' idx) = denote s (get prob idx).
Proof.
  intros Vs Vt Us Ut G.
  destruct (eval_valid s (proj1 Vs)) as [p Hp].
  destruct (eval_valid t (proj1 Vt)) as [r Hr].
  destruct (rescale_resc1 prob s t p r Hp Hr) as (t' & E & Sh & Gt).
  exists t'. split; [auto|]. split; [auto|]. intros idx Lo Hi.
  rewrite <- (p_den_denote t r) by auto. rewrite <- (p_den_denote s p) by auto.
  rewrite Gt.
  destruct (eval_meaning _ _ Hp Us) as [Kp Fp].
  destruct (eval_meaning _ _ Hr Ut) as [Kr Fr].
  apply resc1_den.
  - rewrite Fp. apply factor_pos; auto.
  - rewrite Fr. apply factor_pos; auto.
  - eapply gap_spec; eauto.
  - rewrite Kp, Kr. exact Lo.
  - rewrite Kp, Kr, Fr. rewrite (p_den_denote s p) by auto. exact Hi.
Qed.

(** Without any assumption on the gap the result is off by a factor within one
    smallest positive float of one (in the exponent). *)
Lemma rescale_nearly_preserves (prob : tensor R) (s t : pspec R) :
  valid_scale s -> valid_scale t -> ~ unit_log s -> ~ unit_log t ->
  exists prob', rescale prob s t = Ok prob' /\ shape prob' = shape prob /\
    forall idx,
      (log_kind s = false -> log_kind t = true -> npz <= get prob idx) ->
      (log_kind s = true -> log_kind t = false ->
         denote s (get prob idx) / factor t * exp npz <= npi) ->
      exists e, Rabs e < npz /\
        denote t (get prob' idx) = denote s (get prob idx) * exp e.
Proof.
  intros Vs Vt Us Ut.
  destruct (eval_valid s (proj1 Vs)) as [p Hp].
  destruct (eval_valid t (proj1 Vt)) as [r Hr].
  destruct (rescale_resc1 prob s t p r Hp Hr) as (t' & E & Sh & Gt).
  exists t'. split; [auto|]. split; [auto|]. intros idx Lo Hi.
  rewrite <- (p_den_denote t r) by auto. rewrite <- (p_den_denote s p) by auto.
  rewrite Gt. set (v := get prob idx) in *.
  destruct (eval_meaning _ _ Hp Us) as [Kp Fp].
  destruct (eval_meaning _ _ Hr Ut) as [Kr Fr].
  rewrite <- (p_den_denote s p) in Hi by auto.
  rewrite <- Kp, <- Kr in Lo, Hi. rewrite <- Fr in Hi.
  assert (P1 : 0 < p_fac p) by (rewrite Fp; apply factor_pos; auto).
  assert (P2 : 0 < p_fac r) by (rewrite Fr; apply factor_pos; auto).
  pose proof npz_pos as Z.
  destruct (Rle_lt_dec npz (Rabs (p_offs p - p_offs r))) as [G|G].
  - exists 0. rewrite exp_0, Rabs_R0. split; [auto|].
    rewrite Rmult_1_r. apply resc1_den; auto.
    + right; auto.
    + intros A B. specialize (Hi A B).
      assert (1 < exp npz) by (rewrite <- exp_0; apply exp_increasing; auto).
      assert (0 < p_den p v / p_fac r).
      { apply Rdiv_lt_0_compat; auto. destruct p; [discriminate|]. cbn. apply exp_pos. }
      nra.
  - destruct (is_log p || is_log r) eqn:LL.
    2: { apply orb_false_iff in LL. destruct LL as [L1 L2].
         destruct p as [c|]; [|discriminate]. destruct r as [d|]; [|discriminate].
         exists 0. rewrite exp_0, Rabs_R0, Rmult_1_r. split; [auto|].
         unfold resc1. cbn [is_log p_den p_fac] in *.
         destruct (Bool.eqb false false && pscale_eqb (Lin c) (Lin d)) eqn:Eq.
         { apply andb_true_iff in Eq. destruct Eq as [_ Eq]. apply pscale_eqb_eq in Eq.
           inversion Eq; subst. reflexivity. }
         destruct (n_eqb (c / d) 1) eqn:E1.
         - apply Reqb_iff in E1. assert (c = d) by (apply (Rmult_eq_reg_r (/ d));
             [rewrite Rinv_r; unfold Rdiv in E1; lra | apply Rinv_neq_0_compat; lra]).
           congruence.
         - field. lra. }
    exists (p_offs r - p_offs p). split.
    { rewrite Rabs_minus_sym. auto. }
    unfold resc1.
    destruct (Bool.eqb (is_log p) (is_log r) && pscale_eqb p r) eqn:Eq.
    { apply andb_true_iff in Eq. destruct Eq as [_ Eq]. apply pscale_eqb_eq in Eq. subst.
      unfold Rminus. rewrite Rplus_opp_r, exp_0. lra. }
    assert (NG : n_leb npz (n_abs (p_offs p - p_offs r)) = false).
    { rewrite n_abs_R. apply Rleb_false_iff. auto. }
    rewrite NG.
    destruct p as [c|re im], r as [d|re' im']; cbn [is_log p_den p_offs p_fac] in *; cbv zeta;
      try discriminate.
    + specialize (Lo eq_refl eq_refl). unfold log_prob1.
      assert (E1 : n_leb npz v = true) by (apply Rleb_iff; auto). rewrite E1.
      change (n_ln v) with (ln v).
      unfold Rminus. rewrite !exp_plus, exp_Ropp, !exp_ln by lra. field. lra.
    + specialize (Hi eq_refl eq_refl). unfold exp_logp1.
      assert (E1 : n_leb v log_npi = true).
      { apply Rleb_iff. rewrite log_npi_eq, <- (ln_exp v).
        assert (exp v <= npi).
        { replace v with ((v + log_offset re im - ln d) + (ln d - log_offset re im)) by lra.
          rewrite exp_plus, exp_minus_ln by auto.
          eapply Rle_trans; [|exact Hi].
          apply Rmult_le_compat_l.
          - left. apply Rdiv_lt_0_compat; [apply exp_pos|auto].
          - left. apply exp_increasing. rewrite Rabs_minus_sym in G.
            pose proof (Rle_abs (ln d - log_offset re im)). lra. }
        destruct H as [H|H]; [left; apply ln_increasing; auto; apply exp_pos | rewrite H; lra]. }
      rewrite E1. change (n_exp v) with (exp v).
      unfold Rminus. rewrite !exp_plus, exp_Ropp, exp_ln by auto.
      field. apply Rgt_not_eq, exp_pos.
    + rewrite <- exp_plus. f_equal. lra.
Qed.

(** Denotation is injective under a valid scale. *)
Lemma denote_inj (s : pspec R) u v :
  valid_scale s -> denote s u = denote s v -> u = v.
Proof.
  intros V E. pose proof (factor_pos s V). unfold denote in E.
  apply Rmult_eq_reg_l in E; [|lra].
  destruct (log_kind s); auto. apply exp_inv. exact E.
Qed.

Lemma denote_held (s : pspec R) v :
  valid_scale s -> log_kind s = false -> denote s v / factor s = v.
Proof.
  intros V K. pose proof (factor_pos s V). unfold denote. rewrite K. field. lra.
Qed.

(** C02 *)
Lemma rescale_path (prob : tensor R) (s t u : pspec R) :
  valid_scale s -> valid_scale t -> valid_scale u ->
  ~ unit_log s -> ~ unit_log t -> ~ unit_log u ->
  no_tiny_gap s t -> no_tiny_gap t u -> no_tiny_gap s u ->
  (forall idx, in_range (shape prob) idx ->
     representable s (denote s (get prob idx)) /\
     representable t (denote s (get prob idx)) /\
     representable u (denote s (get prob idx))) ->
  exists p1 p2 p3,
    rescale prob s t = Ok p1 /\ rescale p1 t u = Ok p2 /\ rescale prob s u = Ok p3 /\
    teq p2 p3 /\ shape p2 = shape prob.
Proof.
  intros Vs Vt Vu Us Ut Uu G1 G2 G3 Rep.
  destruct (rescale_preserves prob s t Vs Vt Us Ut G1) as (p1 & E1 & S1 & D1).
  destruct (rescale_preserves p1 t u Vt Vu Ut Uu G2) as (p2 & E2 & S2 & D2).
  destruct (rescale_preserves prob s u Vs Vu Us Uu G3) as (p3 & E3 & S3 & D3).
  exists p1, p2, p3. repeat split; auto; try congruence.
  intros idx Hi. rewrite S2, S1 in Hi. destruct (Rep idx Hi) as [[Q Rs] [[_ Rt] [_ Ru]]].
  apply (denote_inj u); auto.
  rewrite D3.
  - assert (D : denote t (get p1 idx) = denote s (get prob idx)).
    { apply D1; intros A B.
      - rewrite <- (denote_held s) by auto. apply Rs; auto.
      - apply Rt; auto. }
    rewrite D2; auto; intros A B.
    + rewrite <- (denote_held t) by auto. rewrite D. apply Rt; auto.
    + rewrite D. apply Ru; auto.
  - intros A B. rewrite <- (denote_held s) by auto. apply Rs; auto.
  - intros A B. apply Ru; auto.
Qed.

Lemma gap_sym (s t : pspec R) : no_tiny_gap s t -> no_tiny_gap t s.
Proof.
  intros [H|H]; [left; auto|right]. rewrite Rabs_minus_sym. auto.
Qed.

Lemma pscale_eqb_refl (p : pscale R) : pscale_eqb p p = true.
Proof. destruct p; cbn; rewrite ?Reqb_refl; auto. Qed.

Lemma rescale_same (prob : tensor R) s :
  is_scale s -> rescale prob s s = Ok prob.
Proof.
  intros V. destruct (eval_valid s V) as [p Hp]. unfold rescale. rewrite Hp. cbn [bind].
  rewrite pscale_eqb_refl, Bool.eqb_reflx. reflexivity.
Qed.

Lemma rescale_round_trip (prob : tensor R) (s t : pspec R) :
  valid_scale s -> valid_scale t -> ~ unit_log s -> ~ unit_log t ->
  no_tiny_gap s t ->
  (forall idx, in_range (shape prob) idx ->
     representable s (denote s (get prob idx)) /\
     representable t (denote s (get prob idx))) ->
  exists p1 p2,
    rescale prob s t = Ok p1 /\ rescale p1 t s = Ok p2 /\ teq p2 prob.
Proof.
  intros Vs Vt Us Ut G Rep.
  assert (Gss : no_tiny_gap s s) by (left; reflexivity).
  destruct (rescale_path prob s t s Vs Vt Vs Us Ut Us G (gap_sym _ _ G) Gss)
    as (p1 & p2 & p3 & E1 & E2 & E3 & T & _).
  { intros idx Hi. destruct (Rep idx Hi). auto. }
  rewrite rescale_same in E3 by apply Vs. inversion E3; subst.
  exists p1, p2. auto.
Qed.

(** 1+0j, a log scale with offset one, is taken for the linear scale one. *)
Lemma rescale_unit_log_wrong :
  exists v r, rescale (tscalar v) (PSCplx 1 0) (PSFloat 1) = Ok (tscalar r) /\
    denote (PSFloat 1) r <> denote (PSCplx 1 0) v.
Proof.
  exists 1, 1. split.
  - destruct (rescale_resc1 (tscalar 1) (PSCplx 1 0) (PSFloat 1) (Lin 1) (Lin 1))
      as (t & E & S & G).
    + cbn. rewrite !Reqb_refl. reflexivity.
    + cbn. rewrite !Reqb_refl. reflexivity.
    + unfold rescale. cbn. rewrite !Reqb_refl. cbn.
      rewrite !Reqb_refl. reflexivity.
  - unfold denote. cbn -[Req_EM_T]. destruct (Req_EM_T 1 0); [lra|].
    unfold log_offset. rewrite Rabs_R0. destruct (Rlt_dec 0 npz); [|pose proof npz_pos; lra].
    pose proof (exp_ineq1 1 ltac:(lra)). nra.
Qed.

(** *** C03 *)

Lemma log_prob_lower (p : R) : nni <= log_prob1 p.
Proof.
  unfold log_prob1. destruct (n_leb npz p) eqn:E; [|lra].
  apply Rleb_iff in E. change (n_ln p) with (ln p).
  eapply Rle_trans; [apply nni_le_ln_npz|].
  destruct E as [E|E]; [left; apply ln_increasing; auto; apply npz_pos | rewrite E; lra].
Qed.

Lemma log_prob_mono (p q : R) : p <= q -> log_prob1 p <= log_prob1 q.
Proof.
  intros H. unfold log_prob1 at 1. destruct (n_leb npz p) eqn:E.
  - apply Rleb_iff in E. unfold log_prob1.
    assert (E2 : n_leb npz q = true) by (apply Rleb_iff; lra). rewrite E2.
    change (ln p <= ln q). pose proof npz_pos.
    destruct H as [H|H]; [left; apply ln_increasing; lra | subst; lra].
  - apply log_prob_lower.
Qed.

Lemma exp_logp_upper (l : R) : 0 < exp_logp1 l <= npi.
Proof.
  unfold exp_logp1. destruct (n_leb l log_npi) eqn:E.
  - apply Rleb_iff in E. rewrite log_npi_eq in E. change (n_exp l) with (exp l).
    split; [apply exp_pos|].
    rewrite <- (exp_ln npi) by apply npi_pos.
    destruct E as [E|E]; [left; apply exp_increasing; auto | rewrite E; lra].
  - pose proof npi_pos. lra.
Qed.

Lemma exp_logp_mono (l m : R) : l <= m -> exp_logp1 l <= exp_logp1 m.
Proof.
  intros H. unfold exp_logp1 at 2. destruct (n_leb m log_npi) eqn:E.
  - apply Rleb_iff in E. unfold exp_logp1.
    assert (E2 : n_leb l log_npi = true) by (apply Rleb_iff; lra). rewrite E2.
    change (exp l <= exp m).
    destruct H as [H|H]; [left; apply exp_increasing; auto | subst; lra].
  - apply exp_logp_upper.
Qed.

Lemma exp_log_inverse (p : R) : npz <= p <= npi -> exp_logp1 (log_prob1 p) = p.
Proof.
  intros [L U]. pose proof npz_pos. unfold log_prob1.
  assert (E : n_leb npz p = true) by (apply Rleb_iff; auto). rewrite E.
  unfold exp_logp1. change (n_ln p) with (ln p).
  assert (E2 : n_leb (ln p) log_npi = true).
  { apply Rleb_iff. rewrite log_npi_eq.
    destruct U as [U|U]; [left; apply ln_increasing; lra | subst; lra]. }
  rewrite E2. apply exp_ln. lra.
Qed.

Lemma log_exp_inverse (l : R) : ln npz <= l <= ln npi -> log_prob1 (exp_logp1 l) = l.
Proof.
  intros [L U]. pose proof npz_pos. unfold exp_logp1.
  assert (E : n_leb l log_npi = true) by (apply Rleb_iff; rewrite log_npi_eq; auto). rewrite E.
  change (n_exp l) with (exp l). unfold log_prob1.
  assert (E2 : n_leb npz (exp l) = true).
  { apply Rleb_iff. rewrite <- (exp_ln npz) by auto.
    destruct L as [L|L]; [left; apply exp_increasing; auto | rewrite L; lra]. }
  rewrite E2. apply ln_exp.
Qed.

(** *** C04 *)
Lemma eval_idem (s : pspec R) p :
  eval_pscale s = Ok p -> eval_pscale (spec_of p) = Ok p.
Proof. intros H. apply eval_spec_of. eapply eval_ok; eauto. Qed.

Lemma eval_nonzero (s : pspec R) : eval_pscale s <> Ok (Lin 0).
Proof. intros H. apply eval_ok in H. cbn in H. lra. Qed.

Lemma eval_log_spellings (s : pspec R) :
  In s [PSStr "log"; PSStr "ln"; PSInt 0; PSFloat 0; PSCplx 0 0] ->
  eval_pscale s = Ok (Log 0 0).
Proof.
  intros H. cbn [In] in H.
  destruct H as [H|[H|[H|[H|[H|[]]]]]]; subst; cbn; auto.
  - destruct (n_eqb 0 n1) eqn:E; [apply Reqb_iff in E; rewrite n1_R in E; lra|].
    change n0 with 0. rewrite Reqb_refl. reflexivity.
  - destruct (n_eqb 0 n1) eqn:E; [apply Reqb_iff in E; rewrite n1_R in E; lra|].
    cbn [andb]. change n0 with 0. rewrite Reqb_refl. reflexivity.
Qed.
