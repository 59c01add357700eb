(** Proofs about prod_pscale, prod_rule and div_prob at the reals. *)
From Coq Require Import String ZArith Reals Lra Lia Bool Arith List.
From Verif Require Import Base Num Tensor PScales PScales_Spec RNumLemmas TensorBcast PScales_Proofs.
Import ListNotations.
Local Open Scope R_scope.

Lemma fold_left_mul_acc (l : list R) (a : R) : fold_left Rmult l a = a * Rprod l.
Proof.
  revert a. induction l as [|x l IH]; intros a; cbn.
  - unfold Rprod. cbn. lra.
  - rewrite IH. unfold Rprod. cbn. lra.
Qed.

Definition Rsum (l : list R) : R := fold_right Rplus 0 l.

Lemma fold_left_add_acc (l : list R) (a : R) : fold_left Rplus l a = a + Rsum l.
Proof.
  revert a. induction l as [|x l IH]; intros a; cbn.
  - unfold Rsum. cbn. lra.
  - rewrite IH. unfold Rsum. cbn. lra.
Qed.

Lemma exp_Rsum (l : list R) : exp (Rsum l) = Rprod (map exp l).
Proof.
  induction l as [|x l IH]; cbn; [apply exp_0|].
  unfold Rsum, Rprod in *. cbn. rewrite exp_plus, IH. reflexivity.
Qed.

Lemma Rprod_pos (l : list R) : Forall (fun x => 0 < x) l -> 0 < Rprod l.
Proof.
  induction 1; cbn; [lra|]. apply Rmult_lt_0_compat; auto.
Qed.

Lemma ln_Rprod (l : list R) :
  Forall (fun x => 0 < x) l -> ln (Rprod l) = Rsum (map ln l).
Proof.
  induction 1; [apply ln_1|].
  change (Rprod (x :: l)) with (x * Rprod l). cbn [map].
  change (Rsum (ln x :: map ln l)) with (ln x + Rsum (map ln l)).
  rewrite ln_mult; auto. rewrite IHForall; auto. apply Rprod_pos; auto.
Qed.

(** *** prod_pscale *)

Lemma acc_log (l : list (pspec R)) (a : R) :
  Forall valid_scale l -> Forall (fun s => ~ unit_log s) l ->
  fold_res (fun rtype s =>
              let! p := eval_pscale s in
              let! o := logp_offs (spec_of p) in Ok (rtype + o)) l a
  = Ok (a + Rsum (map (fun s => ln (factor s)) l)).
Proof.
  intros V U. revert a. induction V as [|s l Vs V IH]; intros a; cbn.
  - unfold Rsum. cbn. f_equal. lra.
  - inversion U; subst. destruct (eval_valid s (proj1 Vs)) as [p Hp].
    rewrite Hp. cbn [bind]. rewrite logp_offs_spec by (eapply eval_ok; eauto). cbn [bind].
    rewrite IH by auto. f_equal.
    destruct (eval_meaning _ _ Hp H1) as [_ Fp].
    rewrite <- p_fac_offs by (rewrite Fp; apply factor_pos; auto).
    rewrite Fp. unfold Rsum. cbn. lra.
Qed.

Lemma acc_lin (l : list (pspec R)) (a : R) :
  Forall valid_scale l -> Forall (fun s => ~ unit_log s) l ->
  fold_res (fun rtype s =>
              let! p := eval_pscale s in
              let! c := prob_coef (spec_of p) in Ok (rtype * c)) l a
  = Ok (a * Rprod (map factor l)).
Proof.
  intros V U. revert a. induction V as [|s l Vs V IH]; intros a; cbn.
  - unfold Rprod. cbn. f_equal. lra.
  - inversion U; subst. destruct (eval_valid s (proj1 Vs)) as [p Hp].
    rewrite Hp. cbn [bind]. rewrite prob_coef_spec by (eapply eval_ok; eauto). cbn [bind].
    rewrite IH by auto. f_equal.
    destruct (eval_meaning _ _ Hp H1) as [_ Fp].
    rewrite Fp. unfold Rprod. cbn. lra.
Qed.

Lemma prod_pscale_lin (l : list (pspec R)) :
  l <> [] -> Forall valid_scale l -> Forall (fun s => ~ unit_log s) l ->
  prod_pscale l (Some false) = Ok (Some (Lin (Rprod (map factor l)))).
Proof.
  intros NE V U. unfold prod_pscale, prod_pscale_acc.
  destruct l as [|s l]; [contradiction|]. rn.
  rewrite acc_lin by auto. cbn [bind]. do 3 f_equal. lra.
Qed.

Definition log_result (S : R) : pscale R :=
  if n_ltb (n_abs S) npz then complex_zero
  else if n_ltb 0 S then Log (ln S) 0
  else Log (ln (- S)) (22 / 7).

Lemma prod_pscale_log (l : list (pspec R)) :
  l <> [] -> Forall valid_scale l -> Forall (fun s => ~ unit_log s) l ->
  prod_pscale l (Some true) = Ok (Some (log_result (Rsum (map (fun s => ln (factor s)) l)))).
Proof.
  intros NE V U. unfold prod_pscale, prod_pscale_acc.
  destruct l as [|s l]; [contradiction|]. rn.
  rewrite acc_log by auto. cbn [bind].
  rewrite Rplus_0_l. unfold log_result.
  destruct (n_ltb (n_abs (Rsum (map (fun s => ln (factor s)) (s :: l)))) npz); auto.
  destruct (n_ltb 0 (Rsum (map (fun s => ln (factor s)) (s :: l)))); auto.
  rewrite n_opp_R. reflexivity.
Qed.

Lemma prod_pscale_default (l : list (pspec R)) :
  prod_pscale l None = prod_pscale l (Some (existsb iscomplex l)).
Proof. destruct l; reflexivity. Qed.

Lemma ln_lt_self (x : R) : 0 < x -> ln x < x.
Proof.
  intros H. destruct (Req_dec (ln x) 0) as [E|E]; [lra|].
  pose proof (exp_ineq1 (ln x) E) as H1. rewrite exp_ln in H1 by auto. lra.
Qed.

Lemma log_result_factor (S : R) : factor (spec_of (log_result S)) = exp S <-> S = 0.
Proof.
  unfold log_result. rewrite n_abs_R.
  destruct (n_ltb (Rabs S) npz) eqn:E.
  - cbn. rn. rewrite log_offset_0. split; intros H.
    + apply exp_inv in H. lra.
    + subst. reflexivity.
  - apply Rltb_false_iff in E. destruct (n_ltb 0 S) eqn:E2.
    + apply Rltb_iff in E2. cbn. unfold log_offset. rewrite Rabs_R0.
      destruct (Rlt_dec 0 npz) as [_|n]; [|pose proof npz_pos; lra].
      split; intros H; [|lra]. apply exp_inv in H. pose proof (ln_lt_self S E2). lra.
    + apply Rltb_false_iff in E2. cbn. unfold log_offset.
      pose proof npz_pos. pose proof npz_lt_1.
      rewrite Rabs_right by lra.
      destruct (Rlt_dec (22 / 7) npz) as [n|_]; [lra|].
      assert (S <> 0). { intros ->. rewrite Rabs_R0 in E. lra. }
      split; intros H2; [|lra]. apply exp_inv in H2.
      pose proof (ln_lt_self (- S) ltac:(lra)). lra.
Qed.

(** C06: characterisation. *)
Lemma prod_pscale_correct_iff (l : list (pspec R)) :
  l <> [] -> Forall valid_scale l -> Forall (fun s => ~ unit_log s) l ->
  exists p, prod_pscale l None = Ok (Some p) /\
    (factor (spec_of p) = Rprod (map factor l) <->
     (existsb iscomplex l = false \/ Rprod (map factor l) = 1)).
Proof.
  intros NE V U. rewrite prod_pscale_default.
  assert (P : Forall (fun x => 0 < x) (map factor l)).
  { apply Forall_map. eapply Forall_impl; [|exact V]. intros; apply factor_pos; auto. }
  destruct (existsb iscomplex l) eqn:C.
  - rewrite prod_pscale_log by auto. eexists. split; [reflexivity|].
    replace (map (fun s => ln (factor s)) l) with (map ln (map factor l))
      by (rewrite map_map; reflexivity).
    rewrite <- ln_Rprod by auto. set (S := Rprod (map factor l)) in *.
    assert (Sp : 0 < S) by (apply Rprod_pos; auto).
    split.
    + intros H. right. rewrite <- (exp_ln S) in H at 2 by auto.
      apply log_result_factor in H.
      rewrite <- (exp_ln S) by auto. rewrite H. apply exp_0.
    + intros [H|H]; [discriminate|]. rewrite H, ln_1.
      transitivity (exp 0); [apply log_result_factor; reflexivity | apply exp_0].
  - rewrite prod_pscale_lin by auto. eexists. split; [reflexivity|].
    split; auto. intros _. cbn [spec_of factor].
    assert (Sp : 0 < Rprod (map factor l)) by (apply Rprod_pos; auto).
    destruct (Req_EM_T (Rprod (map factor l)) 0); lra.
Qed.

Lemma prod_pscale_wrong :
  exists l p, Forall valid_scale l /\ Forall (fun s => ~ unit_log s) l /\
    prod_pscale l None = Ok (Some p) /\
    factor (spec_of p) <> Rprod (map factor l).
Proof.
  exists [PSCplx 2 0].
  assert (V : Forall valid_scale [PSCplx 2 0]).
  { constructor; auto. split; exact I. }
  assert (U : Forall (fun s => ~ unit_log s) [PSCplx 2 0]).
  { constructor; auto. unfold unit_log. intros H. inversion H. lra. }
  destruct (prod_pscale_correct_iff [PSCplx 2 0] ltac:(discriminate) V U) as (p & E & I).
  exists p. repeat split; auto. intros H. apply I in H.
  destruct H as [H|H]; [discriminate|].
  cbn in H. unfold Rprod in H. cbn in H. unfold log_offset in H. rewrite Rabs_R0 in H.
  destruct (Rlt_dec 0 npz) as [_|n]; [|pose proof npz_pos; lra].
  pose proof (exp_ineq1 2 ltac:(lra)). lra.
Qed.

(** *** apply_prod *)

Lemma apply_prod_ok (ul : bool) (probs : list (tensor R)) s :
  probs <> [] -> bcast_all (map shape probs) = Ok s ->
  exists r, apply_prod ul probs = Ok r /\ shape r = s /\
    forall idx, in_range s idx ->
      get r idx = (if ul then Rsum else Rprod)
                    (map (fun a => get a (bcast_idx (shape a) idx)) probs).
Proof.
  intros NE B. destruct probs as [|p probs]; [contradiction|].
  assert (F : fold_res bcast_shape (map shape probs) (shape p) = Ok s).
  { destruct probs; cbn in *; auto. }
  destruct (tbin_fold (if ul then n_add else n_mul) probs p F) as (r & Er & Sr & Fr & Gr).
  exists r. split; [|split; auto].
  - unfold apply_prod. destruct probs as [|q probs]; cbn in *; [auto|exact Er].
  - intros idx Hi. rewrite <- (bcast_idx_id Hi) at 1.
    rewrite Gr by (apply in_range_length; auto).
    clear. cbn [map]. destruct ul; cbn -[Rsum Rprod].
    + transitivity (fold_left Rplus (map (fun a => get a (bcast_idx (shape a) idx)) probs)
                      (get p (bcast_idx (shape p) idx))).
      * generalize (get p (bcast_idx (shape p) idx)). induction probs; intros; cbn; auto.
      * rewrite fold_left_add_acc. reflexivity.
    + transitivity (fold_left Rmult (map (fun a => get a (bcast_idx (shape a) idx)) probs)
                      (get p (bcast_idx (shape p) idx))).
      * generalize (get p (bcast_idx (shape p) idx)). induction probs; intros; cbn; auto.
      * rewrite fold_left_mul_acc. reflexivity.
Qed.

(** *** prod_rule *)

Lemma linear_not_complex s : log_kind s = false -> iscomplex s = false.
Proof. destruct s; cbn; intros; auto; discriminate. Qed.

Lemma forall_not_complex l : Forall linear_scale l -> existsb iscomplex l = false.
Proof.
  induction 1; cbn; auto. rewrite linear_not_complex by apply H. auto.
Qed.

Lemma zip_with_id (args : list (tensor R)) (l : list (pspec R)) :
  length l = length args -> existsb iscomplex l = false ->
  zip_with (fun arg s => if iscomplex s then exp_logp arg else arg) args l = args.
Proof.
  revert l. induction args; intros [|s l] L E; cbn in *; auto; try discriminate.
  apply orb_false_iff in E. destruct E as [E1 E2]. rewrite E1, IHargs; auto.
Qed.

Lemma Rprod_zip_linear (args : list (tensor R)) l idx :
  length l = length args -> Forall linear_scale l ->
  Rprod (map factor l) * Rprod (map (fun a => get a (bcast_idx (shape a) idx)) args)
  = Rprod (factors_at args l idx).
Proof.
  revert l. unfold factors_at. induction args as [|a args IH]; intros [|s l] L F; cbn in *;
    try discriminate.
  - unfold Rprod. cbn. lra.
  - inversion F; subst. specialize (IH l ltac:(lia) H2). unfold Rprod in *. cbn.
    rewrite <- IH. unfold denote. destruct H1 as [_ ->]. ring.
Qed.

Lemma prod_rule_linear (args : list (tensor R)) (scales : list (pspec R)) s :
  args <> [] -> length scales = length args -> Forall linear_scale scales ->
  bcast_all (map shape args) = Ok s ->
  exists t ps, prod_rule args (Some scales) None None = Ok (t, ps) /\
    shape t = s /\ linear_scale ps /\
    forall idx, in_range s idx -> denote ps (get t idx) = Rprod (factors_at args scales idx).
Proof.
  intros NE L F B.
  assert (NEs : scales <> []) by (destruct scales, args; cbn in *; congruence).
  assert (V : Forall valid_scale scales) by (eapply Forall_impl; [|exact F]; intros ? []; auto).
  assert (U : Forall (fun s => ~ unit_log s) scales).
  { eapply Forall_impl; [|exact F]. intros a [_ K] Ua. rewrite Ua in K. discriminate. }
  pose proof (forall_not_complex _ F) as C.
  destruct (apply_prod_ok false args s NE B) as (r & Er & Sr & Gr).
  assert (Pos : 0 < Rprod (map factor scales)).
  { apply Rprod_pos. apply Forall_map. eapply Forall_impl; [|exact V]. intros; apply factor_pos; auto. }
  exists r, (PSFloat (Rprod (map factor scales))).
  assert (K : log_kind (PSFloat (Rprod (map factor scales))) = false).
  { cbn. destruct (Req_EM_T (Rprod (map factor scales)) 0); [lra|auto]. }
  split; [|split; [auto|split]].
  - unfold prod_rule. rewrite C. rewrite prod_pscale_lin by auto. cbn [bind].
    rewrite L, Nat.eqb_refl. cbn [assert_ bind spec_of iscomplex Bool.eqb negb andb].
    cbn [pscale_eq_spec]. rewrite Reqb_refl. cbn [andb].
    rewrite zip_with_id by auto. rewrite Er. cbn.
    match goal with |- (if ?b then _ else _) = _ => destruct b; reflexivity end.
  - repeat split; auto. cbn. lra.
  - intros idx Hi. rewrite <- Rprod_zip_linear by auto. rewrite <- Gr by auto.
    unfold denote. rewrite K. cbn. destruct (Req_EM_T (Rprod (map factor scales)) 0); lra.
Qed.

Lemma plain_valid s : plain_scale s -> valid_scale s /\ ~ unit_log s /\ factor s = 1 /\
  iscomplex s = log_kind s.
Proof.
  intros [-> | ->]; unfold valid_scale, unit_log; cbn.
  - destruct (Req_EM_T 1 0); [lra|]. repeat split; auto; try lra. discriminate.
  - rewrite log_offset_0, exp_0. repeat split; auto. intros H. inversion H. lra.
Qed.

Lemma Rsum_zip_plain (args : list (tensor R)) l idx :
  length l = length args -> Forall plain_scale l ->
  Forall2 (fun a s => log_kind s = false -> npz <= get a (bcast_idx (shape a) idx)) args l ->
  exp (Rsum (map (fun a => get a (bcast_idx (shape a) idx))
               (zip_with (fun arg s => if iscomplex s then arg else log_prob arg) args l)))
  = Rprod (factors_at args l idx).
Proof.
  revert l. unfold factors_at. induction args as [|a args IH]; intros [|s l] L F H;
    cbn [zip_with map length] in *; try discriminate.
  - apply exp_0.
  - inversion F; subst. inversion H; subst.
    specialize (IH l ltac:(lia) H3 H7).
    change (Rsum (?x :: ?y)) with (x + Rsum y) in *.
    change (Rprod (?x :: ?y)) with (x * Rprod y).
    change (Rsum (?x :: ?y)) with (x + Rsum y).
    rewrite exp_plus. rewrite IH. f_equal.
    destruct (plain_valid s H2) as (_ & _ & Fs & Ks). unfold denote. rewrite Fs, Ks.
    destruct (log_kind s) eqn:K; [lra|]. specialize (H5 eq_refl).
    unfold log_prob, tmap. cbn [get shape]. unfold log_prob1.
    assert (E : n_leb npz (get a (bcast_idx (shape a) idx)) = true) by (apply Rleb_iff; auto).
    rewrite E. rn. rewrite exp_ln; [lra|]. pose proof npz_pos. lra.
Qed.

Lemma shape_zip_log (args : list (tensor R)) (l : list (pspec R)) :
  length l = length args ->
  map shape (zip_with (fun arg s => if iscomplex s then arg else log_prob arg) args l)
  = map shape args.
Proof.
  revert l. induction args; intros [|s l] L; cbn in *; auto; try discriminate.
  rewrite IHargs by lia. destruct (iscomplex s); reflexivity.
Qed.

Lemma zip_all_log (args : list (tensor R)) (l : list (pspec R)) :
  length l = length args -> forallb iscomplex l = true ->
  zip_with (fun arg s => if iscomplex s then arg else log_prob arg) args l = args.
Proof.
  revert l. induction args; intros [|s l] L E; cbn in *; auto; try discriminate.
  apply andb_true_iff in E. destruct E as [E1 E2]. rewrite E1, IHargs; auto.
Qed.

Lemma plain_sum_zero l : Forall plain_scale l -> Rsum (map (fun s => ln (factor s)) l) = 0.
Proof.
  induction 1; cbn; [reflexivity|].
  destruct (plain_valid x H) as (_ & _ & Fs & _). unfold Rsum in *. cbn.
  rewrite Fs, ln_1, IHForall. lra.
Qed.

(** prod_rule on plain scales of which at least one is logarithmic. *)
Lemma prod_rule_plain_log (args : list (tensor R)) (scales : list (pspec R)) s :
  args <> [] -> length scales = length args -> Forall plain_scale scales ->
  existsb iscomplex scales = true ->
  bcast_all (map shape args) = Ok s ->
  exists t, prod_rule args (Some scales) None None = Ok (t, PSCplx 0 0) /\
    shape t = s /\
    forall idx, in_range s idx ->
      Forall2 (fun a sc => log_kind sc = false -> npz <= get a (bcast_idx (shape a) idx))
              args scales ->
      denote (PSCplx 0 0) (get t idx) = Rprod (factors_at args scales idx).
Proof.
  intros NE L F C B.
  assert (NEs : scales <> []) by (destruct scales, args; cbn in *; congruence).
  assert (V : Forall valid_scale scales)
    by (eapply Forall_impl; [|exact F]; intros a H; apply plain_valid in H; tauto).
  assert (U : Forall (fun s => ~ unit_log s) scales)
    by (eapply Forall_impl; [|exact F]; intros a H; apply plain_valid in H; tauto).
  set (args' := zip_with (fun arg s => if iscomplex s then arg else log_prob arg) args scales).
  assert (NE' : args' <> []) by (unfold args'; destruct args, scales; cbn in *; congruence).
  assert (B' : bcast_all (map shape args') = Ok s)
    by (unfold args'; rewrite shape_zip_log; auto).
  destruct (apply_prod_ok true args' s NE' B') as (r & Er & Sr & Gr).
  exists r. split; [|split; [auto|]].
  - unfold prod_rule. rewrite C. rewrite prod_pscale_log by auto.
    rewrite plain_sum_zero by auto.
    assert (E0 : log_result 0 = complex_zero).
    { unfold log_result. rewrite n_abs_R, Rabs_R0.
      assert (E : n_ltb 0 npz = true) by (apply Rltb_iff; apply npz_pos). rewrite E. reflexivity. }
    rewrite E0. cbn [bind].
    rewrite L, Nat.eqb_refl. cbn [assert_ bind spec_of complex_zero iscomplex Bool.eqb negb andb].
    cbn [pscale_eq_spec complex_zero]. rewrite !Reqb_refl. cbn [andb].
    fold args'.
    match goal with |- (if ?b then _ else _) = _ => destruct b eqn:Eb end.
    + assert (A : args' = args).
      { apply zip_all_log; auto. destruct scales as [|s0 scales']; [discriminate|].
        cbn in C. cbn. destruct (iscomplex s0) eqn:E1; cbn.
        - rewrite forallb_forall in *. intros x Hx. specialize (Eb x Hx).
          destruct (iscomplex x); auto.
        - exfalso. cbn in C. apply existsb_exists in C. destruct C as (x & Hx & Cx).
          rewrite forallb_forall in Eb. specialize (Eb x Hx). rewrite Cx in Eb. discriminate. }
      rewrite <- A. rewrite Er. reflexivity.
    + rewrite Er. reflexivity.
  - intros idx Hi H. rewrite <- Rsum_zip_plain by auto. fold args'.
    rewrite <- Gr by auto. unfold denote. cbn. rewrite log_offset_0, exp_0. lra.
Qed.

(** C07: a requested scale. *)
Lemma prod_rule_requested_natural (args : list (tensor R)) (scales : list (pspec R)) t ps :
  prod_rule args (Some scales) None None = Ok (t, ps) -> args <> [] ->
  prod_rule args (Some scales) None (Some ps) = Ok (t, ps).
Proof.
  intros H NE. unfold prod_rule in *.
  destruct (prod_pscale scales (Some (existsb iscomplex scales))) as [pp|e]; cbn [bind] in *;
    [|discriminate].
  set (ppspec := match pp with Some p => spec_of p | None => PSNone end) in *.
  destruct (assert_ (length scales =? length args)%nat) as [|e]; cbn [bind] in *; [|discriminate].
  destruct (negb (Bool.eqb (existsb iscomplex scales) (iscomplex ppspec))) eqn:EN; [discriminate|].
  assert (E : ps = ppspec).
  { match type of H with (if ?b then _ else _) = _ => destruct b end.
    - destruct (apply_prod (existsb iscomplex scales) args); cbn in H; congruence.
    - match type of H with bind ?x _ = _ => destruct x; cbn [bind] in H; [|discriminate] end.
      congruence. }
  subst ps. rewrite EN. exact H.
Qed.

(** Asking for a log scale when all arguments are linear always raises. *)
Lemma prod_rule_log_request_raises (args : list (tensor R)) (scales : list (pspec R)) s re im :
  args <> [] -> length scales = length args -> Forall linear_scale scales ->
  bcast_all (map shape args) = Ok s ->
  prod_rule args (Some scales) None (Some (PSCplx re im)) = Err ValueError.
Proof.
  intros NE L F B.
  assert (NEs : scales <> []) by (destruct scales, args; cbn in *; congruence).
  assert (V : Forall valid_scale scales) by (eapply Forall_impl; [|exact F]; intros ? []; auto).
  assert (U : Forall (fun s => ~ unit_log s) scales).
  { eapply Forall_impl; [|exact F]. intros a [_ K] Ua. rewrite Ua in K. discriminate. }
  pose proof (forall_not_complex _ F) as C.
  destruct (apply_prod_ok false args s NE B) as (r & Er & Sr & Gr).
  unfold prod_rule. rewrite C. rewrite prod_pscale_lin by auto. cbn [bind].
  rewrite L, Nat.eqb_refl. cbn [assert_ bind spec_of iscomplex Bool.eqb negb andb].
  rewrite zip_with_id by auto. rewrite Er. cbn [bind].
  unfold rescale.
  assert (Pos : 0 < Rprod (map factor scales)).
  { apply Rprod_pos. apply Forall_map. eapply Forall_impl; [|exact V]. intros; apply factor_pos; auto. }
  assert (P : p_ok (Lin (Rprod (map factor scales)))) by (cbn; lra).
  pose proof (eval_spec_of _ P) as Ev. cbn [spec_of] in Ev. rewrite Ev. reflexivity.
Qed.

(** Asking for another linear scale returns the number unchanged. *)
Lemma prod_rule_lin_request_wrong :
  exists t ps, prod_rule [tscalar (1/2); tscalar 1] (Some [PSFloat 1; PSFloat 1]) None
                 (Some (PSFloat 2)) = Ok (t, ps) /\ ps = PSFloat 2 /\ shape t = [] /\
    denote ps (get t []) <> 1/2.
Proof.
  eexists; eexists. split.
  - unfold prod_rule. cbn [existsb iscomplex orb].
    rewrite prod_pscale_lin; try discriminate.
    + cbn [bind length Nat.eqb assert_ spec_of iscomplex Bool.eqb negb andb pscale_eq_spec].
      assert (E : n_eqb (Rprod (map factor [PSFloat 1; PSFloat 1])) 2 = false).
      { apply Reqb_false_iff. unfold Rprod. cbn. destruct (Req_EM_T 1 0); lra. }
      rewrite E. cbn. reflexivity.
    + repeat constructor; cbn; lra.
    + repeat constructor; unfold unit_log; discriminate.
  - repeat split; auto. cbn. unfold denote. cbn. destruct (Req_EM_T 2 0); lra.
Qed.

(** *** div_prob *)

Lemma none_valid : valid_scale PSNone. Proof. split; exact I. Qed.
Lemma none_not_unit : ~ unit_log PSNone. Proof. discriminate. Qed.
Lemma denote_none v : denote PSNone v = v. Proof. unfold denote. cbn. lra. Qed.

Definition out_scale (given a : pspec R) : pspec R := if truthy given then given else a.

Lemma eval_denote (a : pspec R) pa v :
  eval_pscale a = Ok pa -> ~ unit_log a -> denote (spec_of pa) v = denote a v /\
  factor (spec_of pa) = factor a /\ log_kind (spec_of pa) = log_kind a.
Proof.
  intros H U. destruct (eval_meaning _ _ H U) as [K Fc]. pose proof (eval_ok _ _ H) as O.
  assert (U2 : ~ unit_log (spec_of pa)).
  { destruct pa; cbn in *; unfold unit_log; intros E; inversion E; subst; apply O; auto. }
  destruct (eval_meaning _ _ (eval_idem _ _ H) U2) as [K2 F2].
  unfold denote. rewrite <- K2, <- F2, K, Fc. auto.
Qed.

Lemma eval_valid_spec (a : pspec R) pa :
  eval_pscale a = Ok pa -> valid_scale a -> ~ unit_log a ->
  valid_scale (spec_of pa) /\ ~ unit_log (spec_of pa).
Proof.
  intros H V U. destruct (eval_meaning _ _ H U) as [K Fc]. pose proof (eval_ok _ _ H) as O.
  pose proof (factor_pos _ V) as P.
  split.
  - destruct pa; cbn in *; split; cbn; auto. subst. lra.
  - destruct pa; cbn in *; unfold unit_log; intros E; inversion E; subst; apply O; auto.
Qed.

Lemma gap_transfer a pa b pb :
  eval_pscale a = Ok pa -> eval_pscale b = Ok pb -> ~ unit_log a -> ~ unit_log b ->
  no_tiny_gap a b -> no_tiny_gap (spec_of pa) (spec_of pb).
Proof.
  intros Ha Hb Ua Ub G. unfold no_tiny_gap in *.
  destruct (eval_denote a pa 0 Ha Ua) as (_ & Fa & _).
  destruct (eval_denote b pb 0 Hb Ub) as (_ & Fb & _).
  rewrite Fa, Fb. exact G.
Qed.

Lemma div_prob_quotient (x y : tensor R) (a b out : pspec R) s :
  bcast_shape (shape x) (shape y) = Ok s ->
  valid_scale a -> valid_scale b -> valid_scale out ->
  ~ unit_log a -> ~ unit_log b -> ~ unit_log out ->
  no_tiny_gap a PSNone -> no_tiny_gap b PSNone -> no_tiny_gap PSNone out ->
  no_tiny_gap PSNone a ->
  out = PSNone \/ truthy out = true ->
  let res := if truthy out then out else a in
  exists r, div_prob x y (Some (a, b)) out = Ok r /\ shape r = s /\
    forall idx, in_range s idx ->
      let p := denote a (get x (bcast_idx (shape x) idx)) in
      let q := denote b (get y (bcast_idx (shape y) idx)) in
      p <= npi -> npz <= q <= npi ->
      (log_kind res = true -> npz <= p / q) ->
      denote res (get r idx) = p / q.
Proof.
  intros B Va Vb Vo Ua Ub Uo Ga Gb Go Ga' T res.
  destruct (eval_valid a (proj1 Va)) as [pa Ha].
  destruct (eval_valid b (proj1 Vb)) as [pb Hb].
  destruct (eval_valid_spec a pa Ha Va Ua) as [Vpa Upa].
  destruct (eval_valid_spec b pb Hb Vb Ub) as [Vpb Upb].
  assert (HN : eval_pscale PSNone = Ok (Lin 1)) by reflexivity.
  assert (Gpa : no_tiny_gap (spec_of pa) PSNone).
  { unfold no_tiny_gap in *. destruct (eval_denote a pa 0 Ha Ua) as (_ & Fa & _). rewrite Fa. auto. }
  assert (Gpb : no_tiny_gap (spec_of pb) PSNone).
  { unfold no_tiny_gap in *. destruct (eval_denote b pb 0 Hb Ub) as (_ & Fb & _). rewrite Fb. auto. }
  destruct (rescale_preserves x (spec_of pa) PSNone Vpa none_valid Upa none_not_unit Gpa)
    as (x' & Ex & Sx & Dx).
  destruct (rescale_preserves y (spec_of pb) PSNone Vpb none_valid Upb none_not_unit Gpb)
    as (y' & Ey & Sy & Dy).
  assert (B' : bcast_shape (shape x') (shape y') = Ok s) by (rewrite Sx, Sy; auto).
  destruct (tbin_ok (fun x y => n_div x (n_max npz y)) x' y' B') as (z & Ez & Sz & Gz).
  set (o := if truthy out then out else spec_of pa).
  assert (Vo' : valid_scale o) by (unfold o; destruct (truthy out); auto).
  assert (Uo' : ~ unit_log o) by (unfold o; destruct (truthy out); auto).
  assert (Go' : no_tiny_gap PSNone o).
  { unfold o; destruct (truthy out); auto.
    unfold no_tiny_gap in *. destruct (eval_denote a pa 0 Ha Ua) as (_ & Fa & _). rewrite Fa. auto. }
  assert (Ro : forall v, denote o v = denote res v).
  { intros v. unfold o, res. destruct (truthy out); auto.
    destruct (eval_denote a pa v Ha Ua) as (D & _ & _). auto. }
  assert (Ko : log_kind o = log_kind res).
  { unfold o, res. destruct (truthy out); auto.
    destruct (eval_denote a pa 0 Ha Ua) as (_ & _ & D). auto. }
  destruct (rescale_preserves z PSNone o none_valid Vo' none_not_unit Uo' Go')
    as (r & Er & Sr & Dr).
  exists r. split; [|split].
  - unfold div_prob. rewrite Ha, Hb. cbn [bind]. rewrite Ex. cbn [bind]. rewrite Ey. cbn [bind].
    rewrite Ez. cbn [bind]. exact Er.
  - congruence.
  - intros idx Hi p q Hp Hq Lo.
    assert (Px : get x' (bcast_idx (shape x') idx) = p).
    { rewrite <- (denote_none (get x' _)). rewrite Sx. rewrite Dx.
      - apply eval_denote; auto.
      - intros _ A. discriminate.
      - intros _ _. cbn [factor]. rewrite (proj1 (eval_denote a pa _ Ha Ua)). fold p. lra. }
    assert (Qy : get y' (bcast_idx (shape y') idx) = q).
    { rewrite <- (denote_none (get y' _)). rewrite Sy. rewrite Dy.
      - apply eval_denote; auto.
      - intros _ A. discriminate.
      - intros _ _. cbn [factor]. rewrite (proj1 (eval_denote b pb _ Hb Ub)). fold q. lra. }
    assert (Zv : get z idx = p / q).
    { rewrite Gz, Px, Qy. rn. rewrite n_max_R, Rmax_right by lra. reflexivity. }
    rewrite <- Ro. rewrite Dr.
    + rewrite denote_none. auto.
    + intros _ K. rewrite Zv. apply Lo. rewrite <- Ko. auto.
    + intros A. discriminate.
Qed.

(** Linear division is total: the divisor is floored at the smallest float. *)
Lemma div_prob_linear_total (x y : tensor R) s :
  bcast_shape (shape x) (shape y) = Ok s ->
  exists r, div_prob x y None PSNone = Ok r /\ shape r = s /\
    forall idx, in_range s idx ->
      get r idx = get x (bcast_idx (shape x) idx) / Rmax npz (get y (bcast_idx (shape y) idx)) /\
      Rmax npz (get y (bcast_idx (shape y) idx)) <> 0.
Proof.
  intros B. destruct (tbin_ok (fun x y => n_div x (n_max npz y)) x y B) as (z & Ez & Sz & Gz).
  exists z. split; [|split; auto].
  - unfold div_prob. cbn [bind]. rewrite !rescale_same by exact I. cbn [bind].
    rewrite Ez. cbn [bind]. apply rescale_same. exact I.
  - intros idx Hi. rewrite Gz. rn. rewrite n_max_R. split; auto.
    pose proof npz_pos. pose proof (Rmax_l npz (get y (bcast_idx (shape y) idx))). lra.
Qed.

(** A requested plain log scale is silently ignored. *)
Lemma div_prob_ignores_log_request :
  exists r, div_prob (tscalar 1) (tscalar 1) (Some (PSFloat 1, PSFloat 1)) (PSCplx 0 0) = Ok r /\
    shape r = [] /\ denote (PSCplx 0 0) (get r []) <> 1 / 1.
Proof.
  assert (E1 : eval_pscale (PSFloat 1) = Ok (Lin 1)) by (cbn; rewrite Reqb_refl; reflexivity).
  assert (R1 : forall t : tensor R, rescale t (PSFloat 1) PSNone = Ok t).
  { intros t. unfold rescale. rewrite E1. cbn. rn. rewrite Reqb_refl. reflexivity. }
  assert (R2 : forall t : tensor R, rescale t PSNone (PSFloat 1) = Ok t).
  { intros t. unfold rescale. rewrite E1. cbn. rn. rewrite Reqb_refl. reflexivity. }
  eexists. split; [|split].
  - unfold div_prob. rewrite E1. cbn [bind spec_of truthy]. rn. rewrite Reqb_refl.
    cbn [andb negb]. rewrite !R1. cbn [bind]. cbn -[rescale]. rewrite R2. reflexivity.
  - reflexivity.
  - cbn. rn. rewrite n_max_R, Rmax_right by (pose proof npz_lt_1; lra).
    unfold denote. cbn. rewrite log_offset_0, exp_0.
    replace (1 / 1) with 1 by lra. pose proof (exp_ineq1 1 ltac:(lra)). lra.
Qed.
