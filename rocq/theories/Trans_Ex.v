(** Concrete variables with transformations. *)
From Coq Require Import String ZArith Reals Bool Arith List Lra Lia.
From Verif Require Import Base Num RNumLemmas Tensor PScales PScales_Spec PScales_Proofs Distr Likelihoods Lik_Slice VariableModel Var_Spec Var_Proofs
  RVModel RV_Spec RV_Proofs RV_More DistModel Dist_Ex TransModel Trans_Spec Trans_Proofs Trans_Values.
Import ListNotations.
Local Open Scope R_scope.

Lemma hold_one len : / 4 <= len -> holdable (Lin 1) len.
Proof.
  intros L. assert (Z : npz <= / 4) by (rewrite npz_eq; apply Rinv_le_contravar; [lra|]; apply IZR_le; vm_compute; discriminate).
  pose proof npz_pos. split; [lra|]. split; [apply good_one|]. split.
  - eapply new_pscale_idem. exact one_scale.
  - intros _. destruct RV_Proofs.one_scale as [F _]. cbn [spec_of]. rewrite F.
    assert (/ len <= 4) by (rewrite <- (Rinv_inv 4); apply Rinv_le_contravar; lra).
    pose proof npi_big. lra.
Qed.

Definition start (a b : R) : settings := mkSettings (Bare (AV (PF a))) (Bare (AV (PF b))) None false None None.

Lemma new_made name a b : a < b -> / 4 <= b - a ->
  exists v, new_trv name (Bare (AV (PF a))) (Bare (AV (PF b))) (Lin 1) None = (v, None).
Proof.
  intros L Q. unfold new_trv, set_prob, t_default. cbn -[prob_of_length span].
  assert (E : span (AV (PF a)) (AV (PF b)) = Some (b - a)).
  { cbn [span as_num]. rewrite n_max_R, n_min_R, Rmax_right, Rmin_left by lra. reflexivity. }
  rewrite E. destruct (length_prob (b - a) (Lin 1) (hold_one _ Q)) as (x & X & _). rewrite X. eauto.
Qed.

(** A transformation set after the variable is made. *)
Lemma transformed name a b t no : a < b -> / 4 <= b - a -> / 4 <= Rabs (u_fwd (tr_u t) b - u_fwd (tr_u t) a) ->
  (no = true -> tr_der t <> None) ->
  exists w, made name (Lin 1) (mkSettings (Bare (AV (PF a))) (Bare (AV (PF b))) (Some t) no None None) w.
Proof.
  intros L Q QT Dr. destruct (new_made name a b L Q) as (v & V).
  pose proof (new_agrees _ _ _ _ _ _ V) as [Hn H0 H1 Hu Hno Hl Hlen Hps Hh Hp Hd Hpf]. cbn in H0, H1, Hd, Hpf.
  assert (C : exists w, do_call v (SetUfun (Some t) no) = (w, None)).
  { cbn [do_call]. unfold set_ufun.
    assert (E : no && match tr_der t with None => true | _ => false end = false).
    { destruct no; auto. destruct (tr_der t); auto. exfalso. apply Dr; auto. }
    rewrite E. unfold t_default, eval_ulims. cbn [with_ufun with_lims tv_has tv_def tv_nlen tv_pscale tv_ufun tv_no tv_e0 tv_e1 tv_pfun].
    rewrite Hh, Hd, H0, H1, Hps. cbn [negb andb].
    set (s := mkSettings (Bare (AV (PF a))) (Bare (AV (PF b))) (Some t) no None None).
    assert (B : between_limits s a b) by (split; eexists; split; reflexivity).
    pose proof (len_trans s a b B t eq_refl) as LT. unfold len_of in LT. cbn [s st_u st_e0 st_e1] in LT. rewrite LT.
    destruct (length_prob _ (Lin 1) (hold_one _ QT)) as (x & X & _). rewrite X.
    destruct no.
    - destruct (tr_der t) eqn:T; [|exfalso; apply Dr; auto]. cbn. rewrite Hpf. eauto.
    - cbn. rewrite Hpf. eauto. }
  destruct C as (w & C). exists w. do 3 eexists. exists [SetUfun (Some t) no], v.
  split; [exact V|]. split; [econstructor; [exact C|constructor]|]. split; [|reflexivity].
  constructor; [|constructor]. intros n E. discriminate.
Qed.

(** A variable with functions of its cumulative probability. *)
Lemma with_quantiles name a b p : a < b -> / 4 <= b - a ->
  exists w, made name (Lin 1) (mkSettings (Bare (AV (PF a))) (Bare (AV (PF b))) None false None (Some p)) w.
Proof.
  intros L Q. destruct (new_made name a b L Q) as (v & V).
  pose proof (new_agrees _ _ _ _ _ _ V) as AG.
  eexists. do 3 eexists. exists [SetPfun (Some p)], v. split; [exact V|]. split.
  - econstructor; [|constructor]. cbn. unfold set_pfun. cbn. rewrite (ag_u _ _ _ _ AG). reflexivity.
  - split; [|reflexivity]. constructor; [|constructor]. intros n E. discriminate.
Qed.

(** Logarithms of values between 1 and e^2. *)
Definition logs : trans R := mkTrans (mkUfun ln exp (fun _ => AOO true)) (Some (fun x => / x)).
(** The same, as a pair of functions. *)
Definition log_pair : trans R := mkTrans (mkUfun ln exp (fun _ => AOO true)) None.
(** Reciprocals of values between 1 and 2. *)
Definition turns : trans R := mkTrans (mkUfun Rinv Rinv (fun _ => AV (PF 0))) (Some (fun x => - / (x * x))).

Definition asked_logs (no : bool) : settings := mkSettings (Bare (AV (PF 1))) (Bare (AV (PF (exp 2)))) (Some logs) no None None.
Definition asked_turns (no : bool) : settings := mkSettings (Bare (AV (PF 1))) (Bare (AV (PF 2))) (Some turns) no None None.

Lemma exp2_big : 3 <= exp 2.
Proof. pose proof (exp_ineq1_le 2). lra. Qed.

Lemma logs_limits no : between_limits (asked_logs no) 1 (exp 2).
Proof. split; eexists; split; reflexivity. Qed.

Lemma logs_increase : increases logs 1 (exp 2).
Proof.
  split; cbn.
  - intros x y X XY Y. apply ln_increasing; lra.
  - intros y. rewrite ln_1, ln_exp. intros Y. split; [|apply ln_exp]. split.
    + rewrite <- exp_0. destruct (proj1 Y) as [H| <-]; [left; apply exp_increasing; auto|lra].
    + destruct (proj2 Y) as [H| ->]; [left; apply exp_increasing; auto|lra].
Qed.

Lemma inv_cont x : 0 < x -> continuity_pt Rinv x.
Proof.
  intros X. apply (continuity_pt_inv (fun y => y)); [|lra]. apply derivable_continuous_pt, derivable_pt_id.
Qed.

Lemma logs_derivative : derivative logs (fun x => / x) 1 (exp 2).
Proof.
  split; [reflexivity|]. intros x X. cbn. split; [apply derivable_pt_lim_ln; lra|]. apply inv_cont. lra.
Qed.

Lemma logs_length : u_fwd (tr_u logs) (exp 2) - u_fwd (tr_u logs) 1 = 2.
Proof. cbn. rewrite ln_exp, ln_1. ring. Qed.

Lemma logs_made no : exists w, made "f" (Lin 1) (asked_logs no) w.
Proof.
  pose proof exp2_big. apply transformed; try lra.
  - rewrite logs_length, Rabs_right; lra.
  - discriminate.
Qed.

Lemma pair_made : exists w, made "f" (Lin 1) (mkSettings (Bare (AV (PF 1))) (Bare (AV (PF (exp 2)))) (Some log_pair) false None None) w.
Proof.
  pose proof exp2_big. apply transformed; try lra; try discriminate.
  change (u_fwd (tr_u log_pair)) with (u_fwd (tr_u logs)). rewrite logs_length, Rabs_right; lra.
Qed.

Lemma turns_limits no : between_limits (asked_turns no) 1 2.
Proof. split; eexists; split; reflexivity. Qed.

Lemma turns_decrease : decreases turns 1 2.
Proof.
  split; cbn.
  - intros x y X XY Y. apply Rinv_lt_contravar; nra.
  - intros y. rewrite Rinv_1. intros Y. rewrite Rinv_inv. split; auto. split.
    + rewrite <- Rinv_1. apply Rinv_le_contravar; lra.
    + rewrite <- (Rinv_inv 2). apply Rinv_le_contravar; lra.
Qed.

Lemma turns_derivative : derivative turns (fun x => - / (x * x)) 1 2.
Proof.
  split; [reflexivity|]. intros x X. cbn. split.
  - pose proof (derivable_pt_lim_div (fun _ => 1) (fun y => y) x 0 1 (derivable_pt_lim_const 1 x) (derivable_pt_lim_id x)) as D.
    cbv beta in D. assert (NZ : x <> 0) by lra. specialize (D NZ).
    replace ((0 * x - 1 * 1) / x²) with (- / (x * x)) in D by (unfold Rsqr; field; auto).
    intros eps E. destruct (D eps E) as (dl & Q). exists dl. intros h H1 H2. specialize (Q h H1 H2).
    unfold div_fct in Q. unfold Rdiv in Q at 2 3. rewrite !Rmult_1_l in Q. exact Q.
  - apply continuity_pt_opp. apply (continuity_pt_inv (fun y => y * y)); [|nra].
    apply (continuity_pt_mult (fun y => y) (fun y => y)); apply derivable_continuous_pt, derivable_pt_id.
Qed.

Lemma turns_length : u_fwd (tr_u turns) 1 - u_fwd (tr_u turns) 2 = / 2.
Proof. cbn. lra. Qed.

Lemma turns_made no : exists w, made "x" (Lin 1) (asked_turns no) w.
Proof.
  apply transformed; try lra; try discriminate. rewrite Rabs_minus_sym, turns_length, Rabs_right; lra.
Qed.

Lemma logs_removed : exists w v w1 w2, made "f" (Lin 1) (asked_logs false) w /\
  new_trv "f" (Bare (AV (PF 1))) (Bare (AV (PF (exp 2)))) (Lin 1) None = (v, None) /\
  do_call w (SetUfun None false) = (w1, None) /\ do_call w1 (SetVset (Bare (AV (PF 1))) (Bare (AV (PF (exp 2))))) = (w2, None) /\
  forall x, 0 <= x <= 2 -> x < 1 -> ~ member (asked_logs false) x.
Proof.
  pose proof exp2_big. destruct (logs_made false) as (w & W). destruct (new_made "f" 1 (exp 2)) as (v & V); try lra.
  pose proof (made_agrees _ _ _ _ W) as AG. exists w, v. eexists.
  assert (C : exists w2, do_call (with_ufun w None (tv_no w)) (SetVset (Bare (AV (PF 1))) (Bare (AV (PF (exp 2))))) = (w2, None)).
  { cbn [do_call]. unfold set_vset, t_default, eval_ulims.
    cbn [with_ufun with_vset with_lims with_prob tv_has tv_def tv_nlen tv_pscale tv_ufun tv_no tv_e0 tv_e1 tv_pfun andb option_map u_image atom_of].
    rewrite (ag_def _ _ _ _ AG), (ag_ps _ _ _ _ AG). cbn [asked_logs st_given].
    assert (E : span (AV (PF 1)) (AV (PF (exp 2))) = Some (exp 2 - 1)).
    { cbn [span as_num]. rewrite n_max_R, n_min_R, Rmax_right, Rmin_left by lra. reflexivity. }
    rewrite E. destruct (length_prob (exp 2 - 1) (Lin 1)) as (x & X & _); [apply hold_one; lra|]. rewrite X. eauto. }
  destruct C as (w2 & C). exists w2. split; auto. split; auto. split; [reflexivity|]. split; [exact C|].
  intros x _ L [O _]. cbn in O. lra.
Qed.
