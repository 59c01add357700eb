(** The theorems about variables with distributions. *)
From Coq Require Import String Ascii ZArith Reals Bool Arith List Lia Lra Permutation.
From Verif Require Import Base Num Tensor TensorBcast TensorLemmas OdLemmas RNumLemmas PScales PScales_Spec PScales_Proofs Names Names_Spec Names_Proofs
  Distr PDModel PD_Spec PD_Simple_Spec Likelihoods Lik_Proofs Lik_Slice VariableModel Var_Spec Var_Proofs Var_Proofs2
  RVModel RV_Spec RV_Proofs RV_Matrix RV_More RVStep_Spec RFModel RF_Spec DistModel Dist_Spec Dist_Proofs.
Import ListNotations.
Local Open Scope list_scope.

Section Thms.
Context {F : Fmt R}.

Lemma set_pscale_ok (v w : drv R) given : dv_set_pscale v given = Ok w ->
  eval_pscale given = Ok (dv_pscale w) /\ dv_name w = dv_name v /\ dv_state w = dv_state v /\ dv_prob w = dv_prob v /\
  dv_pfun w = dv_pfun v /\ dv_sfun w = dv_sfun v /\ forall a r, dv_evaluate w a r = dv_evaluate v a r.
Proof.
  unfold dv_set_pscale. destruct (eval_pscale given) as [ps|e] eqn:E; [|discriminate]. cbn [bind]. intros H. injection H as <-. cbn. auto 10.
Qed.

(** Assigning a scale to a variable with a distribution. *)
Lemma rescaled_density (v w : drv R) given d a r vals vec l :
  printable F -> named_apart [dv_name v] ->
  eval_pscale (spec_of (dv_pscale v)) = Ok (dv_pscale v) -> dv_set_pscale v given = Ok w ->
  dv_prob v = DDist d -> dv_evaluate v a r = Ok vals -> holds vals vec l -> l <> [] ->
  exists q q', dv_call v a r = Ok q /\ called v vec l q /\ dv_call w a r = Ok q' /\ called w vec l q' /\ eval_pscale given = Ok (p_pscale q') /\
    forall s, in_bounds q (if vec then [dv_name v] else []) s -> in_bounds q' (if vec then [dv_name v] else []) s ->
      consistent d (num (item vec l (s (dv_name v)))) ->
      (factor (spec_of (dv_pscale w)) * prob_at q (if vec then [dv_name v] else []) s =
       factor (spec_of (dv_pscale v)) * prob_at q' (if vec then [dv_name v] else []) s)%R.
Proof.
  intros PR NA EP SW D E H NL. destruct (set_pscale_ok v w given SW) as (EG & Nm & St & Pr & _ & _ & Ev).
  assert (EP' : eval_pscale (spec_of (dv_pscale w)) = Ok (dv_pscale w)) by (exact (eval_idem _ _ EG)).
  destruct (density_call v PR NA EP d a r vals vec l D E H NL) as (q & Eq & C & P).
  assert (NA' : named_apart [dv_name w]) by (rewrite Nm; exact NA).
  assert (D' : dv_prob w = DDist d) by (rewrite Pr; exact D).
  assert (E' : dv_evaluate w a r = Ok vals) by (rewrite Ev; exact E).
  destruct (density_call w PR NA' EP' d a r vals vec l D' E' H NL) as (q' & Eq' & C' & P').
  exists q, q'. split; [exact Eq|]. split; [exact C|]. split; [exact Eq'|]. split; [exact C'|].
  split; [destruct C' as (_ & _ & _ & PS & _); rewrite PS; exact EG|].
  intros s B B' CO. rewrite Nm in P'. rewrite (P s B CO), (P' s B' CO). ring.
Qed.

(** ... and to one with a number: the number stays. *)
Lemma rescaled_number (v w : drv R) x a r vals vec l :
  printable F -> named_apart [dv_name v] -> dv_pscale v = Lin 1%R -> dv_set_pscale v (PSStr "log") = Ok w ->
  dv_prob v = DPlain (RPScalar x) -> dv_evaluate v a r = Ok vals -> holds vals vec l -> l <> [] ->
  exists q q', dv_call v a r = Ok q /\ called v vec l q /\ dv_call w a r = Ok q' /\ called w vec l q' /\
    forall s, in_bounds q (if vec then [dv_name v] else []) s -> in_bounds q' (if vec then [dv_name v] else []) s ->
      inside (dv_state v) (item vec l (s (dv_name v))) = Some true ->
      prob_at q (if vec then [dv_name v] else []) s = x /\ prob_at q' (if vec then [dv_name v] else []) s = exp x /\ exp x <> x.
Proof.
  intros PR NA PS SW D E H NL. destruct (set_pscale_ok v w _ SW) as (EG & Nm & St & Pr & _ & _ & Ev).
  assert (EP : eval_pscale (spec_of (dv_pscale v)) = Ok (dv_pscale v)).
  { rewrite PS. cbn. unfold spec_of, eval_pscale. rewrite (proj2 (Reqb_iff 1%R n1)) by reflexivity. reflexivity. }
  assert (EP' : eval_pscale (spec_of (dv_pscale w)) = Ok (dv_pscale w)) by (exact (eval_idem _ _ EG)).
  destruct (scalar_call v PR NA EP x a r vals vec l D E H NL) as (q & Eq & C & P).
  assert (NA' : named_apart [dv_name w]) by (rewrite Nm; exact NA).
  assert (D' : dv_prob w = DPlain (RPScalar x)) by (rewrite Pr; exact D).
  assert (E' : dv_evaluate w a r = Ok vals) by (rewrite Ev; exact E).
  destruct (scalar_call w PR NA' EP' x a r vals vec l D' E' H NL) as (q' & Eq' & C' & P').
  exists q, q'. split; [exact Eq|]. split; [exact C|]. split; [exact Eq'|]. split; [exact C'|].
  intros s B B' I. rewrite Nm, St in P'. rewrite (P s B I), (P' s B' I). rewrite PS.
  assert (PW : dv_pscale w = Log 0%R 0%R) by (cbn in EG; injection EG as <-; reflexivity).
  rewrite PW. split; [|split].
  - unfold denote, spec_of, factor, log_kind. destruct (Req_EM_T 1 0); lra.
  - apply denote_log.
  - pose proof (exp_ineq1_le x). lra.
Qed.

(** With quantiles, values are sampled exactly from finite intervals. *)
Lemma sampled_iff (v : drv R) p n r : dv_pfun v = Some p ->
  ((exists vals, dv_evaluate v (VSet n) r = Ok vals) <-> finite_interval (dv_state v)) /\
  (~ finite_interval (dv_state v) -> dv_evaluate v (VSet n) r = Err AssertionError).
Proof.
  intros P. unfold dv_evaluate. rewrite P. unfold finite_interval, interval. destruct (dv_state v) as [vt vs]. cbn [vs_vtype vs_vset].
  assert (NO : forall e, ((exists vals : tensor (pyval R), Err e = Ok vals) <-> False)) by (intros e; split; [intros (x & H); discriminate|tauto]).
  assert (K : forall (P : Prop), (P -> False) -> ((exists vals : tensor (pyval R), Err AssertionError = Ok vals) <-> P) /\ (~ P -> Err (A := tensor (pyval R)) AssertionError = Err AssertionError)).
  { intros Q NQ. split; [rewrite NO; tauto|reflexivity]. }
  destruct vt as [[| |]|]; try (apply K; intros (e0 & e1 & lo & hi & C & _); discriminate).
  destruct vs as [[|e0 [|e1 [|e2 l]]]|]; try (apply K; intros (a0 & a1 & lo & hi & C & _); discriminate).
  destruct (atom_of e0) as [lo|b0] eqn:E0; [|apply K; intros (a0 & a1 & lo & hi & C & E & _); injection C as <- <-; congruence].
  destruct (atom_of e1) as [hi|b1] eqn:E1; [|apply K; intros (a0 & a1 & lo' & hi & C & _ & E); injection C as <- <-; congruence].
  split; [split; [intros _; exists e0, e1, lo, hi; auto|eauto]|]. intros C. exfalso. apply C. exists e0, e1, lo, hi. auto.
Qed.

Lemma not_float_refused (v : drv R) p n r : dv_pfun v = Some p -> vs_vtype (dv_state v) <> Some VFloat ->
  dv_evaluate v (VSet n) r = Err AssertionError.
Proof.
  intros P NF. apply (proj2 (sampled_iff v p n r P)). intros (e0 & e1 & lo & hi & E & _). rewrite E in NF. apply NF. reflexivity.
Qed.

Lemma infinite_refused (v : drv R) p n r e0 e1 : dv_pfun v = Some p -> dv_state v = interval e0 e1 -> infinite e0 \/ infinite e1 ->
  dv_evaluate v (VSet n) r = Err AssertionError.
Proof.
  intros P St I. apply (proj2 (sampled_iff v p n r P)). intros (a0 & a1 & lo & hi & E & E0 & E1). rewrite St in E. injection E as <- <-.
  destruct I as [I|I]; [exact (I _ E0)|exact (I _ E1)].
Qed.

(** Without values a float variable is drawn uniformly. *)
Lemma default_draw (v : drv R) e0 e1 lo hi r :
  dv_state v = interval e0 e1 -> atom_of e0 = AV lo -> atom_of e1 = AV hi -> (num lo < num hi)%R -> (0 <= r_unif r 0 < 1)%R ->
  exists x, dv_evaluate v VNone r = Ok (tscalar (PF x)) /\ (num lo <= x < num hi)%R /\
    forall t, (x <= t <-> r_unif r 0 <= (t - num lo) / (num hi - num lo))%R.
Proof.
  intros St A0 A1 LT U. exists (num lo + (num hi - num lo) * r_unif r 0)%R. split.
  - unfold dv_evaluate. rewrite St. destruct (dv_pfun v); cbn [is_bool interval vs_vtype evaluate vs_vset];
      rewrite A0, A1; cbn [u_image uniform out_map out_tensor bind draw n_add n_mul n_sub RNum]; rewrite !as_num_num; reflexivity.
  - split; [split; nra|]. intros t. split; intros H.
    + apply (Rmult_le_reg_r (num hi - num lo)); [lra|]. unfold Rdiv. rewrite (Rmult_assoc (t - num lo)), Rinv_l by lra. lra.
    + apply (Rmult_le_compat_r (num hi - num lo)) in H; [|lra]. unfold Rdiv in H. rewrite (Rmult_assoc (t - num lo)), Rinv_l in H by lra. lra.
Qed.

(** A new probability without quantiles leaves the old quantiles. *)
Lemma stale_quantiles (v w : drv R) given a p : dv_set_prob v given a = Ok w -> without_quantiles a -> dv_pfun v = Some p ->
  forall n r, dv_evaluate w (VSet n) r = dv_evaluate v (VSet n) r.
Proof.
  intros S WQ P n r. unfold dv_set_prob in S. destruct a as [a|d].
  - destruct (rv_set_prob _ _ _ _ _ _ _) as [w'|e]; [|discriminate]. cbn [bind] in S. injection S as <-. unfold dv_evaluate. cbn [dv_pfun dv_state]. rewrite P. reflexivity.
  - destruct (new_pscale _ _) as [ps|e]; [|discriminate]. cbn [bind] in S. injection S as <-. cbn in WQ. unfold dv_evaluate. cbn [dv_pfun dv_state]. rewrite WQ, P. reflexivity.
Qed.

(** The bias of a bool variable outlives its probability. *)
Lemma stale_bias (v w u : drv R) g1 g2 b a :
  vs_vtype (dv_state v) = Some VBool -> dv_pfun v = None -> (/ 50000 <= Rabs (b - / 2))%R ->
  dv_set_prob v g1 (DAPlain (PAScalar b)) = Ok w -> dv_set_prob w g2 (DAPlain a) = Ok u ->
  a = PAScalar (/ 2)%R \/ (exists f, a = PAFun f) ->
  dv_prob u = DPlain (match a with PAFun f => RPFun f | _ => RPScalar (/ 2)%R end) /\
  forall n r, (n <= 0)%Z -> exists vals out, dv_evaluate u (VSet n) r = Ok vals /\ holds vals (negb (n =? 0)%Z) out /\
    length out = Nat.max 1 (Z.abs_nat n) /\
    forall i, i < length out -> exists x, nth_error out i = Some (PB x) /\ (x = true <-> r_unif r i < b)%R.
Proof.
  intros VB NP FB S1 S2 HA.
  assert (CB : close_half b = false).
  { destruct (close_half b) eqn:C; [|reflexivity]. apply close_half_iff in C. lra. }
  assert (CH : close_half (/ 2)%R = true).
  { exact close_half_half. }
  unfold dv_set_prob in S1. unfold rv_set_prob in S1. destruct (new_pscale g1 _) as [ps|e]; [|discriminate]. cbn [bind bernoullise rv_prob rv_pscale rv_tran rv_def] in S1.
  assert (IB : is_bool (dv_state v) = true) by (unfold is_bool; rewrite VB; reflexivity).
  rewrite IB, CB in S1. cbn [andb negb] in S1. injection S1 as <-.
  unfold dv_set_prob, rv_set_prob in S2. cbn [dv_name dv_state dv_pscale dv_tran dv_pfun dv_sfun] in S2.
  destruct (new_pscale g2 _) as [ps2|e]; [|discriminate]. cbn [bind] in S2.
  assert (EU : dv_state u = dv_state v /\ dv_pfun u = None /\ dv_sfun u = SFBern b /\ dv_prob u = DPlain (match a with PAFun f => RPFun f | _ => RPScalar (/ 2)%R end)).
  { destruct HA as [->|(f & ->)]; cbn [bind bernoullise rv_prob rv_pscale rv_tran rv_def] in S2; rewrite ?IB, ?CH in S2; cbn [andb negb] in S2; injection S2 as <-; cbn; rewrite ?NP; auto. }
  destruct EU as (E1 & E2 & E3 & E4). split; [exact E4|]. intros n r Ln. unfold dv_evaluate. rewrite E1, E2, E3, IB.
  assert (LB : forall i, n_ltb (r_unif r i) b = true <-> (r_unif r i < b)%R) by (intros i; apply Rltb_iff).
  destruct n as [|n|n]; [|lia|].
  - eexists. exists [PB (n_ltb (r_unif r 0) b)]. split; [reflexivity|]. cbn [Z.eqb negb holds]. split; [eexists; split; reflexivity|]. split; [reflexivity|].
    intros i Hi. cbn in Hi. destruct i; [|lia]. eexists. split; [reflexivity|apply LB].
  - eexists. exists (map (fun i => PB (n_ltb (r_unif r i) b)) (seq 0 (Pos.to_nat n))). split; [reflexivity|]. split; [reflexivity|].
    rewrite map_length, seq_length. cbn [Z.abs_nat]. pose proof (Pos2Nat.is_pos n). split; [lia|].
    intros i Hi. eexists. rewrite nth_error_map, (nth_error_nth' _ 0) by (rewrite seq_length; exact Hi). rewrite seq_nth by exact Hi. split; [reflexivity|apply LB].
Qed.
End Thms.

Lemma scale_stays (v w : drv R) a : eval_pscale (spec_of (dv_pscale v)) = Ok (dv_pscale v) ->
  dv_set_prob v PSNone a = Ok w -> dv_pscale w = dv_pscale v.
Proof.
  intros E H. unfold dv_set_prob in H. destruct a as [a|d].
  - apply bind_ok in H as (x & X & H). injection H as <-. cbn [dv_pscale]. unfold rv_set_prob in X. 
    apply bind_ok in X as (ps & P & X). unfold new_pscale in P. cbn [ps_true] in P. rewrite E in P. injection P as <-.
    apply bind_ok in X as ([[? ?] ?] & _ & X). injection X as <-. reflexivity.
  - apply bind_ok in H as (ps & P & H). unfold new_pscale in P. cbn [ps_true] in P. rewrite E in P. injection P as <-. injection H as <-. reflexivity.
Qed.

Lemma pfun_removed (v : drv R) a r : is_bool (dv_state v) = false ->
  dv_evaluate (dv_set_pfun v None) a r = let! o := evaluate (dv_state v) None a r in Ok (out_tensor o).
Proof. intros B. unfold dv_evaluate. cbn [dv_set_pfun dv_pfun dv_state dv_sfun]. rewrite B. reflexivity. Qed.

