(** Proofs about random variables: the default probability, construction. *)
From Coq Require Import String Ascii ZArith Reals Bool Arith List Lia Lra Sorted Permutation.
From Verif Require Import Base Num Tensor PScales PScales_Spec PScales_Proofs RNumLemmas PD_Spec Distr PDModel
  VariableModel Var_Spec Var_Proofs RVModel RV_Spec.
Import ListNotations.
Local Open Scope R_scope.

Lemma inside_set s mem len : finite_set s mem len -> forall x, inside_b s x = true <-> mem (num x).
Proof.
  intros H x. unfold inside_b. destruct H as [e0 e1 a b|vals|a b].
  - destruct (inside_interval e0 e1 x) as (c & -> & I). exact I.
  - destruct (@inside_discrete VInt vals x) as (c & -> & I); [discriminate|exact I].
  - destruct (@inside_discrete VBool [a; b] x) as (c & -> & I); [discriminate|exact I].
Qed.

Lemma length_set s mem len : finite_set s mem len -> exists v, vlength s None = Ok (Some v) /\ num v = len.
Proof.
  intros [e0 e1 a b E0 E1 L|vals|a b].
  - cbn [vlength interval vs_vset vs_vtype u_image]. rewrite E0, E1. eexists. split; [reflexivity|].
    cbn [num]. rewrite !as_num_num, n_max_R, n_min_R. cbn [n_sub RNum].
    rewrite Rmax_right, Rmin_left by auto. reflexivity.
  - cbn [vlength discrete vs_vset vs_vtype]. eexists. split; [reflexivity|]. cbn [num].
    rewrite map_length, <- INR_IZR_INZ. reflexivity.
  - eexists. split; [reflexivity|]. reflexivity.
Qed.

Lemma valid_log : valid_scale (PSStr "log").
Proof. split; cbn; auto. Qed.

Lemma default_prob_ok s mem len ps : finite_set s mem len -> npz <= len ->
  good_scale (spec_of ps) ->
  (log_kind (spec_of ps) = false -> / len / factor (spec_of ps) <= npi) ->
  exists x, default_prob s ps = Ok x /\ denote (spec_of ps) x = / len.
Proof.
  intros H L (V & U & G) B. destruct (length_set s mem len H) as (v & E & Nv).
  pose proof npz_pos as NP.
  unfold default_prob, nlhv. rewrite E. cbn [bind].
  destruct (rescale_preserves (tscalar (n_opp (log_prob1 (as_num v)))) (PSStr "log") (spec_of ps))
    as (t & Et & _ & D); auto.
  { apply valid_log. } { discriminate. }
  rewrite Et. cbn [bind]. eexists. split; [reflexivity|].
  assert (DL : denote (PSStr "log") (n_opp (log_prob1 (as_num v))) = / len).
  { unfold denote. cbn [factor log_kind]. unfold log_prob1. rewrite as_num_num, Nv.
    assert (LE : n_leb npz len = true) by (apply Rleb_iff; auto). rewrite LE, n_opp_R. cbn [n_ln RNum].
    rewrite exp_Ropp, exp_ln by lra. ring. }
  rewrite D.
  - exact DL.
  - cbn. discriminate.
  - intros _ K. cbn [get tscalar]. rewrite DL. auto.
Qed.

Lemma close_half_half : close_half (/ 2) = true.
Proof.
  unfold close_half, half. apply Rleb_iff. rewrite n_abs_R. cbn [n_sub n_div n_add n_mul n_ofZ RNum].
  rewrite n1_R. replace (/ 2 - 1 / 2) with 0 by field. rewrite Rabs_R0. lra.
Qed.

Lemma one_scale : factor (PSFloat 1) = 1 /\ log_kind (PSFloat 1) = false.
Proof. cbn. destruct (Req_EM_T 1 0); [lra|auto]. Qed.

Lemma denote_one x : denote (PSFloat 1) x = x.
Proof. unfold denote. destruct one_scale as [-> ->]. ring. Qed.

Lemma good_one : good_scale (PSFloat 1).
Proof.
  split; [|split].
  - split; cbn; auto. lra.
  - discriminate.
  - left. cbn. destruct (Req_EM_T 1 0); [lra|auto].
Qed.

(** The state of a freshly made random variable. *)
Lemma make_rv_inv nm vset vt prob given (v : rv R) : make_rv nm vset vt prob given = Ok v ->
  rv_name v = nm /\ (exists s, make_variable (Some nm) vt vset = Ok (nm, s) /\ rv_state v = s) /\
  new_pscale given PSNone = Ok (rv_pscale v) /\
  match prob with
  | PANone => exists x, default_prob (rv_state v) (rv_pscale v) = Ok x /\
               rv_prob v = bernoullise (rv_state v) (RPScalar x) /\ rv_tran v = TRNone /\ rv_def v = true
  | PAScalar x => rv_prob v = bernoullise (rv_state v) (RPScalar x)
  | PAArray l => rv_prob v = RPArray l
  | PAFun f => rv_prob v = RPFun f
  end.
Proof.
  intros H. unfold make_rv in H. destruct (make_variable (Some nm) vt vset) as [[n s]|] eqn:E; [|discriminate].
  cbn [bind] in H. unfold rv_set_prob in H. destruct (new_pscale given PSNone) as [ps|] eqn:P; [|discriminate].
  cbn [bind] in H.
  assert (n = nm).
  { unfold make_variable, set_name in E. destruct (valid_name nm); [|discriminate]. cbn [bind] in E.
    destruct (if is_container vset then _ else _) as [s0 [?|?]]; [|discriminate]. congruence. }
  subst n. destruct prob as [|x|l|f].
  - destruct (default_prob s ps) as [x|] eqn:D; [|discriminate]. cbn [bind] in H. injection H as <-. cbn.
    split; auto. split; [eauto|]. split; auto. exists x. auto.
  - cbn [bind] in H. injection H as <-. cbn. split; auto. split; [eauto|]. auto.
  - destruct (vs_vset s) as [vs|] eqn:Q.
    + destruct (length l =? length vs)%nat; [|discriminate]. cbn [bind assert_] in H. injection H as <-. cbn.
      split; auto. split; [eauto|]. auto.
    + cbn [bind] in H. injection H as <-. cbn. split; auto. split; [eauto|]. auto.
  - cbn [bind] in H. injection H as <-. cbn. split; auto. split; [eauto|]. auto.
Qed.

Lemma eval_scalar v x vals : rv_prob v = RPScalar x -> eval_pscale (spec_of (rv_pscale v)) = Ok (rv_pscale v) ->
  exists t, eval_prob (T := R) v vals = Ok t /\ shape t = shape vals /\
    forall idx, get t idx = if inside_b (rv_state v) (get vals idx) then x
                            else if is_log (rv_pscale v) then nni else 0.
Proof.
  intros E P. unfold eval_prob. rewrite E. unfold uniform_prob. rewrite P. cbn [bind uniform_rest].
  eexists. split; [reflexivity|]. split; [reflexivity|]. reflexivity.
Qed.

Lemma new_pscale_idem given old (p : pscale R) : new_pscale given old = Ok p -> eval_pscale (spec_of p) = Ok p.
Proof. intros H. eapply eval_idem. exact H. Qed.

Lemma is_log_kind (p : pscale R) : eval_pscale (spec_of p) = Ok p -> is_log p = log_kind (spec_of p).
Proof.
  intros H. destruct p as [c|re im]; cbn; auto. destruct (Req_EM_T c 0); auto. subst. exfalso.
  revert H. apply eval_nonzero.
Qed.

(** C41 *)
Lemma default_uniform nm vset vt given v mem len :
  make_rv nm vset vt PANone given = Ok v ->
  finite_set (rv_state v) mem len -> npz <= len ->
  good_scale (spec_of (rv_pscale v)) ->
  (log_kind (spec_of (rv_pscale v)) = false -> / len / factor (spec_of (rv_pscale v)) <= npi) ->
  (vs_vtype (rv_state v) = Some VBool -> rv_pscale v = Lin 1) ->
  forall vals, exists t, eval_prob v vals = Ok t /\ shape t = shape vals /\
    forall idx,
      (mem (num (get vals idx)) -> denote (spec_of (rv_pscale v)) (get t idx) = / len) /\
      (~ mem (num (get vals idx)) -> get t idx = if log_kind (spec_of (rv_pscale v)) then nni else 0).
Proof.
  intros M H L G B BB vals. destruct (make_rv_inv _ _ _ _ _ _ M) as (_ & _ & P & x & D & Pr & _).
  destruct (default_prob_ok _ _ _ _ H L G B) as (x' & D' & X). rewrite D in D'. injection D' as <-.
  assert (Pr' : rv_prob v = RPScalar x).
  { rewrite Pr. unfold bernoullise. destruct (is_bool (rv_state v)) eqn:IB; auto.
    assert (VB : vs_vtype (rv_state v) = Some VBool) by (unfold is_bool in IB; destruct (vs_vtype (rv_state v)) as [[]|]; congruence).
    specialize (BB VB). rewrite BB in X. cbn [spec_of] in X. rewrite denote_one in X.
    assert (LL : len = 2) by (destruct H; [discriminate VB|discriminate VB|reflexivity]).
    rewrite LL in X. subst x. rewrite close_half_half. reflexivity. }
  assert (PI : eval_pscale (spec_of (rv_pscale v)) = Ok (rv_pscale v)) by (eapply new_pscale_idem; eauto).
  destruct (eval_scalar v x vals Pr' PI) as (t & E & S & Gt).
  exists t. split; auto. split; auto. intros idx. rewrite Gt. rewrite (is_log_kind _ PI).
  pose proof (inside_set _ _ _ H (get vals idx)) as I. split; intros Q.
  - apply I in Q. rewrite Q. exact X.
  - destruct (inside_b (rv_state v) (get vals idx)); [exfalso; apply Q, I; auto|reflexivity].
Qed.

(** Bool variables on other scales. *)
Lemma bern_values b : bernoulli_prob (T := R) 0 b = 1 - b /\ bernoulli_prob (T := R) 1 b = b.
Proof. unfold bernoulli_prob. cbn [n_add n_mul n_sub n_ofZ RNum]. rewrite n1_R. split; ring. Qed.

Lemma close_half_iff x : close_half x = true <-> Rabs (x - / 2) <= / 100000000 + / 200000.
Proof.
  unfold close_half, half. rewrite Rleb_iff, n_abs_R. cbn [n_sub n_div n_add n_mul n_ofZ RNum].
  rewrite n1_R. replace (1 / 2) with (/ 2) by field.
  replace (1 / 100000000 + 1 / 100000 * / 2) with (/ 100000000 + / 200000) by field. tauto.
Qed.

Definition two : tensor (pyval R) := of_list (PF 0) [PB false; PB true].

Lemma eval_bern v b : rv_prob v = RPBern b ->
  exists t, eval_prob (T := R) v two = Ok t /\ shape t = [2%nat] /\ get t [0%nat] = 1 - b /\ get t [1%nat] = b.
Proof.
  intros E. unfold eval_prob. rewrite E. unfold prob_call. cbn [bind ps_true].
  eexists. split; [reflexivity|]. split; [reflexivity|].
  pose proof (bern_values b) as [B0 B1].
  split; [exact B0|exact B1].
Qed.

Lemma both_set : finite_set both (fun x => In x [0; 1]) 2.
Proof. exact (fs_bool (PB false) (PB true)). Qed.

Lemma npz_le_2 : npz <= 2.
Proof. pose proof npz_lt_1. lra. Qed.

Lemma log_scale_good : good_scale (PSCplx 0 0).
Proof.
  split; [|split].
  - split; cbn; auto.
  - intros H. unfold unit_log in H. injection H as H. lra.
  - left. cbn. unfold log_offset. destruct (Rlt_dec (Rabs 0) npz) as [Q|Q].
    + rewrite exp_0. auto.
    + rewrite Ropp_0, exp_0. auto.
Qed.

Lemma log_factor : factor (PSCplx 0 0) = 1.
Proof.
  cbn. unfold log_offset. destruct (Rlt_dec (Rabs 0) npz) as [Q|Q]; [|rewrite Ropp_0]; apply exp_0.
Qed.

Lemma denote_log x : denote (PSCplx 0 0) x = exp x.
Proof. unfold denote. rewrite log_factor. cbn [log_kind]. ring. Qed.

Lemma bool_log_wrong nm vset vt given v :
  make_rv nm vset vt PANone given = Ok v -> rv_state v = both -> rv_pscale v = Log 0 0 ->
  exists t, eval_prob v two = Ok t /\
    denote (spec_of (rv_pscale v)) (get t [1%nat]) = / 2 /\
    denote (spec_of (rv_pscale v)) (get t [0%nat]) = 2 * exp 1.
Proof.
  intros M S P. destruct (make_rv_inv _ _ _ _ _ _ M) as (_ & _ & _ & x & D & Pr & _).
  destruct (default_prob_ok both _ 2 (Log 0 0) both_set npz_le_2) as (x' & D' & X).
  { apply log_scale_good. } { cbn. discriminate. }
  rewrite S, P in D. rewrite D in D'. injection D' as <-. cbn [spec_of] in X. rewrite denote_log in X.
  assert (Ex : x = - ln 2).
  { apply exp_inv. rewrite X, exp_Ropp, exp_ln by lra. reflexivity. }
  assert (L2 : 0 < ln 2) by (rewrite <- ln_1; apply ln_increasing; lra).
  assert (NC : close_half x = false).
  { destruct (close_half x) eqn:C; auto. apply close_half_iff in C. subst x.
    rewrite Rabs_left in C by lra. lra. }
  rewrite S in Pr. unfold bernoullise, is_bool, both, discrete in Pr. cbn [vs_vtype] in Pr. rewrite NC in Pr. cbn in Pr.
  destruct (eval_bern v x Pr) as (t & E & _ & G0 & G1). exists t. split; auto.
  rewrite P. cbn [spec_of]. rewrite !denote_log, G0, G1. split; [exact X|].
  subst x. replace (1 - - ln 2) with (1 + ln 2) by ring. rewrite exp_plus, exp_ln by lra. ring.
Qed.

Lemma bool_linear_wrong nm vset vt given v c :
  make_rv nm vset vt PANone given = Ok v -> rv_state v = both -> rv_pscale v = Lin c ->
  good_scale (PSFloat c) -> npz <= c -> / 50000 <= Rabs (c - 1) <= / 2 ->
  exists t, eval_prob v two = Ok t /\
    denote (spec_of (rv_pscale v)) (get t [1%nat]) = / 2 /\
    denote (spec_of (rv_pscale v)) (get t [0%nat]) = c - / 2 /\ c - / 2 <> / 2.
Proof.
  intros M S P G CP C1. destruct (make_rv_inv _ _ _ _ _ _ M) as (_ & _ & _ & x & D & Pr & _).
  pose proof npz_pos as NP.
  assert (FC : factor (PSFloat c) = c /\ log_kind (PSFloat c) = false).
  { cbn. destruct (Req_EM_T c 0); [lra|auto]. }
  destruct FC as [FC LK].
  assert (DN : forall y, denote (PSFloat c) y = c * y) by (intros; unfold denote; rewrite FC, LK; auto).
  assert (CR : / 2 <= c <= 3 / 2).
  { destruct C1 as [_ C2]. unfold Rabs in C2. destruct (Rcase_abs (c - 1)); lra. }
  destruct (default_prob_ok both _ 2 (Lin c) both_set npz_le_2) as (x' & D' & X); auto.
  { intros _. cbn [spec_of]. rewrite FC. pose proof npi_big. unfold Rdiv.
    assert (/ c <= 2). { replace 2 with (/ / 2) by field. apply Rinv_le_contravar; lra. }
    nra. }
  rewrite S, P in D. rewrite D in D'. injection D' as <-. cbn [spec_of] in X. rewrite DN in X.
  assert (NC : close_half x = false).
  { destruct (close_half x) eqn:C; auto. apply close_half_iff in C. exfalso.
    assert (Q : Rabs (c - 1) <= 2 * c * (/ 100000000 + / 200000)).
    { replace (c - 1) with (- (2 * c) * (x - / 2)) by lra.
      rewrite Rabs_mult, Rabs_Ropp. rewrite (Rabs_pos_eq (2 * c)) by lra.
      apply Rmult_le_compat_l; lra. }
    destruct C1 as [C1 _]. assert (2 * c * (/ 100000000 + / 200000) <= 3 * (/ 100000000 + / 200000)).
    { apply Rmult_le_compat_r; lra. } lra. }
  rewrite S in Pr. unfold bernoullise, is_bool, both, discrete in Pr. cbn [vs_vtype] in Pr. rewrite NC in Pr. cbn in Pr.
  destruct (eval_bern v x Pr) as (t & E & _ & G0 & G1). exists t. split; auto.
  rewrite P. cbn [spec_of]. rewrite !DN, G0, G1. split; [exact X|]. split; [lra|].
  intros Q. assert (c = 1) by lra. subst. replace (1 - 1) with 0 in C1 by ring. rewrite Rabs_R0 in C1. lra.
Qed.

(** A finite int variable: the probabilities of its values sum to one. *)
Fixpoint sum_list (l : list R) : R := match l with [] => 0 | x :: l' => x + sum_list l' end.

Lemma sum_const {A} (l : list A) (c : R) : sum_list (map (fun _ => c) l) = INR (length l) * c.
Proof. induction l as [|a l IH]; [cbn; ring|]. cbn [map sum_list]. rewrite IH. cbn [length]. rewrite S_INR. ring. Qed.

Lemma default_total nm vset vt given v vals :
  make_rv nm vset vt PANone given = Ok v -> rv_state v = discrete VInt vals -> vals <> [] ->
  good_scale (spec_of (rv_pscale v)) ->
  (log_kind (spec_of (rv_pscale v)) = false -> / INR (length vals) / factor (spec_of (rv_pscale v)) <= npi) ->
  exists t, eval_prob v (of_list (PF 0) vals) = Ok t /\
    sum_n (length vals) (fun i => denote (spec_of (rv_pscale v)) (get t [i])) = 1.
Proof.
  intros M S NE G B.
  assert (H : finite_set (rv_state v) (fun x => In x (map num vals)) (INR (length vals))) by (rewrite S; constructor).
  assert (L1 : 1 <= INR (length vals)).
  { destruct vals; [contradiction|]. cbn [length]. rewrite S_INR. pose proof (pos_INR (length vals)). lra. }
  destruct (default_uniform nm vset vt given v _ _ M H) with (vals := of_list (PF 0) vals) as (t & E & Sh & I); auto.
  { pose proof npz_lt_1. lra. }
  { rewrite S. discriminate. }
  exists t. split; auto.
  assert (Q : forall n, (n <= length vals)%nat ->
     sum_n n (fun i => denote (spec_of (rv_pscale v)) (get t [i])) = INR n * / INR (length vals)).
  { induction n as [|n IH]; intros Ln; [cbn; ring|]. cbn [sum_n]. rewrite IH by lia.
    destruct (I [n]) as [I1 _]. rewrite I1.
    - rewrite S_INR. ring.
    - apply in_map. cbn. apply nth_In. lia. }
  rewrite Q by lia. field. lra.
Qed.
