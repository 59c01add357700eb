(** The laws of samplers that draw their variables. *)
From Coq Require Import String Ascii ZArith Reals Lra Bool Arith Lia Permutation List.
From Verif Require Import Base Num Tensor TensorLemmas OdLemmas RNumLemmas PScales PScales_Spec PScales_Proofs Names Names_Spec Distr PDModel PD_Spec
  VariableModel RVModel RV_Spec FieldModel Field_Spec RFModel RF_Spec SDModel SD_Spec SPModel SP_Spec SP_Proofs SP_Scores
  ChainModel Chain_Spec Chain_Proofs Chain_Run Chain_Thm GibbsModel Gibbs_Spec Gibbs_Run Gibbs_Proofs.
Import ListNotations.

Section Laws.
Context {F : Fmt R} {TR : Trunc R}.
Variables (vs : list (rv R)) (start : list R).
Let names := names_of vs.
Let n := length vs.
Hypothesis PR : printable F.
Hypothesis NE : vs <> [].
Hypothesis NA : named_apart names.
Hypothesis UP : unprimed names.
Hypothesis RV : forall v, In v vs -> vs_vset (rv_state v) <> None.
Hypothesis SC : scales_ok vs.
Hypothesis LS : length start = n.

Let LN : length names = n.
Proof. unfold names, names_of. apply map_length. Qed.

(** What is asked of the rule. *)
Definition rule_ok (m : rule) (acc : option (list R -> list R -> R)) (fine : grnd R -> Prop) (ps : pspec R) (tran : option (tranin R))
    (h : list (pyval R) -> R) (qd : list (pyval R) -> list (pyval R) -> R) : Prop :=
  match m, acc with
  | GibbsRule, None => True
  | Mcmc mm, Some a =>
      (forall r, fine r -> (gr_thresh r <= 1)%R) /\
      forall x y dp dp' pr rv, length x = n -> length y = n ->
      scalar_prob dp = Ok (h (map PF x)) -> scalar_prob dp' = Ok (h (map PF y)) -> scalar_prob pr = Ok (qd (map PF x) (map PF y)) ->
      match tran with Some (TranOne _) => rv = None | _ => exists rd, rv = Some rd /\ scalar_prob rd = scalar_prob pr end ->
      exists sc, named_scores mm ps (mkOPQR (Some dp) (Some dp') (Some pr) rv) = Ok sc /\
        match sc with Some s => s = a x y | None => a x y = 1%R end
  | _, _ => False
  end.

(** Constant proposals. *)
Lemma computes_const c : computes names (fun _ _ => c) (fun _ => Ok (tscalar c)).
Proof. intros vals xs ys _ _. exists (tscalar c). repeat split. Qed.

Definition tran_density (ps : pspec R) (tran : option (tranin R)) (qd : list (pyval R) -> list (pyval R) -> R) : Prop :=
  match tran with
  | None => qd = fun _ _ => if iscomplex ps then 0%R else 1%R
  | Some t => computes names qd (tran_of t)
  end.

Lemma cond_computes d tran tf ts qd : tran_density (spec_of (sd_pscale d)) tran qd ->
  computes names qd (gb_cond (mkGibbs d tran tf ts (combine names (map PF start))) false).
Proof.
  intros H. unfold gb_cond. cbn [gb_tran gb_sd]. destruct tran as [t|].
  - destruct t; exact H.
  - cbn in H. subst qd. apply computes_const.
Qed.

Section Scan.
Variables (ts : option Z) (sc : nat -> list nat) (PosOk : nat -> option Z -> Prop).
Hypothesis P0 : PosOk 0 None.
Hypothesis HW : forall k pos, PosOk k pos -> exists pos', window names ts pos = (map (fun i => nth i names EmptyString) (sc k), pos') /\ PosOk (S k) pos'.
Hypothesis SB : forall k i, In i (sc k) -> i < length names.

Lemma scan_moves d tran tf c k pos x r : draws names c (forward tf) -> PosOk k pos -> length x = n ->
  let y := by_scan names c sc k x r in length y = n /\
  exists pos', PosOk (S k) pos' /\ eval_tfun (mkGibbs d tran tf ts (combine names (map PF start))) false (combine names (map PF x)) pos r = (pos', Ok (combine names (map PF y))).
Proof.
  intros D P L y. split; [unfold y, by_scan; rewrite drawn_length; exact L|].
  destruct (HW k pos P) as (pos' & EW & P'). exists pos'. split; [exact P'|]. unfold eval_tfun. cbn [gb_tfun gb_tsteps].
  rewrite zip_keys by (rewrite map_length, LN; exact L). rewrite EW. f_equal.
  assert (EF : match tf with TfOne f => f | TfTwo f _ => f end = forward tf) by (destruct tf; reflexivity). rewrite EF.
  apply fold_draws; [apply NA|exact D|rewrite LN; exact L|exact (SB k)].
Qed.

Lemma scan_gen : exists d0, make_sd vs [] None = Ok d0 /\ forall fn h given d tran qd tf c G m acc fine,
  elementwise names h fn -> sd_set_prob d0 (Some fn) given = Ok d -> valid_scale (spec_of (sd_pscale d)) ->
  tran_density (spec_of (sd_pscale d)) tran qd -> draws names c (forward tf) ->
  set_tfun d tran tf ts (combine names (map PF start)) = Ok G ->
  rule_ok m acc fine (spec_of (sd_pscale d)) tran h qd ->
  scans_as G m fine names start (fun x => denote (spec_of (sd_pscale d)) (h (map PF x))) (by_scan names c sc) acc.
Proof.
  destruct (called_at vs PR NE NA RV SC) as (d0 & E0 & H0). exists d0. split; [exact E0|].
  intros fn h given d tran qd tf c G m acc fine EL ES VS TD DR ET RO.
  destruct (H0 fn h given d EL ES) as (K1 & K2 & K3 & K4).
  unfold set_tfun in ET. destruct (assert_ _) as [u|e]; [|discriminate]. cbn [bind] in ET. injection ET as <-.
  refine (sampler_scans vs PR NE NA UP (mkGibbs d tran tf ts (combine names (map PF start))) m h qd start (by_scan names c sc) acc PosOk fine K1 K2 K3 (K4 VS) (cond_computes d tran tf ts qd TD) eq_refl LS P0 _ RO).
  intros k pos x r P L. apply scan_moves; assumption.
Qed.
End Scan.

Lemma names_pos : 0 < length names.
Proof. rewrite LN. unfold n. clear -NE. destruct vs; [congruence|cbn; lia]. Qed.

(** The scan from the beginning. *)
Lemma gibbs_gen ts : not_negative ts -> exists d0, make_sd vs [] None = Ok d0 /\ forall fn h given d tran qd tf c G m acc fine,
  elementwise names h fn -> sd_set_prob d0 (Some fn) given = Ok d -> valid_scale (spec_of (sd_pscale d)) ->
  tran_density (spec_of (sd_pscale d)) tran qd -> draws names c (forward tf) ->
  set_tfun d tran tf ts (combine names (map PF start)) = Ok G ->
  rule_ok m acc fine (spec_of (sd_pscale d)) tran h qd ->
  scans_as G m fine names start (fun x => denote (spec_of (sd_pscale d)) (h (map PF x))) (by_scan names c (scan n (at_a_time ts))) acc.
Proof.
  intros NN. rewrite <- LN. apply (scan_gen ts (scan (length names) (at_a_time ts)) (pos_at (length names) (at_a_time ts))).
  - unfold pos_at. destruct (at_a_time ts) as [t|]; [|exact I].
    assert (Z : 0 mod blocks (length names) t = 0) by (destruct (blocks (length names) t); [reflexivity|apply Nat.mod_0_l; discriminate]).
    rewrite Z. reflexivity.
  - intros k pos P. apply window_scan; [exact NN|exact names_pos|exact P].
  - intros k i. apply scan_bound. exact NN.
Qed.

Lemma tran_some ps tran : (forall t, tran = Some t -> exists qd, computes names qd (tran_of t)) -> exists qd, tran_density ps tran qd.
Proof.
  intros H. destruct tran as [t|].
  - destruct (H t eq_refl) as (qd & C). exists qd. exact C.
  - eexists. reflexivity.
Qed.

Lemma gibbs_law ts : not_negative ts -> exists d0, make_sd vs [] None = Ok d0 /\ forall fn h given d tran tf c G,
  elementwise names h fn -> sd_set_prob d0 (Some fn) given = Ok d -> valid_scale (spec_of (sd_pscale d)) ->
  (forall t, tran = Some t -> exists qd, computes names qd (tran_of t)) -> draws names c (forward tf) ->
  set_tfun d tran tf ts (combine names (map PF start)) = Ok G ->
  scans_as G GibbsRule (fun _ => True) names start (fun x => denote (spec_of (sd_pscale d)) (h (map PF x))) (by_scan names c (scan n (at_a_time ts))) None.
Proof.
  intros NN. destruct (gibbs_gen ts NN) as (d0 & E0 & H). exists d0. split; [exact E0|]. intros fn h given d tran tf c G EL ES VS TC DR ET.
  destruct (tran_some (spec_of (sd_pscale d)) tran TC) as (qd & TD). apply (H fn h given d tran qd tf c G GibbsRule None); try assumption. exact I.
Qed.

Lemma negative_law t : (t < 0)%Z -> exists d0, make_sd vs [] None = Ok d0 /\ forall fn h given d tran tf c G,
  elementwise names h fn -> sd_set_prob d0 (Some fn) given = Ok d -> valid_scale (spec_of (sd_pscale d)) ->
  (forall t, tran = Some t -> exists qd, computes names qd (tran_of t)) -> draws names c (forward tf) ->
  set_tfun d tran tf (Some t) (combine names (map PF start)) = Ok G ->
  scans_as G GibbsRule (fun _ => True) names start (fun x => denote (spec_of (sd_pscale d)) (h (map PF x))) (by_scan names c (first_only n t)) None.
Proof.
  intros NN. destruct (scan_gen (Some t) (first_only n t) (neg_at t)) as (d0 & E0 & H).
  - reflexivity.
  - intros k pos P. rewrite <- LN. apply window_negative; assumption.
  - intros k i I. rewrite LN. destruct k; [|destruct I]. cbn in I. apply in_seq in I. lia.
  - exists d0. split; [exact E0|]. intros fn h given d tran tf c G EL ES VS TC DR ET.
    destruct (tran_some (spec_of (sd_pscale d)) tran TC) as (qd & TD). apply (H fn h given d tran qd tf c G GibbsRule None); try assumption. exact I.
Qed.

(** Scores. *)
Lemma metropolis_tfun ts : not_negative ts -> exists d0, make_sd vs [] None = Ok d0 /\ forall fn h given d tran tf c G,
  elementwise names h fn -> sd_set_prob d0 (Some fn) given = Ok d ->
  (forall x, length x = n -> scored (spec_of (sd_pscale d)) (h (map PF x))) ->
  (forall t, tran = Some t -> exists qd, computes names qd (tran_of t)) -> draws names c (forward tf) ->
  set_tfun d tran tf ts (combine names (map PF start)) = Ok G ->
  let dens x := denote (spec_of (sd_pscale d)) (h (map PF x)) in
  scans_as G (Mcmc Metropolis) (fun r => gr_thresh r <= 1)%R names start dens (by_scan names c (scan n (at_a_time ts))) (Some (metropolis_rule dens)).
Proof.
  intros NN. destruct (gibbs_gen ts NN) as (d0 & E0 & H). exists d0. split; [exact E0|]. intros fn h given d tran tf c G EL ES SR TC DR ET. cbv zeta.
  destruct (tran_some (spec_of (sd_pscale d)) tran TC) as (qd & TD). apply (H fn h given d tran qd tf c G (Mcmc Metropolis)); try assumption.
  - eapply scored_valid, (SR start LS).
  - split; [auto|]. intros x y dp dp' pr rv Lx Ly S1 S2 S3 TU. eexists. split.
    + unfold named_scores. cbn [f_o f_p opt_prob]. rewrite S1, S2. cbn [bind]. apply metropolis_at; auto.
    + reflexivity.
Qed.

Lemma hastings_tfun ts : not_negative ts -> exists d0, make_sd vs [] None = Ok d0 /\ forall fn h given d tf c G,
  elementwise names h fn -> sd_set_prob d0 (Some fn) given = Ok d ->
  (forall x, length x = n -> scored (spec_of (sd_pscale d)) (h (map PF x))) ->
  draws names c (forward tf) ->
  set_tfun d None tf ts (combine names (map PF start)) = Ok G ->
  let dens x := denote (spec_of (sd_pscale d)) (h (map PF x)) in
  scans_as G (Mcmc Hastings) (fun r => gr_thresh r <= 1)%R names start dens (by_scan names c (scan n (at_a_time ts)))
    (Some (weighted_rule dens (fun _ _ => factor (spec_of (sd_pscale d))))).
Proof.
  intros NN. destruct (gibbs_gen ts NN) as (d0 & E0 & H). exists d0. split; [exact E0|]. intros fn h given d tf c G EL ES SR DR ET. cbv zeta.
  apply (H fn h given d None (fun _ _ => if iscomplex (spec_of (sd_pscale d)) then 0%R else 1%R) tf c G (Mcmc Hastings)); try assumption.
  - eapply scored_valid, (SR start LS).
  - reflexivity.
  - split; [auto|]. intros x y dp dp' pr rv Lx Ly S1 S2 S3 (rd & -> & S4).
    pose proof (SR x Lx) as SX. pose proof (SR y Ly) as SY. set (ps := spec_of (sd_pscale d)) in *. clearbody ps.
    unfold named_scores. cbn [f_o f_p f_q f_r opt_prob]. rewrite S1, S2, S3, S4, S3. cbn [bind].
    destruct SX as [SX|[-> BX]].
    + assert (IC : iscomplex ps = false) by (destruct SX as [SX LK]; destruct ps; try reflexivity; cbn in LK; try discriminate).
      rewrite IC. rewrite hastings_both by exact SX. eexists. split; [reflexivity|].
      assert (D1 : denote ps 1 = factor ps) by (unfold denote; destruct SX as [_ ->]; ring). rewrite D1.
      pose proof (factor_pos ps (proj1 SX)). destruct (Rle_dec (factor ps) 0); [lra|]. reflexivity.
    + destruct SY as [SY|[_ BY]]; [destruct SY as [_ SY]; discriminate|]. cbn [iscomplex].
      assert (NP : (0 <= ln npi)%R) by (rewrite <- ln_1; apply Rlt_le, ln_increasing; [lra|]; pose proof npi_big; lra).
      rewrite hastings_log_value by exact NP. eexists. split; [reflexivity|]. unfold weighted_rule, denote. cbn [log_kind factor].
      rewrite log_offset_0, exp_0, !Rmult_1_r, !Rmult_1_l, !exp_logp1_small by assumption. reflexivity.
Qed.
End Laws.
