(** Examples for the theorems about drawing variables. *)
From Coq Require Import String Ascii ZArith Reals Lra Bool Arith Lia Permutation List.
From Verif Require Import Base Num Tensor TensorLemmas OdLemmas RNumLemmas PScales PScales_Spec PScales_Proofs Names Names_Spec Distr PDModel PD_Spec PD_Examples PD_ProductEx Likelihoods
  VariableModel RVModel RV_Spec FieldModel Field_Spec RFModel RF_Spec RF_Thm SDModel SD_Spec SD_Proofs SD_Ex SPModel SP_Spec SP_Proofs SP_Scores CondCovModel CondCov_Spec CondCov_Proofs
  ChainModel Chain_Spec Chain_Proofs Chain_Run Chain_Thm Chain_Rules Chain_Ex GibbsModel Gibbs_Spec Gibbs_Run Gibbs_Proofs Gibbs_Thm Gibbs_More.
Import ListNotations.
Local Open Scope R_scope.

(** A function that draws. *)
Fixpoint index_of (k : string) (l : list string) : nat :=
  match l with [] => 0%nat | a :: l' => if String.eqb k a then 0%nat else S (index_of k l') end.
Definition gfunc (names : list string) (c : list R -> nat -> (nat -> R) -> R) : gfun R := fun vals k u =>
  Ok (PF (c (map as_num (od_vals vals)) (index_of k names) u)).

Lemma index_nth names : NoDup names -> forall i k, nth_error names i = Some k -> index_of k names = i.
Proof.
  induction 1 as [|a l NI ND IH]; intros [|i] k E; cbn in E; try discriminate.
  - injection E as ->. cbn. rewrite String.eqb_refl. reflexivity.
  - cbn. destruct (String.eqb_spec k a) as [->|N]; [exfalso; apply NI; eapply nth_error_In; exact E|]. f_equal. apply IH. exact E.
Qed.

Lemma gfunc_draws names c : NoDup names -> draws names c (gfunc names c).
Proof.
  intros ND x i k u L I. unfold gfunc. rewrite (index_nth names ND i k I), zip_vals by (rewrite map_length; exact L).
  rewrite map_map. cbn [as_num]. rewrite map_id. reflexivity.
Qed.

Lemma ex_vset v : In v [ex_x; ex_y] -> vs_vset (rv_state v) <> None.
Proof. intros [<-|[<-|[]]]; discriminate. Qed.

(** Two variables can be drawn. *)
Lemma ex_tfun {F : Fmt R} {TR : Trunc R} (PR : printable F) fn h given d : elementwise (names_of [ex_x; ex_y]) h fn ->
  forall d0, make_sd [ex_x; ex_y] [] None = Ok d0 -> sd_set_prob d0 (Some fn) given = Ok d ->
  forall tran tf ts start, set_tfun d tran tf ts start = Ok (mkGibbs d tran tf ts start).
Proof.
  intros EL d0 E0 ES tran tf ts start. destruct ex_field as (NA & UP & SC & _).
  destruct (called_at [ex_x; ex_y] PR ltac:(discriminate) NA ex_vset SC) as (d1 & E1 & H). rewrite E0 in E1. injection E1 as <-.
  destruct (H fn h given d EL ES) as (_ & K & _). unfold set_tfun. rewrite K. reflexivity.
Qed.

(** One is not enough. *)
Lemma tfun_single {F : Fmt R} {TR : Trunc R} (v : rv R) : printable F -> named_apart (names_of [v]) -> vs_vset (rv_state v) <> None -> scales_ok [v] ->
  exists d0, make_sd [v] [] None = Ok d0 /\ forall fn h given d, elementwise (names_of [v]) h fn -> sd_set_prob d0 (Some fn) given = Ok d ->
  forall tran tf ts start, set_tfun d tran tf ts start = Err AssertionError.
Proof.
  intros PR NA V SC. destruct (called_at [v] PR ltac:(discriminate) NA) as (d0 & E0 & H); [intros w [<-|[]]; exact V|exact SC|].
  exists d0. split; [exact E0|]. intros fn h given d EL ES tran tf ts start. destruct (H fn h given d EL ES) as (_ & K & _).
  unfold set_tfun. rewrite K. reflexivity.
Qed.

(** A process that draws x as y + 1 and y as 2 x, one at a time. *)
Definition ex_c (x : list R) (i : nat) (u : nat -> R) : R := match i with O => nth 1 x 0 + 1 | _ => 2 * nth 0 x 0 end.
Lemma ex_scan r : tfun_samples (by_scan ["x"; "y"]%string ex_c (scan 2 (Some 1%nat))) None [0; 0] (combine (seq 0 3) [r; r; r]) = [[1; 0]; [1; 2]; [3; 2]].
Proof.
  assert (E : by_scan ["x"; "y"]%string ex_c (scan 2 (Some 1%nat)) 0 [0; 0] r = [1; 0]) by (cbn; f_equal; lra).
  assert (E2 : by_scan ["x"; "y"]%string ex_c (scan 2 (Some 1%nat)) 1 [1; 0] r = [1; 2]) by (cbn; repeat f_equal; lra).
  assert (E3 : by_scan ["x"; "y"]%string ex_c (scan 2 (Some 1%nat)) 2 [1; 2] r = [3; 2]) by (cbn; f_equal; lra).
  cbn [seq combine tfun_samples tfun_chain decided]. rewrite E. rewrite E2. rewrite E3. reflexivity.
Qed.

(** *** The order of values *)
Definition ex_mean (j : nat) : R := match j with O => 0 | _ => 5 end.
Definition ex_ulims (j : nat) : R * R := (ex_mean j - 1, ex_mean j + 1).
Definition half (_ : nat) : R := / 2.

Lemma logistic_half a : logistic ((ex_mean 0 - 1 - ex_mean 0) / a) + (logistic ((ex_mean 0 + 1 - ex_mean 0) / a) - logistic ((ex_mean 0 - 1 - ex_mean 0) / a)) * / 2 = / 2.
Proof.
  replace ((ex_mean 0 - 1 - ex_mean 0) / a) with (- (1 / a)) by (unfold Rdiv; ring). replace ((ex_mean 0 + 1 - ex_mean 0) / a) with (1 / a) by (unfold Rdiv; ring).
  unfold logistic. rewrite exp_Ropp. pose proof (exp_pos (1 / a)). field. lra.
Qed.

Lemma middle i a : logistic ((fst (ex_ulims i) - ex_mean i) / a) + (logistic ((snd (ex_ulims i) - ex_mean i) / a) - logistic ((fst (ex_ulims i) - ex_mean i) / a)) * / 2 = / 2.
Proof.
  unfold ex_ulims. cbn [fst snd].
  replace ((ex_mean i - 1 - ex_mean i) / a) with ((ex_mean 0 - 1 - ex_mean 0) / a) by (unfold Rdiv; ring).
  replace ((ex_mean i + 1 - ex_mean i) / a) with ((ex_mean 0 + 1 - ex_mean 0) / a) by (unfold Rdiv; ring). apply logistic_half.
Qed.

Lemma logit_half : logit (/ 2) = 0.
Proof. unfold logit. replace (/ 2 / (1 - / 2)) with 1 by field. apply ln_1. Qed.

Lemma ex_cg (a b : R) i : (i < 2)%nat ->
  conditional_gaussian 2 ex_prec ex_mean (fun j => nth j [a; b] 0) i (match i with O => (b - 5) / 2 | _ => 5 + a / 2 end) (sqrt (3 / 2)).
Proof.
  intros B. assert (P : 0 < sqrt (3 / 2)) by (apply sqrt_lt_R0; lra).
  assert (Q : sqrt (3 / 2) * sqrt (3 / 2) = 3 / 2) by (apply sqrt_sqrt; lra).
  split; [exact P|]. destruct i as [|[|i]]; [| |lia].
  - exists ((b - 5) * (b - 5) / 2). intros t. unfold quad, at_, ex_prec, ex_mean. cbn.
    set (z := (b - 5) / 2). replace ((t - z) / sqrt (3 / 2) * ((t - z) / sqrt (3 / 2) * 1)) with ((t - z) * (t - z) / (sqrt (3 / 2) * sqrt (3 / 2))) by (field; lra).
    rewrite Q. unfold z. field.
  - exists (a * a / 2). intros t. unfold quad, at_, ex_prec, ex_mean. cbn.
    set (z := 5 + a / 2). replace ((t - z) / sqrt (3 / 2) * ((t - z) / sqrt (3 / 2) * 1)) with ((t - z) * (t - z) / (sqrt (3 / 2) * sqrt (3 / 2))) by (field; lra).
    rewrite Q. unfold z. field.
Qed.

Definition ex_scipy : gfun R := sample_cond_cov logit (make_cc ex_inv logistic 2 ex_mean ex_cov ex_ulims) (fun _ => 0).

Lemma ex_order (F : Fmt R) (TR : Trunc R) : printable F ->
  exists (G : gibbs R) r pos pos' pr pr',
    gb_tfun G = TfOne ex_scipy /\ gb_keys G = ["x"; "y"]%string /\
    gb_step G false [("x", PF 0); ("y", PF 5)]%string None r = (pos, Ok pr) /\
    gb_step G false [("y", PF 5); ("x", PF 0)]%string None r = (pos', Ok pr') /\
    od_get (cd_held pr) "y'" = Some (PF 5) /\ od_get (cd_held pr') "y'" = Some (PF (- (5 / 2))).
Proof.
  intros PR. destruct ex_field as (NA & UP & SC & _).
  destruct (step_order [ex_x; ex_y] PR ltac:(discriminate) NA UP ex_vset SC) as (d0 & E0 & H).
  destruct (ex_set (ufunc (names_of [ex_x; ex_y]) (fun _ => 1))) as (d0' & E0' & (d & ES & _) & _).
  rewrite E0 in E0'. injection E0' as <-.
  pose proof (ufunc_elementwise (names_of [ex_x; ex_y]) (fun _ => 1)) as EL.
  destruct (scipy_any ex_inv logistic logit 2 ex_mean ex_cov ex_prec ex_ulims (fun _ => 0) ex_sym ex_pd ex_is_inv ex_minor_inv) as (c & DR & CV).
  assert (CM : forall a b i, (i < 2)%nat -> c [a; b] i half = match i with O => (b - 5) / 2 | _ => 5 + a / 2 end).
  { intros a b i B. destruct (CV [a; b] i half eq_refl B) as (m & s & CG & V). cbv zeta in V. rewrite V. unfold half at 1. rewrite middle, logit_half.
    destruct (gaussian_unique _ _ _ _ _ _ _ _ _ CG (ex_cg a b i B)) as [-> ->]. ring. }
  set (r := mkGR (fun _ : string => half) 1).
  assert (GD : forall k, gr_draw r k = half) by reflexivity.
  pose proof (ex_tfun PR _ _ _ d EL d0 E0 ES None (TfOne ex_scipy) None []) as ET.
  assert (P2 : Permutation ["y"; "x"]%string (names_of [ex_x; ex_y])) by constructor.
  assert (N1 : NoDup ["x"; "y"]%string) by (repeat constructor; cbn; intuition discriminate).
  assert (N2 : NoDup ["y"; "x"]%string) by (repeat constructor; cbn; intuition discriminate).
  destruct (H _ _ _ d None (TfOne ex_scipy) None c (mkGibbs d None (TfOne ex_scipy) None []) [] false ["x"; "y"]%string [0; 5] r EL ES) as (pos & pr & E1 & V1); try exact ET; [discriminate|discriminate|apply Permutation_refl|reflexivity|apply DR; [exact N1|reflexivity]|].
  destruct (H _ _ _ d None (TfOne ex_scipy) None c (mkGibbs d None (TfOne ex_scipy) None []) [] false ["y"; "x"]%string [5; 0] r EL ES) as (pos' & pr' & E2 & V2); try exact ET; [discriminate|discriminate|exact P2|reflexivity|apply DR; [exact N2|reflexivity]|].
  exists (mkGibbs d None (TfOne ex_scipy) None []), r, pos, pos', pr, pr'. split; [|split; [|split; [exact E1|split; [exact E2|]]]].
  - reflexivity.
  - unfold gb_keys. cbn [gb_sd]. destruct (called_at [ex_x; ex_y] PR ltac:(discriminate) NA ex_vset SC) as (d1 & Ed & HH). rewrite E0 in Ed. injection Ed as <-.
    destruct (HH _ _ _ d EL ES) as (_ & -> & _). reflexivity.
  - split.
    + destruct (V1 1%nat "y"%string eq_refl) as [_ Z]. cbn [String.append] in Z. rewrite Z. clear Z. unfold by_scan, scan. cbn [length at_a_time seq drawn_in_turn nth put]. rewrite !GD.
      rewrite (CM 0 5 0%nat) by lia. rewrite CM by lia. do 2 f_equal. lra.
    + destruct (V2 0%nat "y"%string eq_refl) as [_ Z]. cbn [String.append] in Z. rewrite Z. clear Z. unfold by_scan, scan. cbn [length at_a_time seq drawn_in_turn nth put]. rewrite !GD.
      rewrite (CM 5 0 0%nat) by lia. do 2 f_equal. lra.
Qed.

(** *** Acceptance that ignores what was proposed *)
Lemma constant_balance dens prop w x y : 0 < w -> 0 < dens x -> 0 < dens y ->
  npz <= dens x * w \/ npz <= dens y * w ->
  (balances dens prop (weighted_rule dens (fun _ _ => w)) x y <-> prop x y = prop y x).
Proof.
  intros W X Y H. assert (H2 : npz <= dens y * w \/ npz <= dens x * w) by tauto.
  assert (W1 : weighted_rule dens (fun _ _ => w) x y = Rmin 1 (dens y / dens x)).
  { unfold weighted_rule. rewrite ratio_clamped; [|apply Rmult_lt_0_compat; assumption|exact H]. f_equal. field. lra. }
  assert (W2 : weighted_rule dens (fun _ _ => w) y x = Rmin 1 (dens x / dens y)).
  { unfold weighted_rule. rewrite ratio_clamped; [|apply Rmult_lt_0_compat; assumption|exact H2]. f_equal. field. lra. }
  pose proof (min_scaled (dens x) (dens y) X Y) as M1. pose proof (min_scaled (dens y) (dens x) Y X) as M2. rewrite (Rmin_comm (dens y) (dens x)) in M2.
  assert (MP : 0 < Rmin (dens x) (dens y)) by (apply Rmin_glb_lt; assumption).
  unfold balances. rewrite W1, W2.
  replace (dens x * prop x y * Rmin 1 (dens y / dens x)) with (prop x y * (dens x * Rmin 1 (dens y / dens x))) by ring.
  replace (dens y * prop y x * Rmin 1 (dens x / dens y)) with (prop y x * (dens y * Rmin 1 (dens x / dens y))) by ring.
  rewrite M1, M2. split; [intros E; apply Rmult_eq_reg_r in E; lra|intros ->; reflexivity].
Qed.

(** Negative tsteps: only the first sample draws. *)
Lemma only_first names c n t j x r : by_scan names c (first_only n t) (S j) x r = x.
Proof. reflexivity. Qed.

(** *** In the form of the property theorems *)
Section Laws.
Context {F : Fmt R} {TR : Trunc R}.
Variables (vs : list (rv R)) (start : list R).
Let names := names_of vs.
Let n := length vs.
Hypothesis PR : printable F.
Hypothesis NE : vs <> [].
Hypothesis NA : named_apart names.
Hypothesis UP : unprimed names.
Hypothesis RV : forall v, In v vs -> vs_vset (rv_state v) <> None.
Hypothesis SC : scales_ok vs.

Lemma gibbs_alone : length start = n -> forall ts, not_negative ts ->
  exists d0, make_sd vs [] None = Ok d0 /\ forall fn h given d tran tf c G,
  elementwise names h fn -> sd_set_prob d0 (Some fn) given = Ok d -> valid_scale (spec_of (sd_pscale d)) ->
  (forall t, tran = Some t -> exists qd, computes names qd (tran_of t)) -> draws names c (forward tf) ->
  set_tfun d tran tf ts (combine names (map PF start)) = Ok G ->
  forall rs, exists samples, outcomes_of 0 (gb_run G GibbsRule None (alone rs)) = map (fun s => Yield (OutFull s)) samples /\
    Forall2 (sample_at names (fun x => denote (spec_of (sd_pscale d)) (h (map PF x)))) samples
      (tfun_samples (by_scan names c (Gibbs_Spec.scan n (at_a_time ts))) None start (combine (seq 0 (length rs)) rs)).
Proof.
  intros LS ts NN. destruct (gibbs_law vs start PR NE NA UP RV SC LS ts NN) as (d0 & E0 & H). exists d0. split; [exact E0|].
  intros fn h given d tran tf c G EL ES VS TC DR ET rs. eapply scans_alone; [exact (H fn h given d tran tf c G EL ES VS TC DR ET)|].
  apply Forall_forall. auto.
Qed.

Lemma gibbs_stuck : length start = n -> forall t, (0 < t)%nat ->
  exists d0, make_sd vs [] None = Ok d0 /\ forall fn h given d tran tf c G,
  elementwise names h fn -> sd_set_prob d0 (Some fn) given = Ok d -> valid_scale (spec_of (sd_pscale d)) ->
  (forall t, tran = Some t -> exists qd, computes names qd (tran_of t)) -> draws names c (forward tf) ->
  set_tfun d tran tf (Some (Z.of_nat t)) (combine names (map PF start)) = Ok G ->
  forall rounds g, (g < blocks n t)%nat ->
  exists samples, outcomes_of g (gb_run G GibbsRule None (in_turn (blocks n t) rounds)) = map (fun s => Yield (OutFull s)) samples /\
    length samples = length rounds /\
    Forall (fun s => exists x, sample_at names (fun x => denote (spec_of (sd_pscale d)) (h (map PF x))) s x /\
                     forall i, i / t <> g -> nth i x 0%R = nth i start 0%R)%nat samples.
Proof.
  intros LS t T. assert (NN : not_negative (Some (Z.of_nat t))) by (intros z E; injection E as <-; lia).
  destruct (gibbs_law vs start PR NE NA UP RV SC LS _ NN) as (d0 & E0 & H). exists d0. split; [exact E0|].
  intros fn h given d tran tf c G EL ES VS TC DR ET rounds g L. specialize (H fn h given d tran tf c G EL ES VS TC DR ET).
  assert (AT : at_a_time (Some (Z.of_nat t)) = Some t) by (cbn; destruct t; [lia|]; cbn; f_equal; lia). rewrite AT in H.
  apply (turns_stuck G names start _ c n t H T); [|exact L]. unfold n. clear -NE. destruct vs; [congruence|cbn; lia].
Qed.

Lemma reverse_draws : exists d0, make_sd vs [] None = Ok d0 /\ forall fn h given d f f' c G start xs r,
  elementwise names h fn -> sd_set_prob d0 (Some fn) given = Ok d ->
  set_tfun d None (TfTwo f f') None start = Ok G -> length xs = n -> draws names c f ->
  let ys := by_scan names c (Gibbs_Spec.scan n None) 0 xs r in
  exists pos pr, gb_step G true (combine names (map PF xs)) None r = (pos, Ok pr) /\
    forall i k, nth_error names i = Some k ->
    od_get (cd_held pr) k = Some (PF (nth i xs 0)) /\ od_get (cd_held pr) (k ++ "'")%string = Some (PF (nth i ys 0)).
Proof.
  destruct (step_order vs PR NE NA UP RV SC) as (d0 & E0 & H). exists d0. split; [exact E0|].
  intros fn h given d f f' c G st xs r EL ES ET L DR. apply (H fn h given d None (TfTwo f f') None c G st true names xs r); try assumption; [discriminate|discriminate|apply Permutation_refl].
Qed.
End Laws.

Lemma tuple_refused (T : Type) (N : Num T) (sd : sdep T) tran arg ts start G :
  call_set_tfun sd tran arg ts start = Ok G -> (exists f, arg = ArgFun f) \/ (exists c, arg = ArgCF c).
Proof. destruct arg; cbn; [left; eauto|discriminate|right; eauto]. Qed.
