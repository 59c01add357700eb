(** Proofs about variables with distributions. *)
From Coq Require Import String Ascii ZArith Reals Bool Arith List Lia Lra Permutation.
From Verif Require Import Base Num Tensor TensorBcast TensorLemmas OdLemmas RNumLemmas PScales PScales_Spec PScales_Proofs Names Names_Spec Names_Proofs
  Distr PDModel PD_Spec PD_Simple_Spec PD_Make PD_Rekey Likelihoods Lik_Proofs Lik_Slice VariableModel Var_Spec Var_Proofs Var_Proofs2
  RVModel RV_Spec RV_Proofs RV_Matrix RV_More RVStep_Spec RFModel RF_Spec RF_Proofs RV_Step SD_Joint DistModel Dist_Spec.
Import ListNotations.
Local Open Scope list_scope.

Section Call.
Context {F : Fmt R}.
Variable v : drv R.
Let nm := dv_name v.
Hypothesis PR : printable F.
Hypothesis NA : named_apart [nm].
Hypothesis EP : eval_pscale (spec_of (dv_pscale v)) = Ok (dv_pscale v).

Let SK : simple_key nm := proj1 (proj2 NA nm (or_introl eq_refl)).

Lemma call_made a r vals vec l t :
  dv_evaluate v a r = Ok vals -> holds vals vec l -> l <> [] -> dv_eval_prob v vals = Ok t -> shape t = shape vals ->
  exists q, dv_call v a r = Ok q /\ called v vec l q /\ p_prob q = Some t.
Proof.
  intros E H NL ET ST.
  assert (EN : good_entry (vname nm a) /\ key_of (vname nm a) nm).
  { exact (@entry_vname F (mkRV nm (dv_state v) (dv_pscale v) (RPScalar 0%R) TRNone None false) PR NA a). }
  assert (LL : 0 < length l) by (destruct l; [congruence|cbn; lia]).
  set (od := [(nm, to_value vals)]). set (dims := [(nm, match shape vals with [] => None | _ => Some 0%Z end)]).
  set (L := if vec then [nm] else []).
  assert (SH : shape vals = if vec then [length l] else []).
  { destruct vec; cbn [holds] in H; [subst; reflexivity|]. destruct H as (x & -> & ->). reflexivity. }
  assert (G : od_get od nm = Some (to_value vals)) by (unfold od; cbn [od_get]; rewrite String.eqb_refl; reflexivity).
  assert (GD : od_get dims nm = Some (match shape vals with [] => None | _ => Some 0%Z end)) by (unfold dims; cbn [od_get]; rewrite String.eqb_refl; reflexivity).
  assert (NMe : vname nm a = margcond_str (od_vals [(nm, vname nm a)]) (od_vals [])).
  { unfold margcond_str. cbn. reflexivity. }
  destruct (make_pd_ok od dims L [(nm, vname nm a)] [] t (spec_of (dv_pscale v)) (dv_pscale v)) as (q & Eq & VP & K & M & C & PP & PS & VV).
  - cbn. repeat constructor. intros [].
  - discriminate.
  - cbn. intros k [<-|[]]. apply (proj2 NA nm). left. reflexivity.
  - unfold L. destruct vec; repeat constructor. intros [].
  - unfold L. destruct vec; intros k I; cbn in *; tauto.
  - intros k w Gk NI. destruct (String.eqb_spec k nm) as [->|N1].
    + rewrite G in Gk. injection Gk as <-. unfold L in NI. destruct vec; [exfalso; apply NI; left; reflexivity|].
      rewrite GD. unfold to_value. rewrite SH. split; [reflexivity|]. right. reflexivity.
    + exfalso. unfold od in Gk. cbn [od_get] in Gk. destruct (String.eqb_spec k nm); [contradiction|discriminate].
  - intros j k Hj. unfold L in Hj. destruct vec; [|destruct j; discriminate]. destruct j as [|j]; [|destruct j; discriminate].
    injection Hj as <-. rewrite G, GD, ST. unfold to_value. rewrite SH. eexists. split; [reflexivity|].
    cbn [tmap shape]. unfold tsize. cbn [tmap shape]. rewrite SH. cbn -[Nat.max]. rewrite Nat.mul_1_r, Nat.max_0_r.
    split; [discriminate|]. auto.
  - cbn. apply incl_refl.
  - cbn. repeat constructor. intros [].
  - rewrite ST, SH. unfold L. destruct vec; reflexivity.
  - cbn. constructor; [exact EN|constructor].
  - cbn [app map]. unfold render. cbn [fst snd]. constructor; [|constructor]. cbn [fst snd].
    destruct (mem_str nm L) eqn:ML; [exact EN|]. rewrite G. apply mem_str_false in ML.
    destruct vec; [exfalso; apply ML; left; reflexivity|]. unfold to_value. rewrite SH. cbn [fmt_value]. apply entry_num; [exact PR|exact SK].
  - reflexivity.
  - exact EP.
  - exact EP.
  - exists q. split.
    { unfold dv_call. rewrite E. cbn [bind]. rewrite ET. cbn [bind]. fold nm. rewrite NMe. exact Eq. }
    split; [|exact PP]. split; [exact VP|]. split; [rewrite M; reflexivity|]. split; [rewrite C; reflexivity|]. split; [exact PS|].
    rewrite VV. fold nm. rewrite G. f_equal. unfold column_of, to_value. rewrite SH. destruct vec; cbn [holds] in H.
    + subst vals. cbn [var_of tmap shape of_list]. f_equal. etransitivity; [exact (to_list_tmap_num (of_list (PF 0%R) l))|]. rewrite SD_Joint.of_list_pv. reflexivity.
    + destruct H as (x & -> & ->). cbn [var_of]. do 2 f_equal; apply as_num_num.
Qed.

Lemma log_scale_kind : log_kind (spec_of (dv_pscale v)) = is_log (dv_pscale v).
Proof.
  assert (E := EP). destruct (dv_pscale v) as [c|re im]; [|reflexivity].
  unfold spec_of, eval_pscale in E. unfold spec_of, log_kind, is_log. destruct (Req_EM_T c 0); [|reflexivity]. subst. assert (Z1 : n_eqb (T := R) 0%R n1 = false) by (apply Reqb_false_iff; rn; lra). rewrite Z1 in E. rewrite (proj2 (Reqb_iff 0%R n0)) in E by reflexivity. discriminate.
Qed.

Lemma called_at q vec l (t : tensor R) (f : pyval R -> R) s :
  called v vec l q -> p_prob q = Some t ->
  (exists vals, holds vals vec l /\ forall idx, get t idx = f (get vals idx)) ->
  in_bounds q (if vec then [nm] else []) s ->
  prob_at q (if vec then [nm] else []) s = denote (spec_of (dv_pscale v)) (f (item vec l (s nm))).
Proof.
  intros (V & _ & _ & PS & C) PP (vals & H & HT) B. unfold prob_at. rewrite PP, PS, HT. do 2 f_equal.
  unfold item. destruct vec; cbn [holds] in H.
  - subst vals. cbn [map of_list get]. reflexivity.
  - destruct H as (x & -> & ->). reflexivity.
Qed.

Lemma density_call d a r vals vec l :
  dv_prob v = DDist d -> dv_evaluate v a r = Ok vals -> holds vals vec l -> l <> [] ->
  exists q, dv_call v a r = Ok q /\ called v vec l q /\
    forall s, in_bounds q (if vec then [nm] else []) s -> consistent d (num (item vec l (s nm))) ->
      prob_at q (if vec then [nm] else []) s = (factor (spec_of (dv_pscale v)) * ud_prob d (num (item vec l (s nm))))%R.
Proof.
  intros D E H NL.
  assert (ET : dv_eval_prob v vals = Ok (tmap (fun x => (if is_log (dv_pscale v) then ud_logp d else ud_prob d) (as_num x)) vals)) by (unfold dv_eval_prob; rewrite D; reflexivity).
  destruct (call_made a r vals vec l _ E H NL ET eq_refl) as (q & Eq & C & PP).
  exists q. split; [exact Eq|]. split; [exact C|]. intros s B (POS & LN).
  rewrite (called_at q vec l _ (fun x => (if is_log (dv_pscale v) then ud_logp d else ud_prob d) (num x)) s C PP); [|exists vals; split; [exact H|intros idx; cbn; rewrite as_num_num; reflexivity]|exact B].
  unfold denote. rewrite log_scale_kind. destruct (is_log (dv_pscale v)); [|reflexivity]. rewrite LN, exp_ln by exact POS. reflexivity.
Qed.

Lemma scalar_call x a r vals vec l :
  dv_prob v = DPlain (RPScalar x) -> dv_evaluate v a r = Ok vals -> holds vals vec l -> l <> [] ->
  exists q, dv_call v a r = Ok q /\ called v vec l q /\
    forall s, in_bounds q (if vec then [nm] else []) s -> inside (dv_state v) (item vec l (s nm)) = Some true ->
      prob_at q (if vec then [nm] else []) s = denote (spec_of (dv_pscale v)) x.
Proof.
  intros D E H NL.
  set (z := if is_log (dv_pscale v) then nni else 0%R).
  assert (ET : dv_eval_prob v vals = Ok (uniform1 x z (inside_b (dv_state v)) vals)).
  { unfold dv_eval_prob. rewrite D. unfold uniform_prob. rewrite EP. cbn [bind uniform_rest]. reflexivity. }
  destruct (call_made a r vals vec l _ E H NL ET eq_refl) as (q & Eq & C & PP).
  exists q. split; [exact Eq|]. split; [exact C|]. intros s B I.
  rewrite (called_at q vec l _ (fun y => if inside_b (dv_state v) y then x else z) s C PP); [|exists vals; split; [exact H|intros idx; reflexivity]|exact B].
  unfold inside_b. rewrite I. reflexivity.
Qed.
End Call.

(** ** Quantiles *)

Section Quant.
Context {F : Fmt R}.
Variables (v : drv R) (p : pfun R) (e0 e1 : elem R) (lo hi : pyval R).
Hypothesis PF' : dv_pfun v = Some p.
Hypothesis ST : dv_state v = interval e0 e1.
Hypothesis A0 : atom_of e0 = AV lo.
Hypothesis A1 : atom_of e1 = AV hi.
Hypothesis LT : (num lo < num hi)%R.
Hypothesis CB : continuous_between p (num lo) (num hi).

Lemma cdf_lt : (pf_cdf p (num lo) < pf_cdf p (num hi))%R.
Proof. destruct CB as [MO _]. apply MO; lra. Qed.

Lemma evaluated_by n r : dv_evaluate v (VSet n) r =
  Ok (out_tensor (out_map (pf_icdf p) (uniform (pf_cdf p (num lo)) (pf_cdf p (num hi)) (Some n) (is_tup e0) (is_tup e1) (r_unif r)))).
Proof. unfold dv_evaluate. rewrite PF', ST. cbn [interval vs_vtype vs_vset]. rewrite A0, A1, !as_num_num. reflexivity. Qed.

Lemma share_cdf u : (0 <= u <= 1)%R ->
  let x := pf_icdf p (pf_cdf p (num lo) + (pf_cdf p (num hi) - pf_cdf p (num lo)) * u)%R in
  (num lo <= x <= num hi)%R /\ share p (num lo) (num hi) x = u.
Proof.
  intros U. cbn zeta. pose proof cdf_lt as CL. destruct CB as [MO IN].
  destruct (IN (pf_cdf p (num lo) + (pf_cdf p (num hi) - pf_cdf p (num lo)) * u)%R) as [W E]; [split; nra|].
  split; [exact W|]. unfold share. rewrite E. field. lra.
Qed.

Lemma over_share x : (num lo <= x <= num hi)%R -> (over e0 x <-> is_tup e0 = false \/ 0 < share p (num lo) (num hi) x)%R.
Proof.
  intros W. pose proof cdf_lt as CL. destruct CB as [MO _].
  assert (S0 : (0 < share p (num lo) (num hi) x <-> num lo < x)%R).
  { unfold share. split.
    - intros H. destruct (Rle_lt_or_eq_dec _ _ (proj1 W)) as [G|G]; [exact G|]. rewrite <- G in H. unfold Rdiv in H. rewrite Rminus_diag_eq, Rmult_0_l in H by reflexivity. lra.
    - intros G. apply Rdiv_lt_0_compat; [|lra]. pose proof (MO (num lo) x ltac:(lra) G ltac:(lra)). lra. }
  rewrite S0. destruct e0 as [b|b]; cbn in A0; subst b; cbn; [split; [auto|lra]|]. split; [auto|intros [C|C]; [discriminate|exact C]].
Qed.

Lemma under_share x : (num lo <= x <= num hi)%R -> (under e1 x <-> is_tup e1 = false \/ share p (num lo) (num hi) x < 1)%R.
Proof.
  intros W. pose proof cdf_lt as CL. destruct CB as [MO _].
  assert (S0 : (share p (num lo) (num hi) x < 1 <-> x < num hi)%R).
  { unfold share.
    assert (DL : forall u w, (0 < w -> (u / w < 1 <-> u < w))%R).
    { intros u w W0. split; intros H.
      - apply (Rmult_lt_reg_r (/ w)); [apply Rinv_0_lt_compat; exact W0|]. rewrite Rinv_r by lra. exact H.
      - apply (Rmult_lt_reg_r w); [exact W0|]. unfold Rdiv. rewrite Rmult_assoc, Rinv_l by lra. lra. }
    rewrite DL by lra. split.
    - intros H. destruct (Rle_lt_or_eq_dec _ _ (proj2 W)) as [G|G]; [exact G|]. rewrite G in H. lra.
    - intros G. pose proof (MO x (num hi) ltac:(lra) G ltac:(lra)). lra. }
  rewrite S0. destruct e1 as [b|b]; cbn in A1; subst b; cbn; [split; [auto|lra]|]. split; [auto|intros [C|C]; [discriminate|exact C]].
Qed.

Lemma inside_share x : (num lo <= x <= num hi)%R ->
  (inside (interval e0 e1) (PF x) = Some true <->
   (is_tup e0 = false \/ 0 < share p (num lo) (num hi) x) /\ (is_tup e1 = false \/ share p (num lo) (num hi) x < 1))%R.
Proof. intros W. rewrite inside_interval_iff. cbn [num]. rewrite over_share, under_share by exact W. reflexivity. Qed.

Lemma spaced_unit b c n i : 0 < n -> i < n ->
  (0 <= spaced b c n i <= 1 /\ (b = true -> 0 < spaced b c n i) /\ (c = true -> spaced b c n i < 1))%R.
Proof.
  intros P I. unfold spaced.
  assert (DV : forall u w, u <= w -> 0 < w -> (0 <= INR u / INR w <= 1)%R).
  { intros u w LE P0. assert (Z : (0 < INR w)%R) by (apply lt_0_INR; lia). assert (Y : (INR u <= INR w)%R) by (apply le_INR; lia). pose proof (pos_INR u). split.
    - apply Rle_mult_inv_pos; [lra|lra].
    - apply (Rmult_le_reg_r (INR w)); [lra|]. unfold Rdiv. rewrite Rmult_assoc, Rinv_l by lra. lra. }
  assert (DP : forall u w, 0 < u -> 0 < w -> (0 < INR u / INR w)%R) by (intros u w U W; apply Rdiv_lt_0_compat; apply lt_0_INR; lia).
  assert (DL : forall u w, u < w -> (INR u / INR w < 1)%R).
  { intros u w L0. assert (Z : (0 < INR w)%R) by (apply lt_0_INR; lia). apply (Rmult_lt_reg_r (INR w)); [lra|]. unfold Rdiv. rewrite Rmult_assoc, Rinv_l by lra.
    pose proof (lt_INR _ _ L0). lra. }
  destruct b, c.
  - split; [apply DV; lia|]. split; intros _; [apply DP; lia|apply DL; lia].
  - split; [apply DV; lia|]. split; [intros _; apply DP; lia|discriminate].
  - split; [apply DV; lia|]. split; [discriminate|intros _; apply DL; lia].
  - split; [|split; discriminate]. destruct (Nat.eqb_spec n 1); [lra|]. apply DV; lia.
Qed.

(** n values at equal steps of probability. *)
Lemma grid_quantiles n r : (0 < n)%Z ->
  exists out, dv_evaluate v (VSet n) r = Ok (of_list (PF 0%R) out) /\ Z.of_nat (length out) = n /\
    forall i, i < length out -> exists x, nth_error out i = Some (PF x) /\ inside (interval e0 e1) (PF x) = Some true /\
      share p (num lo) (num hi) x = spaced (is_tup e0) (is_tup e1) (length out) i.
Proof.
  intros P. destruct n as [|n|n]; try lia. rewrite evaluated_by. clear P.
  set (a := pf_cdf p (num lo)). set (b := pf_cdf p (num hi)).
  assert (U : uniform a b (Some (Z.pos n)) (is_tup e0) (is_tup e1) (r_unif r) =
    UArray (map (fun i => (a + (b - a) * spaced (is_tup e0) (is_tup e1) (Pos.to_nat n) i)%R) (seq 0 (Pos.to_nat n)))).
  { pose proof (Pos2Nat.is_pos n) as Pn. destruct (le_lt_dec 2 (Pos.to_nat n + b1 (is_tup e0) + b1 (is_tup e1))) as [G|G].
    - rewrite uniform_grid by lia. f_equal. apply map_ext_in. intros i Hi. apply in_seq in Hi. unfold cut, spaced.
      destruct (is_tup e0), (is_tup e1); cbn [b1] in *.
      + replace (Pos.to_nat n + 1 + 1 - 1) with (Pos.to_nat n + 1) by lia. unfold Rdiv. ring.
      + replace (Pos.to_nat n + 1 + 0 - 1) with (Pos.to_nat n) by lia. unfold Rdiv. ring.
      + replace (Pos.to_nat n + 0 + 1 - 1) with (Pos.to_nat n) by lia. rewrite Nat.add_0_r. unfold Rdiv. ring.
      + replace (Pos.to_nat n + 0 + 0 - 1) with (Pos.to_nat n - 1) by lia. rewrite Nat.add_0_r.
        destruct (Nat.eqb_spec (Pos.to_nat n) 1); [lia|]. unfold Rdiv. ring.
    - assert (n = 1%positive) by lia. subst n. destruct (is_tup e0); [cbn in G; lia|]. destruct (is_tup e1); [cbn in G; lia|].
      rewrite uniform_one. change (Pos.to_nat 1) with 1. cbn [seq map]. unfold spaced. cbn [Nat.eqb]. f_equal. f_equal. lra. }
  rewrite U. cbn [out_map out_tensor]. rewrite map_map. eexists. split; [reflexivity|]. rewrite map_length, seq_length. split; [lia|].
  intros i Hi. destruct (spaced_unit (is_tup e0) (is_tup e1) (Pos.to_nat n) i) as (S0 & S1 & S2); [lia|exact Hi|].
  destruct (share_cdf _ S0) as [W E]. eexists. rewrite nth_error_map, (nth_error_nth' _ 0) by (rewrite seq_length; exact Hi).
  rewrite seq_nth by exact Hi. split; [reflexivity|]. rewrite Nat.add_0_l. rewrite inside_share by exact W. split; [|exact E].
  cbn zeta in E. fold a b in E. fold a b. rewrite E.
  split; [destruct (is_tup e0); [right; apply S1; reflexivity|left; reflexivity]|destruct (is_tup e1); [right; apply S2; reflexivity|left; reflexivity]].
Qed.

(** Draws. *)
Lemma drawn_quantiles n r : (n <= 0)%Z -> (forall i, (0 <= r_unif r i < 1)%R) ->
  exists vals out, dv_evaluate v (VSet n) r = Ok vals /\ holds vals (negb (n =? 0)%Z) out /\ length out = Nat.max 1 (Z.abs_nat n) /\
    forall i, i < length out -> exists x, nth_error out i = Some (PF x) /\ (num lo <= x < num hi)%R /\
      (inside (interval e0 e1) (PF x) = Some true <-> is_tup e0 = false \/ 0 < r_unif r i)%R /\
      forall t, (num lo <= t <= num hi)%R -> (x <= t <-> r_unif r i <= share p (num lo) (num hi) t)%R.
Proof.
  intros P RU. rewrite evaluated_by.
  set (a := pf_cdf p (num lo)). set (b := pf_cdf p (num hi)).
  set (f := fun i => PF (pf_icdf p (draw a b (r_unif r i)))).
  assert (PT : forall i, exists x, f i = PF x /\ (num lo <= x < num hi)%R /\
      (inside (interval e0 e1) (PF x) = Some true <-> is_tup e0 = false \/ 0 < r_unif r i)%R /\
      forall t, (num lo <= t <= num hi)%R -> (x <= t <-> r_unif r i <= share p (num lo) (num hi) t)%R).
  { intros i. exists (pf_icdf p (draw a b (r_unif r i))). split; [reflexivity|]. specialize (RU i).
    destruct (share_cdf (r_unif r i)) as [W E]; [lra|]. fold a b in W, E. unfold draw. cbn [n_add n_mul n_sub RNum].
    set (x := pf_icdf p (a + (b - a) * r_unif r i)%R) in *.
    assert (MON : forall s t, (num lo <= s <= num hi -> num lo <= t <= num hi -> (s <= t <-> share p (num lo) (num hi) s <= share p (num lo) (num hi) t))%R).
    { intros s t Hs Ht. pose proof cdf_lt as CL. destruct CB as [MO _]. unfold share. split.
      - intros [H| ->]; [|lra]. pose proof (MO s t ltac:(lra) H ltac:(lra)). apply Rmult_le_compat_r; [left; apply Rinv_0_lt_compat; lra|lra].
      - intros H. destruct (Rle_lt_dec s t) as [G|G]; [exact G|]. pose proof (MO t s ltac:(lra) G ltac:(lra)).
        apply Rmult_le_reg_r in H; [lra|apply Rinv_0_lt_compat; lra]. }
    assert (S1 : share p (num lo) (num hi) (num hi) = 1%R) by (unfold share; pose proof cdf_lt; field; lra).
    split.
    { split; [lra|]. destruct (Rle_lt_or_eq_dec _ _ (proj2 W)) as [G|G]; [exact G|]. rewrite G in E. lra. }
    split.
    - rewrite inside_share by exact W. rewrite E. split; [tauto|]. intros H. split; [exact H|right; lra].
    - intros t Ht. rewrite MON, E by (exact W || exact Ht). reflexivity. }
  destruct n as [|n|n]; [|lia|]; cbn [uniform out_map out_tensor Z.eqb negb].
  - exists (tscalar (f 0)), [f 0]. split; [reflexivity|]. split; [exists (f 0); split; reflexivity|]. split; [reflexivity|].
    intros i Hi. cbn in Hi. destruct i; [|lia]. destruct (PT 0) as (x & E & H). exists x. rewrite <- E. split; [reflexivity|]. rewrite E. exact H.
  - rewrite map_map. exists (of_list (PF 0%R) (map f (seq 0 (Pos.to_nat n)))), (map f (seq 0 (Pos.to_nat n))). split; [reflexivity|]. split; [reflexivity|].
    rewrite map_length, seq_length. cbn [Z.abs_nat]. pose proof (Pos2Nat.is_pos n). split; [lia|].
    intros i Hi. destruct (PT i) as (x & E & H0). exists x. rewrite nth_error_map, (nth_error_nth' _ 0) by (rewrite seq_length; exact Hi).
    rewrite seq_nth by exact Hi. cbn. rewrite E. split; [reflexivity|exact H0].
Qed.
End Quant.
