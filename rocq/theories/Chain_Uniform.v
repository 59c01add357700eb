(** Steps of fields whose delta was set to a list. *)
From Coq Require Import String Ascii ZArith Reals Lra Bool Arith Lia Permutation List.
From Verif Require Import Base Num Tensor TensorLemmas OdLemmas RNumLemmas PScales PScales_Spec PScales_Proofs Names Names_Spec Names_Proofs
  Distr PDModel PDUtils PD_Spec PD_Simple_Spec PD_Make PD_Simple PD_Sums PD_Valid
  VariableModel RVModel RV_Spec Var_Spec Var_Proofs Var_Delta FieldModel Field_Spec Field_Dims Field_Delta RFModel RF_Spec RF_Proofs RF_Joint RF_Step SDUtils SDUtils_Proofs
  SDModel SD_Spec SD_Proofs SD_Joint SD_Thm SPModel SP_Spec SP_Proofs SP_Scores ChainModel Chain_Spec Chain_Proofs Chain_Run Chain_Thm.
Import ListNotations.
Local Open Scope R_scope.

Lemma trunc_small p : 0 <= p < 1 -> n_trunc p = 0%Z.
Proof.
  intros H. unfold n_trunc, RTrunc. destruct (Rle_dec 0 p) as [_|C]; [|lra]. destruct (base_Int_part p) as [A B].
  assert (IZR (Int_part p) < 1) by lra. assert (-1 < IZR (Int_part p)) by lra.
  assert (Int_part p < 1)%Z by (apply lt_IZR; lra). assert (-1 < Int_part p)%Z by (apply lt_IZR; lra). lia.
Qed.

Lemma list_set keys lengths (vds : list (dconf R)) p : NoDup keys ->
  f_set_delta keys lengths vds (GList p) [] false false =
    Ok (mkFC (SDelta (repeat (DList [PF p]) (length keys))) false false [] [], repeat (mkDC (DList [PF p]) false false) (length keys)).
Proof.
  intros ND. unfold f_set_delta. cbv zeta. cbn [od_update fold_left andb].
  rewrite map_res_all with (g := fun ikx : nat * (string * R) => (fst (snd ikx), DList [PF p])).
  - cbn [bind]. assert (M : map (fun ikx : nat * (string * R) => (fst (snd ikx), DList [PF p]))
      (combine (seq 0 (length (map (fun k : string => (k, p)) keys))) (map (fun k : string => (k, p)) keys)) = combine keys (repeat (DList [PF p]) (length keys))).
    { rewrite map_length. generalize 0%nat. clear ND. induction keys as [|k l IH]; intros j; [reflexivity|]. cbn. f_equal. apply IH. }
    rewrite M. pose proof (named_tuple_in (combine keys (repeat (DList [PF p]) (length keys)))) as NT.
    rewrite zip_keys, zip_vals in NT by (rewrite repeat_length; reflexivity). rewrite (NT ND). cbn [bind]. f_equal. f_equal.
    clear. induction (length keys) as [|n IH]; [reflexivity|]. cbn. f_equal. exact IH.
  - intros [i [k y]] I. cbn [bind fst snd]. apply in_combine_r in I. apply in_map_iff in I. destruct I as (k' & E & _). injection E as <- <-. reflexivity.
Qed.

Lemma nth_repeat_some {A} (a : A) n i x : nth_error (repeat a n) i = Some x -> x = a.
Proof. intros H. apply nth_error_In in H. apply repeat_spec in H. exact H. Qed.

Section Uniform.
Context {F : Fmt R}.
Variable vs : list (rv R).
Let names := names_of vs.
Hypothesis NE : vs <> [].
Hypothesis NA : named_apart names.
Hypothesis UP : unprimed names.
Hypothesis SC : scales_ok vs.

Definition drawn_deltas (p : R) (r : crnd R) (n : nat) : list (delta R) :=
  map (fun iv => DDelta (match vs_vtype (rv_state (snd iv)) with
                         | Some VBool => PF p
                         | _ => PF ((2 * d_unif (cr_vars r (fst iv)) 0 - 1) * p)
                         end)) (combine (seq n (length vs)) vs).

Lemma uniform_successors : exists d0, make_sd vs [] None = Ok d0 /\ rf_rvs (sd_rf d0) = vs /\ fd_keys (rf_fld (sd_rf d0)) = names /\
  forall lengths vds p, 0 <= p < 1 ->
  exists c vds', f_set_delta names lengths vds (GList p) [] false false = Ok (c, vds') /\
  forall t st r xs, Forall2 value_for vs xs ->
  successors (mkChain d0 t (DeltaSet c vds' lengths) st) (combine names xs) r =
    Ok (combine names (map (fun ivx => uniform_step p (fst (snd ivx)) (snd (snd ivx)) (d_unif (cr_vars r (fst ivx)) 0))
                           (combine (seq 0 (length vs)) (combine vs xs)))).
Proof.
  assert (AN : (vs ++ [])%list = vs) by apply app_nil_r.
  destruct (make_sd_ok vs [] None NE) as (f & fl & fr & q & ql & qr & PO & E); try (rewrite AN; assumption); [rewrite AN; apply NA|].
  destruct (po_all _ _ _ _ _ _ _ _ PO) as (K1 & K2 & _). rewrite AN in K1, K2.
  eexists. split; [exact E|]. cbn [sd_rf]. rewrite AN.
  assert (RV : rf_rvs (mkRF vs f q) = vs) by (unfold rf_rvs; cbn [rf_all rf_fld]; apply pick_all; exact K2).
  split; [exact RV|]. split; [exact K1|]. intros lengths vds p P.
  assert (LN : length names = length vs) by (unfold names, names_of; apply map_length).
  eexists. eexists. split; [apply list_set; apply NA|]. intros t st r xs VX. pose proof (Forall2_len VX) as LX. rewrite LN.
  unfold successors, ch_rvs. cbn [ch_sd ch_delta sd_rf]. rewrite RV. unfold f_eval_delta. cbn [fc_delta fc_bound rf_fld]. rewrite K2.
  assert (ED : map_res (fun ivd : nat * (fvar R * dconf R) => let '(i, (v, dc)) := ivd in eval_delta (fv_state v) None dc DNone (cr_vars r i))
    (combine (seq 0 (length (nodes vs))) (combine (nodes vs) (repeat (mkDC (DList [PF p]) false false) (length vs)))) =
    Ok (map (fun iv => DDelta (match vs_vtype (rv_state (snd iv)) with
                               | Some VBool => PF p
                               | _ => PF ((2 * d_unif (cr_vars r (fst iv)) 0 - 1) * p)
                               end)) (combine (seq 0 (length vs)) vs))).
  { unfold nodes. rewrite map_length, combine_length, seq_length, Nat.min_id.
    assert (G : forall l ys j k, Forall2 value_for l ys ->
      map_res (fun ivd : nat * (fvar R * dconf R) => let '(i, (v, dc)) := ivd in eval_delta (fv_state v) None dc DNone (cr_vars r i))
        (combine (seq j (length l)) (combine (map (fun iv => node (fst iv) (snd iv)) (combine (seq k (length l)) l)) (repeat (mkDC (DList [PF p]) false false) (length l)))) =
      Ok (map (fun iv => DDelta (match vs_vtype (rv_state (snd iv)) with
                               | Some VBool => PF p
                               | _ => PF ((2 * d_unif (cr_vars r (fst iv)) 0 - 1) * p)
                               end)) (combine (seq j (length l)) l))).
    { induction l as [|v l IH]; intros ys j k V; inversion V as [|? x ? ys' V1 V2]; subst; [reflexivity|].
      cbn [length seq combine map repeat map_res fst snd node fv_state]. rewrite (IH ys' (S j) (S k) V2).
      unfold eval_delta. cbn [delta_or dc_delta dc_scale same_delta andb]. unfold value_for in V1.
      destruct (vs_vtype (rv_state v)) as [[| |]|]; try contradiction; cbn [bind]; [reflexivity|].
      match goal with |- Ok (DDelta (PF ?a) :: _) = Ok (DDelta (PF ?b) :: _) => replace a with b; [reflexivity|] end. cbn [as_num]. rn. unfold n_opp. rn. ring. }
    apply (G vs xs 0%nat 0%nat VX). }
  rewrite ED. cbn [bind].
  apply apply_each; [apply NA|apply repeat_length| | | |].
  - rewrite map_length, combine_length, seq_length. lia.
  - lia.
  - rewrite map_length, !combine_length, seq_length. lia.
  - intros i v dc x dl y I1 I2 I3 I4 I5. apply nth_repeat_some in I2. subst dc.
    apply nth_pair in I4. destruct I4 as (j & v' & J1 & J2 & ->). assert (v' = v) by congruence. subst v'.
    apply nth_pair in I5. destruct I5 as (j' & [v' x'] & J3 & J4 & ->). assert (j' = j) by congruence. subst j'. cbn [fst snd].
    rewrite <- (map_id (combine vs xs)) in J4. apply nth_pair in J4. destruct J4 as (v1 & x1 & J5 & J6 & EQ). injection EQ as <- <-.
    assert (v' = v) by congruence. assert (x' = x) by congruence. subst.
    assert (j = i). { apply nth_error_nth with (d := 0%nat) in J1. rewrite seq_nth in J1; [lia|]. apply nth_error_Some. congruence. } subst j.
    pose proof (Forall2_nth_both _ _ _ VX i v x I1 I3) as V. unfold value_for in V. unfold apply_delta, uniform_step.
    destruct (vs_vtype (rv_state v)) as [[| |]|]; try contradiction; destruct x as [b|z|a]; try contradiction.
    + cbn [delta_or bind map]. unfold revtype. cbn [vtype_of vtype_eqb]. cbn [z_of]. rewrite (trunc_small p P). destruct b; reflexivity.
    + cbn [delta_or]. unfold eval_delta. cbn [delta_or dc_delta dc_scale same_delta andb bind map v_add]. unfold revtype. cbn [vtype_of vtype_eqb as_num]. rn. reflexivity.
Qed.

Lemma value_same p r xs : (forall v, In v vs -> vs_vtype (rv_state v) = Some VBool) -> length xs = length vs ->
  map (fun ivx : nat * (rv R * pyval R) => uniform_step p (fst (snd ivx)) (snd (snd ivx)) (d_unif (cr_vars r (fst ivx)) 0)) (combine (seq 0 (length vs)) (combine vs xs)) = xs.
Proof.
  generalize 0%nat at 2. clear. revert xs. induction vs as [|v l IH]; intros [|x xs] j B L; try discriminate; [reflexivity|]. cbn [length seq combine map fst snd].
  unfold uniform_step at 1. rewrite (B v (or_introl eq_refl)). f_equal. apply IH; [intros w I; apply B; right; exact I|]. injection L. auto.
Qed.

(** The distribution of a step. *)
Lemma uniform_step_law : printable F -> exists d0, make_sd vs [] None = Ok d0 /\ forall lengths vds p, 0 <= p < 1 ->
  exists c vds', f_set_delta names lengths vds (GList p) [] false false = Ok (c, vds') /\
  forall t st r xs h, Forall2 value_for vs xs -> computes names h (tran_of t) ->
  exists d, chain_step (mkChain d0 t (DeltaSet c vds' lengths) st) (combine names xs) r = Ok d /\
    forall i v x, nth_error vs i = Some v -> nth_error xs i = Some x ->
      od_get (cd_held d) (rv_name v) = Some x /\
      od_get (cd_held d) (rv_name v ++ "'")%string = Some (uniform_step p v x (d_unif (cr_vars r i) 0)).
Proof.
  intros PR. destruct uniform_successors as (d0 & E0 & K1 & K2 & H). exists d0. split; [exact E0|]. intros lengths vds p P.
  destruct (H lengths vds p P) as (c & vds' & ES & HS). exists c, vds'. split; [exact ES|]. intros t st r xs h VX CO.
  assert (LN : length names = length vs) by (unfold names, names_of; apply map_length).
  pose proof (Forall2_len VX) as LX. specialize (HS t st r xs VX).
  set (ys := map _ _) in HS. assert (LY : length ys = length vs) by (unfold ys; rewrite map_length, !combine_length, seq_length; lia).
  assert (EQ : eval_pscale (spec_of (sd_pscale d0)) = Ok (sd_pscale d0)).
  { assert (AN : (vs ++ [])%list = vs) by apply app_nil_r.
    destruct (make_sd_ok vs [] None NE) as (f & fl & fr & q & ql & qr & PO & E); try (rewrite AN; assumption); [rewrite AN; apply NA|].
    rewrite E in E0. injection E0 as <-. cbn [sd_pscale]. destruct (po_all _ _ _ _ _ _ _ _ PO) as (_ & _ & ps & _ & _ & Q & _). exact Q. }
  destruct (step_ok vs PR NE NA UP (mkChain d0 t (DeltaSet c vds' lengths) st) xs ys r h K1 K2 EQ) as (pd & EP & _);
    [rewrite LX in *; fold names; lia|fold names; lia|exact HS|exact CO|].
  eexists. split; [exact EP|]. cbn [cd_held]. intros i v x Iv Ix.
  assert (Ik : nth_error names i = Some (rv_name v)) by (unfold names, names_of; rewrite nth_error_map, Iv; reflexivity).
  destruct (held_get vs NA UP xs ys i (rv_name v)) as [G1 G2]; [fold names; lia|fold names; lia|exact Ik|].
  split; [rewrite G1; exact Ix|]. rewrite G2. unfold ys.
  assert (IC : nth_error (combine (seq 0 (length vs)) (combine vs xs)) i = Some (i, (v, x))).
  { assert (G : forall (l : list (rv R)) (zs : list (pyval R)) j k w z, nth_error l k = Some w -> nth_error zs k = Some z ->
      nth_error (combine (seq j (length l)) (combine l zs)) k = Some ((j + k)%nat, (w, z))).
    { induction l as [|w0 l IH]; intros [|z0 zs] j [|k] w z I1 I2; cbn in I1, I2; try discriminate.
      - injection I1 as <-. injection I2 as <-. cbn. rewrite Nat.add_0_r. reflexivity.
      - cbn. rewrite (IH zs (S j) k w z I1 I2). replace (S j + k)%nat with (j + S k)%nat by lia. reflexivity. }
    exact (G vs xs 0%nat i v x Iv Ix). }
  rewrite nth_error_map, IC. reflexivity.
Qed.
End Uniform.
