(** Proposals and rejection sampling. *)
From Coq Require Import String Ascii ZArith Reals Lra Bool Arith Lia Permutation List.
From Verif Require Import Base Num Tensor TensorLemmas OdLemmas RNumLemmas PScales PScales_Spec PScales_Proofs Names Names_Spec Names_Proofs
  Distr PDModel PDUtils PD_Spec PD_Simple_Spec PD_Make PD_Simple PD_Sums PD_Valid PD_Marg PD_Align PD_Product2 PD_Product3
  VariableModel RVModel RV_Spec FieldModel Field_Spec Field_Dims RFModel RF_Spec RF_Proofs RF_Joint SDUtils SDUtils_Spec SDUtils_Proofs
  SDModel SD_Spec SD_Proofs SD_Joint SD_Thm SPModel SP_Spec SP_Proofs ChainModel Chain_Spec Chain_Proofs Chain_Run OmcModel Omc_Spec.
Import ListNotations.
Local Open Scope list_scope.

Lemma tagged_ok {B} suf (keys : list string) (d : odict B) : NoDup keys -> d = [] \/ od_keys d = keys ->
  suf = ""%string \/ (forall k k', In k keys -> In k' keys -> (k ++ suf)%string <> k') ->
  tagged suf keys d = map (fun kv => ((fst kv ++ suf)%string, snd kv)) d.
Proof.
  intros ND K DJ. unfold tagged. destruct (String.eqb_spec suf "") as [->|NEs]; [rewrite rk_empty; reflexivity|].
  destruct DJ as [C|DJ]; [contradiction|]. destruct K as [->|<-].
  - unfold RFModel.suffixed. cbn. clear. induction keys; [reflexivity|assumption].
  - apply RF_Joint.suffixed_ok; assumption.
Qed.

Section Propose.
Context {F : Fmt R} {TR : Trunc R}.
Variables (leafs roots : list (rv R)) (values : odict (fentry R)).
Variables (x : nat -> fval R) (a : nat -> values_in R) (r : nat -> rnd R) (A : nat -> tensor (pyval R)).
Let vs := leafs ++ roots.
Let names := names_of vs.
Let L := filter (needs_axis values) names.
Hypothesis PR : printable F.
Hypothesis NL : leafs <> [].
Hypothesis NA : named_apart names.
Hypothesis SC : scales_ok vs.
Hypothesis NDv : NoDup (od_keys values).
Hypothesis INv : incl (od_keys values) names.
Hypothesis HE : forall i v, nth_error vs i = Some v -> evaluates v values (x i) (a i) (r i) (A i).
Let x' k := x (pos k names).
Let a' k := a (pos k names).
Let A' k := A (pos k names).
Let HEn : forall i v, nth_error vs i = Some v -> evaluates v values (x' (rv_name v)) (a' (rv_name v)) (r i) (A' (rv_name v)) :=
  RF_Joint.HE' vs values x a r A NA HE.

Lemma propose_gen suf : named_apart (map (fun k => (k ++ suf)%string) names) ->
  (suf = ""%string \/ forall k k', In k names -> In k' names -> (k ++ suf)%string <> k') ->
  exists d0, make_sd leafs roots None = Ok d0 /\ forall fn given d g gd, sd_set_prob d0 (Some fn) given = Ok d -> proposes names gd g ->
  exists p vals, sd_propose d g values suf r = Ok (mkOD p (map (fun kv => ((fst kv ++ suf)%string, snd kv)) vals)) /\
    NoDup (od_keys vals) /\ (forall k, In k (od_keys vals) <-> In k names) /\
    (forall k, In k names -> dimensionless (x' k) = true -> od_get vals k = Some (A' k)) /\
    valid_pd p (map (fun k => (k ++ suf)%string) L) /\ od_keys (p_marg p) = map (fun k => (k ++ suf)%string) names /\ od_keys (p_cond p) = [] /\
    p_pscale p = sd_pscale d /\
    (forall i v, nth_error vs i = Some v -> variable p (rv_name v ++ suf)%string = Some (var_of (to_value (A i)))) /\
    exists t, p_prob p = Some t /\ shape t = map (fun k => tsize (A' k)) L /\
    forall s, in_bounds p (map (fun k => (k ++ suf)%string) L) s -> get t (map s (map (fun k => (k ++ suf)%string) L)) =
      gd (at_positions values vs A (fun k => s (k ++ suf)%string)).
Proof.
  intros NS DJ. destruct (make_sd_ok leafs roots None NL (proj1 NA) SC) as (f & fl & fr & q & ql & qr & PO & E).
  eexists. split; [exact E|]. intros fn given d g gd ES EL. destruct (set_prob_ok _ _ _ _ _ _ _ _ ES) as (q' & -> & EQ).
  destruct (po_all _ _ _ _ _ _ _ _ PO) as (Kf & Vf & _). fold vs in Kf, Vf.
  assert (VNE : vs <> []) by (unfold vs; intros C; apply app_eq_nil in C; destruct C; contradiction).
  destruct (evaluated vs values x' a' r A' NA NDv INv HEn f Kf Vf) as (vals & dims & E1 & NK & IK & DK & LK & HV).
  assert (HV' : forall k, In k names -> exists a0, od_get vals k = Some a0 /\ to_list a0 = to_list (A' k) /\
      (dimensionless (x' k) = true /\ a0 = A' k /\ shape a0 = [] \/
       In k L /\ shape a0 = mask (fun k => tsize (A' k)) [k] L /\ 0 < tsize (A' k))).
  { intros k I. destruct (HV k I) as (a0 & Ga & TL & Q). exists a0. tauto. }
  destruct (fun_prob leafs roots values x' a' r A' NL NA INv HEn f fl fr q ql qr PO gd (fun vals _ => g vals) vals dims EL HV') as (t & ET & ST & GT).
  fold vs names L in ST, GT.
  destruct (assembled vs values x' a' r A' VNE NA INv HEn PR names [] suf vals dims t q')
    as (p & E3 & VP & KP & MP & CP & PP & SP & VV & _); auto.
  { symmetry. apply app_nil_r. }
  exists p, vals. split.
  { unfold sd_propose. cbn [sd_rf rf_fld rf_all sd_pscale]. unfold rf_rvs. cbn [rf_all rf_fld]. rewrite pick_all by exact Vf.
    rewrite (parsed vs values x' a' r A' NA NDv INv HEn f Kf). cbn [bind]. fold vs. rewrite E1. cbn [bind]. rewrite ET. cbn [bind].
    change (map (@rv_name R) vs) with (names_of vs). rewrite (dist_name_is vs values x' a' r A' NDv INv HEn suf).
    assert (KO : od_keys (out_vals vals) = od_keys vals) by (unfold od_keys, out_vals; rewrite map_map; reflexivity).
    assert (KD : od_keys (out_dims dims) = od_keys dims) by (unfold od_keys, out_dims; rewrite map_map; reflexivity).
    assert (DJ' : suf = ""%string \/ (forall k k', In k (od_keys vals) -> In k' (od_keys vals) -> (k ++ suf)%string <> k')).
    { destruct DJ as [DJ|DJ]; [left; exact DJ|right]. intros k k' I I'. apply DJ; apply IK; assumption. }
    rewrite !tagged_ok; auto.
    2:{ destruct DK as [-> | DK]; [left; reflexivity|right]. rewrite KD. exact DK. }
    change (margcond_str (map (fun k => fname (k ++ suf) (x' k)) names) (map (fun j => fname (j ++ suf) (x' j)) []))
      with (join "," (map (fun k => fname (k ++ suf) (x' k)) names)) in E3.
    unfold names in E3. match type of E3 with ?X = _ => change (bind X (fun p0 => Ok (mkOD p0 (map (fun kv => ((fst kv ++ suf)%string, snd kv)) vals))) = Ok (mkOD p (map (fun kv => ((fst kv ++ suf)%string, snd kv)) vals))) end. rewrite E3. reflexivity. }
  split; [exact NK|]. split; [exact IK|]. split.
  { intros k I D. destruct (HV' k I) as (a0 & Ga & _ & [(_ & -> & _)|(IL & _)]); [exact Ga|]. apply (L_in vs values x' a' r A' HEn) in IL. destruct IL. congruence. }
  split; [exact VP|]. split; [exact MP|]. split; [exact CP|]. split; [exact SP|]. split.
  { intros i v Iv. rewrite VV by (apply in_map; eapply nth_error_In; exact Iv). unfold A', names. rewrite (pos_name vs i v (proj1 NA) Iv). reflexivity. }
  exists t. split; [exact PP|]. split; [exact ST|]. intros s IB.
  unfold vs. rewrite (at_positions_is leafs roots values A NA (fun k => s (k ++ suf)%string)).
  rewrite map_map. apply (GT (fun k => s (k ++ suf)%string)). intros k IL.
  destruct (L_in vs values x' a' r A' HEn k) as [L1 _]. specialize (L1 IL). destruct L1 as [IN D].
  assert (B : s (k ++ suf)%string < size_of p (k ++ suf)%string) by (apply IB; apply (in_map (fun k => (k ++ suf)%string)); exact IL).
  unfold size_of in B. rewrite VV in B by exact IN.
  destruct (A_shape vs values x' a' r A' HEn k IN) as [[C _]|(_ & _ & SA & _)]; [congruence|].
  unfold to_value in B. rewrite SA in B. cbn [var_of tmap shape] in B. rewrite SA in B.
  change (mkT (shape (A' k)) (fun i => as_num (get (A' k) i))) with (tmap (@as_num R RNum) (A' k)) in B.
  rewrite to_list_length in B. exact B.
Qed.
End Propose.
