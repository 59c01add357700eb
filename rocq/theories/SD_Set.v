(** Setting the probabilities of a dependence. *)
From Coq Require Import String Ascii ZArith Reals Lra Bool Arith Lia List.
From Verif Require Import Base Num Tensor OdLemmas RNumLemmas PScales PScales_Spec PScales_Proofs PScales_Prod Distr PDModel PD_Spec
  VariableModel RVModel FieldModel Field_Spec RFModel RF_Spec RF_Proofs LookupModel SDModel SD_Spec SD_Proofs SD_Joint.
Import ListNotations.
Local Open Scope list_scope.

Lemma overridden (leafs roots : list (rv R)) h : leafs <> [] -> NoDup (names_of (leafs ++ roots)) -> scales_ok (leafs ++ roots) ->
  exists d0, make_sd leafs roots (Some h) = Ok d0 /\ forall fn given d,
  sd_set_prob d0 fn given = Ok d ->
  sd_prob d = Some h /\ (Forall linear_scale (map scale_of (leafs ++ roots)) -> d = d0).
Proof.
  intros NL ND SC. destruct (make_sd_ok leafs roots (Some h) NL ND SC) as (f & fl & fr & q & ql & qr & PO & E).
  eexists. split; [exact E|]. intros fn given d ES.
  destruct (po_all _ _ _ _ _ _ _ _ PO) as (_ & Vf & ps & NT).
  unfold sd_set_prob in ES. destruct (base_set_prob _ fn given) as [d1|] eqn:E1; [|discriminate]. cbn [bind] in ES.
  unfold base_set_prob in E1. cbn [sd_rf sd_leafs sd_roots sd_arch sd_pscale] in E1.
  destruct (match given with Some g => _ | None => _ end) as [ps1|]; [|discriminate]. cbn [bind] in E1.
  destruct (new_pscale ps1 (spec_of q)) as [q1|]; [|discriminate]. cbn [bind] in E1. injection E1 as <-. cbn [sd_arch] in ES.
  unfold base_set_prob in ES. cbn [sd_rf sd_leafs sd_roots sd_arch sd_pscale] in ES.
  destruct (natural_new _ ps q f q NT Vf) as (s & Es & Ss). rewrite Es in ES. cbn [bind] in ES. rewrite Ss in ES.
  destruct (new_pscale ps (spec_of q1)) as [q2|] eqn:E2; [|discriminate]. cbn [bind] in ES. injection ES as <-.
  split; [reflexivity|]. intros FL. f_equal.
  pose proof (natural_linear _ _ _ NT FL) as [VQ LQ]. destruct NT as (P1 & P2 & P3 & P4 & _).
  unfold new_pscale in E2.
  assert (TP : ps_true ps = true).
  { rewrite <- P4. destruct q as [c|re im]; cbn in *; [|discriminate]. destruct (Req_EM_T c 0); [discriminate|]. match goal with |- negb ?b = true => destruct b eqn:EC end; [apply Reqb_iff in EC; contradiction|reflexivity]. }
  rewrite TP, P2 in E2. congruence.
Qed.

Lemma zero_ignored (leafs roots : list (rv R)) : leafs <> [] -> NoDup (names_of (leafs ++ roots)) -> scales_ok (leafs ++ roots) ->
  exists d0, make_sd leafs roots None = Ok d0 /\ forall fn d,
  (sd_set_prob d0 (Some fn) (Some (PSCplx 0%R 0%R)) = Ok d \/ sd_set_prob d0 (Some fn) (Some (PSFloat 0%R)) = Ok d) ->
  sd_pscale d = sd_pscale d0.
Proof.
  intros NL ND SC. destruct (make_sd_ok leafs roots None NL ND SC) as (f & fl & fr & q & ql & qr & PO & E).
  destruct (po_all _ _ _ _ _ _ _ _ PO) as (_ & Vf & ps & NT). destruct NT as (P1 & P2 & P3 & P4 & _).
  eexists. split; [exact E|]. intros fn d H.
  assert (Z0 : n_eqb (n0 : R) n0 = true) by (apply Reqb_iff; reflexivity). change (n0 : R) with 0%R in Z0.
  assert (T1 : ps_true (PSCplx 0%R 0%R) = false) by (cbn [ps_true]; change (n0 : R) with 0%R; rewrite ?Z0; reflexivity).
  assert (T2 : ps_true (PSFloat 0%R) = false) by (cbn [ps_true]; change (n0 : R) with 0%R; rewrite ?Z0; reflexivity).
  unfold sd_set_prob, base_set_prob, new_pscale in H. cbn [sd_rf sd_leafs sd_roots sd_arch sd_pscale bind] in H. rewrite T1, T2 in H.
  rewrite P4, P2 in H. cbn [bind sd_arch] in H. destruct H as [H|H]; injection H as <-; reflexivity.
Qed.
