(** Variables with distributions that meet the hypotheses. *)
From Coq Require Import String Ascii ZArith Reals Bool Arith List Lia Lra.
From Verif Require Import Base Num Tensor RNumLemmas PScales PScales_Spec PScales_Proofs Names Names_Spec
  Distr PDModel PD_Spec PD_Examples Likelihoods VariableModel Var_Spec Var_Proofs
  RVModel RV_Spec RV_Proofs RV_More RVStep_Spec RFModel RF_Spec RF_Thm DistModel Dist_Spec Dist_Proofs Dist_Thm.
Import ListNotations.
Local Open Scope R_scope.

(** The density 2x between 0 and 1. *)
Definition ex_quant : pfun R := mkPfun (fun x => x * x) sqrt.
Definition ex_tri : uvdist R := mkUD (fun x => 2 * x) (fun x => ln (2 * x)) (Some ex_quant).
Definition ex_ramp : drv R :=
  mkDRV "x" (interval (Tup (AV (PF 0))) (Bare (AV (PF 1)))) (Lin 1) (DDist ex_tri) TRNone false (Some ex_quant) SFOther.

Lemma one_scale : new_pscale (T := R) PSNone (PSFloat 1) = Ok (Lin 1).
Proof. unfold new_pscale. cbn [ps_true]. unfold eval_pscale. rewrite (proj2 (Reqb_iff 1 n1)) by reflexivity. reflexivity. Qed.

Lemma ramp_made :
  make_drv "x" (AList [Tup (AV (PF 0)); Bare (AV (PF 1))]) (AType VFloat) (DADist ex_tri) PSNone = Ok ex_ramp.
Proof.
  unfold make_drv, make_variable, set_name. change (valid_name "x") with true. cbn [bind is_container].
  unfold init_state. cbn [truth].
  change (set_vtype new_state (AType VFloat)) with (mkVS (T := R) (Some VFloat) (Some (default_vset VFloat)), Ok tt).
  cbn [seq_state]. unfold set_vset. cbn [vs_vtype].
  change (cast_loop (T := R) (Some VFloat) (Some VFloat) [Tup (AV (PF 0)); Bare (AV (PF 1))]) with
    (Ok ([Tup (AV (PF 0)); Bare (AV (PF 1))], Some VFloat)). cbn [eval_vlims].
  assert (E : atom_ltb (T := R) (atom_of (Bare (AV (PF 1)))) (atom_of (Tup (AV (PF 0)))) = false).
  { apply not_true_iff_false. rewrite atom_ltb_iff. cbn. lra. }
  rewrite E. cbn [bind dv_set_prob dv_pscale spec_of]. rewrite n1_R, one_scale. reflexivity.
Qed.

Lemma ramp_quantiles : continuous_between ex_quant 0 1.
Proof.
  split; cbn.
  - intros x y A B C. nra.
  - intros q H. rewrite !Rmult_0_l, !Rmult_1_l in H. split; [|apply sqrt_sqrt; lra].
    split; [apply sqrt_pos|]. rewrite <- sqrt_1. apply sqrt_le_1_alt. lra.
Qed.

Lemma ramp_consistent x : 0 < x -> consistent ex_tri x.
Proof. intros H. split; cbn; [lra|reflexivity]. Qed.

(** A distribution of an int variable: all of the probability on one value. *)
Definition ex_point : uvdist R :=
  mkUD (fun x => if Req_EM_T x 1 then 1 else 0) (fun x => if Req_EM_T x 1 then 0 else nni)
    (Some (mkPfun (fun x => if Rle_dec 1 x then 1 else 0) (fun _ => 1))).

Lemma discrete_made : exists v p,
  make_drv "d" (AList [Bare (AV (PI 0)); Bare (AV (PI 1)); Bare (AV (PI 2))]) ANone (DADist ex_point) PSNone = Ok v /\
  dv_pfun v = Some p /\ dv_state v = discrete VInt [PI 0; PI 1; PI 2] /\ vs_vtype (dv_state v) <> Some VFloat.
Proof.
  unfold make_drv. pose proof (list_variable "d" [0; 1; 2]%Z eq_refl ltac:(discriminate)) as E. cbn [map] in E. rewrite E.
  cbn [bind dv_set_prob dv_pscale spec_of]. rewrite n1_R, one_scale. do 2 eexists. split; [reflexivity|]. split; [reflexivity|]. split; [reflexivity|discriminate].
Qed.

(** An unbounded variable with quantiles. *)
Lemma unbounded_made : exists v p e0 e1,
  make_drv "x" (AType VFloat) ANone (DADist ex_tri) PSNone = Ok v /\
  dv_pfun v = Some p /\ dv_state v = interval e0 e1 /\ infinite e0.
Proof.
  unfold make_drv.
  assert (E : make_variable (T := R) (Some "x"%string) ANone (AType VFloat) = Ok ("x"%string, mkVS (Some VFloat) (Some (default_vset VFloat)))) by reflexivity.
  rewrite E. cbn [bind dv_set_prob dv_pscale spec_of]. rewrite n1_R, one_scale. do 4 eexists. split; [reflexivity|]. split; [reflexivity|]. split; [reflexivity|].
  intros x. discriminate.
Qed.

(** A coin whose bias was set and reset. *)
Definition ex_fair : drv R := mkDRV "b" both (Lin 1) (DPlain (RPScalar (/ 2))) TRNone true None SFNone.

Lemma bias_made : exists w u,
  vs_vtype (dv_state ex_fair) = Some VBool /\ dv_pfun ex_fair = None /\ / 50000 <= Rabs (9 / 10 - / 2) /\
  dv_set_prob ex_fair PSNone (DAPlain (PAScalar (9 / 10))) = Ok w /\ dv_set_prob w PSNone (DAPlain (PAScalar (/ 2))) = Ok u.
Proof.
  assert (A : / 50000 <= Rabs (9 / 10 - / 2)) by (rewrite Rabs_pos_eq; lra).
  unfold dv_set_prob, rv_set_prob. cbn [ex_fair dv_pscale spec_of]. rewrite one_scale. cbn [bind bernoullise rv_pscale rv_prob]. do 2 eexists.
  split; [reflexivity|]. split; [reflexivity|]. split; [exact A|]. split; [reflexivity|]. cbn [dv_pscale spec_of]. rewrite one_scale. reflexivity.
Qed.

Lemma ramp_reset : exists w, dv_set_prob ex_ramp PSNone (DAPlain (PAFun (fun x => 3 * (x * x)))) = Ok w /\
  without_quantiles (DAPlain (PAFun (fun x => 3 * (x * x)))) /\ dv_pfun ex_ramp = Some ex_quant.
Proof.
  unfold dv_set_prob, rv_set_prob. cbn [ex_ramp dv_pscale spec_of]. rewrite one_scale. cbn [bind]. eexists. split; [reflexivity|]. split; [exact I|reflexivity].
Qed.

Lemma ramp_rescaled (r : rnd R) : exists w, printable fmt_ex /\ named_apart [dv_name ex_ramp] /\
  eval_pscale (spec_of (dv_pscale ex_ramp)) = Ok (dv_pscale ex_ramp) /\ dv_set_pscale ex_ramp (PSStr "log") = Ok w /\
  dv_prob ex_ramp = DDist ex_tri /\ dv_evaluate ex_ramp (VGiven [PF (1 / 4); PF (3 / 4)] false) r = Ok (of_list (PF 0) [PF (1 / 4); PF (3 / 4)]) /\
  holds (of_list (PF 0) [PF (1 / 4); PF (3 / 4)]) true [PF (1 / 4); PF (3 / 4)] /\ consistent ex_tri (1 / 4).
Proof.
  eexists. split; [exact ex_printable|]. split; [split; [repeat constructor; intros []|]|].
  { intros k [<-|[]]. split; [vm_compute; intuition discriminate|cbn; intuition discriminate]. }
  split; [exact one_scale|]. split; [reflexivity|]. split; [reflexivity|]. split; [reflexivity|]. split; [reflexivity|apply ramp_consistent; lra].
Qed.

Lemma fair_rescaled (r : rnd R) : exists w, named_apart [dv_name ex_fair] /\ dv_pscale ex_fair = Lin 1 /\
  dv_set_pscale ex_fair (PSStr "log") = Ok w /\ dv_prob ex_fair = DPlain (RPScalar (/ 2)) /\
  dv_evaluate ex_fair VNone r = Ok (of_list (PF 0) [PB false; PB true]) /\ inside (dv_state ex_fair) (PB true) = Some true.
Proof.
  eexists. split; [split; [repeat constructor; intros []|]|].
  { intros k [<-|[]]. split; [vm_compute; intuition discriminate|cbn; intuition discriminate]. }
  split; [reflexivity|]. split; [reflexivity|]. split; [reflexivity|]. split; [reflexivity|].
  destruct (inside_discrete VBool [PB false; PB true] (PB true)) as (b & E & H); [discriminate|]. change (dv_state ex_fair) with (discrete VBool [PB false; PB true]).
  rewrite E. f_equal. apply H. cbn. auto.
Qed.
