(** Examples for the theorems about chains. *)
From Coq Require Import String Ascii ZArith Reals Lra Bool Arith Lia List.
From Verif Require Import Base Num Tensor TensorLemmas OdLemmas RNumLemmas PScales PScales_Spec PScales_Proofs Names Names_Spec Names_Proofs Distr PDModel PD_Spec
  PD_Simple_Spec PD_Examples PD_ProductEx PD_Rescaled VariableModel Var_Spec RVModel RV_Spec FieldModel Field_Spec RFModel RF_Spec RF_Thm SDModel SD_Spec SD_Proofs SD_Thm SD_Ex SPModel SP_Spec
  ChainModel Chain_Spec.
Import ListNotations.
Local Open Scope R_scope.

(** *** A transition function *)
Definition tfunc (names : list string) (h : list (pyval R) -> list (pyval R) -> R) : tranfun R := fun vals =>
  let! xs := map_res (od_getR vals) names in
  let! ys := map_res (fun k => od_getR vals (k ++ "'")%string) names in
  Ok (tscalar (h (map (fun a => get a []) xs) (map (fun a => get a []) ys))).

Lemma tfunc_computes names h : computes names h (tfunc names h).
Proof.
  intros vals xs ys H1 H2. unfold tfunc.
  assert (E1 : map_res (od_getR vals) names = Ok (map tscalar xs)).
  { clear H2. induction H1 as [|k x names xs G H1 IH]; [reflexivity|]. cbn [map_res map]. unfold od_getR at 1. rewrite G. cbn [bind]. rewrite IH. reflexivity. }
  assert (E2 : map_res (fun k => od_getR vals (k ++ "'")%string) names = Ok (map tscalar ys)).
  { clear H1 E1. induction H2 as [|k x names ys G H1 IH]; [reflexivity|]. cbn [map_res map]. unfold od_getR at 1. rewrite G. cbn [bind]. rewrite IH. reflexivity. }
  rewrite E1. cbn [bind]. rewrite E2. cbn [bind]. eexists. split; [reflexivity|]. split; [reflexivity|]. cbn [tscalar get].
  assert (M : forall l : list (pyval R), map (fun a => get a []) (map tscalar l) = l) by (intros l; rewrite map_map; apply map_id). rewrite !M. reflexivity.
Qed.

(** *** Two real variables, x from 0 to 10 and y between 0 and 1 *)
Definition ex_x : rv R := mkRV "x"%string (mkVS (Some VFloat) (Some [Bare (AV (PF 0)); Bare (AV (PF 10))])) (Lin 1) (RPScalar (/ 10)) TRNone None true.
Definition ex_y : rv R := mkRV "y"%string (mkVS (Some VFloat) (Some [Tup (AV (PF 0)); Tup (AV (PF 1))])) (Lin 1) (RPScalar 1) TRNone None true.
Definition ex_b : rv R := mkRV "b"%string RV_Spec.both (Lin 1) (RPScalar (/ 2)) TRNone None true.
Definition ex_lims : list limits := [mkLim false 0 10; mkLim true 0 1].
Definition ex_dc : dconf R := mkDC DNone false false.

Lemma ex_simple k : good_entryb k = true -> has_char "=" k = false -> simple_key k.
Proof. intros H1 H2. split; [apply good_entryb_ok; exact H1|]. apply has_char_false. exact H2. Qed.

Lemma app_prime_inv c k0 : String c EmptyString = (k0 ++ "'")%string -> c = "'"%char.
Proof. destruct k0 as [|a [|b k0]]; cbn; intros E; congruence. Qed.

Lemma ex_field : named_apart (names_of [ex_x; ex_y]) /\ unprimed (names_of [ex_x; ex_y]) /\ scales_ok [ex_x; ex_y] /\
  Forall real_rv [ex_x; ex_y] /\ Forall2 interval_rv [ex_x; ex_y] ex_lims /\ within ex_lims [2; / 2].
Proof.
  split; [|split; [|split; [|split; [|split]]]].
  - split; [repeat constructor; cbn; intuition discriminate|].
    intros k [<-|[<-|[]]]; (split; [apply ex_simple; reflexivity|]); cbn; intuition discriminate.
  - intros k [<-|[<-|[]]] k0 E; apply app_prime_inv in E; discriminate.
  - left. repeat constructor; cbn; try lra; destruct (Req_EM_T _ 0); try reflexivity; lra.
  - repeat constructor; cbn; discriminate.
  - constructor; [|constructor; [|constructor]]; unfold interval_rv; cbn; split; try reflexivity; lra.
  - constructor; [|constructor; [|constructor]]; unfold within1; cbn; lra.
Qed.

Lemma ex_mixed : named_apart (names_of [ex_x; ex_b]) /\ unprimed (names_of [ex_x; ex_b]) /\ scales_ok [ex_x; ex_b] /\
  Forall2 value_for [ex_x; ex_b] [PF 3; PB true].
Proof.
  split; [|split; [|split]].
  - split; [repeat constructor; cbn; intuition discriminate|].
    intros k [<-|[<-|[]]]; (split; [apply ex_simple; reflexivity|]); cbn; intuition discriminate.
  - intros k [<-|[<-|[]]] k0 E; apply app_prime_inv in E; discriminate.
  - left. repeat constructor; cbn; try lra; destruct (Req_EM_T _ 0); try reflexivity; lra.
  - repeat constructor.
Qed.

(** The scale can be set to the linear and to the plain logarithmic one. *)
Lemma ex_set fn : exists d0, make_sd [ex_x; ex_y] [] None = Ok d0 /\
  (exists d, sd_set_prob d0 (Some fn) (Some (PSFloat 1)) = Ok d /\ linear_scale (spec_of (sd_pscale d)) /\ forall v, denote (spec_of (sd_pscale d)) v = v) /\
  (exists d, sd_set_prob d0 (Some fn) (Some (PSStr "log"%string)) = Ok d /\ spec_of (sd_pscale d) = PSCplx 0 0).
Proof.
  destruct ex_field as (NA & _ & SC & _).
  destruct (make_sd_ok [ex_x; ex_y] [] None) as (f & fl & fr & q & ql & qr & PO & E); [discriminate|apply NA|exact SC|].
  eexists. split; [exact E|]. split.
  - eexists. split.
    + unfold sd_set_prob, base_set_prob, new_pscale. cbn [sd_rf sd_leafs sd_roots sd_arch sd_pscale bind ps_true].
      assert (n_eqb (1 : R) n0 = false) as -> by (apply Reqb_false_iff; rn; lra). cbn [negb].
      assert (eval_pscale (PSFloat (1 : R)) = Ok (Lin 1)) as -> by (cbn; rewrite Reqb_refl; reflexivity). cbn [bind sd_arch]. reflexivity.
    + cbn [sd_pscale spec_of]. split.
      * split; [split; cbn; auto; lra|]. cbn. destruct (Req_EM_T 1 0); [lra|reflexivity].
      * intros v. unfold denote. cbn. destruct (Req_EM_T 1 0); lra.
  - eexists. split.
    + unfold sd_set_prob, base_set_prob, new_pscale. cbn [sd_rf sd_leafs sd_roots sd_arch sd_pscale bind ps_true]. cbn. reflexivity.
    + reflexivity.
Qed.

(** A chain of three steps in one variable with density |x|: the third move, from 4 to
    1, is not made. *)
Lemma ex_chain : let dens x := match x with [a] => Rabs a | _ => 0 end in
  sampled_chain moved (metropolis_rule dens) [1] [([1], / 2); ([2], 1); ([-3], / 2)] = [[2]; [4]; [4]].
Proof.
  pose proof npz_lt_1 as Z. pose proof npz_pos as Z0.
  cbn [sampled_chain accept_chain moved combine map fst snd]. cbv zeta. unfold metropolis_rule.
  replace (1 + 1) with 2 by lra. replace (2 + 2) with 4 by lra.
  rewrite (Rabs_right 2), (Rabs_right 4) by lra. rewrite (Rmax_right npz 2) by lra.
  destruct (Rle_dec 1 (Rmin 1 (4 / 2))) as [_|C].
  2:{ exfalso. apply C. apply Rmin_glb; lra. }
  rewrite (Rabs_right 4), (Rmax_right npz 4) by lra. assert (moved [4] [-3] = [1]) as -> by (cbn; f_equal; lra). rewrite (Rabs_right 1) by lra.
  destruct (Rle_dec (/ 2) (Rmin 1 (1 / 4))) as [C|_]; [|reflexivity].
  exfalso. pose proof (Rmin_r 1 (1 / 4)). lra.
Qed.
