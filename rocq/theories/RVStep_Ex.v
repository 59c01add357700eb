(** Examples of steps of one random variable. *)
From Coq Require Import String ZArith Reals Bool Arith List Lra Lia Permutation Sorted.
From Verif Require Import Base Num RNumLemmas Tensor TensorBcast PScales PScales_Spec PScales_Proofs Names_Spec PDModel PD_Spec PD_Simple_Spec VariableModel Var_Spec Var_Proofs
  RVModel RV_Spec RV_Proofs RV_More RVStep_Spec RV_Step FieldModel RF_Spec PD_Examples RF_Thm Chain_Ex.
Import ListNotations.
Local Open Scope R_scope.

Definition ex_moving : rv R := mkRV "x" (discrete VInt [PI 1; PI 2; PI 3]) (Lin 1) (RPScalar (/ 3)) (TRFun (fun x y => x + 2 * y)) None false.
Definition ex_m : tensor R := mkT [2; 2]%nat (fun i => match i with [0; 0]%nat => / 4 | [1; 0]%nat => 3 / 4 | [0; 1]%nat => 1 | _ => 0 end).
Definition ex_matrix : rv R := mkRV "x" (discrete VInt [PI 5; PI 2]) (Lin 1) (RPScalar (/ 2)) (TRMat ex_m) None false.
Definition ex_uniform : rv R := mkRV "x" (discrete VInt [PI 1; PI 2; PI 3]) (Lin 1) (RPScalar (/ 3)) (TRScalar (/ 3)) None true.
Definition ex_rank (x : pyval R) : nat := match x with PI 5 => 1%nat | _ => 0%nat end.

Lemma ex_named : named_apart ["x"%string].
Proof.
  split; [repeat constructor; intros []|]. intros k [<-|[]]. split; [apply ex_simple; reflexivity|]. cbn. intuition discriminate.
Qed.

Lemma ex_ints n : finite_set (discrete VInt n) (fun x => In x (map num n)) (INR (length n)).
Proof. constructor. Qed.

Lemma lin_one : eval_pscale (spec_of (Lin (1 : R))) = Ok (Lin 1).
Proof. cbn [spec_of eval_pscale]. rewrite n1_R. cbn [n_eqb RNum]. rewrite Reqb_refl. reflexivity. Qed.

Lemma moving_ok (TR : Trunc R) (r : srnd R) : printable fmt_ex /\ named_apart [rv_name ex_moving] /\
    eval_pscale (spec_of (rv_pscale ex_moving)) = Ok (rv_pscale ex_moving) /\
    rv_evaluate ex_moving (VGiven [PI 2; PI 1] false) (sr_eval r) = Ok (of_list (PF 0) [PI 2; PI 1]) /\
    holds (of_list (PF 0) [PI 2; PI 1]) true [PI 2; PI 1] /\ holds (of_list (PF 0) [PI 1; PI 3; PI 3]) true [PI 1; PI 3; PI 3] /\
    gives_tran ex_moving false [PI 2; PI 1] [PI 1; PI 3; PI 3] (fun x y => num x + 2 * num y) /\
    rv_evaluate ex_matrix (VGiven [PI 2] true) (sr_eval r) = Ok (tscalar (PI 2)) /\
    gives_tran ex_matrix false [PI 2] [PI 5; PI 2] (fun x y => get ex_m [ex_rank y; ex_rank x]) /\
    (exists g, gives_scalar ex_uniform (/ 3) g).
Proof.
  split; [exact ex_printable|]. split; [exact ex_named|]. split; [exact lin_one|]. split; [reflexivity|]. split; [reflexivity|]. split; [reflexivity|].
  split; [exact (gt_fun ex_moving false _ _ (fun x y => x + 2 * y) eq_refl)|]. split; [reflexivity|]. split.
  - apply (gt_matrix ex_matrix false [PI 2] [PI 5; PI 2] ex_m [Bare (AV (PI 5)); Bare (AV (PI 2))] [PI 2; PI 5] 2 ex_rank); try reflexivity.
    + apply perm_swap.
    + unfold increasing. cbn. repeat constructor; cbn; lra.
    + intros x [[<-|[]]|[<-|[<-|[]]]]; cbn; eauto.
  - set (ins := inside_b (rv_state ex_uniform)).
    exists (fun x y => if ins x && ins y then / 3 else 0), (fun x => In x (map num [PI 1; PI 2; PI 3])), (INR 3).
    split; [reflexivity|]. pose proof (ex_ints [PI 1; PI 2; PI 3]) as FS. split; [exact FS|]. intros x y.
    pose proof (inside_set _ _ _ FS x) as I1. pose proof (inside_set _ _ _ FS y) as I2.
    change (inside_b (discrete VInt [PI 1; PI 2; PI 3])) with ins in I1, I2.
    destruct (ins x), (ins y); cbn [andb]; split; intros H; try reflexivity; exfalso;
      try (apply H; tauto); destruct H as [X Y]; apply I1 in X; apply I2 in Y; congruence.
Qed.

Lemma log_ok (r : srnd R) : exists v v' c,
    make_rv (T := R) "x" (AList [Bare (AV (PI 1)); Bare (AV (PI 2)); Bare (AV (PI 3))]) ANone PANone (PSStr "log") = Ok v /\
    rv_reset_prob v (PSStr "log") PANone = Ok v' /\ rv_name v = "x"%string /\ named_apart [rv_name v] /\
    rv_pscale v = Log 0 0 /\ rv_tran v = TRNone /\ rv_pscale v' = Log 0 0 /\ rv_tran v' = TRScalar c /\
    finite_set (rv_state v') (fun x => In x [1; 2; 3]) 3 /\
    rv_evaluate v (VGiven [PI 2; PI 1] false) (sr_eval r) = Ok (of_list (PF 0) [PI 2; PI 1]) /\ ~ In (num (PI 5)) [1; 2; 3].
Proof.
  pose proof (ex_ints [PI 1; PI 2; PI 3]) as FS.
  assert (G3 : good_scale (spec_of (Log (0:R) 0))). { split; [split; cbn; auto|]. split; [unfold unit_log; cbn; intros C; injection C; lra|]. left. cbn [spec_of factor]. replace (log_offset 0 0) with 0 by (unfold log_offset; destruct (Rlt_dec _ _); lra). rewrite exp_0. reflexivity. }
  assert (L3 : npz <= INR 3) by (pose proof npz_lt_1; cbn; lra).
  destruct (default_prob_ok _ _ _ (Log 0 0) FS L3 G3) as (c & D & _); [discriminate|].
  set (s := discrete VInt [PI 1; PI 2; PI 3]) in *.
  assert (NPS : forall old : pspec R, new_pscale (PSStr "log") old = Ok (Log 0 0)).
  { intros old. unfold new_pscale. cbn. unfold complex_zero. rewrite n0_R. reflexivity. }
  exists (mkRV "x" s (Log 0 0) (RPScalar c) TRNone None true), (mkRV "x" s (Log 0 0) (RPScalar c) (TRScalar c) None true), c.
  split; [unfold make_rv; pose proof (list_variable "x" [1; 2; 3]%Z eq_refl) as LV; cbn [map] in LV; rewrite LV by discriminate; cbn [bind]; unfold rv_set_prob; rewrite NPS; cbn [bind];
    fold s; rewrite D; reflexivity|].
  split; [unfold rv_reset_prob, rv_set_prob; rewrite NPS; cbn [bind rv_state]; rewrite D; reflexivity|].
  split; [reflexivity|]. split; [exact ex_named|]. split; [reflexivity|]. split; [reflexivity|]. split; [reflexivity|]. split; [reflexivity|].
  split; [assert (E3 : INR 3 = 3) by (cbn; lra); cbn [length map num] in FS; rewrite E3 in FS; exact FS|]. split; [reflexivity|]. cbn. intros [H|[H|[H|[]]]]; lra.
Qed.

Lemma unbounded_ok : exists v v', make_rv (T := R) "x" (AType VFloat) ANone PANone PSNone = Ok v /\
    (exists e0 e1, rv_state v = interval e0 e1 /\ infinite e0) /\
    rv_reset_prob ex_moving PSNone PANone = Ok v' /\ finite_set (rv_state ex_moving) (fun x => In x [1; 2; 3]) 3 /\
    good_scale (spec_of (rv_pscale v')) /\ / 3 / factor (spec_of (rv_pscale v')) <= npi.
Proof.
  destruct (vtype_positional "x" VFloat) as (v & E & _ & S); [reflexivity|].
  pose proof (ex_ints [PI 1; PI 2; PI 3]) as FS.
  assert (L3 : npz <= INR 3) by (pose proof npz_lt_1; cbn; lra).
  destruct one_scale as [F1 _].
  assert (B3 : / 3 / factor (spec_of (Lin 1)) <= npi) by (cbn [spec_of]; rewrite F1; pose proof npi_big; lra).
  destruct (default_prob_ok _ _ _ (Lin 1) FS L3 good_one) as (c & D & _); [intros _; cbn [length]; replace (INR 3) with 3 by (cbn; lra); exact B3|].
  exists v, (mkRV "x" (rv_state ex_moving) (Lin 1) (RPScalar c) (TRScalar c) None true).
  split; [exact E|]. split; [do 2 eexists; split; [exact S|intros x; discriminate]|]. split.
  - unfold rv_reset_prob, rv_set_prob. cbn [ex_moving rv_pscale rv_state rv_name rv_tran rv_tfun].
    assert (NPS : new_pscale PSNone (spec_of (Lin (1:R))) = Ok (Lin 1)).
    { unfold new_pscale. cbn [ps_true]. exact lin_one. }
    rewrite NPS. cbn [bind]. rewrite D. reflexivity.
  - split; [assert (E3 : INR 3 = 3) by (cbn; lra); cbn [length map num] in FS; rewrite E3 in FS; exact FS|]. split; [exact good_one|exact B3].
Qed.

Lemma matrix_ok : first_matrix (TRMat ex_m) ex_m /\ square_of ex_matrix ex_m /\ vs_vtype (rv_state ex_matrix) <> Some VFloat /\
  snd (rv_set_tran ex_matrix (TRMat ex_m)) = Ok tt /\ snd (rv_set_tran ex_matrix (TRMat (of_list 0 [1; 2]))) = Err AssertionError.
Proof.
  split; [reflexivity|]. split; [exists [Bare (AV (PI 5)); Bare (AV (PI 2))]; split; reflexivity|]. split; [discriminate|]. split; reflexivity.
Qed.

Lemma second_unchecked (v : rv R) m b b' : snd (rv_set_tran v (TRMats m b)) = snd (rv_set_tran v (TRMats m b')).
Proof. unfold rv_set_tran. destruct (vs_vset (rv_state v)); [|reflexivity]. destruct (is_float _); [reflexivity|]. destruct (_ && _); reflexivity. Qed.

Lemma several_ok : let a := mkT [2; 1]%nat (fun i => PI (Z.of_nat (nth 0 i 0%nat))) in let b := of_list (PF 0) [PI 0; PI 1; PI 2] in
  fold_res bcast_shape (map shape [b]) (shape a) = Ok [2; 3]%nat /\ eval_pscale (PSStr "log") = Ok (Log 0 0) /\
  all_inside (fun x => match x with PI 2 => false | _ => true end) [a; b] [1; 1]%nat /\
  ~ all_inside (fun x => match x with PI 2 => false | _ => true end) [a; b] [1; 2]%nat.
Proof.
  cbv zeta. split; [reflexivity|]. split; [cbn; rewrite ?n0_R; reflexivity|]. split.
  - repeat constructor.
  - intros C. inversion C as [|x0 l0 _ C2]; subst. inversion C2 as [|x1 l1 C3 _]; subst. cbn in C3. discriminate.
Qed.
