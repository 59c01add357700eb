(** Steps of a field of a single variable with a transition of its own. *)
From Coq Require Import String Ascii ZArith Reals Lra Bool Arith Lia Permutation List.
From Verif Require Import Base Num Tensor OdLemmas TensorLemmas RNumLemmas PScales PScales_Spec PScales_Proofs PScales_Prod
  Names Names_Spec Names_Proofs Distr PDModel PDUtils PD_Spec PD_Simple_Spec PD_Examples
  VariableModel Var_Spec RVModel RV_Spec RV_Proofs RV_Matrix RV_More FieldModel Field_Spec RFModel RF_Spec RF_Proofs RF_Joint RF_Step RF_Single_Spec.
Import ListNotations.
Local Open Scope R_scope.

Lemma num_is (x : pyval R) : as_num x = num x.
Proof. destruct x as [|z|]; cbn; try reflexivity. Qed.

Lemma own_tran (v : rv R) rev a b w : tran_weight v rev a b w ->
  is_none (rv_tran v) = false /\
  exists t, eval_tran v (mkSt (tscalar b) (tscalar a) [] None) rev = Ok (Some t) /\ shape t = [] /\ get t [] = w.
Proof.
  intros [(g & T & ->)|(m & n & l & sorted & i & j & y & x & M & Sm & L & Ln & P & I & Ej & Nj & Ei & Ni & ->)].
  - unfold eval_tran. rewrite <- !num_is. destruct T as [->|(f & f' & -> & ->)]; (split; [reflexivity|]); eexists; (split; [reflexivity|split; reflexivity]).
  - split; [destruct (rv_tran v); cbn in M; try contradiction; reflexivity|].
    exists (tscalar (get m [i; j])). split; [|split; reflexivity].
    assert (LK : lookup_square_matrix (tscalar a) (tscalar b) m (vset_vals l) None None = Ok (tscalar (get m [i; j]))).
    { unfold lookup_square_matrix, is_square. rewrite Sm, Nat.eqb_refl. cbn [assert_ bind nth].
      rewrite Ln, Nat.eqb_refl. cbn [assert_ bind]. rewrite (sort_vals_is _ _ P I).
      change (to_list (tscalar b)) with [b]. change (to_list (tscalar a)) with [a]. cbn [map_res].
      rewrite (increasing_index sorted i y I Ei b) by auto. cbn [bind].
      rewrite (increasing_index sorted j x I Ej a) by auto. reflexivity. }
    unfold eval_tran. cbn [st_pred st_succ st_idx]. destruct (rv_tran v) eqn:Tr; cbn in M; try contradiction;
      rewrite L; subst m; rewrite LK; reflexivity.
Qed.

Lemma step_single {F : Fmt R} (v : rv R) (pred succ : odict (pyval R)) (a b : pyval R) (rev : bool) (w : R) :
  let k := rv_name v in
  printable F -> named_apart [k] -> named_apart [(k ++ "'")%string] -> scales_ok [v] ->
  od_keys pred = [k] -> od_get pred k = Some a -> told succ k b -> tran_weight v rev a b w ->
  exists f p, make_rf [v] = Ok f /\ rf_step f pred succ rev = Ok p /\ valid_pd p [] /\
    od_keys (p_marg p) = [(k ++ "'")%string] /\ od_keys (p_cond p) = [k] /\
    variable p k = Some (Scal (VNum (num a))) /\ variable p (k ++ "'") = Some (Scal (VNum (num b))) /\
    forall s, prob_at p [] s = denote (scale_of v) w.
Proof.
  intros k PR NA NP SC Kp Gp Ts W. destruct (own_tran v rev a b w W) as (NN & t & ET & St & Gt).
  assert (ND : NoDup (names_of [v])) by (constructor; [intros []|constructor]).
  assert (NE : [v] <> []) by discriminate.
  destruct (make_rf_ok [v] NE ND SC) as (f & ps & q & EF & Kf & Vf & NT).
  destruct (step_gen [v] PR NE NA NP) with (f := f) (ps := ps) (q := q) (pred := pred) (succ := succ) (yp := fun _ : string => a) (ys := fun _ : string => b)
    (rev := rev) (t := t) as (p & E1 & VP & M1 & M2 & VV & PB); auto.
  - intros k1 k2 [<-|[]] [<-|[]] C. fold k in C. revert C. clear. induction k as [|c k IH]; [discriminate|]. cbn. intros C. injection C as C. exact (IH C).
  - rewrite Kp. constructor; [intros []|constructor].
  - rewrite Kp. apply incl_refl.
  - intros k1 [<-|[]]. exact Gp.
  - intros k1 [<-|[]]. exact Ts.
  - unfold rf_eval_tran. assert (rf_rvs (mkRF [v] f q) = [v]) as -> by (unfold rf_rvs; cbn [rf_all rf_fld]; apply pick_all; exact Vf).
    rewrite NN. fold k.
    assert (od_getR (numbers pred) k = Ok (tscalar a)) as ->.
    { apply od_getR_ok. unfold numbers. rewrite od_get_map. rewrite Gp. reflexivity. }
    cbn [bind]. unfold names_of. cbn [map numbers fst snd]. fold k.
    assert (od_getR [(k, tscalar b)] k = Ok (tscalar b)) as ->.
    { apply od_getR_ok. cbn. rewrite String.eqb_refl. reflexivity. }
    cbn [bind]. rewrite ET. reflexivity.
  - destruct (VV k (or_introl eq_refl)) as [V1 V2]. rewrite num_is in V1, V2.
    exists (mkRF [v] f q), p. repeat (split; [assumption|]). intros s. rewrite PB, Gt.
    destruct NT as (_ & _ & _ & _ & P5 & P6). unfold denote. rewrite P5, P6. cbn [map existsb Rprod fold_right]. rewrite orb_false_r. 
    rewrite Rmult_1_r. reflexivity.
Qed.

(** The die with values 3, 1 and 2, listed in that order, and a transition matrix. *)
Definition ex_turn : tensor R := mkT [3; 3]%nat (fun ix => nth (3 * nth 0 ix 0 + nth 1 ix 0)%nat [1/2; 0; 1/3; 1/4; 1; 1/3; 1/4; 0; 1/3] 0).
Definition ex_turned : rv R := mkRV "d"%string (discrete VInt [PI 3; PI 1; PI 2]) (Lin 1) (RPFun (fun x => x / 6)) (TRMat ex_turn) None false.

Lemma ex_single :
  named_apart ["d"%string] /\ named_apart ["d'"%string] /\ scales_ok [ex_turned] /\
  tran_weight ex_turned false (PI 1) (PI 3) (1 / 4) /\ told [("d'"%string, PI 3)] "d" (PI 3).
Proof.
  assert (SK : forall k, good_entryb k = true -> has_char "=" k = false -> simple_key k).
  { intros k H1 H2. split; [apply good_entryb_ok; exact H1|]. apply has_char_false. exact H2. }
  split; [split; [repeat constructor; cbn; intuition discriminate|intros k [<-|[]]; split; [apply SK; reflexivity|cbn; intuition discriminate]]|].
  split; [split; [repeat constructor; cbn; intuition discriminate|intros k [<-|[]]; split; [apply SK; reflexivity|cbn; intuition discriminate]]|].
  split; [left; repeat constructor; cbn; try lra; destruct (Req_EM_T _ 0); try reflexivity; lra|].
  split; [|left; reflexivity]. right.
  exists ex_turn, 3%nat, (map (fun x => Bare (AV x)) [PI 3; PI 1; PI 2]), [PI 1; PI 2; PI 3], 2%nat, 0%nat, (PI 3), (PI 1).
  split; [reflexivity|]. split; [reflexivity|]. split; [reflexivity|]. split; [reflexivity|]. split.
  { cbn. apply Permutation_sym. eapply perm_trans; [apply perm_swap|]. apply perm_skip. apply perm_swap. }
  split; [repeat constructor; cbn; lra|]. repeat (split; [reflexivity|]). cbn. reflexivity.
Qed.
