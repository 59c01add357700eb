(** Steps of random fields from arrays and shared keys. *)
From Coq Require Import String Ascii ZArith Reals Bool Arith Lia List.
From Verif Require Import Base OdLemmas Num Tensor PScales Names Names_Spec Distr PDModel PD_Spec PD_Simple_Spec PD_Examples Names_Proofs Likelihoods VariableModel RVModel RV_Spec FieldModel Field_Spec Field_Dims
  RFModel RF_Spec RF_Proofs ArrModel Arr_Proofs.
Import ListNotations.
Local Open Scope nat_scope.
Local Open Scope list_scope.

Section P.
Context {F : Fmt R} {TR : Trunc R}.

Lemma rf_is (vs : list (rv R)) f : vs <> [] -> NoDup (names_of vs) -> make_rf vs = Ok f ->
  rf_all f = vs /\ fd_keys (rf_fld f) = names_of vs /\ fd_varlist (rf_fld f) = nodes vs.
Proof.
  intros NE ND. destruct (field_ok vs NE ND) as (g & E & K & L). unfold make_rf. rewrite E. cbn [bind].
  destruct (prod_pscale _ _) as [s|]; cbn [bind]; [|discriminate]. destruct (eval_pscale _) as [p|]; cbn [bind]; [|discriminate].
  destruct (new_pscale _ _) as [q|]; cbn [bind]; [|discriminate]. intros H. injection H as <-. auto.
Qed.

Lemma ev_num (vs : list (rv R)) r i v y : rf_ev vs r i v (FNum y) = Ok (tscalar y).
Proof. reflexivity. Qed.

Lemma simple_unshared names k : named_apart names -> In k names -> shared k = false.
Proof. intros (_ & S) I. destruct (S k I) as [[(_ & C & _) _] _]. apply has_char_false. exact C. Qed.

Lemma at_zero (v : rv R) r A : rv_evaluate v (VariableModel.VSet 0) r = Ok A -> exists y, A = tscalar y.
Proof.
  unfold rv_evaluate. assert (X : (let! o := evaluate (rv_state v) None (VariableModel.VSet 0) r in Ok (out_tensor o)) = Ok A -> exists y, A = tscalar y).
  { destruct (evaluate _ _ _ _) as [o|] eqn:E; cbn [bind]; [|discriminate]. intros H. injection H as <-.
    unfold evaluate in E. destruct (vs_vset (rv_state v)) as [l|]; [|discriminate].
    assert (Y : forall n, eval_discrete l n 0 r = Ok o -> exists y, out_tensor o = tscalar y).
    { intros n H. unfold eval_discrete in H. destruct (getR _ _) as [y|]; cbn [bind] in H; [|discriminate]. injection H as <-. exists y. reflexivity. }
    destruct (vs_vtype (rv_state v)) as [[]|]; try (eapply Y; exact E).
    destruct l as [|e0 [|e1 [|? ?]]]; try discriminate. destruct (u_image _ _); try discriminate. destruct (u_image _ _); try discriminate.
    injection E as <-. cbn [uniform out_map out_tensor]. eexists. reflexivity. }
  destruct (is_bool (rv_state v)); [|exact X]. destruct (rv_prob v); try exact X. intros H. injection H as <-. eexists. reflexivity.
Qed.

(* Everything (None) of a variable that is not real is an array. *)
Lemma all_array (v : rv R) r A : vs_vtype (rv_state v) <> Some VFloat -> rv_evaluate v VNone r = Ok A -> shape A <> [].
Proof.
  intros NF. unfold rv_evaluate. assert (X : (let! o := evaluate (rv_state v) None VNone r in Ok (out_tensor o)) = Ok A -> shape A <> []).
  { unfold evaluate. destruct (vs_vset (rv_state v)) as [l|]; cbn [bind]; [|discriminate].
    destruct (vs_vtype (rv_state v)) as [[]|]; try congruence; cbn [bind]; intros H; injection H as <-; discriminate. }
  destruct (is_bool (rv_state v)); [|exact X]. destruct (rv_prob v); exact X.
Qed.

Lemma float_zero (v : rv R) r : vs_vtype (rv_state v) = Some VFloat -> rv_evaluate v VNone r = rv_evaluate v (VariableModel.VSet 0) r.
Proof.
  intros V. unfold rv_evaluate, is_bool. rewrite V. unfold evaluate. rewrite V. reflexivity.
Qed.

Section S.
Variables (vs : list (rv R)) (f : @rfield R) (m : @means R) (values : odict (fentry R)) (s : @asked R) (r : nat -> rnd R).
Hypothesis NA : named_apart (names_of vs).
Hypothesis AP : forall k k', In k (names_of vs) -> In k' (names_of vs) -> (k ++ "'")%string <> k'.
Hypothesis MK : make_rf vs = Ok f.
Hypothesis NV : NoDup (od_keys values).

(* The evaluated value of a variable. *)
Lemma step_value i v p : nth_error vs i = Some v -> rf_step_any f m values s r = Ok p ->
  exists x A a, 
    (forall y, od_get values (rv_name v) = Some (One y) -> x = y) /\
    (~ In (rv_name v) (od_keys values) -> exists w, x = default_val (rf_fld f) w) /\
    ((exists y, od_get values (rv_name v) = Some (One y)) \/ ~ In (rv_name v) (od_keys values) -> 
     rf_ev vs r i (node i v) x = Ok A /\ (shape A = [] -> a = A) /\ (shape A <> [] -> dimensionless x = false -> shape a <> []) /\
     (length vs <> 1 \/ (forall n, s <> AskUnit n) /\ (s = AskNone -> shape a <> []) -> shape a = [] /\ od_get (p_vals p) (rv_name v) = Some (VNum (as_num (get a []))))).
Proof.
  intros NI E. assert (NE : vs <> []) by (intros ->; destruct i; discriminate).
  destruct (rf_is vs f NE (proj1 NA) MK) as (RA & K & L).
  assert (AP' : apart (fd_keys (rf_fld f))) by (rewrite K; split; [apply NA|exact AP]).
  assert (SH : forall k, In k (fd_keys (rf_fld f)) -> shared k = false) by (rewrite K; intros k; apply simple_unshared; exact NA).
  destruct (step_parts f m values s r p E AP') as (w & w' & pred & dims & E1 & E2 & E3 & FIN).
  destruct (parse_twice _ _ _ _ NV SH E1 E2) as (N2 & P2 & VAL).
  assert (KI : In (rv_name v) (fd_keys (rf_fld f))) by (rewrite K; apply in_map; eapply nth_error_In; eauto).
  destruct (VAL _ KI) as (V1 & V2).
  assert (NN : nth_error (fd_varlist (rf_fld f)) i = Some (node i v)) by (rewrite L, nodes_nth, NI; reflexivity).
  assert (NM : map (@fv_name R) (fd_varlist (rf_fld f)) = fd_keys (rf_fld f)) by (rewrite L, K; apply nodes_names).
  assert (X : forall x, od_get w' (rv_name v) = Some (One x) -> exists A a, rf_ev vs r i (node i v) x = Ok A /\ od_get pred (rv_name v) = Some a /\
     (shape A = [] -> a = A) /\ (shape A <> [] -> dimensionless x = false -> shape a <> [])).
  { intros x G. rewrite RA in E3. apply (eval_plain _ _ _ _ _ _ _ _ _ (ev_num vs r) (eq_ind_r (fun l => NoDup l) (proj1 NA) K) NM SH P2 N2 E3 NN G). }
  assert (Y : forall x, od_get w' (rv_name v) = Some (One x) -> exists A a,
     rf_ev vs r i (node i v) x = Ok A /\ (shape A = [] -> a = A) /\ (shape A <> [] -> dimensionless x = false -> shape a <> []) /\
     (length vs <> 1 \/ (forall n, s <> AskUnit n) /\ (s = AskNone -> shape a <> []) -> shape a = [] /\ od_get (p_vals p) (rv_name v) = Some (VNum (as_num (get a []))))).
  { intros x G. destruct (X x G) as (A & a & H1 & H2 & H3 & H4). exists A, a. split; [exact H1|]. split; [exact H3|]. split; [exact H4|].
    intros NO. destruct (FIN) with (k := rv_name v) as (b & B1 & B2 & B3); [|exact KI|].
    - unfold not_own. destruct NO as [NO|(N3 & N4)]; [left; rewrite K; unfold names_of; rewrite map_length; exact NO|right].
      split; [exact N3|]. intros Q. specialize (N4 Q). destruct (forallb _ pred) eqn:FB; [|reflexivity]. exfalso.
      rewrite forallb_forall in FB. specialize (FB (rv_name v, a) (OdLemmas.od_get_in _ _ H2)). cbn [snd] in FB. unfold is_scalar in FB.
      destruct (shape a); [congruence|discriminate].
    - rewrite H2 in B1. injection B1 as <-. auto. }
  destruct (od_get values (rv_name v)) as [[x|l]|] eqn:G.
  - destruct (Y x (V1 _ eq_refl)) as (A & a & H). exists x, A, a. split; [intros y Q; congruence|]. split; [|intros _; exact H].
    intros NK. exfalso. apply NK. eapply od_get_some_key; eauto.
  - exists FNone, (tscalar (PF 0%R)), (tscalar (PF 0%R)). split; [congruence|].
    assert (IK : In (rv_name v) (od_keys values)) by (eapply od_get_some_key; eauto).
    split; [intros NK; contradiction|]. intros [(y & Q)|NK]; [congruence|contradiction].
  - assert (NK : ~ In (rv_name v) (od_keys values)) by (apply od_get_none; exact G).
    destruct (V2 NK) as (w0 & W & _). destruct (Y _ W) as (A & a & H). exists (default_val (rf_fld f) w0), A, a.
    split; [congruence|]. split; [intros _; exists w0; reflexivity|]. intros _. exact H.
Qed.

Lemma err_of {A} (q : result A) : (forall p, q = Ok p -> False) -> exists e, q = Err e.
Proof. intros H. destruct q as [p|e]; [destruct (H p eq_refl)|exists e; reflexivity]. Qed.

Lemma named_at k : In k (names_of vs) -> exists i v, nth_error vs i = Some v /\ rv_name v = k.
Proof.
  intros I. unfold names_of in I. apply in_map_iff in I. destruct I as (v & E & I). apply In_nth_error in I. destruct I as (i & I). exists i, v. auto.
Qed.

Lemma no_arrays k a : In k (names_of vs) -> od_get values k = Some (One (FArr a)) -> shape a <> [] ->
  length vs <> 1 \/ (forall n, s <> AskUnit n) -> exists e, rf_step_any f m values s r = Err e.
Proof.
  intros I G SA LE. apply err_of. intros p E. destruct (named_at k I) as (i & v & NI & <-).
  destruct (step_value i v p NI E) as (x & A & b & H1 & _ & H2).
  specialize (H1 _ G). subst x. destruct H2 as (H2 & H3 & H4 & H5); [left; eexists; exact G|].
  cbn in H2. injection H2 as <-. specialize (H4 SA eq_refl).
  destruct H5 as (H5 & _); [|congruence]. destruct LE as [LE|LE]; [left; exact LE|right; split; [exact LE|intros _; exact H4]].
Qed.

Lemma is_float w : anyfloat (rf_fld f) = false -> default_val (rf_fld f) w = FNone.
Proof. intros E. unfold default_val. rewrite E. reflexivity. Qed.

Lemma no_float : vs <> [] -> (forall v, In v vs -> vs_vtype (rv_state v) <> Some VFloat) -> anyfloat (rf_fld f) = false.
Proof.
  intros NE NF. destruct (rf_is vs f NE (proj1 NA) MK) as (_ & _ & L). unfold anyfloat. rewrite L.
  destruct (existsb _ (nodes vs)) eqn:EX; [|reflexivity]. exfalso. apply existsb_exists in EX. destruct EX as (w & I & H).
  apply In_nth_error in I. destruct I as (i & I). rewrite nodes_nth in I. destruct (nth_error vs i) as [v|] eqn:NI; [|discriminate].
  injection I as <-. cbn [fv_state node] in H. apply (NF v); [eapply nth_error_In; eauto|].
  destruct (vs_vtype (rv_state v)) as [[]|]; try discriminate. reflexivity.
Qed.

Lemma all_must_be_given v : In v vs -> (forall w, In w vs -> vs_vtype (rv_state w) <> Some VFloat) -> ~ In (rv_name v) (od_keys values) ->
  length vs <> 1 \/ (forall n, s <> AskUnit n) -> exists e, rf_step_any f m values s r = Err e.
Proof.
  intros I NF NK LE. apply err_of. intros p E. assert (NE : vs <> []) by (intros ->; destruct I).
  apply In_nth_error in I. destruct I as (i & NI).
  destruct (step_value i v p NI E) as (x & A & b & _ & H1 & H2). destruct (H1 NK) as (w & ->).
  rewrite (is_float w (no_float NE NF)) in *. destruct H2 as (H2 & H3 & H4 & H5); [right; exact NK|].
  cbn [rf_ev node fv_id] in H2. unfold getR in H2. rewrite NI in H2. cbn [bind] in H2.
  assert (SA : shape A <> []) by (eapply all_array; [|exact H2]; apply NF; eapply nth_error_In; eauto).
  specialize (H4 SA eq_refl).
  destruct H5 as (H5 & _); [|congruence]. destruct LE as [LE|LE]; [left; exact LE|right; split; [exact LE|intros _; exact H4]].
Qed.

Lemma drawn_instead i v p : length vs <> 1 -> nth_error vs i = Some v -> ~ In (rv_name v) (od_keys values) ->
  rf_step_any f m values s r = Ok p ->
  exists y, rv_evaluate v (VariableModel.VSet 0) (r i) = Ok (tscalar y) /\ od_get (p_vals p) (rv_name v) = Some (VNum (as_num y)).
Proof.
  intros L1 NI NK E. destruct (step_value i v p NI E) as (x & A & b & _ & H1 & H2). destruct (H1 NK) as (w & ->).
  destruct H2 as (H2 & H3 & H4 & H5); [right; exact NK|]. destruct H5 as (H5 & H6); [left; exact L1|].
  assert (DV : default_val (rf_fld f) w = FNone \/ default_val (rf_fld f) w = FUnit 0).
  { unfold default_val. destruct (anyfloat _); [|auto]. destruct (existsb _ _); auto. }
  assert (Z : rv_evaluate v (VariableModel.VSet 0) (r i) = Ok A).
  { destruct DV as [DV|DV]; rewrite DV in *; cbn [rf_ev node fv_id] in H2; unfold getR in H2; rewrite NI in H2; cbn [bind] in H2; [|exact H2].
    rewrite <- float_zero; [exact H2|]. destruct (vs_vtype (rv_state v)) as [[]|] eqn:V; try reflexivity; exfalso;
      (apply H4; [apply (all_array v (r i) A); [congruence|exact H2]|reflexivity|exact H5]). }
  destruct (at_zero _ _ _ Z) as (y & ->). exists y. split; [exact Z|]. rewrite (H3 eq_refl) in H6. exact H6.
Qed.
End S.
End P.
