(** Steps between numbers in a field of independent random variables. *)
From Coq Require Import String Ascii ZArith Reals Lra Bool Arith Lia Permutation List.
From Verif Require Import Base Num Tensor TensorBcast OdLemmas TensorLemmas RNumLemmas PScales PScales_Spec
  PScales_Proofs PScales_Prod Names Names_Spec Names_Proofs Distr PDModel PDUtils PD_Spec PD_Simple_Spec PD_Make PD_Sums PD_Valid
  PD_Align PD_Product2 PD_Rekey VariableModel RVModel FieldModel Field_Spec Field_Proofs RFModel RF_Spec RF_Proofs RF_Joint Lik_Slice.
Import ListNotations.
Local Open Scope list_scope.

(** *** The product rule does not look at the requested linear scale *)
Lemma linear_any (args : list (tensor R)) scales c d t : Forall linear_scale scales -> scales <> [] ->
  prod_rule args (Some scales) None (Some (PSFloat c)) = Ok (t, PSFloat c) ->
  prod_rule args (Some scales) None (Some (PSFloat d)) = Ok (t, PSFloat d).
Proof.
  intros FL NE. assert (Cx : existsb iscomplex scales = false).
  { apply not_true_is_false. intros C. apply existsb_exists in C. destruct C as (sc & Isc & C). rewrite Forall_forall in FL.
    apply FL in Isc. destruct Isc as [_ Q]. destruct sc; discriminate. }
  assert (Z : forall (l : list (tensor R)) m, Forall linear_scale m -> length m = length l ->
    zip_with (fun arg s => if iscomplex s then exp_logp arg else arg) l m = l).
  { induction l as [|a l IH]; intros [|s m] F E; try discriminate; [reflexivity|]. apply Forall_cons_iff in F. destruct F as [[_ F1] F2].
    cbn [zip_with]. rewrite IH by (auto; cbn in E; congruence). destruct s; try reflexivity. discriminate. }
  unfold prod_rule. rewrite Cx. rewrite prod_pscale_lin; auto.
  2:{ eapply Forall_impl; [|exact FL]. intros sc [Q _]. exact Q. }
  2:{ eapply Forall_impl; [|exact FL]. intros sc [_ Q] U'. rewrite U' in Q. discriminate. }
  cbn [bind]. unfold assert_. destruct (length scales =? length args) eqn:EL; cbn [bind]; [|discriminate].
  apply Nat.eqb_eq in EL. cbn [spec_of iscomplex Bool.eqb negb]. rewrite Z by auto.
  destruct (apply_prod false args); cbn [bind]; [|].
  - intros H. assert (a = t). { match type of H with (if ?b then _ else _) = _ => destruct b end; congruence. } subst a.
    match goal with |- (if ?b then _ else _) = _ => destruct b end; reflexivity.
  - intros H. match type of H with (if ?b then _ else _) = _ => destruct b end; discriminate.
Qed.

Section Step.
Context {F : Fmt R} {TR : Trunc R}.
Variable vs : list (rv R).
Hypothesis NE : vs <> [].
Hypothesis SC : scales_ok vs.
Hypothesis CA : forall v, In v vs -> callable v.

(** The probability of numbers, one for each name. *)
Definition prob_of (y : string -> pyval R) : R := Rprod (map (fun v => denote (scale_of v) (pfun v (y (rv_name v)))) vs).
Definition no_floor (y : string -> pyval R) : Prop :=
  existsb iscomplex (map scale_of vs) = true -> forall v, In v vs -> log_kind (scale_of v) = false ->
    (npz <= denote (scale_of v) (pfun v (y (rv_name v))))%R.

Definition sargs (y : string -> pyval R) : list (tensor R) := map (fun v => tscalar (pfun v (y (rv_name v)))) vs.

Lemma scalars_bcast {B} (g : B -> R) (l : list B) : bcast_all (map shape (map (fun v => tscalar (g v)) l)) = Ok [].
Proof.
  destruct l as [|v l]; [reflexivity|]. cbn [map]. change (shape (tscalar (g v))) with (@nil nat).
  unfold bcast_all. enough (H : fold_res bcast_shape (map shape (map (fun v => tscalar (g v)) l)) [] = Ok []).
  - destruct (map shape _); [reflexivity|exact H].
  - induction l as [|w l IH]; [reflexivity|]. cbn [map fold_res]. change (shape (tscalar (g w))) with (@nil nat). exact IH.
Qed.

Lemma sargs_prod q ps y : natural vs ps q -> no_floor y ->
  exists t, prod_rule (sargs y) (Some (map scale_of vs)) None (Some ps) = Ok (t, ps) /\ shape t = [] /\
    denote (spec_of q) (get t []) = prob_of y.
Proof.
  intros (P1 & P2 & P3 & P4 & P5 & P6) FL.
  destruct (prod_rule_scaled (sargs y) (map scale_of vs) []) as (t & ps' & q' & Q1 & Q2 & Q3 & Q4 & _ & _ & _ & Q5).
  - unfold sargs. destruct vs; [congruence|discriminate].
  - unfold sargs. rewrite !map_length. reflexivity.
  - exact SC.
  - apply scalars_bcast.
  - assert (ps' = ps) by congruence. subst ps'. assert (q' = q) by congruence. subst q'.
    exists t. split; [exact Q2|]. split; [exact Q3|]. rewrite Q5.
    + unfold prob_of. f_equal. unfold factors_at, sargs. apply zip_same. intros v Iv. reflexivity.
    + constructor.
    + intros C. unfold sargs. assert (G : forall l, incl l vs -> Forall2 (fun a sc => log_kind sc = false -> (npz <= get a (bcast_idx (shape a) []))%R)
          (map (fun v => tscalar (pfun v (y (rv_name v)))) l) (map scale_of l)); [|apply G, incl_refl].
      induction l as [|v l IH]; intros I; [constructor|]. cbn [map]. constructor.
      * intros K. assert (Iv : In v vs) by (apply I; left; reflexivity). specialize (FL C v Iv K). cbn [tscalar get shape].
        unfold denote in FL. rewrite K in FL.
        assert (F1 : factor (scale_of v) = 1%R).
        { destruct SC as [S0|[S0 _]].
          - exfalso. apply existsb_exists in C. destruct C as (sc & Isc & C). rewrite Forall_forall in S0. destruct (S0 sc Isc) as [_ Q]. destruct sc; discriminate.
          - rewrite Forall_forall in S0. apply plain_valid. apply S0. apply in_map. exact Iv. }
        rewrite F1, Rmult_1_l in FL. exact FL.
      * apply IH. intros w Iw. apply I. right. exact Iw.
Qed.

Lemma prod1 d y given ps : (forall v, In v vs -> od_get d (rv_name v) = Some (y (rv_name v))) ->
  product_pscale given (map scale_of vs) = Ok ps ->
  rv_prod1 vs (numbers d) given = prod_rule (sargs y) (Some (map scale_of vs)) None (Some ps).
Proof.
  intros H E. unfold rv_prod1. rewrite E. cbn [bind].
  assert (M : map_res (fun v => let! a := od_getR (numbers d) (rv_name v) in eval_prob v a) vs = Ok (sargs y)).
  { apply map_res_all. intros v Iv.
    assert (G : od_getR (numbers d) (rv_name v) = Ok (tscalar (y (rv_name v)))).
    { apply od_getR_ok. unfold numbers. rewrite (od_get_map (fun x => tscalar x)), H by exact Iv. reflexivity. }
    rewrite G. cbn [bind]. rewrite eval_callable by (try apply CA; try eapply scales_p_ok; eauto). reflexivity. }
  rewrite M. reflexivity.
Qed.

Lemma tbin_scalars (op : R -> R -> R) (t u : tensor R) : shape t = [] -> shape u = [] ->
  exists w, tbin op t u = Ok w /\ shape w = [] /\ get w [] = op (get t []) (get u []).
Proof.
  intros E1 E2. unfold tbin. rewrite E1, E2. cbn. eexists. split; [reflexivity|]. cbn. auto.
Qed.

Lemma factors_pos : (0 < Rprod (map factor (map scale_of vs)))%R.
Proof.
  assert (V : Forall valid_scale (map scale_of vs)).
  { destruct SC as [S|[S _]]; (eapply Forall_impl; [|exact S]); intros s Q; [apply Q|apply plain_valid in Q; apply Q]. }
  induction V as [|x l Vx FL IH]; cbn; [lra|]. apply Rmult_lt_0_compat; [apply factor_pos; exact Vx|exact IH].
Qed.

Lemma natural_log : Forall plain_scale (map scale_of vs) -> existsb iscomplex (map scale_of vs) = true ->
  forall ps q, natural vs ps q -> ps = PSCplx 0%R 0%R /\ q = Log 0%R 0%R.
Proof.
  intros FP C ps q (P1 & P2 & _). set (ts := map (fun _ : rv R => @tscalar R 1%R) vs).
  destruct (prod_rule_plain_log ts (map scale_of vs) []) as (t' & E & _); auto.
  - unfold ts. destruct vs; [congruence|discriminate].
  - unfold ts. rewrite !map_length. reflexivity.
  - exact (scalars_bcast (fun _ => 1%R) vs).
  - apply natural_scale in E; auto. 2:{ destruct vs; [congruence|discriminate]. } assert (ps = PSCplx 0%R 0%R) by congruence. subst ps.
    rewrite eval_log_spellings in P2 by (cbn; auto 6). injection P2 as <-. split; reflexivity.
Qed.

(** What the product rule makes of predecessors and successors. *)
Lemma prod2_ok q ps dp ds yp ys : natural vs ps q ->
  (forall v, In v vs -> od_get dp (rv_name v) = Some (yp (rv_name v))) ->
  (forall v, In v vs -> od_get ds (rv_name v) = Some (ys (rv_name v))) ->
  no_floor yp -> no_floor ys -> (0 <= prob_of yp)%R -> (0 <= prob_of ys)%R ->
  exists t, rv_prod2 vs (numbers dp) (numbers ds) (spec_of q) = Ok (t, ps) /\ shape t = [] /\
    denote (spec_of q) (get t []) = sqrt (prob_of yp * (prob_of ys / Rprod (map factor (map scale_of vs)))).
Proof.
  intros NT Hp Hs Fp Fs Pp Ps. pose proof NT as (P1 & P2 & P3 & P4 & P5 & P6).
  destruct (sargs_prod q ps yp NT Fp) as (tp & Ep & Sp & Dp). destruct (sargs_prod q ps ys NT Fs) as (ts & Es & Ss & Ds).
  assert (PP : product_pscale (spec_of q) (map scale_of vs) = Ok ps).
  { rewrite P4. unfold product_pscale in P1 |- *. destruct (truthy ps); [reflexivity|exact P1]. }
  unfold rv_prod2. rewrite (prod1 dp yp _ ps Hp PP), Ep. cbn [bind]. cbv zeta.
  pose proof factors_pos as CP. set (c := Rprod (map factor (map scale_of vs))) in *.
  destruct SC as [SL|[SP SX]].
  - assert (LK : existsb log_kind (map scale_of vs) = false).
    { apply not_true_is_false. intros C. apply existsb_exists in C. destruct C as (sc & Isc & C). rewrite Forall_forall in SL.
      apply SL in Isc. destruct Isc as [_ Q]. congruence. }
    destruct q as [e|re im]; [|rewrite LK in P6; discriminate]. cbn [spec_of] in *. subst ps. cbn [iscomplex].
    assert (EC : e = c).
    { cbn [factor] in P5. assert (e <> 0)%R. { intros ->. cbn in P2. unfold eval_pscale in P2. cbn in P2. rewrite LK in P6. cbn in P6. destruct (Req_EM_T 0 0); [discriminate|congruence]. }
      destruct (Req_EM_T e 0); [contradiction|]. exact P5. }
    subst e. unfold denote in Dp, Ds. rewrite P6, LK in Dp, Ds. rewrite P5 in Dp, Ds.
    assert (PU : product_pscale (PSFloat 1%R) (map scale_of vs) = Ok (PSFloat 1%R)).
    { unfold product_pscale, truthy. destruct (n_eqb 1%R n0) eqn:EQ; [|reflexivity]. apply Reqb_iff in EQ. rn. lra. }
    assert (RS : forall a b (t : tensor R), (0 < a)%R -> (0 < b)%R -> shape t = [] ->
      exists t', rescale t (PSFloat a) (PSFloat b) = Ok t' /\ shape t' = [] /\ get t' [] = (a / b * get t [])%R).
    { intros a b t Ha Hb St. unfold rescale. change (PSFloat a) with (spec_of (Lin a)). change (PSFloat b) with (spec_of (Lin b)).
      rewrite !eval_spec_of by (cbn; lra). cbn [bind is_log Bool.eqb andb].
      destruct (pscale_eqb (Lin a) (Lin b)) eqn:EQ.
      - exists t. split; [reflexivity|]. split; [exact St|]. cbn in EQ. apply Reqb_iff in EQ. subst. field. lra.
      - destruct (n_eqb (n_div a b) n1) eqn:E1.
        + exists t. split; [reflexivity|]. split; [exact St|]. apply Reqb_iff in E1. rn. rewrite E1. lra.
        + eexists. split; [reflexivity|]. cbn [tmap shape get]. split; [exact St|]. rn. reflexivity. }
    destruct (RS c 1%R tp CP ltac:(lra) Sp) as (p1 & E1 & S1 & G1). change (@n1 R RNum) with 1%R. rewrite E1. cbn [bind].
    rewrite (prod1 ds ys _ _ Hs PU). rewrite (linear_any _ _ _ _ _ SL ltac:(destruct vs; [congruence|discriminate]) Es). cbn [bind].
    destruct (tbin_scalars n_mul p1 ts S1 Ss) as (w & Ew & Sw & Gw). rewrite Ew. cbn [bind].
    destruct (RS 1%R c (tmap (fun x => n_sqrt x) w) ltac:(lra) CP) as (o & Eo & So & Go); [exact Sw|].
    rewrite Eo. cbn [bind]. exists o. split; [reflexivity|]. split; [exact So|].
    unfold denote. rewrite P6, LK, P5, Go. cbn [tmap get]. rewrite Gw, G1. rn.
    replace (prob_of yp * (prob_of ys / c))%R with (c / 1 * get tp [] * get ts [])%R.
    + set (z := (c / 1 * get tp [] * get ts [])%R). change (n_sqrt z) with (sqrt z). field. lra.
    + rewrite <- Dp, <- Ds. field. lra.
  - destruct (natural_log SP SX ps q NT) as [-> ->]. cbn [spec_of iscomplex] in *. change (@n0 R RNum) with 0%R.
    assert (RI : forall t : tensor R, rescale t (PSCplx 0%R 0%R) (PSCplx 0%R 0%R) = Ok t).
    { intros t. unfold rescale. rewrite P2. cbn [bind is_log Bool.eqb andb pscale_eqb].
      assert (n_eqb 0%R 0%R = true) as -> by (apply Reqb_iff; reflexivity). reflexivity. }
    rewrite RI. cbn [bind]. rewrite (prod1 ds ys _ _ Hs PP), Es. cbn [bind].
    destruct (tbin_scalars n_add tp ts Sp Ss) as (w & Ew & Sw & Gw). rewrite Ew. cbn [bind]. rewrite RI. cbn [bind].
    eexists. split; [reflexivity|]. split; [exact Sw|]. cbn [tmap get]. rewrite Gw. rn.
    assert (CO : c = 1%R). { unfold c. clear -SP. induction SP as [|x l Px FL IH]; [reflexivity|]. cbn [map Rprod fold_right]. apply plain_valid in Px. destruct Px as (_ & _ & -> & _). change (1 * Rprod (map factor l) = 1)%R. rewrite IH. lra. }
    rewrite CO in *. unfold denote in Dp, Ds |- *. rewrite P6 in Dp, Ds |- *. rewrite P5 in Dp, Ds |- *.
    assert (LT : existsb log_kind (map scale_of vs) = true) by (rewrite <- P6; reflexivity). rewrite LT in *.
    rewrite <- Dp, <- Ds. rewrite !Rmult_1_l. unfold Rdiv at 2. rewrite Rinv_1, Rmult_1_r, <- exp_plus.
    set (x := (get tp [] + get ts [])%R). replace (exp x) with (Rsqr (exp (x / 2))).
    + rewrite sqrt_Rsqr; [reflexivity|]. left. apply exp_pos.
    + unfold Rsqr. rewrite <- exp_plus. f_equal. lra.
Qed.
End Step.

Section StepPD.
Context {F : Fmt R} {TR : Trunc R}.
Variable vs : list (rv R).
Hypothesis PR : printable F.
Hypothesis NE : vs <> [].
Hypothesis NA : named_apart (names_of vs).
Hypothesis NP : named_apart (map (fun k => k ++ "'")%string (names_of vs)).
Hypothesis DJ : forall k k', In k (names_of vs) -> In k' (names_of vs) -> (k ++ "'")%string <> k'.
Hypothesis SC : scales_ok vs.
Hypothesis CA : forall v, In v vs -> callable v.

Lemma weighs_is v y z : In v vs -> weighs v y z -> z = denote (scale_of v) (pfun v y).
Proof.
  intros Iv (r & q & E & H). unfold rv_call in E.
  destruct (rv_evaluate v (VGiven [y] true) r) as [A|] eqn:EV; [|discriminate]. cbn [bind] in E.
  assert (AE : A = tscalar y).
  { unfold rv_evaluate, evaluate in EV. destruct (vs_vset (rv_state v)); cbn in EV;
      destruct (is_bool (rv_state v)), (rv_prob v); cbn in EV; congruence. }
  subst A. rewrite eval_callable in E by (try apply CA; try eapply scales_p_ok; eauto). cbn [bind] in E.
  unfold make_pd in E. destruct (str_margcond _) as [[m c]|]; [|discriminate]. cbn [bind] in E.
  destruct (make_dist _ _ _); [|discriminate]. cbn [bind] in E. destruct (override_names _ _) as [[m' c']|]; [|discriminate]. cbn [bind] in E.
  rewrite eval_spec_of in E by (eapply scales_p_ok; eauto). cbn [bind] in E. destruct (check_prob _ _); [|discriminate]. cbn [bind] in E.
  injection E as <-. rewrite <- (H (fun _ => 0)). reflexivity.
Qed.

Lemma weighs_all ys zs : Forall2 (fun v z => weighs v (ys (rv_name v)) z) vs zs -> prob_of vs ys = Rprod zs.
Proof.
  intros H. unfold prob_of. f_equal. assert (G : forall l m, incl l vs -> Forall2 (fun v z => weighs v (ys (rv_name v)) z) l m ->
    map (fun v => denote (scale_of v) (pfun v (ys (rv_name v)))) l = m).
  { intros l m I W. induction W as [|v z l m Wv W IH]; [reflexivity|]. cbn [map]. f_equal.
    - symmetry. apply weighs_is; [apply I; left; reflexivity|exact Wv].
    - apply IH. intros w Iw. apply I. right. exact Iw. }
  apply G; [apply incl_refl|exact H].
Qed.

Lemma weighs_floor ys zs : Forall2 (fun v z => weighs v (ys (rv_name v)) z) vs zs -> above_floor vs zs -> no_floor vs ys.
Proof.
  intros W AF C v Iv K. specialize (AF C).
  assert (G : forall l m, incl l vs -> Forall2 (fun v z => weighs v (ys (rv_name v)) z) l m ->
    Forall2 (fun v z => log_kind (scale_of v) = false -> (npz <= z)%R) l m -> In v l ->
    (npz <= denote (scale_of v) (pfun v (ys (rv_name v))))%R).
  { intros l m I Wl. induction Wl as [|u z l m Wu Wl IH]; intros Q J; [destruct J|].
    inversion Q as [|? ? ? ? Q1 Q2]. destruct J as [<-|J].
    - rewrite <- (weighs_is u (ys (rv_name u)) z) by (auto; apply I; left; reflexivity). auto.
    - apply IH; auto. intros w Iw. apply I. right. exact Iw. }
  apply (G vs zs); auto. apply incl_refl.
Qed.

Lemma entries_name (d : odict (pyval R)) suf (y : string -> pyval R) : NoDup (od_keys d) ->
  (forall k, In k (names_of vs) -> od_get d k = Some (y k)) -> incl (od_keys d) (names_of vs) ->
  f_dist_name (names_of vs) (entries d) suf = join "," (map (fun k => fname (k ++ suf) (FNum (y k))) (names_of vs)).
Proof.
  intros ND G I. unfold f_dist_name. f_equal. apply map_ext_in. intros k Ik.
  assert (Q : od_get (spread (entries d)) k = Some (FNum (y k))); [|rewrite Q; reflexivity].
  assert (SP : forall (l : odict (pyval R)) acc, NoDup (od_keys l) -> od_get (fold_left (fun d (kv : string * fentry R) =>
      match snd kv with
      | One x => od_set d (fst kv) x
      | Many l => fold_left (fun d kx => od_set d (fst kx) (snd kx)) (combine (subkeys (fst kv)) l) d
      end) (entries l) acc) k = match od_get l k with Some x => Some (FNum x) | None => od_get acc k end).
  { induction l as [|[k0 x0] l IH]; intros acc N; [reflexivity|]. unfold entries in *. cbn [map fold_left fst snd]. cbn [od_keys map fst] in N.
    apply NoDup_cons_iff in N. destruct N as [N1 N2]. rewrite IH by exact N2. cbn [od_get].
    destruct (String.eqb_spec k k0) as [->|NEk].
    - assert (od_get l k0 = None) as ->. { destruct (od_get l k0) eqn:E; [|reflexivity]. apply od_get_some_key in E. contradiction. }
      apply od_get_set_eq.
    - destruct (od_get l k); [reflexivity|]. apply od_get_set_ne. congruence. }
  unfold spread. rewrite SP by exact ND. rewrite G by exact Ik. reflexivity.
Qed.

(** The step, whatever probability the transition gets. *)
Lemma step_gen f ps q pred succ yp ys rev t : make_rf vs = Ok (mkRF vs f q) ->
  fd_keys f = names_of vs -> fd_varlist f = nodes vs -> natural vs ps q ->
  NoDup (od_keys pred) -> incl (od_keys pred) (names_of vs) ->
  (forall k, In k (names_of vs) -> od_get pred k = Some (yp k)) ->
  (forall k, In k (names_of vs) -> told succ k (ys k)) ->
  rf_eval_tran (mkRF vs f q) (numbers pred) (numbers (map (fun k => (k, ys k)) (names_of vs))) rev = Ok t -> shape t = [] ->
  exists p, rf_step (mkRF vs f q) pred succ rev = Ok p /\ valid_pd p [] /\
    od_keys (p_marg p) = map (fun k => k ++ "'")%string (names_of vs) /\ od_keys (p_cond p) = names_of vs /\
    (forall k, In k (names_of vs) -> variable p k = Some (Scal (VNum (as_num (yp k)))) /\
       variable p (k ++ "'") = Some (Scal (VNum (as_num (ys k))))) /\
    forall s, prob_at p [] s = denote (spec_of q) (get t []).
Proof.
  intros EF Kf Vf NT NDp Ip Hp Hs TR' St. set (names := names_of vs) in *.
  set (look := fun k => if od_mem succ (prime k) then prime k else k).
  assert (LK : forall k, In k names -> od_get succ (look k) = Some (ys k)).
  { intros k I. unfold look. destruct (Hs k I) as [Q|[Q1 Q2]].
    - assert (od_mem succ (prime k) = true) as ->; [|exact Q]. apply od_mem_iff. eapply od_get_some_key; exact Q.
    - destruct (od_mem succ (prime k)) eqn:M; [|exact Q2]. apply od_mem_iff, od_key_get in M. destruct M as (z & M). unfold prime in M. congruence. }
  set (pv := map (fun k => (k, VNum (as_num (yp k)))) names).
  set (sv := map (fun k => (prime k, VNum (as_num (ys k)))) names).
  assert (KP : od_keys pv = names) by (unfold od_keys, pv; rewrite map_map; apply map_id).
  assert (KS : od_keys sv = map prime names) by (unfold od_keys, sv; rewrite map_map; reflexivity).
  assert (KA : od_keys (pv ++ sv) = (names ++ map prime names)%list) by (unfold od_keys in *; rewrite map_app, KP, KS; reflexivity).
  assert (NDA : NoDup (od_keys (pv ++ sv))).
  { rewrite KA. apply nodup_app_iff. split; [apply NA|]. split; [apply NP|]. intros k I1 I2. apply in_map_iff in I2.
    destruct I2 as (k' & E & I2). exact (DJ k' k I2 I1 E). }
  assert (SVL : step_vals names pred succ = Ok (pv ++ sv)).
  { unfold step_vals. rewrite map_res_all with (g := fun k => (k, VNum (as_num (yp k)))).
    2:{ intros k I. assert (od_getR pred k = Ok (yp k)) as -> by (apply od_getR_ok, Hp; exact I). reflexivity. }
    cbn [bind]. rewrite map_res_all with (g := fun k => (prime k, VNum (as_num (ys k)))).
    2:{ intros k I. fold (look k). assert (od_getR succ (look k) = Ok (ys k)) as -> by (apply od_getR_ok, LK; exact I). reflexivity. }
    cbn [bind]. f_equal. apply (od_of_list_nodup (pv ++ sv)). exact NDA. }
  set (succ' := map (fun k => (k, match od_get succ (look k) with Some x => x | None => PF n0 end)) names).
  assert (SE : succ' = map (fun k => (k, ys k)) names).
  { apply map_ext_in. intros k I. rewrite LK by exact I. reflexivity. }
  assert (KS' : od_keys succ' = names) by (unfold od_keys, succ'; rewrite map_map; apply map_id).
  assert (GS : forall k, In k names -> od_get succ' k = Some (ys k)).
  { intros k I. apply od_in_get; [rewrite KS'; apply NA|]. rewrite SE. apply in_map_iff. exists k. auto. }
  assert (RV : rf_rvs (mkRF vs f q) = vs) by (unfold rf_rvs; cbn [rf_all rf_fld]; apply pick_all; exact Vf).
  pose proof NT as (P1 & P2 & P3 & P4 & P5 & P6).
  set (marg := map (fun k => (prime k, fname (prime k) (FNum (ys k)))) names).
  set (cond := map (fun k => (k, fname k (FNum (yp k)))) names).
  assert (KM : od_keys marg = map prime names) by (unfold od_keys, marg; rewrite map_map; reflexivity).
  assert (KC : od_keys cond = names) by (unfold od_keys, cond; rewrite map_map; apply map_id).
  assert (VG : forall k, In k names -> od_get (pv ++ sv) k = Some (VNum (as_num (yp k))) /\ od_get (pv ++ sv) (prime k) = Some (VNum (as_num (ys k)))).
  { intros k I. split; apply od_in_get; try exact NDA; apply in_or_app; [left|right]; apply in_map_iff; exists k; auto. }
  assert (SK : forall k, In k names -> simple_key k /\ simple_key (prime k)).
  { intros k I. split; [apply NA; exact I|]. apply NP. apply in_map_iff. exists k. split; [reflexivity|exact I]. }
  destruct (make_pd_ok (pv ++ sv) [] [] marg cond t (spec_of q) q) as (p & E & VP & _ & M1 & M2 & M3 & M4 & M5); auto.
  - intros C. apply app_eq_nil in C. destruct C as [C _]. assert (Z : names = []) by (rewrite <- KP, C; reflexivity).
    unfold names, names_of in Z. apply map_eq_nil in Z. contradiction.
  - rewrite KA. intros k I. apply in_app_or in I. destruct I as [I|I]; [apply NA; exact I|]. apply NP. exact I.
  - constructor.
  - intros k [].
  - intros k v G _. split; [|left; reflexivity]. apply od_get_in in G. apply in_app_or in G.
    destruct G as [G|G]; apply in_map_iff in G; destruct G as (k' & G & _); injection G as _ <-; reflexivity.
  - intros j k Hj. destruct j; discriminate.
  - intros k [].
  - constructor.
  - rewrite St. reflexivity.
  - apply Forall_app. split; apply Forall_map, Forall_forall; intros k I; cbn [fst snd]; apply fname_good; try exact PR; apply SK; exact I.
  - rewrite map_app. apply Forall_app. split; unfold marg, cond; rewrite map_map; apply Forall_map, Forall_forall; intros k I;
      unfold render; cbn [fst snd mem_str existsb]; [rewrite (proj2 (VG k I))|rewrite (proj1 (VG k I))]; cbn [fmt_value]; apply good_join; try apply PR; apply SK; exact I.
  - rewrite KM, KC, KA. apply Permutation_app_comm.
  - exists p. split.
    { unfold rf_step. rewrite RV. cbn [rf_fld rf_pscale]. rewrite Kf. fold (names_of vs). fold names. rewrite SVL. cbn [bind].
      change (map _ names) with succ' at 1 2. rewrite SE at 1. rewrite TR'. cbn [bind]. rewrite <- E. f_equal.
      unfold names. rewrite (entries_name succ' "'" ys), (entries_name pred "" yp); auto.
      2:{ rewrite KS'. apply NA. }
      2:{ rewrite KS'. apply incl_refl. }
      unfold margcond_str. fold names.
      assert (M1' : od_vals marg = map (fun k => fname (k ++ "'") (FNum (ys k))) names) by (unfold od_vals, marg; rewrite map_map; reflexivity).
      assert (M2' : od_vals cond = map (fun k => fname (k ++ "") (FNum (yp k))) names).
      { unfold od_vals, cond. rewrite map_map. apply map_ext. intros k. rewrite app_empty. reflexivity. }
      rewrite M1', M2'. destruct (String.eqb_spec (join "," (map (fun k => fname (k ++ "") (FNum (yp k))) names)) "") as [Z|Z]; [|reflexivity].
      exfalso. revert Z. apply join_nonempty.
      - unfold names, names_of. intros C. apply map_eq_nil, map_eq_nil in C. contradiction.
      - apply Forall_map, Forall_forall. intros k I C. rewrite app_empty in C.
        destruct (fname_good PR k (FNum (yp k)) (proj1 (SK k I))) as [[G _] _]. contradiction. }
    split; [exact VP|]. split; [rewrite M1, render_keys; exact KM|]. split; [rewrite M2, render_keys; exact KC|]. split.
    { intros k I. rewrite !M5. destruct (VG k I) as [-> V2]. unfold prime in V2. rewrite V2. split; reflexivity. }
    intros s. unfold prob_at. rewrite M3, M4. reflexivity.
Qed.

Lemma step_all pred succ yp ys zp zs rev :
  (forall v, vs = [v] -> rv_tran v = TRNone) ->
  NoDup (od_keys pred) -> incl (od_keys pred) (names_of vs) ->
  (forall k, In k (names_of vs) -> od_get pred k = Some (yp k)) ->
  (forall k, In k (names_of vs) -> told succ k (ys k)) ->
  Forall2 (fun v z => weighs v (yp (rv_name v)) z) vs zp -> Forall2 (fun v z => weighs v (ys (rv_name v)) z) vs zs ->
  (0 <= Rprod zp)%R -> (0 <= Rprod zs)%R -> above_floor vs zp -> above_floor vs zs ->
  exists f p, make_rf vs = Ok f /\ rf_step f pred succ rev = Ok p /\ valid_pd p [] /\
    od_keys (p_marg p) = map (fun k => k ++ "'")%string (names_of vs) /\ od_keys (p_cond p) = names_of vs /\
    (forall k, In k (names_of vs) -> variable p k = Some (Scal (VNum (as_num (yp k)))) /\
       variable p (k ++ "'") = Some (Scal (VNum (as_num (ys k))))) /\
    forall s, prob_at p [] s = sqrt (Rprod zp * (Rprod zs / scale_product vs)).
Proof.
  intros TN NDp Ip Hp Hs Wp Ws Pp Ps Fp Fs. set (names := names_of vs) in *.
  destruct (make_rf_ok vs NE (proj1 NA) SC) as (f & ps & q & EF & Kf & Vf & NT).
  set (succ' := map (fun k => (k, ys k)) names).
  assert (KS' : od_keys succ' = names) by (unfold od_keys, succ'; rewrite map_map; apply map_id).
  assert (GS : forall k, In k names -> od_get succ' k = Some (ys k)).
  { intros k I. apply od_in_get; [rewrite KS'; apply NA|]. apply in_map_iff. exists k. auto. }
  assert (IN : forall v, In v vs -> In (rv_name v) names) by (intros v Iv; apply in_map; exact Iv).
  destruct (prod2_ok vs NE SC CA q ps pred succ' yp ys NT) as (t & Et & St & Dt); auto.
  { eapply weighs_floor; eauto. }
  { eapply weighs_floor; eauto. }
  { rewrite (weighs_all yp zp Wp). exact Pp. }
  { rewrite (weighs_all ys zs Ws). exact Ps. }
  assert (RV : rf_rvs (mkRF vs f q) = vs) by (unfold rf_rvs; cbn [rf_all rf_fld]; apply pick_all; exact Vf).
  assert (TR' : rf_eval_tran (mkRF vs f q) (numbers pred) (numbers succ') rev = Ok t).
  { unfold rf_eval_tran. rewrite RV. cbn [rf_pscale]. clear -Et TN. destruct vs as [|v [|w l]].
    - rewrite Et. reflexivity.
    - rewrite (TN v eq_refl). cbn [is_none]. rewrite Et. reflexivity.
    - rewrite Et. reflexivity. }
  destruct (step_gen f ps q pred succ yp ys rev t EF Kf Vf NT NDp Ip Hp Hs TR' St) as (p & E1 & VP & M1 & M2 & VV & PB).
  exists (mkRF vs f q), p. split; [exact EF|]. split; [exact E1|]. split; [exact VP|]. split; [exact M1|]. split; [exact M2|]. split; [exact VV|].
  intros s. rewrite PB, Dt, (weighs_all yp zp Wp), (weighs_all ys zs Ws). reflexivity.
Qed.
End StepPD.
