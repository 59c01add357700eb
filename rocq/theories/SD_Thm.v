(** Property lemmas about dependences of leafs on roots. *)
From Coq Require Import String Ascii ZArith Reals Lra Bool Arith Lia Permutation List.
From Verif Require Import Base Num Tensor TensorLemmas TensorBcast OdLemmas RNumLemmas PScales PScales_Spec
  PScales_Proofs PScales_Prod Names Names_Spec Distr PDModel PDUtils PD_Spec PD_Simple_Spec PD_Sums PD_Align PD_Make PD_Valid
  PD_Marg PD_Expect PD_Prod_Spec PD_Prod PD_ProdThm
  PD_Product_Spec PD_Product2 PD_Product3 VariableModel RVModel FieldModel Field_Spec Field_Proofs Field_Dims RFModel RF_Spec RF_Proofs RF_Joint
  PD_Spelling LookupModel Lookup_Thm SDModel SD_Spec SD_Proofs SD_Joint.
Import ListNotations.
Local Open Scope list_scope.

(** The scale of a product of repetitions under a plain scale. *)
Lemma prod_plain_scale {F : Fmt R} (p q : pd R) L keys :
  valid_pd p L -> plain_scale (spec_of (p_pscale p)) -> key_ordered p L ->
  incl keys (od_keys (p_marg p)) -> incl keys L -> (forall k, In k keys -> simple_key k) ->
  pd_prod p keys = Ok q -> p_pscale q = p_pscale p.
Proof.
  intros V PS KO IM IK SK E.
  destruct (prod_gen p L V keys IM IK (key_ordered_aligned p L keys KO IK) SK) as (q' & t & s & psc & E' & _ & _ & _ & _ & _ & _ & _ & Ep & Sq & _).
  assert (q' = q) by congruence. subst q'. rewrite Sq. pose proof (vp_pscale _ _ V) as EP.
  assert (SA : prod_scale (p_pscale p) (PD_Prod_Spec.repetitions p L keys) = p_pscale p).
  { destruct (p_pscale p) as [c|re im]; destruct PS as [PS|PS]; try discriminate; cbn in PS.
    - injection PS as ->. unfold prod_scale. assert (n_eqb 1%R n1 = true) as -> by (apply Reqb_iff; reflexivity). rewrite orb_true_r. reflexivity.
    - injection PS as -> ->. unfold prod_scale. assert (n_eqb 0%R n0 = true) as -> by (apply Reqb_iff; reflexivity). reflexivity. }
  rewrite SA in Ep. congruence.
Qed.

Lemma make_pd_prob {F : Fmt R} nm vals dims t ps p : make_pd nm vals dims (Some t) ps = Ok p ->
  p_prob p = Some t /\ eval_pscale ps = Ok (p_pscale p).
Proof.
  unfold make_pd. destruct (str_margcond nm) as [[m c]|]; [|discriminate]. cbn [bind]. destruct (make_dist _ _ _) as [d|]; [|discriminate]. cbn [bind].
  destruct (override_names _ _) as [[m' c']|]; [|discriminate]. cbn [bind]. destruct (eval_pscale ps) as [q|]; [|discriminate]. cbn [bind].
  destruct (check_prob _ _); [|discriminate]. cbn [bind]. intros H. injection H as <-. auto.
Qed.

Lemma of_out (o : values_out R) : again (out_tensor o) = out_tensor o.
Proof. destruct o as [y|l]; [reflexivity|]. unfold again. cbn [out_tensor shape of_list]. f_equal. apply of_list_pv. Qed.

Lemma again_same {TR : Trunc R} (v : rv R) a r B : rv_evaluate v a r = Ok B -> again B = B.
Proof.
  unfold rv_evaluate. intros H.
  assert (G : (let! o := evaluate (rv_state v) None a r in Ok (out_tensor o)) = Ok B -> again B = B).
  { destruct (evaluate _ _ _ _) as [o|]; [|discriminate]. cbn [bind]. intros E. injection E as <-. apply of_out. }
  destruct (is_bool (rv_state v)); [|exact (G H)]. destruct (rv_prob v); try exact (G H).
  destruct a as [|z|]; try exact (G H). destruct z; [|exact (G H)|]; injection H as <-; [reflexivity|].
  unfold again. cbn [shape of_list]. f_equal. apply of_list_pv.
Qed.

(** Calling a variable with the values of an earlier call gives the same
    probabilities. *)
Lemma called_again {F : Fmt R} {TR : Trunc R} (v : rv R) a r r' B p q : vs_vset (rv_state v) <> None ->
  shape B = [] \/ (exists n, shape B = [n]) ->
  rv_evaluate v a r = Ok B -> rv_call v a r = Ok p -> rv_call v (given_as B) r' = Ok q ->
  p_pscale q = p_pscale p /\ forall l s, prob_at q l s = prob_at p l s.
Proof.
  intros VN SB EV E1 E2. destruct (vs_vset (rv_state v)) as [vl|] eqn:EVs; [|congruence].
  assert (EV2 : rv_evaluate v (given_as B) r' = Ok B).
  { rewrite <- (again_same v a r B EV) at 2.
    assert (RE : forall xs b, rv_evaluate v (VGiven xs b) r' = let! o := evaluate (rv_state v) None (VGiven xs b) r' in Ok (out_tensor o)).
    { intros xs b. unfold rv_evaluate. destruct (is_bool (rv_state v)); destruct (rv_prob v); reflexivity. }
    unfold given_as, again. destruct SB as [S|(n & S)]; rewrite S.
    - rewrite (to_list_nil _ S), RE. unfold evaluate. rewrite EVs. reflexivity.
    - rewrite RE. unfold evaluate. rewrite EVs. reflexivity. }
  unfold rv_call in E1, E2. rewrite EV in E1. rewrite EV2 in E2. cbn [bind] in E1, E2.
  destruct (eval_prob v B) as [t|]; [|discriminate]. cbn [bind] in E1, E2. apply make_pd_prob in E1, E2.
  destruct E1 as [P1 S1], E2 as [P2 S2]. assert (EPs : p_pscale q = p_pscale p) by congruence. split; [exact EPs|]. intros l s. unfold prob_at. rewrite P1, P2, EPs. reflexivity.
Qed.

Section Thm.
Context {F : Fmt R} {TR : Trunc R}.
Variables (leafs roots : list (rv R)) (values : odict (fentry R)).
Variables (x : nat -> fval R) (a : nat -> values_in R) (r : nat -> rnd R) (A : nat -> tensor (pyval R)).
Let vs := leafs ++ roots.
Let names := names_of vs.
Let L := filter (needs_axis values) names.
Hypothesis PR : printable F.
Hypothesis NL : leafs <> [].
Hypothesis NA : named_apart names.
Hypothesis NDv : NoDup (od_keys values).
Hypothesis INv : incl (od_keys values) names.
Hypothesis HE : forall i v, nth_error vs i = Some v -> evaluates v values (x i) (a i) (r i) (A i).

Let x' k := x (pos k names).
Let a' k := a (pos k names).
Let A' k := A (pos k names).
Let HEn : forall i v, nth_error vs i = Some v -> evaluates v values (x' (rv_name v)) (a' (rv_name v)) (r i) (A' (rv_name v)) :=
  RF_Joint.HE' vs values x a r A NA HE.

Lemma at_positions_is s : at_positions values vs A s = map (fun k => get (A' k) (map s (filter (needs_axis values) [k]))) names.
Proof.
  unfold at_positions. assert (G : forall l j, (forall i v, nth_error l i = Some v -> pos (rv_name v) names = j + i) ->
    map (fun iv => get (A (fst iv)) (map s (filter (needs_axis values) [rv_name (snd iv)]))) (combine (seq j (length l)) l) =
    map (fun k => get (A' k) (map s (filter (needs_axis values) [k]))) (names_of l)).
  { induction l as [|v l IH]; intros j H; [reflexivity|]. cbn [length seq combine map fst snd names_of]. f_equal.
    - unfold A'. rewrite (H 0 v eq_refl), Nat.add_0_r. reflexivity.
    - apply IH. intros i w Iw. rewrite (H (S i) w Iw). lia. }
  apply G. intros i v Iv. apply pos_name; [apply NA|exact Iv].
Qed.

Lemma A_is i v : nth_error vs i = Some v -> A' (rv_name v) = A i.
Proof. intros Iv. unfold A', names. rewrite (pos_name vs i v (proj1 NA) Iv). reflexivity. Qed.

Lemma call_conditional : scales_ok vs ->
  exists d0, make_sd leafs roots None = Ok d0 /\ forall (fn : probfun R) (h : list (pyval R) -> R) given d,
  elementwise names h fn -> sd_set_prob d0 (Some fn) given = Ok d ->
  exists p vals, sd_call d values NoIid r = Ok (p, vals) /\ valid_pd p L /\
    od_keys (p_marg p) = names_of leafs /\ od_keys (p_cond p) = names_of roots /\ p_pscale p = sd_pscale d /\
    (forall i v, nth_error vs i = Some v -> variable p (rv_name v) = Some (var_of (to_value (A i)))) /\
    forall s, in_bounds p L s -> prob_at p L s = denote (spec_of (sd_pscale d)) (h (at_positions values vs A s)).
Proof.
  intros SC. destruct (make_sd_ok leafs roots None NL (proj1 NA) SC) as (f & fl & fr & q & ql & qr & PO & E).
  eexists. split; [exact E|]. intros fn h given d EL ES. destruct (set_prob_ok _ _ _ _ _ _ _ _ ES) as (q' & -> & EQ).
  destruct (cond_named leafs roots values x' a' r A' PR NL NA NDv INv HEn f fl fr q ql qr PO h fn None q' EL EQ)
    as (p & vals & E1 & HH & VP & KO & MP & CP & SP & VV & EN & PP & _).
  exists p, vals. split; [exact E1|]. split; [exact VP|]. split; [exact MP|]. split; [exact CP|]. split; [exact SP|]. split.
  - intros i v Iv. rewrite VV by (apply in_map; eapply nth_error_In; exact Iv). rewrite (A_is i v Iv). reflexivity.
  - intros s IB. cbn [sd_pscale]. rewrite at_positions_is. exact (PP s IB).
Qed.

(** *** Without a probability function *)
Local Notation all_own := (all_own values vs a r).

Lemma joint_app ownl ownr s : length ownl = length leafs ->
  joint_of values vs (ownl ++ ownr) s = (joint_of values leafs ownl s * joint_of values roots ownr s)%R.
Proof.
  intros E. unfold joint_of, vs. revert ownl E. generalize leafs. clear. intros l. induction l as [|v l IH]; intros [|q o] E; try discriminate.
  - cbn. unfold Rprod. cbn. ring.
  - cbn [zip_with app]. change (Rprod (?y :: ?z)) with (y * Rprod z)%R.
    change (prob_at q (filter (needs_axis values) [rv_name v]) s * Rprod (zip_with (fun v q => prob_at q (filter (needs_axis values) [rv_name v]) s) (l ++ roots) (o ++ ownr)) =
      prob_at q (filter (needs_axis values) [rv_name v]) s * Rprod (zip_with (fun v q => prob_at q (filter (needs_axis values) [rv_name v]) s) l o) * Rprod (zip_with (fun v q => prob_at q (filter (needs_axis values) [rv_name v]) s) roots ownr))%R.
    rewrite IH by (cbn in E; congruence). ring.
Qed.

Hypothesis CAA : callable_all vs.

Lemma call_default : scales_ok vs ->
  exists d0 p vals ownl ownr, make_sd leafs roots None = Ok d0 /\ sd_call d0 values NoIid r = Ok (p, vals) /\
    length ownl = length leafs /\ all_own (ownl ++ ownr) /\
    valid_pd p L /\ od_keys (p_marg p) = names_of leafs /\ od_keys (p_cond p) = names_of roots /\
    forall s, in_bounds p L s -> floored values vs (ownl ++ ownr) s ->
      prob_at p L s = (joint_of values leafs ownl s * joint_of values roots ownr s)%R.
Proof.
  intros SC. destruct (make_sd_ok leafs roots None NL (proj1 NA) SC) as (f & fl & fr & q & ql & qr & PO & E).
  destruct (po_all _ _ _ _ _ _ _ _ PO) as (_ & _ & ps & NT).
  destruct (cond_default leafs roots values x' a' r A' PR NL NA NDv INv HEn f fl fr q ql qr PO None q ps CAA SC NT)
    as (p & vals & E1 & HH & VP & KO & MP & CP & SP & VV & EN & PP & _).
  destruct (owns vs values x a r A PR NA SC CAA HE) as (own & LO & HO).
  eexists. exists p, vals, (firstn (length leafs) own), (skipn (length leafs) own).
  assert (LL : length (firstn (length leafs) own) = length leafs) by (rewrite firstn_length, LO; unfold vs; rewrite app_length; lia).
  rewrite firstn_skipn. split; [exact E|]. split; [exact E1|]. split; [exact LL|]. split.
  { split; [exact LO|]. intros i v Iv. destruct (HO i v Iv) as (qv & J1 & J2 & J3 & _). eauto. }
  split; [exact VP|]. split; [exact MP|]. split; [exact CP|].
  intros s IB FL. rewrite <- joint_app by exact LL. rewrite firstn_skipn.
  transitivity (Rprod (map (at_ values A' s) vs)); [apply (PP s IB)|].
  2:{ unfold joint_of. f_equal. symmetry. apply zip_map2; [congruence|]. intros i v Iv. destruct (HO i v Iv) as (q' & J & _ & _ & _ & _ & J4).
    exists q'. split; [exact J|]. apply J4. }
  - intros C v Iv K. apply In_nth_error in Iv. destruct Iv as (i & Iv). destruct (HO i v Iv) as (q' & J & _ & _ & _ & J3 & J4).
    rewrite <- J4. refine (FL _ i v q' Iv J _).
    + apply existsb_exists in C. destruct C as (sc & Isc & C). apply in_map_iff in Isc. destruct Isc as (w & <- & Iw). apply In_nth_error in Iw. destruct Iw as (j & Iw).
      destruct (HO j w Iw) as (qw & Jw & _ & _ & _ & Jw3 & _). exists qw. split; [eapply nth_error_In; eauto|].
      unfold log_scaled. rewrite Jw3. change (log_kind (scale_of w) = true). destruct (scale_of w); try discriminate C; reflexivity.
    + unfold log_scaled. rewrite J3. change (log_kind (scale_of v) <> true). congruence.
Qed.

Hypothesis NR : roots <> [].
Hypothesis CA : forall v, In v roots -> callable v.
Hypothesis VN : forall v, In v roots -> vs_vset (rv_state v) <> None.
Lemma root_pos i v : nth_error roots i = Some v -> nth_error vs (length leafs + i) = Some v.
Proof. intros Iv. unfold vs. rewrite nth_error_app2 by lia. replace (length leafs + i - length leafs) with i by lia. exact Iv. Qed.

(** A root left at None whose values are an array. *)
Lemma joint_none : scales_ok vs ->
  exists d0, make_sd leafs roots None = Ok d0 /\ forall (fn : probfun R) (h : list (pyval R) -> R) given d r' j,
  elementwise names h fn -> sd_set_prob d0 (Some fn) given = Ok d -> length leafs <= j < length vs -> x j = FNone ->
  (exists p vals, sd_call d values NoIid r = Ok (p, vals)) /\ forall jp, sd_joint d values NoIid r r' <> Ok jp.
Proof.
  intros SC. destruct (make_sd_ok leafs roots None NL (proj1 NA) SC) as (f & fl & fr & q & ql & qr & PO & E).
  assert (SCr : scales_ok roots) by (eapply scales_sub; [exact SC|apply incl_appr, incl_refl]).
  eexists. split; [exact E|]. intros fn h given d r' j EL ES Hj XJ. destruct (set_prob_ok _ _ _ _ _ _ _ _ ES) as (q' & Ed & EQ).
  destruct (cond_named leafs roots values x' a' r A' PR NL NA NDv INv HEn f fl fr q ql qr PO h fn None q' EL EQ)
    as (p & vals & E1 & HH & VP & KO & MP & CP & SP & VV & EN & PP & PI). rewrite <- Ed in E1, PI.
  split; [exists p, vals; exact E1|]. intros jp EJ.
  assert (SR : sd_roots d = Some (mkRF roots fr qr)) by (rewrite Ed; cbn [sd_roots]; apply roots_some; exact NR).
  assert (RI : forall k, In k (names_of roots) -> In k names) by (intros k I; unfold names, vs, names_of; rewrite map_app; apply in_or_app; right; exact I).
  destruct (roots_called leafs roots values x' a' r r' A' PR NA HEn f fl fr q ql qr PO NR CA SCr VN p L vals VP CP)
    as (fnd & gv & w & own & J1 & J2 & J3 & J5 & VW & MW & CW & NT & VVw & EW & OW & PW); auto.
  unfold sd_joint in EJ. rewrite E1 in EJ. cbn [bind] in EJ. rewrite J1 in EJ. cbn [bind] in EJ. rewrite SR, J2 in EJ. cbn [bind] in EJ. rewrite J3 in EJ. cbn [bind] in EJ.
  set (Lr := filter (needs_axis values) (names_of roots)) in *.
  destruct (nth_error roots (j - length leafs)) as [v|] eqn:Iv.
  2:{ apply nth_error_None in Iv. unfold vs in Hj. rewrite app_length in Hj. lia. }
  pose proof (root_pos _ v Iv) as Iv'. replace (length leafs + (j - length leafs)) with j in Iv' by lia.
  set (k := rv_name v). assert (Kr : In k (names_of roots)) by (apply in_map; eapply nth_error_In; exact Iv).
  assert (XK : x' k = FNone) by (unfold x', names, k; rewrite (pos_name vs j v (proj1 NA) Iv'); exact XJ).
  assert (NX : needs_axis values k = true) by (rewrite (needs_one vs values x' a' r A' HEn) by (apply RI; exact Kr); rewrite XK; reflexivity).
  assert (KLr : In k Lr) by (apply filter_In; auto). assert (KL : In k L) by (apply filter_In; auto).
  assert (NDl : forall k', In k' (names_of leafs) -> ~ In k' (names_of roots)).
  { pose proof (proj1 NA) as NN. unfold names, vs, names_of in NN. rewrite map_app in NN. apply nodup_app_iff in NN. destruct NN as (_ & _ & D). intros k' C1 C2. exact (D k' C1 C2). }
  set (axes (q : pd R) := match p_cond q with [] => Lr | _ => L end).
  assert (AW : axes w = Lr) by (unfold axes; rewrite CW; reflexivity).
  assert (NC : p_cond p <> []). { intros C. rewrite C in CP. cbn in CP. symmetry in CP. unfold names_of in CP. apply map_eq_nil in CP. exact (NR CP). }
  assert (AP : axes p = L) by (unfold axes; destruct (p_cond p); [congruence|reflexivity]).
  refine (product_spelled [w; p] axes PSNone w p k (k ++ "=[]")%string k _ _ (or_introl eq_refl) (or_intror (or_introl eq_refl)) (EW k KLr) _ _ _ jp EJ).
  - intros q1 [<-|[<-|[]]]; [rewrite AW; exact VW|rewrite AP; exact VP].
  - unfold marginals. cbn [flat_map]. rewrite MW, MP, app_nil_r. pose proof (proj1 NA) as NN. unfold names, vs, names_of in NN. rewrite map_app in NN.
    eapply Permutation_NoDup; [apply Permutation_app_comm|exact NN].
  - specialize (EN k KL). rewrite XK in EN. cbn [fname] in EN.
    assert (AP' : forall (m c : odict string), od_get m k = None -> od_get (m ++ c) k = od_get c k).
    { clear. intros m c. induction m as [|[k0 w] m IH]; cbn; [auto|]. destruct (String.eqb k k0); [discriminate|exact IH]. }
    rewrite AP' in EN; [exact EN|]. apply od_get_none. rewrite MP. intros C. exact (NDl k C Kr).
  - clear. intros C. assert (L1 : String.length (k ++ "=[]") = String.length k) by congruence. 
    assert (Ln : forall u w, String.length (u ++ w) = String.length u + String.length w) by (induction u; intros w; cbn; auto). rewrite Ln in L1. cbn in L1. lia.
  - intros q1 [<-|[<-|[]]] _; [rewrite AW; exact KLr|rewrite AP; exact KL].
Qed.

Hypothesis XN : forall i, length leafs <= i < length vs -> x i <> FNone.

Local Notation joint_result := (joint_result values leafs roots A r).

Lemma root_x k : In k (names_of roots) -> x' k <> FNone.
Proof.
  intros I. apply in_map_iff in I. destruct I as (v & <- & Iv). apply In_nth_error in Iv. destruct Iv as (i & Iv).
  unfold x', names. rewrite (pos_name vs _ v (proj1 NA) (root_pos i v Iv)). apply XN. split; [lia|].
  apply nth_error_Some. rewrite (root_pos i v Iv). discriminate.
Qed.

Lemma call_joint_sd : scales_ok vs ->
  exists d0, make_sd leafs roots None = Ok d0 /\ forall (fn : probfun R) (h : list (pyval R) -> R) given d r',
  elementwise names h fn -> sd_set_prob d0 (Some fn) given = Ok d -> scales_agree roots (sd_pscale d) ->
  exists p vals, sd_call d values NoIid r = Ok (p, vals) /\ joint_result r' d NoIid p L /\
    forall i iid, iid_keys d i = iid -> iid <> [] -> incl iid (names_of leafs) -> incl iid L -> plain_scale (spec_of (sd_pscale d)) ->
    exists p', sd_call d values i r = Ok (p', vals) /\ reduced p L iid p' /\
      (forall s, prob_at p' (without iid L) s = joint_at p L iid s) /\ joint_result r' d i p' (without iid L).
Proof.
  intros SC. destruct (make_sd_ok leafs roots None NL (proj1 NA) SC) as (f & fl & fr & q & ql & qr & PO & E).
  assert (SCr : scales_ok roots) by (eapply scales_sub; [exact SC|apply incl_appr, incl_refl]).
  eexists. split; [exact E|]. intros fn h given d r' EL ES SA. destruct (set_prob_ok _ _ _ _ _ _ _ _ ES) as (q' & Ed & EQ).
  destruct (cond_named leafs roots values x' a' r A' PR NL NA NDv INv HEn f fl fr q ql qr PO h fn None q' EL EQ)
    as (p & vals & E1 & HH & VP & KO & MP & CP & SP & VV & EN & PP & PI). rewrite <- Ed in E1, PI.
  assert (SQ : sd_pscale d = q') by (rewrite Ed; reflexivity).
  assert (SR : sd_roots d = Some (mkRF roots fr qr)) by (rewrite Ed; cbn [sd_roots]; apply roots_some; exact NR).
  assert (RI : forall k, In k (names_of roots) -> In k names) by (intros k I; unfold names, vs, names_of; rewrite map_app; apply in_or_app; right; exact I).
  assert (LrL : forall k, In k (filter (needs_axis values) (names_of roots)) -> In k L).
  { intros k I. apply filter_In in I. apply filter_In. split; [apply RI|]; apply I. }
  assert (JR : forall i p1 Lp, sd_call d values i r = Ok (p1, vals) -> valid_pd p1 Lp -> od_keys (p_marg p1) = names_of leafs -> p_cond p1 = p_cond p ->
    (forall k, In k (names_of roots) -> variable p1 k = variable p k) -> p_pscale p1 = q' -> joint_result r' d i p1 Lp).
  { intros i p1 Lp EC V1 M1 C1 VV1 S1.
    assert (C1' : od_keys (p_cond p1) = names_of roots) by congruence.
    destruct (joint_from leafs roots values x' a' r r' A' PR NL NA HEn f fl fr q ql qr PO NR CA SCr VN p1 Lp vals V1 M1 C1')
      as (fnd & gv & w & own & jp & Lj & J1 & J2 & J3 & J4 & J5 & J6 & J7 & J8 & J9 & J10 & J11); auto.
    - intros k I. rewrite VV1, VV by (auto; apply RI; exact I). reflexivity.
    - exact root_x.
    - intros k I. pose proof I as I'. apply filter_In in I'. destruct I' as [I' _].
      assert (NI : forall p2 : pd R, od_keys (p_marg p2) = names_of leafs -> od_get (p_marg p2) k = None).
      { intros p2 M2. apply od_get_none. rewrite M2. intros C. pose proof (proj1 NA) as NN. unfold names, vs, names_of in NN. rewrite map_app in NN. apply nodup_app_iff in NN.
        destruct NN as (_ & _ & D). exact (D k C I'). }
      specialize (EN k (LrL k I)).
      assert (AP : forall (m c : odict string), od_get m k = None -> od_get (m ++ c) k = od_get c k).
      { clear. intros m c. induction m as [|[k0 v] m IH]; cbn; [auto|]. destruct (String.eqb k k0); [discriminate|exact IH]. }
      rewrite AP in EN |- * by auto. rewrite C1. exact EN.
    - rewrite S1, <- SQ. exact SA.
    - exists jp, Lj, own. split.
      { unfold sd_joint. rewrite EC. cbn [bind]. rewrite J1. cbn [bind]. rewrite SR, J2. cbn [bind]. rewrite J3. cbn [bind]. exact J4. }
      split.
      { split; [exact J5|]. intros j v Iv. destruct (J6 j v Iv) as (qv & K1 & K2 & K3 & K4). exists qv. split; [exact K1|].
        rewrite (A_is _ v (root_pos j v Iv)) in K2. split; [exact K2|]. split; [exact K3|]. rewrite <- K4, VV1, VV.
        - rewrite (A_is _ v (root_pos j v Iv)). reflexivity.
        - apply RI. apply in_map. eapply nth_error_In; exact Iv.
        - apply in_map. eapply nth_error_In; exact Iv. }
      split; [exact J7|]. split; [exact J8|]. split; [exact J9|]. split; [exact J10|]. exact J11. }
  exists p, vals. split; [exact E1|]. split.
  { apply JR; auto. }
  intros i iid Ei NI IL IA PL. rewrite SQ in PL. rewrite <- SP in PL.
  destruct (prod_plain p L iid VP PL KO) as (p' & EP & RD & PP').
  { rewrite MP. exact IL. }
  { exact IA. }
  { intros k I. apply NA. apply IA in I. apply filter_In in I. apply I. }
  exists p'. pose proof (PI iid NI i Ei) as EC. rewrite EP in EC. cbn [bind] in EC. split; [exact EC|]. split; [exact RD|]. split; [exact PP'|].
  destruct RD as (R1 & R2 & R3 & R4 & R5 & R6). apply JR; auto.
  - congruence.
  - intros k I. apply R6.
    + apply (vp_key_iff p L VP). right. rewrite CP. exact I.
    + intros C. apply IL in C. pose proof (proj1 NA) as NN. unfold names, vs, names_of in NN. rewrite map_app in NN. apply nodup_app_iff in NN.
      destruct NN as (_ & _ & D). exact (D k C I).
  - rewrite (prod_plain_scale p p' L iid VP PL KO); auto.
    + rewrite MP. exact IL.
    + intros k I. apply NA. apply IA in I. apply filter_In in I. apply I.
Qed.

Lemma joint_default r' : scales_ok vs ->
  exists d0 jp Lj ownl ownr, make_sd leafs roots None = Ok d0 /\ sd_joint d0 values NoIid r r' = Ok (Some jp) /\
    length ownl = length leafs /\ all_own (ownl ++ ownr) /\
    valid_pd jp Lj /\ od_keys (p_marg jp) = names_of roots ++ names_of leafs /\ p_cond jp = [] /\
    forall s, in_bounds jp Lj s -> floored values vs (ownl ++ ownr) s ->
      ((exists v, In v leafs /\ log_kind (scale_of v) = true) -> (forall v, In v roots -> log_kind (scale_of v) = false) -> (npz <= joint_of values roots ownr s)%R) ->
      prob_at jp Lj s = (joint_of values leafs ownl s * joint_of values roots ownr s ^ 2)%R.
Proof.
  intros SC. destruct (make_sd_ok leafs roots None NL (proj1 NA) SC) as (f & fl & fr & q & ql & qr & PO & E).
  assert (SCr : scales_ok roots) by (eapply scales_sub; [exact SC|apply incl_appr, incl_refl]).
  destruct (po_all _ _ _ _ _ _ _ _ PO) as (_ & _ & ps & NT).
  destruct (cond_default leafs roots values x' a' r A' PR NL NA NDv INv HEn f fl fr q ql qr PO None q ps CAA SC NT)
    as (p & vals & E1 & HH & VP & KO & MP & CP & SP & VV & EN & PP & _).
  destruct call_default as (d0 & p2 & vals2 & ownl & ownr & E' & E1' & LL & AO & VP' & MP' & CP' & PP'); [exact SC|].
  set (d := mkSD (mkRF (leafs ++ roots) f q) (mkRF leafs fl ql) (roots_field roots fr qr) None None q) in *.
  assert (d0 = d) by congruence. subst d0. assert (p2 = p /\ vals2 = vals) as [-> ->] by (split; congruence).
  assert (VNE : vs <> []) by (unfold vs; intros C; apply app_eq_nil in C; destruct C; contradiction).
  assert (SA : scales_agree roots (p_pscale p)).
  { rewrite SP. unfold vs in SC. destruct SC as [S|[S _]]; [left|right]; (split; [rewrite map_app in S; apply Forall_app in S; apply S|]).
    - exact (natural_linear _ _ _ NT S).
    - exact (natural_plain _ _ _ VNE NT S). }
  assert (RI : forall k, In k (names_of roots) -> In k names) by (intros k I; unfold names, vs, names_of; rewrite map_app; apply in_or_app; right; exact I).
  destruct (joint_from leafs roots values x' a' r r' A' PR NL NA HEn f fl fr q ql qr PO NR CA SCr VN p L vals VP MP CP)
      as (fnd & gv & w & own & jp & Lj & J1 & J2 & J3 & J4 & J5 & J6 & J7 & J8 & J9 & J10 & J11); auto.
  { exact root_x. }
  { intros k I. apply EN. apply filter_In in I. apply filter_In. split; [apply RI|]; apply I. }
  exists d, jp, Lj, ownl, ownr. split; [exact E|]. split.
  { unfold sd_joint. rewrite E1. cbn [bind]. rewrite J1. cbn [bind]. unfold d. cbn [sd_roots]. rewrite (roots_some roots) by exact NR. rewrite J2. cbn [bind]. rewrite J3. cbn [bind]. exact J4. }
  split; [exact LL|]. split; [exact AO|]. split; [exact J7|]. split; [exact J8|]. split; [exact J9|].
  destruct AO as [LA AO]. assert (LR : length ownr = length roots) by (rewrite app_length in LA; unfold vs in LA; rewrite app_length in LA; lia).
  assert (OA : forall j v, nth_error roots j = Some v -> exists q1 q2, nth_error ownr j = Some q1 /\ nth_error own j = Some q2 /\
    p_pscale q2 = p_pscale q1 /\ forall l s, prob_at q2 l s = prob_at q1 l s).
  { intros j v Iv. destruct (J6 j v Iv) as (q2 & K1 & K2 & _). pose proof (root_pos j v Iv) as Iv'.
    destruct (AO _ v Iv') as (q1 & M1 & M2 & _). rewrite nth_error_app2 in M1 by lia. replace (length leafs + j - length ownl) with j in M1 by lia.
    destruct (HE _ v Iv') as (_ & _ & EV & SH). rewrite (A_is _ v Iv') in K2.
    exists q1, q2. split; [exact M1|]. split; [exact K1|].
    eapply (called_again v); [apply VN; eapply nth_error_In; exact Iv| |exact EV|exact M2|exact K2].
    destruct SH as [[_ S]|(_ & n & _ & S)]; eauto. }
  assert (JE : forall s, joint_of values roots own s = joint_of values roots ownr s).
  { intros s. unfold joint_of. f_equal. revert OA LR J5. generalize roots as l, ownr as o1, own as o2. clear.
    induction l as [|v l IH]; intros [|q1 o1] [|q2 o2] OA L1 L2; try discriminate; [reflexivity|]. cbn [zip_with].
    destruct (OA 0 v eq_refl) as (q1' & q2' & E1 & E2 & _ & E3). cbn in E1, E2. injection E1 as <-. injection E2 as <-. rewrite E3. f_equal.
    apply IH; [|cbn in L1; congruence|cbn in L2; congruence]. intros j w Iw. apply (OA (S j) w Iw). }
  intros s IB FL LS. rewrite J11; auto.
  - rewrite JE, PP'; auto; [ring|]. intros k Ik. 
    assert (Ik' : In k names) by (apply filter_In in Ik; apply Ik).
    assert (SZ : size_of p k = size_of jp k) by (unfold size_of; rewrite J10 by exact Ik'; reflexivity). rewrite SZ. apply IB.
    eapply column_axis; [exact J7|]. rewrite J10, VV by exact Ik'. 
    destruct (A_shape vs values x' a' r A' HEn k Ik') as [[D _]|(_ & _ & S & _)].
    + exfalso. apply filter_In in Ik. destruct Ik as [_ Ik]. rewrite (needs_one vs values x' a' r A' HEn) in Ik by exact Ik'. rewrite D in Ik. discriminate.
    + unfold to_value. rewrite S. cbn. rewrite S. reflexivity.
  - intros (qx & Ix & Lx) j v q2 Iv Iq Nq. destruct (OA j v Iv) as (q1 & q2' & M1 & M2 & M3 & M4). assert (q2' = q2) by congruence. subst q2'. rewrite M4.
    refine (FL _ (length leafs + j) v q1 (root_pos j v Iv) _ _).
    + apply In_nth_error in Ix. destruct Ix as (jx & Ix). destruct (nth_error roots jx) as [vx|] eqn:Evx.
      * destruct (OA jx vx Evx) as (q1x & q2x & X1 & X2 & X3 & _). assert (q2x = qx) by congruence. subst q2x. exists q1x. split; [apply in_or_app; right; eapply nth_error_In; exact X1|].
        unfold log_scaled in *. rewrite <- X3. exact Lx.
      * exfalso. apply nth_error_None in Evx. assert (jx < length own) by (apply nth_error_Some; congruence). lia.
    + rewrite nth_error_app2 by lia. replace (length leafs + j - length ownl) with j by lia. exact M1.
    + unfold log_scaled in *. rewrite <- M3. exact Nq.
  - intros (v & Iv & Kv) C. exfalso. rewrite SP in C. destruct NT as (_ & _ & _ & _ & _ & P6). rewrite P6 in C.
    assert (T : existsb log_kind (map scale_of (leafs ++ roots)) = true); [|congruence].
    apply existsb_exists. exists (scale_of v). split; [apply in_map, in_or_app; right; exact Iv|exact Kv].
  - intros C NLr. rewrite JE. apply LS; [|exact NLr]. rewrite SP in C. destruct NT as (_ & _ & _ & _ & _ & P6). rewrite P6 in C. apply existsb_exists in C.
    destruct C as (sc & Is & K). apply in_map_iff in Is. destruct Is as (v & <- & Iv). apply in_app_iff in Iv. destruct Iv as [Iv|Iv]; [exists v; auto|].
    rewrite (NLr v Iv) in K. discriminate.
Qed.
End Thm.
