(** The conditional distribution of leafs given roots, and the joint of both. *)
From Coq Require Import String Ascii ZArith Reals Lra Bool Arith Lia Permutation List.
From Verif Require Import Base Num Tensor TensorLemmas TensorBcast OdLemmas RNumLemmas PScales PScales_Spec
  PScales_Proofs PScales_Prod Names Names_Spec Distr PDModel PDUtils PD_Spec PD_Simple_Spec PD_Sums PD_Align PD_Make PD_Valid
  PD_Product_Spec PD_Product2 PD_Product3 VariableModel RVModel FieldModel Field_Spec Field_Proofs Field_Dims RFModel RF_Spec RF_Proofs RF_Joint
  LookupModel Lookup_Thm SDModel SD_Spec SD_Proofs.
Import ListNotations.
Local Open Scope list_scope.

(** *** Scales *)
Lemma natural_linear (vs : list (rv R)) ps q : natural vs ps q -> Forall linear_scale (map scale_of vs) -> linear_scale (spec_of q).
Proof.
  intros (_ & _ & P3 & _ & P5 & P6) FL.
  assert (E : existsb log_kind (map scale_of vs) = false).
  { apply not_true_is_false. intros C. apply existsb_exists in C. destruct C as (s & Is & C). rewrite Forall_forall in FL. destruct (FL s Is). congruence. }
  rewrite E in P6. split; [|exact P6].
  assert (PS : (0 < Rprod (map factor (map scale_of vs)))%R).
  { clear -FL. induction FL as [|x l [Vx _] FL IH]; cbn; [lra|]. apply Rmult_lt_0_compat; [apply factor_pos; exact Vx|exact IH]. }
  rewrite <- P5 in PS. clear -PS P6. destruct q as [c|re im]; cbn in *; [|discriminate]. destruct (Req_EM_T c 0); [discriminate|].
  split; [exact I|]. cbn. lra.
Qed.

Lemma natural_plain (vs : list (rv R)) ps q : vs <> [] -> natural vs ps q -> Forall plain_scale (map scale_of vs) -> plain_scale (spec_of q).
Proof.
  intros NE NT FP. pose proof NT as (P1 & _ & _ & P4 & P5 & P6).
  assert (F1 : Rprod (map factor (map scale_of vs)) = 1%R).
  { clear -FP. induction FP as [|x l Px FP IH]; [reflexivity|]. change (factor x * Rprod (map factor l) = 1)%R.
    destruct (plain_valid _ Px) as (_ & _ & -> & _). rewrite IH. lra. }
  destruct (existsb iscomplex (map scale_of vs)) eqn:C.
  - assert (NS : map scale_of vs <> []) by (destruct vs; [congruence|discriminate]).
    set (ts := map (fun _ : rv R => @tscalar R 1%R) vs).
    assert (Bt : bcast_all (map shape ts) = Ok []).
    { unfold ts. clear. destruct vs as [|v vs]; [reflexivity|].
      unfold bcast_all. cbn [map]. change (shape (tscalar 1%R)) with (@nil nat).
      induction vs as [|u l IH]; [reflexivity|]. cbn [map fold_res]. change (shape (tscalar 1%R)) with (@nil nat).
      destruct l; [reflexivity|]. exact IH. }
    destruct (prod_rule_plain_log ts (map scale_of vs) []) as (t' & E & _); auto.
    { unfold ts. destruct vs; [congruence|discriminate]. }
    { unfold ts. rewrite !map_length. reflexivity. }
    apply natural_scale in E; auto. rewrite P4. right. congruence.
  - assert (LK : existsb log_kind (map scale_of vs) = false).
    { rewrite <- C. clear -FP. induction FP as [|x l Px FP IH]; [reflexivity|]. cbn [existsb]. rewrite IH. f_equal.
      destruct (plain_valid _ Px) as (_ & _ & _ & ->). reflexivity. }
    rewrite LK in P6. rewrite F1 in P5. clear -P5 P6. left. destruct q as [c|re im]; cbn in *; [|discriminate].
    destruct (Req_EM_T c 0); [discriminate|]. congruence.
Qed.

Lemma column_axis {F : Fmt R} (p : pd R) L k l : valid_pd p L -> variable p k = Some (Col l) -> In k L.
Proof.
  intros V E. destruct (in_dec string_dec k L) as [I|NI]; [exact I|]. exfalso.
  unfold variable in E. destruct (od_get (p_vals p) k) as [v|] eqn:G; [|discriminate].
  destruct (vp_scalar _ _ V k v G NI) as [S _]. destruct v as [y|s|l'|a|]; cbn in *; try discriminate.
  destruct (shape a) eqn:SA; discriminate.
Qed.

(** *** Values passed on to the roots *)
Lemma to_list_nil (a : tensor (pyval R)) : shape a = [] -> to_list a = [get a []].
Proof. intros S. unfold to_list, tsize. rewrite S. reflexivity. Qed.

Lemma of_list_pv (l : list (pyval R)) : to_list (of_list (PF 0%R) l) = l.
Proof.
  unfold to_list, of_list, tsize. cbn [shape get prod_list fold_right]. rewrite Nat.mul_1_r.
  apply nth_ext with (d := PF 0%R) (d' := PF 0%R); [rewrite map_length, seq_length; reflexivity|].
  rewrite map_length, seq_length. intros n Hn. 
  erewrite nth_error_nth; [|rewrite nth_error_map, (nth_error_nth' _ 0) by (rewrite seq_length; exact Hn); cbn [option_map]; reflexivity].
  rewrite seq_nth by exact Hn. cbn [unravel prod_list fold_right hd Nat.add]. rewrite Nat.div_1_r. reflexivity.
Qed.

Definition again (a : tensor (pyval R)) : tensor (pyval R) :=
  match shape a with [] => tscalar (get a []) | _ => of_list (PF 0%R) (to_list a) end.

Lemma again_var (a : tensor (pyval R)) : shape a = [] \/ (exists n, shape a = [n]) ->
  var_of (to_value (again a)) = var_of (to_value a).
Proof.
  intros [S|(n & S)]; unfold again, to_value; rewrite S; [reflexivity|]. cbn [shape of_list]. cbn [var_of tmap shape of_list]. rewrite S. f_equal.
  change (to_list (tmap (@as_num R RNum) (of_list (PF 0%R) (to_list a))) = to_list (tmap (@as_num R RNum) a)).
  rewrite !to_list_num, of_list_pv. reflexivity.
Qed.

Lemma largest_spec (ds : list (option nat)) :
  match fold_left (fun m (d : option nat) => match d with None => m | Some d => Some (match m with None => d | Some m => Nat.max d m end) end) ds None with
  | None => forall d, ~ In (Some d) ds
  | Some m => In (Some m) ds /\ forall d, In (Some d) ds -> d <= m
  end.
Proof.
  induction ds as [|[d|] ds IH] using rev_ind; [intros d []| |]; rewrite fold_left_app; cbn [fold_left].
  - destruct (fold_left _ ds None) as [m|].
    + destruct IH as [I1 I2]. split.
      * destruct (Nat.max_spec d m) as [[_ ->]|[_ ->]]; apply in_app_iff; [left; exact I1|right; left; reflexivity].
      * intros e Ie. apply in_app_iff in Ie. destruct Ie as [Ie|[Ie|[]]]; [apply I2 in Ie; lia|injection Ie as ->; lia].
    + split; [apply in_app_iff; right; left; reflexivity|]. intros e Ie. apply in_app_iff in Ie. destruct Ie as [Ie|[Ie|[]]]; [destruct (IH e Ie)|injection Ie as ->; lia].
  - destruct (fold_left _ ds None) as [m|].
    + destruct IH as [I1 I2]. split; [apply in_app_iff; left; exact I1|]. intros e Ie. apply in_app_iff in Ie. destruct Ie as [Ie|[Ie|[]]]; [apply I2; exact Ie|discriminate].
    + intros e Ie. apply in_app_iff in Ie. destruct Ie as [Ie|[Ie|[]]]; [apply (IH e Ie)|discriminate].
Qed.

Lemma prob_at_ext (q : pd R) l s s' : (forall k, s k = s' k) -> prob_at q l s = prob_at q l s'.
Proof. intros H. unfold prob_at. rewrite (map_ext _ _ H). reflexivity. Qed.

Lemma joint_values (g values : odict (fentry R)) (vs : list (rv R)) own s s' : (forall k, s k = s' k) ->
  (forall v, In v vs -> filter (needs_axis g) [rv_name v] = filter (needs_axis values) [rv_name v]) ->
  joint_of g vs own s = joint_of values vs own s'.
Proof.
  intros ES H. unfold joint_of. f_equal. revert own. induction vs as [|v vs IH]; intros [|q own]; try reflexivity.
  cbn [zip_with]. rewrite H by (left; reflexivity). f_equal; [apply prob_at_ext; exact ES|]. apply IH. intros w Iw. apply H. right. exact Iw.
Qed.

Lemma floored_values (g values : odict (fentry R)) (vs : list (rv R)) own s s' : (forall k, s k = s' k) ->
  (forall v, In v vs -> filter (needs_axis g) [rv_name v] = filter (needs_axis values) [rv_name v]) ->
  floored values vs own s' -> floored g vs own s.
Proof.
  intros ES H FL C i v q Iv Iq Nq. rewrite H by (eapply nth_error_In; exact Iv). rewrite (prob_at_ext _ _ _ _ ES). exact (FL C i v q Iv Iq Nq).
Qed.


Section Conditional.
Context {F : Fmt R} {TR : Trunc R}.
Variables (leafs roots : list (rv R)) (values : odict (fentry R)).
Variables (x : string -> fval R) (aa : string -> values_in R) (r r' : nat -> rnd R) (A : string -> tensor (pyval R)).
Let vs := leafs ++ roots.
Hypothesis PR : printable F.
Hypothesis NL : leafs <> [].
Hypothesis NA : named_apart (names_of vs).
Hypothesis NDv : NoDup (od_keys values).
Hypothesis INv : incl (od_keys values) (names_of vs).
Hypothesis HE : forall i v, nth_error vs i = Some v ->
  evaluates v values (x (rv_name v)) (aa (rv_name v)) (r i) (A (rv_name v)).
Variables (f fl fr : field R) (q0 ql qr : pscale R).
Hypothesis PO : parts_of leafs roots f fl fr q0 ql qr.

Let names := names_of vs.
Let L := filter (needs_axis values) names.
Let sz (k : string) : nat := tsize (A k).

Definition held (vals : odict (tensor (pyval R))) : Prop :=
  forall k, In k names -> exists a, od_get vals k = Some a /\ to_list a = to_list (A k) /\
    (dimensionless (x k) = true /\ a = A k /\ shape a = [] \/ In k L /\ shape a = mask sz [k] L /\ 0 < sz k).

Lemma size_A (p : pd R) k : In k L -> variable p k = Some (var_of (to_value (A k))) -> size_of p k = sz k.
Proof.
  intros I V. pose proof I as I'. apply (L_in vs values x aa r A HE) in I'. destruct I' as [I' D].
  unfold size_of. rewrite V. destruct (A_shape vs values x aa r A HE k I') as [[C _]|(_ & _ & SA & _)]; [congruence|].
  unfold to_value. rewrite SA. cbn [var_of tmap shape]. rewrite SA.
  change (mkT (shape (A k)) (fun i => as_num (get (A k) i))) with (tmap (@as_num R RNum) (A k)).
  rewrite to_list_length. reflexivity.
Qed.

Lemma cond_gen arch prob q (ok : assignment -> Prop) (val : assignment -> R) : eval_pscale (spec_of q) = Ok q ->
  let d := mkSD (mkRF vs f q0) (mkRF leafs fl ql) (roots_field roots fr qr) arch prob q in
  (forall vals dims, NoDup (od_keys vals) -> (forall k, In k (od_keys vals) <-> In k names) -> held vals ->
     exists t, sd_eval_prob d vals dims = Ok t /\ shape t = map sz L /\
       forall s, (forall k, In k L -> s k < sz k) -> ok s -> denote (spec_of q) (get t (map s L)) = val s) ->
  exists p vals, sd_call d values NoIid r = Ok (p, vals) /\ held vals /\
    valid_pd p L /\ key_ordered p L /\ od_keys (p_marg p) = names_of leafs /\ od_keys (p_cond p) = names_of roots /\ p_pscale p = q /\
    (forall k, In k names -> variable p k = Some (var_of (to_value (A k)))) /\
    (forall k, In k L -> od_get (p_marg p ++ p_cond p) k = Some (fname k (x k))) /\
    (forall s, in_bounds p L s -> ok s -> prob_at p L s = val s) /\
    forall iid, iid <> [] -> (forall i, iid_keys d i = iid -> sd_call d values i r = (let! p' := pd_prod p iid in Ok (p', vals))).
Proof.
  intros EQ d HP.
  destruct (sd_call_ok leafs roots values x aa r A PR NL NA NDv INv HE f fl fr q0 ql qr PO arch prob q EQ)
    as (vals & dims & E1 & E2 & NK & IK & LK & HV & DN & DL & DK & MK).
  fold vs in E2, HV, LK, DN, DL, MK, IK. fold names in HV, LK, DN, DL, MK, IK.
  destruct (HP vals dims NK IK HV) as (t & EP & ST & GT).
  destruct (MK t EP ST) as (p & E3 & VP & KP & MP & CP & PP & SP & VV & EN). fold d in E3.
  exists p, vals.
  assert (WH : forall i, (iid_keys d i = [] \/ largest dims = None \/ largest dims = Some (Nat.pred (length L)) /\ L <> []) ->
    sd_call d values i r = let! p' := match iid_keys d i with [] => Ok p | l => pd_prod p l end in Ok (p', vals)).
  { intros i Hi. unfold sd_call, d. cbn [sd_rf rf_fld rf_all sd_pscale]. rewrite E1. cbn [bind]. rewrite E2. cbn [bind]. fold d. rewrite EP. cbn [bind].
    unfold eval_iid.
    assert (CO : match iid_keys d i, largest dims with [], _ | _, None => Ok false | _, Some m => Ok (negb (S m =? length (shape t))) end = Ok false).
    { destruct Hi as [-> |[-> |[-> NLl]]]; [reflexivity|destruct (iid_keys d i); reflexivity|]. rewrite ST, map_length. fold vs. fold names. fold L.
      destruct (iid_keys d i); [reflexivity|]. f_equal. apply negb_false_iff, Nat.eqb_eq. destruct L; [congruence|reflexivity]. }
    rewrite CO. cbn [bind]. rewrite E3. cbn [bind]. destruct (iid_keys d i); reflexivity. }
  split; [apply (WH NoIid); left; reflexivity|]. split; [exact HV|]. split; [exact VP|]. split.
  { unfold key_ordered. rewrite KP. destruct LK as [EL0|LK].
    - fold names L in EL0. rewrite EL0. clear. induction (od_keys vals); [reflexivity|exact IHl].
    - rewrite LK. fold names. unfold L. apply filter_ext_in. intros k I. symmetry.
      destruct (needs_axis values k) eqn:NX.
      + apply mem_str_iff, filter_In. auto.
      + apply mem_str_false. intros C. apply filter_In in C. destruct C. congruence. }
  split; [exact MP|]. split; [exact CP|]. split; [exact SP|]. split; [exact VV|]. split; [exact EN|]. split.
  - intros s IB OKs. unfold prob_at. rewrite PP, SP. apply GT; [|exact OKs]. intros k I. specialize (IB k I).
    rewrite size_A in IB; [exact IB|exact I|]. apply VV. apply filter_In in I. tauto.
  - intros iid NI i Ei. rewrite WH.
    + rewrite Ei. destruct iid; [congruence|reflexivity].
    + right.
      pose proof (largest_spec (od_vals dims)) as LG. change (fold_left _ (od_vals dims) None) with (largest dims) in LG.
      assert (ND : NoDup (od_keys dims)) by (destruct DK as [-> | ->]; [constructor|exact NK]).
      assert (VALS : forall m, In (Some m) (od_vals dims) -> exists k, In k L /\ m = pos k L).
      { intros m Im. apply in_map_iff in Im. destruct Im as ([k y] & Ey & Im). cbn in Ey. subst y.
        assert (Ik : In k names). { destruct DK as [E0|DK]; [rewrite E0 in Im; destruct Im|]. apply IK. rewrite <- DK. apply in_map_iff. exists (k, Some m). auto. }
        apply od_in_get in Im; [|exact ND]. destruct (DN k Ik) as [C|[C|[IL C]]]; try congruence. exists k. split; [exact IL|]. fold names L in C. congruence. }
      destruct (largest dims) as [m|]; [right|left; reflexivity]. destruct LG as [I1 I2].
      destruct (VALS m I1) as (k & IL & Em).
      assert (NLL : L <> []) by (intros C; rewrite C in IL; destruct IL). split; [|exact NLL]. f_equal.
      assert (LT : m < length L) by (rewrite Em; apply pos_lt; exact IL).
      assert (LE : Nat.pred (length L) <= m); [|lia].
      destruct (nth_error L (Nat.pred (length L))) as [k1|] eqn:E1'; [|apply nth_error_None in E1'; lia].
      pose proof (nth_error_In _ _ E1') as IL1. pose proof (DL k1 IL1) as D1. fold names L in D1.
      assert (P1 : pos k1 L = Nat.pred (length L)).
      { apply (proj1 (NoDup_nth_error L)); [apply (L_nodup vs values NA)|apply pos_lt; exact IL1|]. rewrite pos_nth by exact IL1. congruence. }
      rewrite P1 in D1. apply I2. apply in_map_iff. exists (k1, Some (Nat.pred (length L))). split; [reflexivity|]. apply od_get_in. exact D1.
Qed.

Lemma cond_named h (fn : probfun R) arch q : elementwise names h fn -> eval_pscale (spec_of q) = Ok q ->
  let d := mkSD (mkRF vs f q0) (mkRF leafs fl ql) (roots_field roots fr qr) arch (Some fn) q in
  exists p vals, sd_call d values NoIid r = Ok (p, vals) /\ held vals /\
    valid_pd p L /\ key_ordered p L /\ od_keys (p_marg p) = names_of leafs /\ od_keys (p_cond p) = names_of roots /\ p_pscale p = q /\
    (forall k, In k names -> variable p k = Some (var_of (to_value (A k)))) /\
    (forall k, In k L -> od_get (p_marg p ++ p_cond p) k = Some (fname k (x k))) /\
    (forall s, in_bounds p L s ->
      prob_at p L s = denote (spec_of q) (h (map (fun k => get (A k) (map s (filter (needs_axis values) [k]))) names))) /\
    forall iid, iid <> [] -> (forall i, iid_keys d i = iid -> sd_call d values i r = (let! p' := pd_prod p iid in Ok (p', vals))).
Proof.
  intros EL EQ d.
  destruct (cond_gen arch (Some fn) q (fun _ => True)
    (fun s => denote (spec_of q) (h (map (fun k => get (A k) (map s (filter (needs_axis values) [k]))) names))) EQ)
    as (p & vals & C1 & C2 & C3 & C4 & C5 & C6 & C7 & C8 & C9 & C10 & C11).
  - intros vals dims NK IK HV.
    destruct (fun_prob leafs roots values x aa r A NL NA INv HE f fl fr q0 ql qr PO h fn vals dims EL HV) as (t & ET & ST & GT).
    exists t. split; [|split; [exact ST|]].
    + unfold sd_eval_prob. cbn [sd_prob sd_rf rf_fld].
      assert (seteq_str (od_keys vals) (fd_keys f) = true) as ->; [|exact ET].
      apply seteq_str_iff. destruct (po_all _ _ _ _ _ _ _ _ PO) as (-> & _). split; intros k; apply IK.
    + intros s B _. f_equal. exact (GT s B).
  - exists p, vals. repeat (split; [assumption|]). split; [|exact C11]. intros s IB. apply C10; auto.
Qed.

Lemma cond_default arch q ps : callable_all vs -> scales_ok vs -> natural vs ps q ->
  let d := mkSD (mkRF vs f q0) (mkRF leafs fl ql) (roots_field roots fr qr) arch None q in
  exists p vals, sd_call d values NoIid r = Ok (p, vals) /\ held vals /\
    valid_pd p L /\ key_ordered p L /\ od_keys (p_marg p) = names_of leafs /\ od_keys (p_cond p) = names_of roots /\ p_pscale p = q /\
    (forall k, In k names -> variable p k = Some (var_of (to_value (A k)))) /\
    (forall k, In k L -> od_get (p_marg p ++ p_cond p) k = Some (fname k (x k))) /\
    (forall s, in_bounds p L s ->
      (existsb iscomplex (map scale_of vs) = true -> forall v, In v vs -> log_kind (scale_of v) = false -> (npz <= at_ values A s v)%R) ->
      prob_at p L s = Rprod (map (at_ values A s) vs)) /\
    forall iid, iid <> [] -> (forall i, iid_keys d i = iid -> sd_call d values i r = (let! p' := pd_prod p iid in Ok (p', vals))).
Proof.
  intros CAa SCa NT d. assert (VNE : vs <> []) by (unfold vs; intros C; apply app_eq_nil in C; destruct C; contradiction). pose proof (po_all _ _ _ _ _ _ _ _ PO) as (Kf & Vf & _). pose proof NT as (_ & _ & EQ & _).
  apply (cond_gen arch None q
    (fun s => existsb iscomplex (map scale_of vs) = true -> forall v, In v vs -> log_kind (scale_of v) = false -> (npz <= at_ values A s v)%R)
    (fun s => Rprod (map (at_ values A s) vs)) EQ).
  intros vals dims NK IK HV. unfold sd_eval_prob. cbn [sd_prob sd_rf rf_all rf_fld sd_pscale].
  destruct (joint_prob vs values x aa r A VNE NA INv HE CAa SCa f q ps vals Vf Kf NT NK IK HV) as (t & E2 & ST & PT).
  exists t. split; [exact E2|]. split; [exact ST|]. intros s B OKs. exact (PT s B OKs).
Qed.

(** *** The roots called with the values of the conditional variables *)
Hypothesis NR : roots <> [].
Hypothesis CA : forall v, In v roots -> callable v.
Hypothesis SC : scales_ok roots.
Hypothesis VN : forall v, In v roots -> vs_vset (rv_state v) <> None.

Let Lr := filter (needs_axis values) (names_of roots).

Lemma root_in k : In k (names_of roots) -> In k names.
Proof. intros I. unfold names, vs, names_of. rewrite map_app. apply in_or_app. right. exact I. Qed.

Lemma nodup_roots : NoDup (names_of roots).
Proof.
  assert (ND : NoDup names) by apply NA. unfold names, vs, names_of in ND. rewrite map_app in ND. apply nodup_app_iff in ND. apply ND.
Qed.

Lemma roots_called p L' vals : valid_pd p L' -> od_keys (p_cond p) = names_of roots ->
  (forall k, In k (names_of roots) -> variable p k = Some (var_of (to_value (A k)))) -> held vals ->
  exists found given w own, pd_parts p "cond" = Ok found /\ map_res (as_given vals) found = Ok given /\
    rf_call (mkRF roots fr qr) given r' = Ok w /\ length own = length roots /\
    valid_pd w Lr /\ od_keys (p_marg w) = names_of roots /\ p_cond w = [] /\ (exists ps, natural roots ps (p_pscale w)) /\
    (forall k, In k (names_of roots) -> variable w k = Some (var_of (to_value (A k)))) /\
    (forall k, In k Lr -> od_get (p_marg w) k = Some (k ++ "=[]")%string) /\
    (forall i v, nth_error roots i = Some v -> exists q, nth_error own i = Some q /\
       rv_call v (given_as (A (rv_name v))) (r' i) = Ok q /\ valid_pd q (filter (needs_axis values) [rv_name v]) /\
       variable p (rv_name v) = variable q (rv_name v)) /\
    forall s, in_bounds w Lr s -> floored values roots own s -> prob_at w Lr s = joint_of values roots own s.
Proof.
  intros V CK HVar HH.
  assert (NRN : names_of roots <> []) by (unfold names_of; intros C; apply map_eq_nil in C; congruence).
  destruct (parts_ok p L' "cond" (names_of roots) V) as (fnd & E1 & NDf & IF_ & HF); [right; auto|exact NRN|].
  set (given := map (fun kf : string * found R => (fst kf, One (flat (A (fst kf))))) fnd).
  assert (EG : map_res (as_given vals) fnd = Ok given).
  { apply map_res_all. intros [k fd] I. cbn [fst].
    assert (Ik : In k (names_of roots)) by (apply IF_; apply in_map_iff; exists (k, fd); auto).
    destruct (HF k Ik) as (v & Gv & Vv & _). apply od_in_get in I; [|exact NDf]. assert (fd = Single v) by congruence. subst fd.
    destruct (HH k (root_in k Ik)) as (a & Ga & TL & Q).
    assert (FL : flat a = flat (A k)).
    { destruct Q as [(_ & -> & _)|(IL & SA & _)]; [reflexivity|]. unfold flat.
      pose proof IL as IL'. apply (L_in vs values x aa r A HE) in IL'. destruct IL' as [_ D].
      destruct (A_shape vs values x aa r A HE k (root_in k Ik)) as [[C _]|(_ & _ & SAk & _)]; [congruence|].
      rewrite SA, SAk. destruct (mask sz [k] L) eqn:EM; [|rewrite TL; reflexivity].
      exfalso. unfold mask in EM. apply map_eq_nil in EM. fold vs in IL. fold names in IL. fold L in IL. rewrite EM in IL. destruct IL. }
    unfold as_given. cbn [snd fst].
    assert (NV : forall n, v <> Distr.VSet [SEint n]).
    { intros n ->. rewrite HVar in Vv by exact Ik. injection Vv as Vv. unfold to_value in Vv. destruct (shape (A k)) eqn:SAk; cbn in Vv; [discriminate|]. rewrite SAk in Vv. discriminate. }
    assert (GA : od_getR vals k = Ok a) by (apply od_getR_ok; exact Ga). rewrite GA. cbn [bind]. rewrite FL.
    destruct v as [y|s|l|b|]; try reflexivity. destruct l as [|[z| | | |] [|? ?]]; try reflexivity. destruct (NV z eq_refl). }
  assert (KG : od_keys given = od_keys fnd) by (unfold given, od_keys; rewrite map_map; reflexivity).
  assert (GG : forall k, In k (names_of roots) -> od_get given k = Some (One (flat (A k)))).
  { intros k Ik. apply od_in_get; [rewrite KG; exact NDf|]. apply IF_ in Ik. apply in_map_iff in Ik. destruct Ik as ([k' fd] & Ek & I).
    cbn in Ek. subst k'. unfold given. apply in_map_iff. exists (k, fd). auto. }
  assert (NX : forall k, In k (names_of roots) -> needs_axis given k = needs_axis values k).
  { intros k Ik. unfold needs_axis at 1. rewrite GG by exact Ik. rewrite (needs_one vs values x aa r A HE) by (apply root_in; exact Ik). f_equal.
    destruct (A_shape vs values x aa r A HE k (root_in k Ik)) as [[D S]|(D & _ & S & _)]; unfold flat; rewrite S, D; reflexivity. }
  set (kn i := nth i (names_of roots) ""%string).
  assert (KN : forall i v, nth_error roots i = Some v -> kn i = rv_name v).
  { intros i v Iv. unfold kn, names_of. apply nth_error_nth. rewrite nth_error_map, Iv. reflexivity. }
  assert (HE2 : forall i v, nth_error roots i = Some v -> evaluates v given (flat (A (kn i))) (given_as (A (kn i))) (r' i) (again (A (kn i)))).
  { intros i v Iv. rewrite (KN i v Iv). pose proof (nth_error_In _ _ Iv) as INr.
    assert (Ik : In (rv_name v) (names_of roots)) by (apply in_map; exact INr).
    split; [apply GG; exact Ik|]. pose proof (VN v INr) as Vv. destruct (vs_vset (rv_state v)) as [l|] eqn:EVs; [|congruence].
    assert (RE : forall xs b, rv_evaluate v (VGiven xs b) (r' i) = let! o := evaluate (rv_state v) None (VGiven xs b) (r' i) in Ok (out_tensor o)).
    { intros xs b. unfold rv_evaluate. destruct (is_bool (rv_state v)); destruct (rv_prob v); reflexivity. }
    destruct (A_shape vs values x aa r A HE (rv_name v) (root_in _ Ik)) as [[D S]|(D & _ & S & P)].
    - unfold flat, given_as, again. rewrite S, (to_list_nil _ S). split; [constructor|]. split; [|left; split; reflexivity].
      rewrite RE. unfold evaluate. rewrite EVs. reflexivity.
    - unfold flat, given_as, again. rewrite S. split; [constructor|]. split.
      + rewrite RE. unfold evaluate. rewrite EVs. reflexivity.
      + right. split; [reflexivity|]. exists (length (to_list (A (rv_name v)))). split; [rewrite to_list_length; exact P|reflexivity]. }
  assert (NAr : named_apart (names_of roots)).
  { split; [exact nodup_roots|]. intros k Ik. apply NA, root_in, Ik. }
  destruct (joint_all roots given (fun i => flat (A (kn i))) (fun i => given_as (A (kn i))) r' (fun i => again (A (kn i))) PR NR NAr SC CA)
    with (suf := ""%string) as (g & w & own & EG1 & _ & EC & LO & VW & MW & CW & OW & (NT & VV & EN) & PW).
  { rewrite KG. exact NDf. }
  { rewrite KG. intros k Ik. apply IF_. exact Ik. }
  { exact HE2. }
  { rewrite map_app_empty. exact NAr. }
  { left. reflexivity. }
  rewrite map_app_empty in VW, MW, PW.
  assert (ELr : filter (needs_axis given) (names_of roots) = Lr) by (apply filter_ext_in; exact NX). rewrite ELr in VW, PW, EN.
  assert (KP : forall k, In k (names_of roots) -> kn (pos k (names_of roots)) = k).
  { intros k Ik. unfold kn. apply nth_error_nth. apply pos_nth. exact Ik. }
  assert (Gg : g = mkRF roots fr qr). { destruct (po_roots _ _ _ _ _ _ _ _ PO NR) as (E & _). congruence. }
  assert (NX1 : forall v, In v roots -> filter (needs_axis given) [rv_name v] = filter (needs_axis values) [rv_name v]).
  { intros v Iv. cbn [filter]. rewrite NX by (apply in_map; exact Iv). reflexivity. }
  exists fnd, given, w, own. split; [exact E1|]. split; [exact EG|]. split; [rewrite <- Gg; apply EC; reflexivity|]. split; [exact LO|].
  split; [exact VW|]. split; [exact MW|]. split; [exact CW|]. split; [exact NT|].
  assert (VW' : forall k, In k (names_of roots) -> variable w k = Some (var_of (to_value (A k)))).
  { intros k Ik. specialize (VV k Ik). rewrite app_empty in VV. rewrite VV. rewrite KP by exact Ik. f_equal. apply again_var.
    destruct (A_shape vs values x aa r A HE k (root_in k Ik)) as [[_ S]|(_ & _ & S & _)]; eauto. }
  split; [exact VW'|]. split.
  { intros k Ik. pose proof Ik as Ik'. apply filter_In in Ik'. destruct Ik' as [Ik' Nk]. specialize (EN k Ik). rewrite app_empty, KP in EN by exact Ik'. rewrite EN. f_equal.
    destruct (A_shape vs values x aa r A HE k (root_in k Ik')) as [[D S]|(D & _ & S & _)].
    - rewrite (needs_one vs values x aa r A HE), D in Nk by (apply root_in; exact Ik'). discriminate.
    - unfold flat. rewrite S. reflexivity. }
  split.
  { intros i v Iv. pose proof (nth_error_In _ _ Iv) as INr. destruct (OW i v Iv) as (q & J1 & J2 & J3 & J4). exists q. split; [exact J1|].
    rewrite (KN i v Iv) in J2. split; [exact J2|]. rewrite NX1 in J3 by exact INr. split; [exact J3|]. rewrite app_empty in J4. rewrite <- J4.
    rewrite HVar, VW' by (apply in_map; exact INr). reflexivity. }
  intros s IB FL. rewrite (PW s).
  - apply joint_values; [|exact NX1]. intros k. rewrite app_empty. reflexivity.
  - exact IB.
  - apply (floored_values given values roots own _ s); [|exact NX1|exact FL]. intros k. rewrite app_empty. reflexivity.
Qed.

(** *** The product *)
Lemma joint_from p L' vals : valid_pd p L' -> od_keys (p_marg p) = names_of leafs -> od_keys (p_cond p) = names_of roots ->
  (forall k, In k (names_of roots) -> variable p k = Some (var_of (to_value (A k)))) -> held vals ->
  (forall k, In k (names_of roots) -> x k <> FNone) ->
  (forall k, In k Lr -> od_get (p_marg p ++ p_cond p) k = Some (fname k (x k))) ->
  scales_agree roots (p_pscale p) ->
  exists fnd given w own jp Lj, pd_parts p "cond" = Ok fnd /\ map_res (as_given vals) fnd = Ok given /\
    rf_call (mkRF roots fr qr) given r' = Ok w /\ product [w; p] PSNone = Ok (Some jp) /\ length own = length roots /\
    (forall i v, nth_error roots i = Some v -> exists q, nth_error own i = Some q /\
       rv_call v (given_as (A (rv_name v))) (r' i) = Ok q /\ valid_pd q (filter (needs_axis values) [rv_name v]) /\
       variable p (rv_name v) = variable q (rv_name v)) /\
    valid_pd jp Lj /\ od_keys (p_marg jp) = names_of roots ++ names_of leafs /\ p_cond jp = [] /\
    (forall k, In k names -> variable jp k = variable p k) /\
    forall s, in_bounds jp Lj s -> floored values roots own s ->
      ((exists v, In v roots /\ log_kind (scale_of v) = true) -> log_kind (spec_of (p_pscale p)) = false -> (npz <= prob_at p L' s)%R) ->
      (log_kind (spec_of (p_pscale p)) = true -> (forall v, In v roots -> log_kind (scale_of v) = false) -> (npz <= joint_of values roots own s)%R) ->
      prob_at jp Lj s = (joint_of values roots own s * prob_at p L' s)%R.
Proof.
  intros V MK CK HVar HH XN EN SA.
  destruct (roots_called p L' vals V CK HVar HH) as (fnd & given & w & own & E1 & E2 & E3 & LO & VW & MW & CW & (ps & NT) & VV & EW & OW & PW).
  set (axes (q : pd R) := match p_cond q with [] => Lr | _ => L' end).
  assert (AW : axes w = Lr) by (unfold axes; rewrite CW; reflexivity).
  assert (NC : p_cond p <> []). { intros C. rewrite C in CK. cbn in CK. symmetry in CK. unfold names_of in CK. apply map_eq_nil in CK. exact (NR CK). }
  assert (AP : axes p = L') by (unfold axes; destruct (p_cond p); [congruence|reflexivity]).
  assert (NN : NoDup names) by apply NA. 
  assert (SPL : names = names_of leafs ++ names_of roots) by (unfold names, vs, names_of; apply map_app).
  assert (NDJ : forall k, In k (names_of leafs) -> ~ In k (names_of roots)).
  { rewrite SPL in NN. apply nodup_app_iff in NN. destruct NN as (_ & _ & D). intros k I1 I2. exact (D k I1 I2). }
  assert (KW : forall k, In k (p_keylist w) <-> In k (names_of roots)).
  { intros k. rewrite (vp_key_iff w Lr VW), MW, CW. cbn. tauto. }
  assert (KP : forall k, In k (p_keylist p) <-> In k names).
  { intros k. rewrite (vp_key_iff p L' V), MK, CK, SPL, in_app_iff. tauto. }
  assert (MG : marginals [w; p] = names_of roots ++ names_of leafs) by (unfold marginals; cbn [flat_map]; rewrite MW, MK, app_nil_r; reflexivity).
  assert (UB : forall q k, In q [w; p] -> ~ unbound [w; p] q k).
  { intros q k Iq [C1 C2]. rewrite MG in C2. destruct Iq as [<-|[<-|[]]]; [rewrite CW in C1; destruct C1|]. apply C2. rewrite CK in C1. apply in_or_app. left. exact C1. }
  assert (SCW : scales_agree roots (p_pscale p) -> (forall q, In q [w; p] -> linear_scale (spec_of (p_pscale q))) \/ (forall q, In q [w; p] -> plain_scale (spec_of (p_pscale q)))).
  { intros [[S1 S2]|[S1 S2]]; [left|right]; intros q [<-|[<-|[]]]; auto.
    - exact (natural_linear _ _ _ NT S1).
    - exact (natural_plain _ _ _ NR NT S1). }
  assert (MU : multipliable [w; p] axes).
  { constructor.
    - intros q [<-|[<-|[]]]; [rewrite AW; exact VW|rewrite AP; exact V].
    - right. split; [cbn; lia|]. intros q [<-|[<-|[]]] C.
      + rewrite C in MW. cbn in MW. symmetry in MW. unfold names_of in MW. apply map_eq_nil in MW. congruence.
      + rewrite C in MK. cbn in MK. symmetry in MK. unfold names_of in MK. apply map_eq_nil in MK. congruence.
    - intros l1 q1 l2 q2 l3 k E (z & C).
      assert (q1 = w /\ q2 = p) as [-> ->].
      { destruct l1 as [|? [|? l1]]; cbn in E.
        - injection E as <- E. destruct l2 as [|? [|? ?]]; cbn in E; try discriminate. injection E as <- E. auto.
        - injection E as <- <- E. destruct l2; discriminate.
        - injection E as _ _ E. destruct l1; discriminate. }
      exfalso. assert (Ik : In k (names_of roots)).
      { apply KW. apply od_get_some_key in C. exact C. }
      specialize (VV k Ik). unfold variable in VV. rewrite C in VV. cbn in VV. injection VV as VV. unfold to_value in VV. destruct (shape (A k)) eqn:SAk; cbn in VV; [discriminate|]. rewrite SAk in VV. discriminate.
    - assert (G : forall k, In k Lr -> entry w k = entry p k).
      { intros k Ik. unfold entry. rewrite CW, app_nil_r, EW, EN by exact Ik. f_equal. apply filter_In in Ik. destruct Ik as [Ik Nk].
        specialize (XN k Ik). rewrite (needs_one vs values x aa r A HE) in Nk by (apply root_in; exact Ik).
        destruct (x k); try reflexivity; try congruence; discriminate. }
      intros q1 q2 k [<-|[<-|[]]] [<-|[<-|[]]] I1 I2; rewrite ?AW, ?AP in *; auto. symmetry. apply G. assumption.
    - assert (G : forall k, In k (p_keylist w) -> variable w k = variable p k).
      { intros k Ik. apply KW in Ik. rewrite VV, HVar by exact Ik. reflexivity. }
      intros q1 q2 k [<-|[<-|[]]] [<-|[<-|[]]] I1 I2; auto. symmetry; auto.
    - rewrite MG. rewrite SPL in NN. eapply Permutation_NoDup; [apply Permutation_app_comm|exact NN].
    - intros q1 q2 k k' I1 _ U. destruct (UB _ _ I1 U).
    - intros l1 q1 l2 q2 l3 k E U. exfalso. apply (UB q1 k); [|exact U]. rewrite E. apply in_or_app. right. left. reflexivity.
    - exact (SCW SA). }
  destruct (product_multipliable [w; p] axes MU) as (jp & Lj & EJ & VJ & _ & MJ & CJ & VVJ & _ & _ & _ & _ & PJ).
  exists fnd, given, w, own, jp, Lj. split; [exact E1|]. split; [exact E2|]. split; [exact E3|]. split; [exact EJ|]. split; [exact LO|]. split; [exact OW|].
  split; [exact VJ|]. split; [rewrite MJ; exact MG|].
  assert (CNJ : p_cond jp = []).
  { destruct (p_cond jp) as [|[k e] l] eqn:C; [reflexivity|]. exfalso. destruct (CJ k) as [J _]. destruct J as [J1 J2]; [left; reflexivity|].
    apply J2. rewrite MG. apply in_or_app. left. unfold conditionals in J1. cbn [flat_map] in J1. rewrite CW, CK, app_nil_r in J1. exact J1. }
  split; [exact CNJ|]. assert (VJP : forall k, In k names -> variable jp k = variable p k).
  { intros k Ik. apply VVJ; [right; left; reflexivity|]. apply KP. exact Ik. }
  split; [exact VJP|].
  intros s IB FL LS1 LS2.
  assert (IBW : in_bounds w Lr s).
  { intros k Ik. pose proof Ik as Ik'. apply filter_In in Ik'. destruct Ik' as [Ik' Nk].
    assert (SZ : size_of w k = size_of jp k) by (unfold size_of; rewrite VJP by (apply root_in; exact Ik'); rewrite HVar, VV by exact Ik'; reflexivity).
    rewrite SZ. apply IB. rewrite (needs_one vs values x aa r A HE) in Nk by (apply root_in; exact Ik').
    destruct (A_shape vs values x aa r A HE k (root_in k Ik')) as [[D _]|(_ & _ & S & _)]; [rewrite D in Nk; discriminate|].
    eapply column_axis; [exact VJ|]. rewrite VJP by (apply root_in; exact Ik'). rewrite HVar by exact Ik'. unfold to_value. rewrite S. cbn. rewrite S. reflexivity. }
  pose proof (PW s IBW FL) as PWs.
  rewrite PJ; [cbn [map Rprod fold_right]; rewrite AW, AP, PWs; unfold Rprod; cbn; ring|exact IB|].
  intros (q0' & Iq0 & LQ) q Iq NLq. destruct NT as (_ & _ & _ & _ & _ & P6). unfold log_scaled in *. destruct Iq as [<-|[<-|[]]]; rewrite ?AW, ?AP.
  - rewrite PWs. apply LS2; [destruct Iq0 as [<-|[<-|[]]]; [contradiction|exact LQ]|]. intros v Iv. apply not_true_is_false. intros C. apply NLq. rewrite P6.
    apply existsb_exists. exists (scale_of v). split; [apply in_map; exact Iv|exact C].
  - apply LS1; [|apply not_true_is_false; exact NLq]. destruct Iq0 as [<-|[<-|[]]]; [|contradiction]. rewrite P6 in LQ. apply existsb_exists in LQ.
    destruct LQ as (sc & Is & C). apply in_map_iff in Is. destruct Is as (v & <- & Iv). exists v. auto.
Qed.
End Conditional.
