(** Fields whose probability is a multivariate distribution. *)
From Coq Require Import String Ascii ZArith Reals Lra Bool Arith Lia Permutation List.
From Verif Require Import Base Num Tensor TensorLemmas TensorBcast OdLemmas RNumLemmas PScales PScales_Spec
  PScales_Proofs PScales_Prod Names Names_Spec Distr PDModel PDUtils PD_Spec PD_Simple_Spec PD_Sums PD_Align PD_Make PD_Valid
  VariableModel Var_Spec Var_Proofs RVModel FieldModel Field_Spec Field_Proofs Field_Dims RFModel RF_Spec RF_Proofs RF_Joint SDModel SD_Spec
  SD_Proofs SD_Joint SD_Thm MVModel MV_Spec.
Import ListNotations.
Local Open Scope list_scope.

(** *** Lists *)
Lemma swap2_map {A B} (g : A -> B) l : swap2 (map g l) = map g (swap2 l).
Proof. destruct l as [|x [|y l]]; reflexivity. Qed.
Lemma swap2_swap2 {A} (l : list A) : swap2 (swap2 l) = l.
Proof. destruct l as [|x [|y l]]; reflexivity. Qed.
Lemma swap2_perm {A} (l : list A) : Permutation (swap2 l) l.
Proof. destruct l as [|x [|y l]]; try apply Permutation_refl. apply perm_swap. Qed.
Lemma mv_order_map {A B} (g : A -> B) l : mv_order (map g l) = map g (mv_order l).
Proof.
  unfold mv_order. rewrite <- map_rev, map_length. destruct (2 <? length (rev l)); [|reflexivity].
  destruct (rev l) as [|x r]; [reflexivity|]. cbn [map tl firstn]. rewrite map_app. reflexivity.
Qed.
Lemma mv_order_perm {A} (l : list A) : Permutation (mv_order l) l.
Proof.
  unfold mv_order. apply Permutation_trans with (rev l); [|apply Permutation_sym, Permutation_rev].
  destruct (2 <? length (rev l)); [|apply Permutation_refl]. destruct (rev l) as [|x r]; [apply Permutation_refl|].
  cbn [tl firstn]. apply Permutation_sym, Permutation_cons_append.
Qed.
Lemma mv_order_length {A} (l : list A) : length (mv_order l) = length l.
Proof. apply Permutation_length, mv_order_perm. Qed.

Section Grid.
Variables (sz : string -> nat) (V : string -> list R).
Hypothesis VS : forall k, length (V k) = sz k.
Let multi (k : string) : bool := negb (sz k =? 1).

Lemma squeezed ks : filter (fun n => negb (n =? 1)) (map sz ks) = map sz (filter multi ks).
Proof. unfold multi. induction ks as [|k ks IH]; [reflexivity|]. cbn [map filter]. destruct (negb (sz k =? 1)); cbn [map]; rewrite IH; reflexivity. Qed.

Lemma unsqueezed s ks : unsqueeze (map sz ks) (map s (filter multi ks)) = map (fun k => if sz k =? 1 then 0 else s k) ks.
Proof.
  unfold multi. induction ks as [|k ks IH]; [reflexivity|]. cbn [map filter unsqueeze]. destruct (sz k =? 1); cbn [negb map hd tl]; rewrite IH; reflexivity.
Qed.

Lemma mesh_map s ks : mesh_at (map V ks) (map s (swap2 ks)) = map (fun k => nth (s k) (V k) 0%R) ks.
Proof.
  unfold mesh_at. rewrite swap2_map, swap2_swap2. rewrite n0_R. induction ks as [|k ks IH]; [reflexivity|]. cbn [map combine fst snd]. rewrite IH. reflexivity.
Qed.

Lemma grid_ok f ks : exists t, mv_grid f (length ks) (mv_order (map V ks)) = Ok t /\
  shape t = map sz (filter multi (swap2 (mv_order ks))) /\
  forall s, get t (map s (filter multi (swap2 (mv_order ks)))) = f (map (fun k => nth (if sz k =? 1 then 0 else s k) (V k) 0%R) (mv_order ks)).
Proof.
  rewrite mv_order_map. unfold mv_grid. rewrite map_length, mv_order_length, Nat.eqb_refl. eexists. split; [reflexivity|].
  assert (E : swap2 (map (@length R) (map V (mv_order ks))) = map sz (swap2 (mv_order ks))).
  { rewrite map_map, swap2_map. apply map_ext. exact VS. }
  unfold squeeze. cbn [shape get]. rewrite E. split; [apply squeezed|]. intros s. rewrite unsqueezed. f_equal.
  rewrite (mesh_map (fun k => if sz k =? 1 then 0 else s k)). reflexivity.
Qed.
End Grid.

Lemma od_vals_keys {A} (d : odict A) (g : string -> A) : NoDup (od_keys d) -> (forall k, In k (od_keys d) -> od_get d k = Some (g k)) ->
  od_vals d = map g (od_keys d).
Proof.
  intros ND H. unfold od_vals, od_keys. rewrite map_map. apply map_ext_in. intros [k v] I. cbn [fst snd].
  assert (E : od_get d k = Some v) by (apply od_in_get; assumption). rewrite H in E; [congruence|]. apply in_map_iff. exists (k, v). auto.
Qed.

(** The shape that passes the checks is the only one. *)
Lemma shape_checked (d' : dist R) (t t0 : tensor R) : check_prob d' (Some t0) = Ok tt -> shape t <> shape t0 -> check_prob d' (Some t) = Err AssertionError.
Proof.
  intros CT ST. unfold check_prob in CT |- *. assert (EN : forall u : tensor R, (ndim u =? 0) = true -> shape u = []).
  { intros u H. apply Nat.eqb_eq in H. unfold ndim in H. destruct (shape u); [reflexivity|discriminate]. }
  destruct (d_issing d') as [[]|].
  { destruct (ndim t0 =? 0) eqn:N0; [|discriminate]. destruct (ndim t =? 0) eqn:N1; [|reflexivity]. exfalso. apply ST. rewrite (EN t N1), (EN t0 N0). reflexivity. }
  all: destruct (ndim t0 =? 0); [discriminate|]; cbn [negb assert_ bind] in CT; destruct (d_ndim d') as [nd|]; [|discriminate];
    destruct (nd =? ndim t0) eqn:ND1; [|discriminate]; cbn [assert_ bind] in CT;
    destruct (list_eqb Nat.eqb (d_shape d') (shape t0)) eqn:LE; [|discriminate];
    destruct (ndim t =? 0); [reflexivity|]; cbn [negb assert_ bind]; destruct (nd =? ndim t); [|reflexivity]; cbn [assert_ bind];
    destruct (list_eqb Nat.eqb (d_shape d') (shape t)) eqn:LE2; [|reflexivity]; exfalso; apply ST;
    apply list_eqb_nat in LE; apply list_eqb_nat in LE2; congruence.
Qed.

(** *** The call *)
Section Call.
Context {F : Fmt R} {TR : Trunc R}.
Variables (leafs roots : list (rv R)) (values : odict (fentry R)).
Variables (x : string -> fval R) (aa : string -> values_in R) (r : nat -> rnd R) (A : string -> tensor (pyval R)).
Let vs := leafs ++ roots.
Hypothesis PR : printable F.
Hypothesis NL : leafs <> [].
Hypothesis NA : named_apart (names_of vs).
Hypothesis NDv : NoDup (od_keys values).
Hypothesis INv : incl (od_keys values) (names_of vs).
Hypothesis HE : forall i v, nth_error vs i = Some v ->
  evaluates v values (x (rv_name v)) (aa (rv_name v)) (r i) (A (rv_name v)).
Variables (f fl fr : field R) (q0 ql qr : pscale R).
Hypothesis PO : parts_of leafs roots f fl fr q0 ql qr.

Let names := names_of vs.
Let L := filter (needs_axis values) names.
Let sz (k : string) : nat := tsize (A k).
Let multi (k : string) : bool := negb (sz k =? 1).
Let val s k := num (get (A k) (map s (filter (needs_axis values) [k]))).

Lemma A_nth s k : In k names -> (In k L -> s k < sz k) ->
  nth (if sz k =? 1 then 0 else s k) (map (@as_num R _) (to_list (A k))) 0%R = val s k.
Proof.
  intros I B. unfold val. destruct (A_shape vs values x aa r A HE k I) as [(D & S)|(D & IL & S & P)].
  - assert (NI : ~ In k L). { intros C. apply (L_in vs values x aa r A HE) in C. destruct C as [_ C]. congruence. }
    assert (E : filter (needs_axis values) [k] = []).
    { cbn [filter]. destruct (needs_axis values k) eqn:E; [|reflexivity]. exfalso. apply NI. apply filter_In. auto. }
    rewrite E. assert (Z1 : sz k = 1) by (unfold sz, tsize; rewrite S; reflexivity). rewrite Z1. cbn [Nat.eqb].
    rewrite (to_list_nil _ S). cbn [map nth]. apply as_num_num.
  - assert (E : filter (needs_axis values) [k] = [k]).
    { cbn [filter]. apply filter_In in IL. destruct IL as [_ ->]. reflexivity. }
    rewrite E. cbn [map]. specialize (B IL).
    assert (SK : (if sz k =? 1 then 0 else s k) = s k).
    { destruct (sz k =? 1) eqn:E1; [|reflexivity]. apply Nat.eqb_eq in E1. lia. }
    rewrite SK. rewrite <- as_num_num.
    rewrite nth_indep with (d' := as_num (get (A k) [s k])) by (rewrite map_length, to_list_length; exact B).
    rewrite map_nth. f_equal.
    rewrite <- (to_list_get (A k) (idx := [s k]) (get (A k) [s k])) at 2.
    + f_equal. rewrite S. cbn. lia.
    + rewrite S. constructor; [exact B|constructor].
Qed.

(** A probability function that returns another shape is refused. *)
Lemma shape_refused fn arch q : eval_pscale (spec_of q) = Ok q ->
  (forall vals dims, f_evaluate_by (rf_ev vs r) f values 0 = Ok (vals, dims) -> NoDup (od_keys vals) -> (forall k, In k (od_keys vals) <-> In k names) ->
    (forall k, In k names -> exists a, od_get vals k = Some a /\ to_list a = to_list (A k) /\
      (dimensionless (x k) = true /\ a = A k /\ shape a = [] \/ In k L /\ shape a = mask sz [k] L /\ 0 < sz k)) ->
    exists t, fn vals dims = Ok t /\ shape t <> map sz L) ->
  sd_call (mkSD (mkRF vs f q0) (mkRF leafs fl ql) (roots_field roots fr qr) arch (Some fn) q) values NoIid r = Err AssertionError.
Proof.
  intros EQ HF. set (d := mkSD (mkRF vs f q0) (mkRF leafs fl ql) (roots_field roots fr qr) arch (Some fn) q).
  pose proof (po_all _ _ _ _ _ _ _ _ PO) as (Kf & Vf & _).
  destruct (sd_call_ok leafs roots values x aa r A PR NL NA NDv INv HE f fl fr q0 ql qr PO arch (Some (fun _ _ => Ok (mkT (map sz L) (fun _ => 0%R)))) q EQ)
    as (vals & dims & E0 & E1 & NK & IK & LK & HV & _ & _ & _ & MK). fold vs in E1.
  destruct (HF vals dims E1 NK IK HV) as (t & EF & ST).
  assert (SE : seteq_str (od_keys vals) (fd_keys f) = true) by (apply seteq_str_iff; rewrite Kf; split; intros k; apply IK).
  assert (ET : sd_eval_prob d vals dims = Ok t).
  { unfold sd_eval_prob, d. cbn [sd_prob sd_rf rf_fld]. rewrite SE. exact EF. }
  assert (CALL : sd_call d values NoIid r = (let! p := make_pd (sd_dist_name d values) (out_vals vals) (Some (out_dims dims)) (Some t) (spec_of q) in Ok (p, vals))).
  { unfold sd_call. unfold d at 1. cbn [sd_rf rf_fld]. rewrite E0. cbn [bind]. change (rf_all (sd_rf d)) with vs. change (rf_fld (sd_rf d)) with f. rewrite E1. cbn [bind].
    rewrite ET. cbn [bind].
    unfold eval_iid. cbn [iid_keys bind]. change (sd_pscale d) with q. destruct (make_pd _ _ _ _ _); reflexivity. }
  rewrite CALL. destruct (MK (mkT (map sz L) (fun _ => 0%R))) as (p & P1 & _).
  { unfold sd_eval_prob. cbn [sd_prob sd_rf rf_fld]. rewrite SE. reflexivity. }
  { reflexivity. }
  change (sd_dist_name _ values) with (sd_dist_name d values) in P1.
  unfold make_pd in P1 |- *. destruct (str_margcond _) as [[m0 c0]|]; [|discriminate]. cbn [bind] in P1 |- *.
  destruct (make_dist _ _ _) as [dd|]; [|discriminate]. cbn [bind] in P1 |- *.
  destruct (override_names _ _) as [[m1 c1]|]; [|discriminate]. cbn [bind] in P1 |- *.
  destruct (eval_pscale (spec_of q)) as [q1|]; [|discriminate]. cbn [bind] in P1 |- *.
  match goal with |- context[check_prob ?dd' _] => set (d' := dd') in * end.
  assert (CT : check_prob d' (Some (mkT (map sz L) (fun _ => 0%R))) = Ok tt).
  { destruct (check_prob d' _) as [[]|]; [reflexivity|discriminate]. }
  assert (check_prob d' (Some t) = Err AssertionError) as ->; [|reflexivity].
  apply shape_checked with (1 := CT). exact ST.
Qed.

Lemma accepted fn arch q p vals : eval_pscale (spec_of q) = Ok q ->
  sd_call (mkSD (mkRF vs f q0) (mkRF leafs fl ql) (roots_field roots fr qr) arch (Some fn) q) values NoIid r = Ok (p, vals) ->
  exists dims t, fn vals dims = Ok t /\ shape t = map sz L /\ p_prob p = Some t /\ valid_pd p L /\
    od_keys (p_marg p) = names_of leafs /\ od_keys (p_cond p) = names_of roots /\ p_pscale p = q /\
    (forall k, In k names -> variable p k = Some (var_of (to_value (A k)))).
Proof.
  intros EQ. set (d := mkSD (mkRF vs f q0) (mkRF leafs fl ql) (roots_field roots fr qr) arch (Some fn) q). intros EC.
  pose proof (po_all _ _ _ _ _ _ _ _ PO) as (Kf & Vf & _).
  destruct (sd_call_ok leafs roots values x aa r A PR NL NA NDv INv HE f fl fr q0 ql qr PO arch (Some fn) q EQ)
    as (vals' & dims & E0 & E1 & NK & IK & LK & HV & _ & _ & _ & MK). fold vs in E1.
  assert (SE : seteq_str (od_keys vals') (fd_keys f) = true) by (apply seteq_str_iff; rewrite Kf; split; intros k; apply IK).
  assert (ET : sd_eval_prob d vals' dims = fn vals' dims).
  { unfold sd_eval_prob, d. cbn [sd_prob sd_rf rf_fld]. rewrite SE. reflexivity. }
  assert (CALL : sd_call d values NoIid r = (let! t := fn vals' dims in let! p := make_pd (sd_dist_name d values) (out_vals vals') (Some (out_dims dims)) (Some t) (spec_of q) in Ok (p, vals'))).
  { unfold sd_call. unfold d at 1. cbn [sd_rf rf_fld]. rewrite E0. cbn [bind]. change (rf_all (sd_rf d)) with vs. change (rf_fld (sd_rf d)) with f. rewrite E1. cbn [bind].
    rewrite ET. destruct (fn vals' dims) as [t|]; [|reflexivity]. cbn [bind].
    unfold eval_iid. cbn [iid_keys bind]. change (sd_pscale d) with q. destruct (make_pd _ _ _ _ _); reflexivity. }
  rewrite CALL in EC. destruct (fn vals' dims) as [t|] eqn:EF; [|discriminate]. cbn [bind] in EC.
  destruct (list_eq_dec Nat.eq_dec (shape t) (map sz L)) as [ST|ST].
  - destruct (MK t) as (p' & P1 & P2 & _ & P4 & P5 & P6 & P7 & P8 & _); [exact ET|exact ST|].
    change (sd_dist_name _ values) with (sd_dist_name d values) in P1. rewrite P1 in EC. cbn [bind] in EC. injection EC as <- <-.
    exists dims, t. repeat (split; [assumption|]). assumption.
  - exfalso. assert (RF : sd_call d values NoIid r = Err AssertionError).
    { apply shape_refused; [exact EQ|]. intros vals2 dims2 E2 _ _ _. rewrite E1 in E2. injection E2 as <- <-. eauto. }
    rewrite CALL in RF. cbn [bind] in RF. rewrite RF in EC. discriminate.
Qed.

Lemma mv_called m lg arch q : 2 <= length vs -> mv_dim m = length vs -> eval_pscale (spec_of q) = Ok q ->
  let d := mkSD (mkRF vs f q0) (mkRF leafs fl ql) (roots_field roots fr qr) arch (Some (mv_eval m lg)) q in
  exists vals dims t, f_evaluate_by (rf_ev vs r) f values 0 = Ok (vals, dims) /\
    NoDup (od_keys vals) /\ (forall k, In k (od_keys vals) <-> In k names) /\ (L = [] \/ od_keys vals = names) /\
    let o := mv_order (od_keys vals) in
    shape t = map sz (filter multi (swap2 o)) /\
    (forall s, (forall k, In k L -> s k < sz k) ->
      get t (map s (filter multi (swap2 o))) = (if lg then mv_logp m else mv_prob m) (map (val s) o)) /\
    (shape t = map sz L -> exists p, sd_call d values NoIid r = Ok (p, vals) /\ valid_pd p L /\
      od_keys (p_marg p) = names_of leafs /\ od_keys (p_cond p) = names_of roots /\ p_prob p = Some t /\ p_pscale p = q /\
      (forall k, In k names -> variable p k = Some (var_of (to_value (A k))))) /\
    (shape t <> map sz L -> sd_call d values NoIid r = Err AssertionError).
Proof.
  intros N2 DM EQ d. pose proof (po_all _ _ _ _ _ _ _ _ PO) as (Kf & Vf & _).
  destruct (sd_call_ok leafs roots values x aa r A PR NL NA NDv INv HE f fl fr q0 ql qr PO arch (Some (mv_eval m lg)) q EQ)
    as (vals & dims & E0 & E1 & NK & IK & LK & HV & _ & _ & _ & MK). fold vs in E1.
  set (V := fun k => map (@as_num R _) (to_list (A k))).
  assert (VL : forall k, length (V k) = sz k) by (intros k; unfold V; rewrite map_length, to_list_length; reflexivity).
  destruct (grid_ok sz V VL (if lg then mv_logp m else mv_prob m) (od_keys vals)) as (t & G1 & G2 & G3).
  exists vals, dims, t. split; [exact E1|]. split; [exact NK|]. split; [exact IK|]. split; [exact LK|].
  assert (LN : length (od_keys vals) = length vs).
  { rewrite <- (map_length (@rv_name R) vs). apply Permutation_length, NoDup_Permutation; [exact NK|apply NA|exact IK]. }
  assert (OV : map (fun a => map (@as_num R _) (to_list a)) (od_vals vals) = map V (od_keys vals)).
  { rewrite (od_vals_keys vals (fun k => match od_get vals k with Some a => a | None => A k end) NK).
    - rewrite map_map. apply map_ext_in. intros k I. apply IK in I. destruct (HV k I) as (a & -> & TL & _). unfold V. rewrite TL. reflexivity.
    - intros k I. apply IK in I. destruct (HV k I) as (a & Ga & _). rewrite Ga. reflexivity. }
  assert (ET : sd_eval_prob d vals dims = Ok t).
  { unfold sd_eval_prob, d. cbn [sd_prob sd_rf rf_fld]. assert (seteq_str (od_keys vals) (fd_keys f) = true) as ->.
    { apply seteq_str_iff. rewrite Kf. split; intros k; apply IK. }
    cbn [bind assert_]. unfold mv_eval. rewrite DM, <- LN. rewrite <- OV in G1.
    destruct (od_vals vals) as [|v1 [|v2 l]] eqn:EV; try exact G1.
    exfalso. assert (length (od_vals vals) = length (od_keys vals)) by (unfold od_vals, od_keys; rewrite !map_length; reflexivity).
    rewrite EV in H. cbn [length] in H. lia. }
  assert (CALL : sd_call d values NoIid r = (let! p := make_pd (sd_dist_name d values) (out_vals vals) (Some (out_dims dims)) (Some t) (spec_of q) in Ok (p, vals))).
  { unfold sd_call. unfold d at 1. cbn [sd_rf rf_fld]. rewrite E0. cbn [bind]. change (rf_all (sd_rf d)) with vs. change (rf_fld (sd_rf d)) with f. rewrite E1. cbn [bind].
    rewrite ET. cbn [bind]. unfold eval_iid. cbn [iid_keys bind]. change (sd_pscale d) with q. destruct (make_pd _ _ _ _ _); reflexivity. }
  split; [exact G2|]. split; [|split].
  - intros s B. fold multi in G3. rewrite G3. f_equal. apply map_ext_in. intros k I.
    apply A_nth; [|apply B]. apply IK. eapply Permutation_in; [apply mv_order_perm|exact I].
  - intros ST. destruct (MK t ET ST) as (p & P1 & P2 & _ & P4 & P5 & P6 & P7 & P8 & _). exists p. rewrite CALL.
    change (sd_dist_name _ values) with (sd_dist_name d values) in P1. rewrite P1. cbn [bind]. repeat (split; [first [reflexivity|assumption]|]). assumption.
  - intros ST. apply shape_refused; [exact EQ|]. intros vals' dims' E1' _ _ _. rewrite E1 in E1'. injection E1' as <- <-.
    exists t. split; [|exact ST]. unfold sd_eval_prob, d in ET. cbn [sd_prob] in ET. destruct (assert_ _); [exact ET|discriminate].
Qed.
End Call.
