(** What iid does for a probability function that has already multiplied the
    probabilities of its independent variables. *)
From Coq Require Import String Ascii ZArith Reals Lra Bool Arith Lia List.
From Verif Require Import Base Num Tensor TensorLemmas TensorBcast OdLemmas RNumLemmas PScales PScales_Spec Names Distr
  Distr_Spec Distr_Proofs PDModel PD_Spec PD_Sums PD_Align PDUtils Likelihoods VariableModel RVModel FieldModel Field_Spec
  RFModel RF_Spec RF_Proofs RF_Joint LookupModel SDModel SD_Spec SD_Proofs SD_Joint SD_Thm.
Import ListNotations.
Local Open Scope list_scope.

Lemma gap_dims {F : Fmt R} nm pv (dims : odict (option Z)) j k z prob ps r : NoDup (od_keys pv) -> pv <> [] ->
  (forall k', od_get dims k' <> Some (Some (Z.of_nat j))) -> od_get dims k = Some (Some z) -> (Z.of_nat j < z)%Z ->
  (forall k' z, od_get dims k' = Some (Some z) -> (0 <= z)%Z) ->
  make_pd nm pv (Some dims) prob ps <> Ok r.
Proof.
  intros ND NE NG Gz Lz NN H. unfold make_pd in H. destruct (str_margcond nm) as [[m c]|]; [|discriminate]. cbn [bind] in H.
  destruct (make_dist nm pv (Some dims)) as [d|] eqn:MD; [|discriminate].
  assert (NX : naxes dims (ndim_of_dims dims)) by (apply naxes_iff; reflexivity).
  destruct (proj1 (make_dist_iff nm pv dims _ ND NE NX) (ex_intro _ d MD)) as (_ & _ & D3).
  assert (LT : j < ndim_of_dims dims).
  { destruct NX as [NX _]. specialize (NX k z). assert (I : In (k, Some z) dims) by (apply od_get_in; exact Gz). apply NX in I. lia. }
  destruct (D3 _ LT) as (k' & a & _ & (d' & Gd & [[_ E]|[C _]] & _)).
  - apply (NG k'). rewrite Gd. do 2 f_equal. lia.
  - apply NN in Gd. lia.
Qed.

Definition iid_step (st : odict (value R) * odict (option nat)) (k : string) : result (odict (value R) * odict (option nat)) :=
  let! v := od_getR (fst st) k in
  let! n := len_value v in
  Ok (od_set (fst st) k (Distr.VSet [SEint (Z.of_nat n)]), od_set (snd st) k None).

Lemma iid_fold iid vals dims vals' dims' : fold_res iid_step iid (vals, dims) = Ok (vals', dims') -> NoDup (od_keys vals) ->
  od_keys vals' = od_keys vals /\
  (forall k, In k iid -> od_get dims' k = Some None) /\ (forall k, ~ In k iid -> od_get dims' k = od_get dims k) /\
  (forall k v, In k iid -> od_get vals k = Some v -> len_value v = Ok 1 -> od_get vals' k = Some (Distr.VSet [SEint 1])).
Proof.
  revert vals dims. induction iid as [|k l IH]; intros vals dims H ND.
  - cbn in H. injection H as <- <-. repeat split; intros; try reflexivity; destruct H.
  - cbn [fold_res] in H. destruct (iid_step (vals, dims) k) as [[v1 d1]|] eqn:E; [|discriminate]. cbn [bind] in H.
    unfold iid_step in E. cbn [fst snd] in E. destruct (od_getR vals k) as [v|] eqn:Gv; [|discriminate]. cbn [bind] in E.
    destruct (len_value v) as [n|] eqn:Ln; [|discriminate]. cbn [bind] in E. injection E as <- <-.
    assert (Gv' : od_get vals k = Some v) by (unfold od_getR in Gv; destruct (od_get vals k); congruence).
    assert (KS : od_keys (od_set vals k (Distr.VSet [SEint (Z.of_nat n)])) = od_keys vals).
    { apply od_keys_set_old. eapply od_get_some_key; eauto. }
    destruct (IH _ _ H) as (K & D1 & D2 & V1); [rewrite KS; exact ND|].
    split; [congruence|]. split; [|split].
    + intros k0 [<- |I]; [|auto]. destruct (in_dec String.string_dec k l) as [I|NI]; [auto|]. rewrite D2 by exact NI. apply od_get_set_eq.
    + intros k0 NI. rewrite D2 by (intros C; apply NI; right; exact C). apply od_get_set_ne. intros ->. apply NI. left. reflexivity.
    + intros k0 v0 I0 G0 L0. destruct (String.string_dec k0 k) as [-> |NE].
      * assert (v0 = v) by congruence. subst v0. assert (n = 1) by congruence. subst n.
        destruct (in_dec String.string_dec k l) as [I|NI].
        -- apply (V1 k (Distr.VSet [SEint 1]) I); [rewrite od_get_set_eq; reflexivity|reflexivity].
        -- assert (KEEP : forall l v1 d1 v2 d2, fold_res iid_step l (v1, d1) = Ok (v2, d2) -> ~ In k l -> od_get v2 k = od_get v1 k).
           { clear. induction l as [|k0 l IH]; intros v1 d1 v2 d2 H NI.
             - cbn in H. injection H as <- <-. reflexivity.
             - cbn [fold_res] in H. destruct (iid_step (v1, d1) k0) as [[v3 d3]|] eqn:E; [|discriminate]. cbn [bind] in H.
               unfold iid_step in E. cbn [fst snd] in E. destruct (od_getR v1 k0) as [v|]; [|discriminate]. cbn [bind] in E.
               destruct (len_value v) as [n|]; [|discriminate]. cbn [bind] in E. injection E as <- <-.
               rewrite (IH _ _ _ _ H) by (intros C; apply NI; right; exact C). apply od_get_set_ne. intros ->. apply NI. left. reflexivity. }
           rewrite (KEEP _ _ _ _ _ H NI). rewrite od_get_set_eq. reflexivity.
      * apply (V1 k0 v0); [|rewrite od_get_set_ne by congruence; exact G0|exact L0]. destruct I0 as [C|I0]; [congruence|exact I0].
Qed.

Section Iid.
Context {F : Fmt R} {TR : Trunc R}.
Variables (leafs roots : list (rv R)) (values : odict (fentry R)).
Variables (x : nat -> fval R) (a : nat -> values_in R) (r : nat -> rnd R) (A : nat -> tensor (pyval R)).
Let vs := leafs ++ roots.
Let names := names_of vs.
Let L := filter (needs_axis values) names.
Hypothesis PR : printable F.
Hypothesis NL : leafs <> [].
Hypothesis NA : named_apart names.
Hypothesis NDv : NoDup (od_keys values).
Hypothesis INv : incl (od_keys values) names.
Hypothesis HE : forall i v, nth_error vs i = Some v -> evaluates v values (x i) (a i) (r i) (A i).

Let x' k := x (pos k names).
Let a' k := a (pos k names).
Let A' k := A (pos k names).
Let HEn : forall i v, nth_error vs i = Some v -> evaluates v values (x' (rv_name v)) (a' (rv_name v)) (r i) (A' (rv_name v)) :=
  HE' vs values x a r A NA HE.

Lemma get_out_dims dims k : od_get (out_dims dims) k = match od_get dims k with Some (Some d) => Some (Some (Z.of_nat d)) | Some None => Some None | None => None end.
Proof.
  unfold out_dims. induction dims as [|[k1 v] l IH]; [reflexivity|]. cbn [map fst snd od_get].
  destruct (String.eqb k k1); [destruct v; reflexivity|exact IH].
Qed.

Lemma call_counted : scales_ok vs ->
  exists d0, make_sd leafs roots None = Ok d0 /\ forall (fn : probfun R) given d i,
  sd_set_prob d0 (Some fn) given = Ok d ->
  (forall vals dims t, fn vals dims = Ok t -> length (shape t) <> length L) ->
  (forall l1 l2 l3 k k', L = l1 ++ k :: l2 ++ k' :: l3 -> In k (iid_keys d i) -> ~ In k' (iid_keys d i) ->
     forall res, sd_call d values i r <> Ok res) /\
  (forall p vals k k' l, L = k' :: l -> In k l -> In k (iid_keys d i) -> sd_call d values i r = Ok (p, vals) ->
     variable p k = Some (Scal (Distr.VSet [SEint 1]))).
Proof.
  intros SC. destruct (make_sd_ok leafs roots None NL (proj1 NA) SC) as (f & fl & fr & q & ql & qr & PO & E).
  eexists. split; [exact E|]. intros fn given d i ES LE. destruct (set_prob_ok _ _ _ _ _ _ _ _ ES) as (q' & -> & EQ).
  destruct (sd_call_ok leafs roots values x' a' r A' PR NL NA NDv INv HEn f fl fr q ql qr PO None (Some fn) q' EQ)
    as (vals & dims & E1 & E2 & NK & IK & LK & HV & DN & DL & DK & _).
  fold vs in E2, HV, LK, DN, DL, IK. fold names in HV, LK, DN, DL, IK. fold L in HV, LK, DN, DL.
  assert (NDL : NoDup L) by apply (L_nodup vs values NA).
  set (d := mkSD (mkRF (leafs ++ roots) f q) (mkRF leafs fl ql) (roots_field roots fr qr) None (Some fn) q') in *.
  assert (LG : forall k, In k L -> exists m, largest dims = Some m /\ S m = length L).
  { intros k IL. pose proof (largest_spec (od_vals dims)) as LG. change (fold_left _ (od_vals dims) None) with (largest dims) in LG.
    assert (ND : NoDup (od_keys dims)) by (destruct DK as [-> | ->]; [constructor|exact NK]).
    assert (VALS : forall m, In (Some m) (od_vals dims) -> exists k, In k L /\ m = pos k L).
    { intros m Im. apply in_map_iff in Im. destruct Im as ([k0 y] & Ey & Im). cbn in Ey. subst y.
      assert (Ik : In k0 names). { destruct DK as [E0|DK]; [rewrite E0 in Im; destruct Im|]. apply IK. rewrite <- DK. apply in_map_iff. exists (k0, Some m). auto. }
      apply od_in_get in Im; [|exact ND]. destruct (DN k0 Ik) as [C|[C|[IL' C]]]; try congruence. exists k0. split; [exact IL'|]. congruence. }
    destruct (nth_error L (Nat.pred (length L))) as [k1|] eqn:E1'.
    2:{ apply nth_error_None in E1'. destruct L; [destruct IL|cbn in E1'; lia]. }
    pose proof (nth_error_In _ _ E1') as IL1. pose proof (DL k1 IL1) as D1.
    assert (LL : 0 < length L) by (destruct L; [destruct IL|cbn; lia]).
    assert (P1 : pos k1 L = Nat.pred (length L)).
    { apply (proj1 (NoDup_nth_error L)); [exact NDL|apply pos_lt; exact IL1|]. rewrite pos_nth by exact IL1. congruence. }
    rewrite P1 in D1.
    assert (IM : In (Some (Nat.pred (length L))) (od_vals dims)).
    { apply in_map_iff. exists (k1, Some (Nat.pred (length L))). split; [reflexivity|]. apply od_get_in. exact D1. }
    destruct (largest dims) as [m|].
    - destruct LG as [I1 I2]. destruct (VALS m I1) as (k2 & IL2 & Em). exists m. split; [reflexivity|].
      assert (m < length L) by (rewrite Em; apply pos_lt; exact IL2). apply I2 in IM. lia.
    - exfalso. exact (LG _ IM). }
  assert (CALL : forall k res, In k L -> In k (iid_keys d i) -> sd_call d values i r = Ok res ->
    exists p vals' dims' t, res = (p, vals) /\ fold_res iid_step (iid_keys d i) (out_vals vals, dims) = Ok (vals', dims') /\
      make_pd (sd_dist_name d values) vals' (Some (out_dims dims')) (Some t) (spec_of q') = Ok p).
  { intros k res IL II H. unfold sd_call in H. unfold d in H at 1 2 3. cbn [sd_rf rf_fld rf_all] in H. rewrite E1 in H. cbn [bind] in H. change (rf_all (sd_rf d)) with vs in H. change (rf_fld (sd_rf d)) with f in H. fold vs in H. rewrite E2 in H. cbn [bind] in H.
    destruct (sd_eval_prob d vals dims) as [t|] eqn:EP; [|discriminate]. cbn [bind] in H.
    assert (LT : length (shape t) <> length L).
    { unfold sd_eval_prob, d in EP. cbn [sd_prob] in EP. destruct (assert_ _) as [u|]; [|discriminate]. cbn [bind] in EP. eapply LE; exact EP. }
    destruct (LG k IL) as (m & Em & Sm). unfold eval_iid in H. rewrite Em in H.
    destruct (iid_keys d i) as [|k0 l] eqn:EI; [destruct II|]. cbn [bind] in H.
    replace (S m =? length (shape t)) with false in H by (symmetry; apply Nat.eqb_neq; congruence). cbn [negb] in H.
    change (fold_res _ (k0 :: l) (out_vals vals, dims)) with (fold_res iid_step (k0 :: l) (out_vals vals, dims)) in H.
    destruct (fold_res iid_step (k0 :: l) (out_vals vals, dims)) as [[vals' dims']|] eqn:FR; [|discriminate]. cbn [bind] in H.
    destruct (make_pd (sd_dist_name d values) vals' (Some (out_dims dims')) (Some t) (spec_of (sd_pscale d))) as [p|] eqn:MP; [|discriminate]. cbn [bind] in H. injection H as <-.
    exists p, vals', dims', t. split; [reflexivity|]. split; [reflexivity|]. exact MP. }
  assert (KO : od_keys (out_vals vals) = od_keys vals) by (unfold out_vals, od_keys; rewrite map_map; reflexivity).
  assert (DNF : forall k z, od_get dims k = Some (Some z) -> In k L /\ z = pos k L).
  { intros k z G. assert (Ik : In k names).
    { destruct DK as [E0|DK]; [rewrite E0 in G; discriminate|]. apply IK. rewrite <- DK. eapply od_get_some_key; eauto. }
    destruct (DN k Ik) as [C|[C|[IL' C]]]; try congruence. split; [exact IL'|congruence]. }
  split.
  - intros l1 l2 l3 k k' EL II NI res H.
    assert (IL : In k L) by (rewrite EL; apply in_or_app; right; left; reflexivity).
    assert (IL' : In k' L) by (rewrite EL; apply in_or_app; right; right; apply in_or_app; right; left; reflexivity).
    destruct (CALL k res IL II H) as (p & vals' & dims' & t & -> & FR & MP).
    destruct (iid_fold _ _ _ _ _ FR) as (K & D1 & D2 & _); [rewrite KO; exact NK|].
    assert (ND' : NoDup (od_keys vals')) by (rewrite K, KO; exact NK).
    assert (NE' : vals' <> []).
    { intros C. rewrite C in K. cbn in K. rewrite KO in K. assert (I : In k names) by (apply filter_In in IL; tauto). apply IK in I. rewrite <- K in I. destruct I. }
    assert (LT : pos k L < pos k' L).
    { assert (PK : forall l k1 m, L = l ++ k1 :: m -> pos k1 L = length l).
      { intros l k1 m EL1. apply (proj1 (NoDup_nth_error L) NDL).
        - apply pos_lt. rewrite EL1. apply in_or_app. right. left. reflexivity.
        - rewrite pos_nth by (rewrite EL1; apply in_or_app; right; left; reflexivity). rewrite EL1, nth_error_app2, Nat.sub_diag by lia. reflexivity. }
      rewrite (PK _ _ _ EL). rewrite (PK (l1 ++ k :: l2) k' l3); [rewrite app_length; cbn; lia|]. rewrite EL, <- app_assoc. reflexivity. }
    refine (gap_dims _ _ _ (pos k L) k' (Z.of_nat (pos k' L)) _ _ p ND' NE' _ _ _ _ MP).
    + intros k0. rewrite get_out_dims. destruct (in_dec String.string_dec k0 (iid_keys d i)) as [I0|N0]; [rewrite D1 by exact I0; discriminate|].
      rewrite D2 by exact N0. destruct (od_get dims k0) as [[z|]|] eqn:G0; [|discriminate|discriminate].
      intros C. injection C as C. apply Nat2Z.inj in C. destruct (DNF k0 z G0) as [IL0 Ez]. apply N0. replace k0 with k; [exact II|].
      assert (PE : pos k L = pos k0 L) by congruence. pose proof (pos_nth k L IL) as P1. pose proof (pos_nth k0 L IL0) as P2. congruence.
    + rewrite get_out_dims, D2 by exact NI. rewrite (DL k' IL'). reflexivity.
    + lia.
    + intros k0 z. rewrite get_out_dims. destruct (od_get dims' k0) as [[z0|]|]; [|discriminate|discriminate]. intros C. injection C as <-. lia.
  - intros p vals0 k k' l EL IL II H.
    assert (ILk : In k L) by (rewrite EL; right; exact IL).
    destruct (CALL k _ ILk II H) as (p0 & vals' & dims' & t & Ep & FR & MP). injection Ep as <- ->.
    assert (Ik : In k names) by (apply filter_In in ILk; tauto).
    destruct (HV k Ik) as (ar & Ga & _ & [(C & _)|(_ & SA & _)]).
    { exfalso. apply (L_in vs values x' a' r A' HEn) in ILk. destruct ILk as [_ D]. congruence. }
    destruct (iid_fold _ _ _ _ _ FR) as (K & D1 & D2 & V1); [rewrite KO; exact NK|].
    assert (NKK : k <> k') by (intros ->; rewrite EL in NDL; inversion NDL; contradiction).
    assert (G1 : od_get vals' k = Some (Distr.VSet [SEint 1])).
    { apply (V1 k (to_value ar) II).
      - unfold out_vals. rewrite od_get_map, Ga. reflexivity.
      - unfold to_value. rewrite SA, EL. cbn [mask map mem_str existsb]. unfold mask. cbn [map]. cbn [len_value tmap shape]. rewrite SA, EL. unfold mask. cbn [map].
        replace (mem_str k' [k]) with false; [reflexivity|]. symmetry. apply mem_str_false. intros [C|[]]. congruence. }
    assert (ND' : NoDup (od_keys vals')) by (rewrite K, KO; exact NK).
    assert (NE' : vals' <> []) by (intros C; rewrite C in G1; discriminate).
    unfold make_pd in MP. destruct (str_margcond (sd_dist_name d values)) as [[m c]|]; [|discriminate]. cbn [bind] in MP.
    destruct (make_dist (sd_dist_name d values) vals' (Some (out_dims dims'))) as [dd|] eqn:MD; [|discriminate]. cbn [bind] in MP.
    destruct (make_dist_result _ _ _ _ _ ND' NE' (proj2 (naxes_iff (out_dims dims') (ndim_of_dims (out_dims dims'))) eq_refl) MD) as (_ & _ & _ & _ & _ & SV & _).
    destruct (SV k _ G1 (or_introl eq_refl)) as [SV1 _].
    destruct (override_names _ _) as [[m1 c1]|]; [|discriminate]. cbn [bind] in MP.
    destruct (eval_pscale _) as [psc|]; [|discriminate]. cbn [bind] in MP. destruct (check_prob _ _) as [u|]; [|discriminate]. cbn [bind] in MP.
    injection MP as <-. unfold variable, p_vals. cbn [p_d d_vals]. rewrite SV1. reflexivity.
Qed.
End Iid.
