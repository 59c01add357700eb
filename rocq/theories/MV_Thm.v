(** The theorems about multivariate distributions of fields. *)
From Coq Require Import String Ascii ZArith Reals Lra Bool Arith Lia Permutation List.
From Verif Require Import Base Num Tensor TensorLemmas TensorBcast OdLemmas RNumLemmas PScales PScales_Spec
  PScales_Proofs PScales_Prod Names Names_Spec Distr PDModel PDUtils PD_Spec PD_Simple_Spec PD_Sums PD_Align PD_Make PD_Valid
  VariableModel Var_Spec Var_Proofs RVModel FieldModel Field_Spec Field_Proofs Field_Dims RFModel RF_Spec RF_Proofs RF_Joint SDModel SD_Spec
  SD_Proofs SD_Joint SD_Thm MVModel MV_Spec MV_Proofs.
Import ListNotations.
Local Open Scope list_scope.

Lemma flipped_order {B} (l : list B) : mv_order l = flipped l.
Proof.
  unfold mv_order, flipped. destruct (rev l) as [|z [|b [|c m]]]; try reflexivity.
Qed.
Lemma grid_swap l : swap2 (mv_order l) = grid_axes l.
Proof. rewrite flipped_order. unfold grid_axes. destruct (flipped l) as [|a [|b m]]; reflexivity. Qed.
Lemma flipped_map {B C} (g : B -> C) l : flipped (map g l) = map g (flipped l).
Proof. rewrite <- !flipped_order. apply mv_order_map. Qed.

Lemma iscomplex_kind (q : pscale R) : eval_pscale (spec_of q) = Ok q -> iscomplex (spec_of q) = log_kind (spec_of q).
Proof.
  intros E. destruct q as [c|re im]; [|reflexivity]. cbn. destruct (Req_EM_T c 0) as [->|]; [|reflexivity]. exfalso. eapply eval_nonzero. exact E.
Qed.

Lemma filter_permuted {B} (g : B -> bool) l m : Permutation l m -> Permutation (filter g l) (filter g m).
Proof.
  intros P. induction P; cbn [filter]; auto.
  - destruct (g x); auto.
  - destruct (g x), (g y); auto. constructor.
  - etransitivity; eauto.
Qed.

Lemma mv_set_ok f l r p0 q0 (m : mvdist R) given d :
  mv_set_prob (mkSD f l r None p0 q0) m given = Ok d ->
  exists q, d = mkSD f l r None (Some (mv_eval m (log_kind (spec_of q)))) q /\ eval_pscale (spec_of q) = Ok q.
Proof.
  unfold mv_set_prob. destruct (sd_set_prob _ (Some (mv_eval m false)) given) as [d1|] eqn:E1; [|discriminate]. cbn [bind]. intros E2.
  destruct (set_prob_ok _ _ _ _ _ _ _ _ E1) as (q1 & -> & Q1). cbn [sd_pscale] in E2.
  destruct (set_prob_ok _ _ _ _ _ _ _ _ E2) as (q2 & -> & Q2). exists q2. split; [|exact Q2].
  assert (q1 = q2).
  { unfold sd_set_prob, base_set_prob in E1, E2. cbn [sd_rf sd_leafs sd_roots sd_arch sd_pscale] in E1, E2.
    destruct (match given with Some g => _ | None => _ end) as [ps|e]; cbn [bind] in E1, E2; [|discriminate].
    destruct (new_pscale ps (spec_of q0)) as [q|e]; cbn [bind sd_arch] in E1, E2; [|discriminate]. injection E1 as ->. injection E2 as ->. reflexivity. }
  subst q2. rewrite iscomplex_kind by exact Q2. reflexivity.
Qed.

Lemma given_number {TR : Trunc R} (v : rv R) y r B : rv_evaluate v (VGiven [y] true) r = Ok B -> B = tscalar y.
Proof.
  intros E. assert (G : (let! o := evaluate (rv_state v) None (VGiven [y] true) r in Ok (out_tensor o)) = Ok B).
  { unfold rv_evaluate in E. destruct (is_bool (rv_state v)); [destruct (rv_prob v)|]; exact E. }
  destruct (evaluate (rv_state v) None (VGiven [y] true) r) as [o|] eqn:EO; [|discriminate]. cbn [bind] in G. injection G as <-.
  unfold evaluate in EO. destruct (vs_vset (rv_state v)); [|discriminate]. injection EO as <-. reflexivity.
Qed.

Section Thm.
Context {F : Fmt R} {TR : Trunc R}.
Variables (leafs roots : list (rv R)) (values : odict (fentry R)).
Variables (x : nat -> fval R) (a : nat -> values_in R) (r : nat -> rnd R) (A : nat -> tensor (pyval R)).
Let vs := leafs ++ roots.
Let names := names_of vs.
Let L := filter (needs_axis values) names.
Hypothesis PR : printable F.
Hypothesis NL : leafs <> [].
Hypothesis NA : named_apart names.
Hypothesis SC : scales_ok vs.
Hypothesis NDv : NoDup (od_keys values).
Hypothesis INv : incl (od_keys values) names.
Hypothesis HE : forall i v, nth_error vs i = Some v -> evaluates v values (x i) (a i) (r i) (A i).

Let x' k := x (pos k names).
Let a' k := a (pos k names).
Let A' k := A (pos k names).
Let HEn : forall i v, nth_error vs i = Some v -> evaluates v values (x' (rv_name v)) (a' (rv_name v)) (r i) (A' (rv_name v)) :=
  RF_Joint.HE' vs values x a r A NA HE.
Let sz (k : string) : nat := tsize (A' k).
Let multi (k : string) : bool := negb (sz k =? 1).
Let val s k := num (get (A' k) (map s (filter (needs_axis values) [k]))).

Lemma point_is s : point values vs A s = map (val s) names.
Proof.
  unfold point. rewrite (at_positions_is leafs roots values A NA). rewrite map_map. reflexivity.
Qed.

Lemma A'_is i v : nth_error vs i = Some v -> A' (rv_name v) = A i.
Proof. exact (A_is leafs roots A NA i v). Qed.

(** What the call of a field with a multivariate distribution comes to. *)
Lemma mv_general : 2 <= length vs ->
  exists d0, make_sd leafs roots None = Ok d0 /\ forall m given d, mv_dim m = length vs -> mv_set_prob d0 m given = Ok d ->
  exists vals dims t, f_evaluate_by (rf_ev vs r) (rf_fld (sd_rf d)) values 0 = Ok (vals, dims) /\
    NoDup (od_keys vals) /\ (forall k, In k (od_keys vals) <-> In k names) /\ (L = [] \/ od_keys vals = names) /\
    let ks := od_keys vals in
    shape t = map sz (filter multi (grid_axes ks)) /\
    (forall s, (forall k, In k L -> s k < sz k) ->
      get t (map s (filter multi (grid_axes ks))) = density m (spec_of (sd_pscale d)) (flipped (map (val s) ks))) /\
    (shape t = map sz L -> exists p, sd_call d values NoIid r = Ok (p, vals) /\ valid_pd p L /\
      od_keys (p_marg p) = names_of leafs /\ od_keys (p_cond p) = names_of roots /\ p_prob p = Some t /\ p_pscale p = sd_pscale d /\
      (forall k, In k names -> variable p k = Some (var_of (to_value (A' k))))) /\
    (shape t <> map sz L -> sd_call d values NoIid r = Err AssertionError).
Proof.
  intros N2. destruct (make_sd_ok leafs roots None NL (proj1 NA) SC) as (f & fl & fr & q & ql & qr & PO & E).
  eexists. split; [exact E|]. intros m given d DM ES. destruct (mv_set_ok _ _ _ _ _ _ _ _ ES) as (q' & -> & EQ). cbn [sd_rf rf_fld sd_pscale].
  destruct (mv_called leafs roots values x' a' r A' PR NL NA NDv INv HEn f fl fr q ql qr PO m (log_kind (spec_of q')) None q' N2 DM EQ)
    as (vals & dims & t & E1 & NK & IK & LK & ST & GT & OKC & BAD).
  exists vals, dims, t. split; [exact E1|]. split; [exact NK|]. split; [exact IK|]. split; [exact LK|]. cbv zeta.
  rewrite <- grid_swap. split; [exact ST|]. split; [|split; [exact OKC|exact BAD]].
  intros s B. rewrite flipped_map, <- flipped_order. unfold density. exact (GT s B).
Qed.

Lemma L_multi : no_single vs A -> filter multi names = L.
Proof.
  intros NS. unfold L. apply filter_ext_in. intros k I. destruct (A_shape vs values x' a' r A' HEn k I) as [(D & S)|(D & IL & S & P)].
  - unfold multi, sz, tsize. rewrite S. cbn. destruct (needs_axis values k) eqn:E; [|reflexivity]. exfalso.
    assert (C : In k (filter (needs_axis values) names)) by (apply filter_In; auto).
    apply (L_in vs values x' a' r A' HEn) in C. destruct C as [_ C]. congruence.
  - apply filter_In in IL. destruct IL as [_ ->]. unfold multi. apply negb_true_iff, Nat.eqb_neq. intros C.
    pose proof I as I2. unfold names, names_of in I2. apply in_map_iff in I2. destruct I2 as (v & <- & Iv).
    apply In_nth_error in Iv. destruct Iv as (i & Iv). apply (NS i v Iv). rewrite <- (A'_is i v Iv). rewrite S. unfold sz in C. rewrite C. reflexivity.
Qed.

Lemma sizes_of p : (forall k, In k names -> variable p k = Some (var_of (to_value (A' k)))) ->
  forall s, in_bounds p L s -> forall k, In k L -> s k < sz k.
Proof.
  intros VV s IB k I. specialize (IB k I). rewrite (size_A leafs roots values x' a' r A' HEn) in IB; [exact IB|exact I|].
  apply VV. apply filter_In in I. tauto.
Qed.

Lemma vars_of p : (forall k, In k names -> variable p k = Some (var_of (to_value (A' k)))) ->
  forall i v, nth_error vs i = Some v -> variable p (rv_name v) = Some (var_of (to_value (A i))).
Proof. intros VV i v Iv. rewrite VV by (apply in_map; eapply nth_error_In; exact Iv). rewrite (A'_is i v Iv). reflexivity. Qed.

Lemma two_three {B} (l : list B) : length l = 2 \/ length l = 3 -> swap2 (flipped l) = l.
Proof. intros [H|H]; destruct l as [|b1 [|b2 [|b3 [|b4 l]]]]; try discriminate; reflexivity. Qed.
Lemma grid_names : length vs = 2 \/ length vs = 3 -> grid_axes names = names.
Proof. intros H. rewrite <- grid_swap, flipped_order. apply two_three. unfold names, names_of. rewrite map_length. exact H. Qed.

(** Two or three variables, at least one of them an array. *)
Lemma mv_coordinates : length vs = 2 \/ length vs = 3 -> L <> [] -> no_single vs A ->
  exists d0, make_sd leafs roots None = Ok d0 /\ forall m given d, mv_dim m = length vs -> mv_set_prob d0 m given = Ok d ->
  exists p vals, sd_call d values NoIid r = Ok (p, vals) /\ valid_pd p L /\
    od_keys (p_marg p) = names_of leafs /\ od_keys (p_cond p) = names_of roots /\ p_pscale p = sd_pscale d /\
    (forall i v, nth_error vs i = Some v -> variable p (rv_name v) = Some (var_of (to_value (A i)))) /\
    forall s, in_bounds p L s ->
      prob_at p L s = denote (spec_of (sd_pscale d)) (density m (spec_of (sd_pscale d)) (flipped (point values vs A s))).
Proof.
  intros N23 LNE NS. destruct mv_general as (d0 & E0 & H); [lia|]. exists d0. split; [exact E0|]. intros m given d DM ES.
  destruct (H m given d DM ES) as (vals & dims & t & E1 & NK & IK & [C|LK] & HH); [contradiction|]. cbv zeta in HH. rewrite LK in HH.
  rewrite (grid_names N23), (L_multi NS) in HH. destruct HH as (ST & GT & OKC & _).
  destruct (OKC ST) as (p & P1 & P2 & P3 & P4 & P5 & P6 & P7). exists p, vals. repeat (split; [assumption|]).
  split; [exact (vars_of p P7)|]. intros s IB. unfold prob_at. rewrite P5, P6. f_equal. rewrite point_is. apply GT. exact (sizes_of p P7 s IB).
Qed.

(** All variables arrays: any number of variables. *)
Lemma mv_axes : 2 <= length vs -> L = names -> no_single vs A ->
  let size k := tsize (A (pos k names)) in
  (4 <= length vs -> grid_axes names <> names) /\
  exists d0, make_sd leafs roots None = Ok d0 /\ forall m given d, mv_dim m = length vs -> mv_set_prob d0 m given = Ok d ->
  (map size (grid_axes names) <> map size names -> sd_call d values NoIid r = Err AssertionError) /\
  (map size (grid_axes names) = map size names -> exists p vals, sd_call d values NoIid r = Ok (p, vals) /\ valid_pd p L /\
    forall s s', in_bounds p L s -> map s' (grid_axes names) = map s names ->
      prob_at p L s = denote (spec_of (sd_pscale d)) (density m (spec_of (sd_pscale d)) (flipped (point values vs A s')))).
Proof.
  intros N2 LN NS size. split.
  { intros N4 C. rewrite <- grid_swap, flipped_order in C. pose proof NA as [ND _]. unfold names, names_of in ND, C.
    assert (LM : length (map (@rv_name R) vs) = length vs) by apply map_length. revert ND C LM N4. generalize (map (@rv_name R) vs), (length vs). clear.
    intros l n ND C LM N4. unfold flipped in C. pose proof (rev_length l) as RL. pose proof (rev_involutive l) as RI. pose proof (Permutation_rev l) as RP. destruct (rev l) as [|z [|b [|c [|e m]]]]; cbn [length] in RL; try lia.
    cbn [app swap2] in C. assert (NR : NoDup (z :: b :: c :: e :: m)) by (eapply Permutation_NoDup; [exact RP|exact ND]).
    assert (RI' : rev m ++ [e; c; b; z] = l) by (rewrite <- RI; cbn [rev]; rewrite <- !app_assoc; reflexivity).
    (* the first of l is c; it is also the first of rev m ++ [e] *)
    destruct (rev m) as [|w m'] eqn:EM; cbn [app] in RI'; rewrite <- RI' in C; injection C as C1 _; subst.
    - inversion NR as [|? ? _ N1]; inversion N1 as [|? ? _ N3]; inversion N3 as [|? ? N5 _]; subst. apply N5. left. reflexivity.
    - assert (In w m) by (apply in_rev; rewrite EM; left; reflexivity).
      inversion NR as [|? ? _ N1]; inversion N1 as [|? ? _ N3]; inversion N3 as [|? ? N5 _]; subst. apply N5. right. assumption. }
  destruct mv_general as (d0 & E0 & H); [lia|]. exists d0. split; [exact E0|]. intros m given d DM ES.
  assert (NNE : names <> []) by (unfold names, names_of; destruct vs; [cbn in N2; lia|discriminate]).
  assert (LNE : L <> []) by (rewrite LN; exact NNE).
  destruct (H m given d DM ES) as (vals & dims & t & E1 & NK & IK & [C|LK] & HH); [contradiction|]. cbv zeta in HH. rewrite LK in HH.
  assert (FM : filter multi (grid_axes names) = grid_axes names).
  { assert (AM : forall k, In k names -> multi k = true) by (intros k I; rewrite <- LN, <- (L_multi NS) in I; apply filter_In in I; tauto).
    assert (IG : incl (grid_axes names) names).
    { intros k I. rewrite <- grid_swap in I. eapply Permutation_in; [|exact I]. eapply Permutation_trans; [apply swap2_perm|apply mv_order_perm]. }
    revert IG AM. generalize (grid_axes names). intros l IG AM. induction l as [|k l IH]; [reflexivity|]. cbn [filter]. rewrite AM by (apply IG; left; reflexivity).
    f_equal. apply IH. intros y Hy. apply IG. right. exact Hy. }
  rewrite FM in HH. destruct HH as (ST & GT & OKC & BAD). rewrite LN in BAD, OKC. split.
  - intros NE. apply BAD. rewrite ST. exact NE.
  - intros EQs. destruct OKC as (p & P1 & P2 & P3 & P4 & P5 & P6 & P7); [rewrite ST; exact EQs|]. exists p, vals. split; [exact P1|].
    rewrite LN. split; [exact P2|]. intros s s' IB MS. unfold prob_at. rewrite P5, P6. f_equal. rewrite point_is, <- MS. apply GT.
    rewrite LN. intros k I.
    assert (IG : In k (grid_axes names)).
    { rewrite <- grid_swap. eapply Permutation_in; [apply Permutation_sym; eapply Permutation_trans; [apply swap2_perm|apply mv_order_perm]|exact I]. }
    apply In_nth_error in IG. destruct IG as (j & Ij).
    pose proof (f_equal (fun l => nth_error l j) MS) as MJ. pose proof (f_equal (fun l => nth_error l j) EQs) as SJ. cbn beta in MJ, SJ.
    rewrite !nth_error_map, Ij in MJ. rewrite !nth_error_map, Ij in SJ. destruct (nth_error names j) as [k2|] eqn:E2; [|discriminate]. cbn [option_map] in MJ, SJ.
    injection MJ as ->. unfold sz. change (tsize (A' k)) with (size k). injection SJ as ->.
    change (s k2 < sz k2). apply (sizes_of p P7 s); [rewrite LN; exact IB|]. rewrite LN. eapply nth_error_In. exact E2.
Qed.

(** An array of one value. *)
Lemma mv_single : 2 <= length vs -> (exists i v, nth_error vs i = Some v /\ shape (A i) = [1]) ->
  exists d0, make_sd leafs roots None = Ok d0 /\ forall m given d, mv_dim m = length vs -> mv_set_prob d0 m given = Ok d ->
  sd_call d values NoIid r = Err AssertionError.
Proof.
  intros N2 (i & v & Iv & S1). destruct mv_general as (d0 & E0 & H); [lia|]. exists d0. split; [exact E0|]. intros m given d DM ES.
  assert (Ik : In (rv_name v) names) by (apply in_map; eapply nth_error_In; exact Iv).
  assert (IL : In (rv_name v) L).
  { destruct (A_shape vs values x' a' r A' HEn _ Ik) as [(D & S)|(D & IL & S & P)]; [|exact IL]. rewrite (A'_is i v Iv) in S. congruence. }
  assert (LNE : L <> []) by (intros C; rewrite C in IL; destruct IL).
  destruct (H m given d DM ES) as (vals & dims & t & E1 & NK & IK & [C|LK] & HH); [contradiction|]. cbv zeta in HH. rewrite LK in HH.
  destruct HH as (ST & GT & OKC & BAD). apply BAD. rewrite ST. intros C. apply (f_equal (@length nat)) in C. rewrite !map_length in C.
  assert (PG : Permutation (filter multi (grid_axes names)) (filter multi names)).
  { rewrite <- grid_swap. apply filter_permuted. eapply Permutation_trans; [apply swap2_perm|apply mv_order_perm]. }
  apply Permutation_length in PG. rewrite PG in C.
  assert (MI : incl (filter multi names) L).
  { intros k I. apply filter_In in I. destruct I as [I M]. destruct (A_shape vs values x' a' r A' HEn _ I) as [(D & S)|(D & IL' & S & P)]; [|exact IL'].
    unfold multi, sz, tsize in M. rewrite S in M. discriminate. }
  assert (NI : ~ In (rv_name v) (filter multi names)).
  { intros Q. apply filter_In in Q. destruct Q as [_ M]. unfold multi, sz, tsize in M. rewrite (A'_is i v Iv), S1 in M. discriminate. }
  assert (LT : length (rv_name v :: filter multi names) <= length L).
  { apply NoDup_incl_length.
    - constructor; [exact NI|]. apply NoDup_filter, NA.
    - intros k [<-|I]; [exact IL|apply MI; exact I]. }
  cbn [length] in LT. lia.
Qed.

(** All variables numbers. *)
Lemma mv_numbers : 2 <= length vs -> numbers_only values ->
  exists d0, make_sd leafs roots None = Ok d0 /\ forall m given d, mv_dim m = length vs -> mv_set_prob d0 m given = Ok d ->
  exists p vals, sd_call d values NoIid r = Ok (p, vals) /\ valid_pd p [] /\
    forall s, prob_at p [] s = denote (spec_of (sd_pscale d)) (density m (spec_of (sd_pscale d)) (flipped (numbers_of values))).
Proof.
  intros N2 NO. destruct mv_general as (d0 & E0 & H); [lia|]. exists d0. split; [exact E0|]. intros m given d DM ES.
  destruct (H m given d DM ES) as (vals & dims & t & E1 & NK & IK & _ & ST & GT & OKC & _).
  assert (SCA : forallb (@entry_scalar R) (od_vals values) = true).
  { apply forallb_forall. intros e I. apply in_map_iff in I. destruct I as (kv & <- & I). unfold numbers_only in NO. rewrite Forall_forall in NO.
    destruct (NO kv I) as (y & ->). reflexivity. }
  destruct (evaluate_scalars_by (rf_ev vs r) (rf_fld (sd_rf d)) values 0 SCA) as (vals' & E1' & KV & GV). rewrite E1 in E1'. injection E1' as <- ->.
  assert (XN : forall k, In k names -> exists y, od_get values k = Some (One (FNum y)) /\ A' k = tscalar y).
  { intros k I. pose proof I as I2. unfold names, names_of in I2. apply in_map_iff in I2. destruct I2 as (v & <- & Iv). apply In_nth_error in Iv. destruct Iv as (i & Iv).
    destruct (HE i v Iv) as (G & SR & EV & _). assert (GI : In (rv_name v, One (x i)) values) by (apply od_get_in; exact G). unfold numbers_only in NO. rewrite Forall_forall in NO.
    destruct (NO _ GI) as (y & Ey). cbn [snd] in Ey. injection Ey as Ey. exists y. rewrite G, Ey. split; [reflexivity|].
    rewrite (A'_is i v Iv). rewrite Ey in SR. inversion SR as [| |y0 Y1 Y2|]. rewrite <- Y2 in EV. apply given_number in EV. exact EV. }
  assert (LE : L = []).
  { unfold L. assert (Q : forall k, In k names -> needs_axis values k = false).
    { intros k I. destruct (XN k I) as (y & G & _). unfold needs_axis. rewrite G. reflexivity. }
    revert Q. clear. induction names as [|k l IH]; intros Q; [reflexivity|]. cbn [filter]. rewrite Q by (left; reflexivity). apply IH. intros y Hy. apply Q. right. exact Hy. }
  assert (NM : forall l, incl l names -> filter multi l = []).
  { intros l I. induction l as [|k l IH]; [reflexivity|]. cbn [filter]. destruct (XN k) as (y & _ & EA); [apply I; left; reflexivity|].
    unfold multi, sz. rewrite EA. cbn. apply IH. intros z Hz. apply I. right. exact Hz. }
  assert (IG : incl (grid_axes (od_keys vals)) names).
  { intros k I. rewrite <- grid_swap in I. apply IK. eapply Permutation_in; [|exact I]. eapply Permutation_trans; [apply swap2_perm|apply mv_order_perm]. }
  rewrite (NM _ IG) in ST, GT. rewrite LE in *. cbn [map] in ST, GT, OKC. destruct (OKC ST) as (p & P1 & P2 & _ & _ & P5 & P6 & _).
  exists p, vals. split; [exact P1|]. split; [exact P2|]. intros s. unfold prob_at. rewrite P5, P6. cbn [map]. rewrite (GT s) by (intros k []). f_equal. f_equal. f_equal.
  rewrite KV. unfold numbers_of, od_keys. rewrite map_map. apply map_ext_in. intros [k e] I. cbn [fst snd].
  assert (Ik : In k names) by (apply INv; apply in_map_iff; exists (k, e); auto).
  destruct (XN k Ik) as (y & G & EA). assert (G2 : od_get values k = Some e) by (apply od_in_get; assumption). rewrite G in G2. injection G2 as <-.
  unfold val. rewrite EA. reflexivity.
Qed.

(** Whatever the probability function. *)
Lemma fn_accepted :
  exists d0, make_sd leafs roots None = Ok d0 /\ forall fn given d, sd_set_prob d0 (Some fn) given = Ok d ->
  forall p vals, sd_call d values NoIid r = Ok (p, vals) ->
    valid_pd p L /\ od_keys (p_marg p) = names_of leafs /\ od_keys (p_cond p) = names_of roots /\ p_pscale p = sd_pscale d /\
    (forall i v, nth_error vs i = Some v -> variable p (rv_name v) = Some (var_of (to_value (A i)))) /\
    exists dims t, fn vals dims = Ok t /\ p_prob p = Some t /\ shape t = map (fun k => tsize (A (pos k names))) L.
Proof.
  destruct (make_sd_ok leafs roots None NL (proj1 NA) SC) as (f & fl & fr & q & ql & qr & PO & E).
  eexists. split; [exact E|]. intros fn given d ES. destruct (set_prob_ok _ _ _ _ _ _ _ _ ES) as (q' & -> & EQ). intros p vals EC. cbn [sd_pscale].
  destruct (accepted leafs roots values x' a' r A' PR NL NA NDv INv HEn f fl fr q ql qr PO fn None q' p vals EQ EC)
    as (dims & t & P1 & P2 & P3 & P4 & P5 & P6 & P7 & P8).
  repeat (split; [assumption|]). split; [exact (vars_of p P8)|]. exists dims, t. auto.
Qed.
End Thm.

(** The same in terms of any function that gives the sizes of the variables. *)
Lemma sizes_named (vs : list (rv R)) (A : nat -> tensor (pyval R)) (size : string -> nat) l : NoDup (names_of vs) ->
  (forall i v, nth_error vs i = Some v -> size (rv_name v) = tsize (A i)) -> incl l (names_of vs) ->
  map (fun k => tsize (A (pos k (names_of vs)))) l = map size l.
Proof.
  intros ND H I. apply map_ext_in. intros k Ik. apply I in Ik. unfold names_of in Ik. apply in_map_iff in Ik. destruct Ik as (v & <- & Iv).
  apply In_nth_error in Iv. destruct Iv as (i & Iv). rewrite (pos_name vs i v ND Iv). symmetry. apply H. exact Iv.
Qed.

Lemma grid_incl l : incl (grid_axes l) l.
Proof. intros k I. rewrite <- grid_swap in I. eapply Permutation_in; [|exact I]. eapply Permutation_trans; [apply swap2_perm|apply mv_order_perm]. Qed.

Lemma mv_axes_sized {F : Fmt R} {TR : Trunc R} (leafs roots : list (rv R)) (values : odict (fentry R)) x a r (A : nat -> tensor (pyval R)) size :
  let vs := leafs ++ roots in
  printable F -> leafs <> [] -> named_apart (names_of vs) -> scales_ok vs ->
  NoDup (od_keys values) -> incl (od_keys values) (names_of vs) ->
  (forall i v, nth_error vs i = Some v -> evaluates v values (x i) (a i) (r i) (A i)) ->
  let L := filter (needs_axis values) (names_of vs) in
  2 <= length vs -> L = names_of vs -> no_single vs A ->
  (forall i v, nth_error vs i = Some v -> size (rv_name v) = tsize (A i)) ->
  (4 <= length vs -> grid_axes (names_of vs) <> names_of vs) /\
  exists d0, make_sd leafs roots None = Ok d0 /\ forall m given d, mv_dim m = length vs -> mv_set_prob d0 m given = Ok d ->
  (map size (grid_axes (names_of vs)) <> map size (names_of vs) -> sd_call d values NoIid r = Err AssertionError) /\
  (map size (grid_axes (names_of vs)) = map size (names_of vs) -> exists p vals, sd_call d values NoIid r = Ok (p, vals) /\ valid_pd p L /\
    forall s s', in_bounds p L s -> map s' (grid_axes (names_of vs)) = map s (names_of vs) ->
      prob_at p L s = denote (spec_of (sd_pscale d)) (density m (spec_of (sd_pscale d)) (flipped (point values vs A s')))).
Proof.
  intros vs PR NL NA SC ND IN HE L N2 LN NS SZ.
  destruct (mv_axes leafs roots values x a r A PR NL NA SC ND IN HE N2 LN NS) as [H1 H2]. split; [exact H1|].
  fold vs in H2. rewrite (sizes_named vs A size _ (proj1 NA) SZ (grid_incl _)), (sizes_named vs A size _ (proj1 NA) SZ (incl_refl _)) in H2. exact H2.
Qed.

Lemma fn_accepted_sized {F : Fmt R} {TR : Trunc R} (leafs roots : list (rv R)) (values : odict (fentry R)) x a r (A : nat -> tensor (pyval R)) size :
  let vs := leafs ++ roots in
  printable F -> leafs <> [] -> named_apart (names_of vs) -> scales_ok vs ->
  NoDup (od_keys values) -> incl (od_keys values) (names_of vs) ->
  (forall i v, nth_error vs i = Some v -> evaluates v values (x i) (a i) (r i) (A i)) ->
  (forall i v, nth_error vs i = Some v -> size (rv_name v) = tsize (A i)) ->
  let L := filter (needs_axis values) (names_of vs) in
  exists d0, make_sd leafs roots None = Ok d0 /\ forall fn given d, sd_set_prob d0 (Some fn) given = Ok d ->
  forall p vals, sd_call d values NoIid r = Ok (p, vals) ->
    valid_pd p L /\ od_keys (p_marg p) = names_of leafs /\ od_keys (p_cond p) = names_of roots /\ p_pscale p = sd_pscale d /\
    (forall i v, nth_error vs i = Some v -> variable p (rv_name v) = Some (var_of (to_value (A i)))) /\
    exists dims t, fn vals dims = Ok t /\ p_prob p = Some t /\ shape t = map size L.
Proof.
  intros vs PR NL NA SC ND IN HE SZ L. pose proof (fn_accepted leafs roots values x a r A PR NL NA SC ND IN HE) as H. fold vs in H. fold L in H.
  rewrite (sizes_named vs A size L (proj1 NA) SZ) in H; [exact H|]. intros k I. apply filter_In in I. tauto.
Qed.

(** A field of one variable. *)
Section One.
Context {F : Fmt R} {TR : Trunc R}.
Variables (v : rv R) (values : odict (fentry R)) (x : fval R) (a : values_in R) (r : nat -> rnd R) (A : tensor (pyval R)).
Hypothesis PR : printable F.
Hypothesis NA : named_apart [rv_name v].
Hypothesis SC : scales_ok [v].
Hypothesis NDv : NoDup (od_keys values).
Hypothesis INv : incl (od_keys values) [rv_name v].
Hypothesis HE : evaluates v values x a (r 0) A.

Lemma mv_one : exists d0, make_sd [v] [] None = Ok d0 /\ forall m given d, mv_dim m = 1 -> mv_set_prob d0 m given = Ok d ->
  (shape A <> [] -> tsize A <> 1 -> sd_call d values NoIid r = Err ValueError) /\
  (shape A = [1] -> sd_call d values NoIid r = Err AssertionError) /\
  (shape A = [] -> exists p vals, sd_call d values NoIid r = Ok (p, vals) /\ valid_pd p [] /\
    forall s, prob_at p [] s = denote (spec_of (sd_pscale d)) (density m (spec_of (sd_pscale d)) [num (get A [])])).
Proof.
  destruct (make_sd_ok [v] [] None ltac:(discriminate) (proj1 NA) SC) as (f & fl & fr & q & ql & qr & PO & E).
  eexists. split; [exact E|]. intros m given d DM ES. destruct (mv_set_ok _ _ _ _ _ _ _ _ ES) as (q' & -> & EQ). cbn [sd_pscale].
  pose proof (po_all _ _ _ _ _ _ _ _ PO) as (Kf & Vf & _).
  assert (HEn : forall i w, nth_error ([v] ++ []) i = Some w -> evaluates w values ((fun _ => x) (rv_name w)) ((fun _ => a) (rv_name w)) (r i) ((fun _ => A) (rv_name w))).
  { intros [|[|i]] w H; [injection H as <-; exact HE|discriminate|destruct i; discriminate]. }
  destruct (sd_call_ok [v] [] values (fun _ => x) (fun _ => a) r (fun _ => A) PR ltac:(discriminate) NA NDv INv HEn f fl fr q ql qr PO None (Some (mv_eval m (log_kind (spec_of q')))) q' EQ)
    as (vals & dims & E0 & E1 & NK & IK & LK & HV & _ & _ & _ & MK).
  set (d := mkSD (mkRF ([v] ++ []) f q) (mkRF [v] fl ql) (roots_field [] fr qr) None (Some (mv_eval m (log_kind (spec_of q')))) q') in *.
  assert (SE : seteq_str (od_keys vals) (fd_keys f) = true) by (apply seteq_str_iff; rewrite Kf; split; intros k; apply IK).
  destruct (HV (rv_name v)) as (a1 & G1 & TL & Q); [left; reflexivity|].
  assert (KV : od_keys vals = [rv_name v]).
  { apply Permutation_length_1_inv, Permutation_sym, NoDup_Permutation; [exact NK|apply NA|exact IK]. }
  assert (OV : od_vals vals = [a1]).
  { destruct vals as [|[k b] [|w l]]; try discriminate KV. cbn in KV. injection KV as ->. cbn in G1. rewrite String.eqb_refl in G1. injection G1 as ->. reflexivity. }
  assert (ET : sd_eval_prob d vals dims = if tsize A =? 1 then Ok (tscalar (density m (spec_of q') (map (@as_num R _) (to_list A)))) else Err ValueError).
  { unfold sd_eval_prob, d. cbn [sd_prob sd_rf rf_fld]. rewrite SE. cbn [assert_ bind]. unfold mv_eval. rewrite OV, DM, TL, map_length, to_list_length. reflexivity. }
  assert (CALL : sd_call d values NoIid r = (let! t := sd_eval_prob d vals dims in let! p := make_pd (sd_dist_name d values) (out_vals vals) (Some (out_dims dims)) (Some t) (spec_of q') in Ok (p, vals))).
  { unfold sd_call. unfold d at 1. cbn [sd_rf rf_fld]. rewrite E0. cbn [bind]. change (rf_all (sd_rf d)) with ([v] ++ []). change (rf_fld (sd_rf d)) with f. rewrite E1. cbn [bind].
    destruct (sd_eval_prob d vals dims) as [t|]; [|reflexivity]. cbn [bind].
    unfold eval_iid. cbn [iid_keys bind]. change (sd_pscale d) with q'. destruct (make_pd _ _ _ _ _); reflexivity. }
  split; [|split].
  - intros NS N1. rewrite CALL, ET. apply Nat.eqb_neq in N1. rewrite N1. reflexivity.
  - intros S1. assert (T1 : (tsize A =? 1) = true) by (unfold tsize; rewrite S1; reflexivity). rewrite T1 in ET.
    apply (shape_refused [v] [] values (fun _ => x) (fun _ => a) r (fun _ => A) PR ltac:(discriminate) NA NDv INv HEn f fl fr q ql qr PO); [exact EQ|].
    intros vals2 dims2 E2 _ _ _. rewrite E1 in E2. injection E2 as <- <-.
    unfold sd_eval_prob, d in ET. cbn [sd_prob sd_rf rf_fld] in ET. rewrite SE in ET. cbn [assert_ bind] in ET. eexists. split; [exact ET|].
    destruct HE as (GX & _ & _ & [(_ & C)|(DX & _)]); [congruence|]. cbn. unfold needs_axis. rewrite GX, DX. discriminate.
  - intros S0. assert (T1 : (tsize A =? 1) = true) by (unfold tsize; rewrite S0; reflexivity). rewrite T1 in ET.
    destruct HE as (GX & _ & _ & [(DX & _)|(_ & n & _ & C)]); [|congruence].
    assert (LE : filter (needs_axis values) (names_of ([v] ++ [])) = []).
    { cbn. unfold needs_axis. rewrite GX, DX. reflexivity. }
    rewrite LE in MK. destruct (MK _ ET eq_refl) as (p & P1 & P2 & _ & _ & _ & P6 & P7 & _). exists p, vals. rewrite CALL, ET. cbn [bind].
    rewrite P1. cbn [bind]. split; [reflexivity|]. split; [exact P2|]. intros s. unfold prob_at. rewrite P6, P7. cbn [map get tscalar].
    rewrite (to_list_nil _ S0). cbn [map]. rewrite as_num_num. reflexivity.
Qed.
End One.
