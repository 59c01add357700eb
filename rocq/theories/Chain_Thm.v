(** The chains sampled under the names metropolis and hastings. *)
From Coq Require Import String Ascii ZArith Reals Lra Bool Arith Lia Permutation List.
From Verif Require Import Base Num Tensor TensorLemmas OdLemmas RNumLemmas PScales PScales_Spec PScales_Proofs Names Names_Spec Names_Proofs
  Distr PDModel PDUtils PD_Spec PD_Simple_Spec PD_Make PD_Simple PD_Sums PD_Valid
  VariableModel RVModel RV_Spec Var_Spec Var_Proofs Var_Delta FieldModel Field_Spec Field_Dims RFModel RF_Spec RF_Proofs RF_Joint RF_Step SDUtils SDUtils_Proofs
  SDModel SD_Spec SD_Proofs SD_Joint SD_Thm SPModel SP_Spec SP_Proofs SP_Scores ChainModel Chain_Spec Chain_Proofs Chain_Run.
Import ListNotations.
Local Open Scope R_scope.

(** *** Scores *)
Lemma plain_of (a : pspec R) v : scored a v -> exists pa, eval_pscale a = Ok pa /\ plain1 pa v = denote a v.
Proof.
  intros [L|[-> B]].
  - exists (Lin (factor a)). split; [apply eval_linear; exact L|]. rewrite plain1_lin. unfold denote. destruct L as [_ ->]. reflexivity.
  - exists (Log 0 0). split; [exact eval_log0|]. rewrite plain1_log0, exp_logp1_small by exact B. unfold denote. cbn. rn.
    rewrite log_offset_0, exp_0, Rmult_1_l. reflexivity.
Qed.

Lemma scored_plain (a : pspec R) u v : scored a u -> scored a v ->
  exists pa, eval_pscale a = Ok pa /\ plain1 pa u = denote a u /\ plain1 pa v = denote a v.
Proof.
  intros A B. destruct (plain_of a u A) as (pa & E & P). destruct (plain_of a v B) as (pb & E' & P').
  assert (pa = pb) by congruence. subst. eauto.
Qed.

Lemma metropolis_at (a : pspec R) u v : scored a u -> scored a v ->
  metropolis_scores a (Some u) (Some v) = Ok (Some (Rmin 1 (denote a v / Rmax npz (denote a u)))).
Proof.
  intros A B. destruct (scored_plain a u v A B) as (pa & E & P & P'). rewrite (metropolis_value a pa v u E), P, P'. reflexivity.
Qed.

Lemma rescaled_at (a : pspec R) u : scored a u -> exists t, rescale (tscalar u) a (PSFloat 1) = Ok t /\ scalar_of t = denote a u.
Proof.
  intros A. destruct (plain_of a u A) as (pa & E & P).
  destruct (rescale_resc1 (tscalar u) a (PSFloat 1) pa (Lin 1) E eval_unit) as (t & Et & _ & G). exists t. split; [exact Et|].
  unfold scalar_of. rewrite G. exact P.
Qed.

Lemma hastings_at (a : pspec R) u v w : scored a u -> scored a v -> scored a w ->
  hastings_scores a (Some u) (Some v) (Some w) None =
  Ok (if Rle_dec (denote a w) 0 then None else Some (Rmin 1 (denote a v / Rmax npz (denote a u)))).
Proof.
  intros A B C. unfold hastings_scores. destruct (rescaled_at a w C) as (t & Et & Gt). rn. rewrite Et. cbn [bind]. rewrite Gt.
  destruct (Rle_dec (denote a w) 0) as [L|L].
  - rewrite (proj2 (Rleb_iff _ _) L). reflexivity.
  - rewrite (proj2 (Rleb_false_iff _ _)) by lra. destruct (scored_plain a u v A B) as (pa & E & P & P').
    destruct (div_prob_scalar a pa v u E) as (d & Ed & Gd). rn. rewrite Ed. cbn [bind]. rewrite Gd, n_min_R, P, P'. reflexivity.
Qed.

Lemma hastings_both (a : pspec R) u v w : linear_scale a ->
  hastings_scores a (Some u) (Some v) (Some w) (Some w) =
  Ok (if Rle_dec (denote a w) 0 then None
      else Some (Rmin 1 (denote a v * denote a w / Rmax npz (denote a u * denote a w)))).
Proof.
  intros A. unfold hastings_scores. destruct (rescaled_at a w (or_introl A)) as (t & Et & Gt). rn. rewrite Et. cbn [bind]. rewrite Gt.
  destruct (Rle_dec (denote a w) 0) as [L|L].
  - rewrite (proj2 (Rleb_iff _ _) L). reflexivity.
  - rewrite (proj2 (Rleb_false_iff _ _)) by lra.
    destruct (div_prob_scalar a (Lin (factor a)) (v * denote a w) (u * denote a w) (eval_linear a A)) as (d & Ed & Gd).
    rn. rewrite Ed. cbn [bind]. rewrite Gd, n_min_R, !plain1_lin. unfold denote at 4 5. destruct A as [_ A]. rewrite A.
    do 3 f_equal. replace (factor a * (v * denote a w)) with (factor a * v * denote a w) by lra.
    replace (factor a * (u * denote a w)) with (factor a * u * denote a w) by lra. unfold denote. rewrite A. reflexivity.
Qed.

(** *** The chains *)
Lemma sd_nodes {F : Fmt R} (vs : list (rv R)) d0 fn given d : vs <> [] -> named_apart (names_of vs) -> scales_ok vs ->
  make_sd vs [] None = Ok d0 -> sd_set_prob d0 (Some fn) given = Ok d -> fd_varlist (rf_fld (sd_rf d)) = nodes vs.
Proof.
  intros NE NA SC E0 ES. assert (AN : (vs ++ [])%list = vs) by apply app_nil_r.
  destruct (make_sd_ok vs [] None NE) as (f & fl & fr & q & ql & qr & PO & E); try (rewrite AN; assumption); [rewrite AN; apply NA|].
  rewrite E0 in E. injection E as ->. destruct (set_prob_ok _ _ _ _ _ _ _ _ ES) as (q' & Ed & EQ). destruct (po_all _ _ _ _ _ _ _ _ PO) as (K1 & K2 & _). rewrite AN in K2.
  rewrite Ed. exact K2.
Qed.

Section Chains.
Context {F : Fmt R} {TR : Trunc R}.
Variable vs : list (rv R).
Let names := names_of vs.
Hypothesis PR : printable F.
Hypothesis NE : vs <> [].
Hypothesis NA : named_apart names.
Hypothesis UP : unprimed names.
Hypothesis RV : forall v, In v vs -> vs_vtype (rv_state v) = Some VFloat /\ vs_vset (rv_state v) <> None.
Hypothesis SC : scales_ok vs.
Variables (m : mcmc) (cd : cdelta R) (nums : crnd R -> list R) (start : list R) (ok : list R -> Prop) (move : list R -> list R -> list R).
Hypothesis LS : length start = length vs.
Hypothesis OS : ok start.
Hypothesis HM : forall d t x r, rf_rvs (sd_rf d) = vs -> fd_keys (rf_fld (sd_rf d)) = names -> fd_varlist (rf_fld (sd_rf d)) = nodes vs -> ok x -> length x = length vs -> length (nums r) = length vs ->
  let y := move x (nums r) in
  successors (mkChain d t cd (combine names (map PF start))) (combine names (map PF x)) r = Ok (combine names (map PF y)) /\ ok y /\ length y = length vs.

(** What a rule has to do for the scores that the process computes. *)
Definition rule_for (ps : pspec R) (t : tranin R) (h : list (pyval R) -> R) (qd : list (pyval R) -> list (pyval R) -> R)
    (acc : list R -> list R -> R) : Prop :=
  forall x y dp dp' prop rv, ok x -> ok y -> length x = length vs -> length y = length vs ->
  scalar_prob dp = Ok (h (map PF x)) -> scalar_prob dp' = Ok (h (map PF y)) -> scalar_prob prop = Ok (qd (map PF x) (map PF y)) ->
  match t with
  | TranOne _ => rv = None
  | TranTwo _ _ => if match vs with [v] => negb (is_none (rv_tran v)) | _ => false end
                   then rv = None else exists rd, rv = Some rd /\ scalar_prob rd = scalar_prob prop
  end ->
  exists sc, named_scores m ps (mkOPQR (Some dp) (Some dp') (Some prop) rv) = Ok sc /\
    match sc with Some s => s = acc x y | None => acc x y = 1%R end.

Lemma chain_gen : exists d0, make_sd vs [] None = Ok d0 /\ forall fn h given d t qd acc,
  elementwise names h fn -> sd_set_prob d0 (Some fn) given = Ok d -> computes names qd (tran_of t) ->
  valid_scale (spec_of (sd_pscale d)) -> rule_for (spec_of (sd_pscale d)) t h qd acc ->
  samples_by nums (mkChain d t cd (combine names (map PF start))) m names start
    (fun x => denote (spec_of (sd_pscale d)) (h (map PF x))) move acc.
Proof.
  destruct (called_at vs PR NE NA (fun v I => proj2 (RV v I)) SC) as (d0 & E0 & H0). exists d0. split; [exact E0|].
  intros fn h given d t qd acc EL ES CO VS RF pre post NR SP WD.
  destruct (H0 fn h given d EL ES) as (K1 & K2 & K3 & K4).
  assert (LN : length names = length vs) by (unfold names, names_of; apply map_length).
  refine (sampler_chain vs PR NE NA UP (mkChain d t cd (combine names (map PF start))) m h qd nums start ok move acc K1 K2 K3 (K4 VS) CO eq_refl LS OS _ _ pre post NR SP _).
  - intros x r O L LD. apply HM; try assumption. exact (sd_nodes vs d0 fn given d NE NA SC E0 ES).
  - intros x y dp dp' prop rv Ox Oy Lx Ly S1 S2 S3 TU. apply (RF x y dp dp' prop rv); try assumption.
    unfold turned in TU. cbn [ch_tran] in TU. unfold unit_tran in TU. unfold ch_rvs in TU. cbn [ch_sd] in TU. rewrite K1 in TU. exact TU.
  - rewrite LN in WD. exact WD.
Qed.
End Chains.

Lemma scored_valid (s : pspec R) v : scored s v -> valid_scale s.
Proof. intros [[V _]|[-> _]]; [exact V|]. split; cbn; auto. Qed.

(** *** Moves *)
Lemma Forall2_len {A B} {P : A -> B -> Prop} {l m} : Forall2 P l m -> length l = length m.
Proof. induction 1; cbn; congruence. Qed.

Lemma Forall2_nth_both {A B} (P : A -> B -> Prop) l m : Forall2 P l m -> forall i a b, nth_error l i = Some a -> nth_error m i = Some b -> P a b.
Proof. induction 1 as [|a b l m H HH IH]; intros [|i] a' b' I1 I2; cbn in I1, I2; try discriminate; [congruence|eauto]. Qed.

Lemma Forall2_by_nth {A B} (P : A -> B -> Prop) l m : length l = length m -> (forall i a b, nth_error l i = Some a -> nth_error m i = Some b -> P a b) -> Forall2 P l m.
Proof.
  revert m. induction l as [|a l IH]; intros [|b m] E H; try discriminate; constructor; [exact (H 0%nat a b eq_refl eq_refl)|].
  apply IH; [injection E; auto|]. intros i a' b' I1 I2. exact (H (S i) a' b' I1 I2).
Qed.

Lemma moved_length x d : length d = length x -> length (moved x d) = length x.
Proof. intros E. unfold moved. rewrite map_length, combine_length. lia. Qed.

Section Moves.
Context {F : Fmt R} {TR : Trunc R}.
Variable vs : list (rv R).
Let names := names_of vs.
Hypothesis ND : NoDup names.
Variable vds : list (dconf R).
Hypothesis LD : length vds = length vs.
Hypothesis DN : Forall (fun dc => dc_delta dc = DNone) vds.

Lemma nth_pair {A B C} (f : A * B -> C) (l : list A) (l' : list B) i c : nth_error (map f (combine l l')) i = Some c ->
  exists a b, nth_error l i = Some a /\ nth_error l' i = Some b /\ c = f (a, b).
Proof.
  revert l' i. induction l as [|a l IH]; intros [|b l'] [|i] H; cbn in H; try discriminate; [injection H as <-; exists a, b; auto|exact (IH l' i H)].
Qed.

Lemma free_moves d t x r start : rf_rvs (sd_rf d) = vs -> (forall v, In v vs -> vs_vtype (rv_state v) = Some VFloat) ->
  length x = length vs -> length (cr_delta r) = length vs ->
  let y := moved x (map as_num (cr_delta r)) in
  successors (mkChain d t (DeltaFun false vds) (combine names (map PF start))) (combine names (map PF x)) r = Ok (combine names (map PF y)) /\ length y = length vs.
Proof.
  intros K RV LX LR y.
  assert (LY : length y = length vs) by (unfold y; rewrite moved_length, LX; [reflexivity|rewrite map_length; congruence]).
  split; [|exact LY]. unfold successors, ch_rvs. cbn [ch_sd ch_delta]. rewrite K, LR, Nat.eqb_refl.
  apply apply_each; try (rewrite map_length; congruence); [exact ND|exact LD|].
  intros i v dc a dl b I1 I2 I3 I4 I5. rewrite nth_error_map in I3, I4, I5.
  destruct (nth_error x i) as [a'|] eqn:Ia; [|discriminate]. injection I3 as <-.
  destruct (nth_error (cr_delta r) i) as [e|] eqn:Ie; [|discriminate]. injection I4 as <-.
  destruct (nth_error y i) as [b'|] eqn:Ib; [|discriminate]. injection I5 as <-.
  unfold y, moved in Ib. apply nth_pair in Ib. destruct Ib as (a0 & e0 & J1 & J2 & ->). rewrite nth_error_map, Ie in J2. injection J2 as <-.
  assert (a0 = a') by congruence. subst a0. cbn [fst snd].
  apply add_real; [apply RV; eapply nth_error_In; exact I1|]. rewrite Forall_forall in DN. apply DN. eapply nth_error_In; exact I2.
Qed.

Lemma keep_real v l dc a d (r : drnd R) : interval_rv v l -> dc_delta dc = DNone -> within1 l a ->
  apply_delta (rv_state v) None dc true [PF a] (DScal d) (Some true) r = Ok [PF (kept l a (a + as_num d))] /\ within1 l (kept l a (a + as_num d)).
Proof.
  intros [E LE] DD W. unfold within1 in *.
  assert (KI : kept l a a = a).
  { unfold kept. destruct (lm_open l); [destruct (Rlt_dec (lm_lo l) a), (Rlt_dec a (lm_hi l)); reflexivity|].
    rewrite Rmin_right by lra. apply Rmax_right. lra. }
  split.
  - unfold apply_delta, delta_or. destruct l as [[|] lo hi]; cbn [lm_open lm_lo lm_hi] in *; rewrite E, DD; destruct (v_true d) eqn:V; cbn [bind vs_vtype].
    2, 4: unfold v_true in V; apply negb_false_iff, Reqb_iff in V; rewrite V; rn; rewrite Rplus_0_r, KI; reflexivity.
    + cbn [map v_add combine map_res fst snd]. unfold revtype. cbn [vtype_of vtype_eqb combine map_res fst snd]. unfold bound_elem. cbn [vs_vset vs_vtype].
      rewrite interval_lims by (cbn; lra). cbn [is_tup as_num]. unfold kept. cbn [lm_open lm_lo lm_hi].
      destruct (inside_interval (Tup (AV (PF lo))) (Tup (AV (PF hi))) (PF (a + as_num d))) as (b & IB & B). unfold interval in IB. rn. rewrite IB.
      cbn [over under num] in B.
      destruct (Rlt_dec lo (a + as_num d)), (Rlt_dec (a + as_num d) hi); destruct b; cbn [bind]; try reflexivity; exfalso; intuition congruence.
    + cbn [map v_add combine map_res fst snd]. unfold revtype. cbn [vtype_of vtype_eqb combine map_res fst snd]. unfold bound_elem. cbn [vs_vset vs_vtype].
      rewrite interval_lims by (cbn; lra). cbn [is_tup atom_of as_num bind]. unfold kept, v_max, v_min. cbn [lm_open lm_lo lm_hi]. rn.
      destruct (v_leb (PF hi) (PF (a + as_num d))) eqn:B1; [apply v_leb_iff in B1|apply v_leb_false in B1]; cbn in B1.
      * rewrite Rmin_left by lra. destruct (v_leb (PF hi) (PF lo)) eqn:B2; [apply v_leb_iff in B2|apply v_leb_false in B2]; cbn in B2.
        -- rewrite Rmax_left by lra. reflexivity.
        -- rewrite Rmax_right by lra. reflexivity.
      * rewrite Rmin_right by lra. destruct (v_leb (PF (a + as_num d)) (PF lo)) eqn:B2; [apply v_leb_iff in B2|apply v_leb_false in B2]; cbn in B2.
        -- rewrite Rmax_left by lra. reflexivity.
        -- rewrite Rmax_right by lra. reflexivity.
  - unfold kept. destruct (lm_open l).
    + destruct (Rlt_dec (lm_lo l) (a + as_num d)); [destruct (Rlt_dec (a + as_num d) (lm_hi l))|]; lra.
    + split; [apply Rmax_l|]. apply Rmax_lub; [exact LE|apply Rmin_l].
Qed.

Lemma bounded_moves d t x r start lims : rf_rvs (sd_rf d) = vs -> Forall2 interval_rv vs lims -> within lims x ->
  length x = length vs -> length (cr_delta r) = length vs ->
  let y := moved_in lims x (map as_num (cr_delta r)) in
  successors (mkChain d t (DeltaFun true vds) (combine names (map PF start))) (combine names (map PF x)) r = Ok (combine names (map PF y)) /\
  within lims y /\ length y = length vs.
Proof.
  intros K IV W LX LR y. pose proof (Forall2_len IV) as LI.
  assert (LY : length y = length vs).
  { unfold y, moved_in. rewrite map_length, !combine_length, map_length. lia. }
  assert (G : forall i v l a e b dc, nth_error vs i = Some v -> nth_error lims i = Some l -> nth_error x i = Some a -> nth_error (cr_delta r) i = Some e ->
    nth_error y i = Some b -> nth_error vds i = Some dc ->
    apply_delta (rv_state v) None dc true [PF a] (DScal e) (Some true) (cr_vars r i) = Ok [PF b] /\ within1 l b).
  { intros i v l a e b dc I1 I2 I3 I4 I5 I6. unfold y, moved_in in I5. apply nth_pair in I5. destruct I5 as (l0 & [a0 e0] & J1 & J2 & ->).
    assert (l0 = l) by congruence. subst l0. cbn [fst snd]. rewrite <- (map_id (combine x (map as_num (cr_delta r)))) in J2. apply nth_pair in J2.
    destruct J2 as (a1 & e1 & J3 & J4 & EQ). injection EQ as <- <-. rewrite nth_error_map, I4 in J4. injection J4 as <-.
    assert (a0 = a) by congruence. subst a0. apply keep_real.
    - eapply Forall2_nth_both; [exact IV|exact I1|exact I2].
    - rewrite Forall_forall in DN. apply DN. eapply nth_error_In; exact I6.
    - eapply Forall2_nth_both; [exact W|exact I2|exact I3]. }
  split; [|split; [|exact LY]].
  - unfold successors, ch_rvs. cbn [ch_sd ch_delta]. rewrite K, LR, Nat.eqb_refl.
    apply apply_each; try (rewrite map_length; congruence); [exact ND|exact LD|].
    intros i v dc a dl b I1 I2 I3 I4 I5. rewrite nth_error_map in I3, I4, I5.
    destruct (nth_error x i) as [a'|] eqn:Ia; [|discriminate]. injection I3 as <-.
    destruct (nth_error (cr_delta r) i) as [e|] eqn:Ie; [|discriminate]. injection I4 as <-.
    destruct (nth_error y i) as [b'|] eqn:Ib; [|discriminate]. injection I5 as <-.
    destruct (nth_error lims i) as [l|] eqn:Il; [|apply nth_error_None in Il; assert (i < length vs)%nat by (apply nth_error_Some; congruence); lia].
    exact (proj1 (G i v l a' e b' dc I1 Il Ia Ie Ib I2)).
  - apply Forall2_by_nth; [lia|]. intros i l b Il Ib. assert (B : (i < length lims)%nat) by (apply nth_error_Some; congruence).
    destruct (nth_error vs i) as [v|] eqn:Iv; [|apply nth_error_None in Iv; lia].
    destruct (nth_error x i) as [a|] eqn:Ia; [|apply nth_error_None in Ia; lia].
    destruct (nth_error (cr_delta r) i) as [e|] eqn:Ie; [|apply nth_error_None in Ie; lia].
    destruct (nth_error vds i) as [dc|] eqn:Id; [|apply nth_error_None in Id; lia].
    exact (proj2 (G i v l a e b dc Iv Il Ia Ie Ib Id)).
Qed.
End Moves.

(** *** The laws *)
Section Laws.
Context {F : Fmt R} {TR : Trunc R}.
Variables (vs : list (rv R)) (vds : list (dconf R)) (start : list R).
Let names := names_of vs.
Hypothesis PR : printable F.
Hypothesis NE : vs <> [].
Hypothesis NA : named_apart names.
Hypothesis UP : unprimed names.
Hypothesis SC : scales_ok vs.
Hypothesis LD : length vds = length vs.
Hypothesis DN : Forall (fun dc => dc_delta dc = DNone) vds.
Hypothesis LS : length start = length vs.

Lemma metropolis_rule_for ps t h qd ok : (forall x, length x = length vs -> scored ps (h (map PF x))) ->
  rule_for vs Metropolis ok ps t h qd (metropolis_rule (fun x => denote ps (h (map PF x)))).
Proof.
  intros SR x y dp dp' prop rv _ _ Lx Ly S1 S2 _ _. eexists. split.
  - unfold named_scores. cbn [f_o f_p opt_prob]. rewrite S1, S2. cbn [bind]. apply metropolis_at; auto.
  - reflexivity.
Qed.

Lemma metropolis_law : Forall real_rv vs ->
  exists d0, make_sd vs [] None = Ok d0 /\ forall fn h given d t qd,
  elementwise names h fn -> sd_set_prob d0 (Some fn) given = Ok d -> computes names qd (tran_of t) ->
  (forall x, length x = length vs -> scored (spec_of (sd_pscale d)) (h (map PF x))) ->
  let dens x := denote (spec_of (sd_pscale d)) (h (map PF x)) in
  samples_as (mkChain d t (DeltaFun false vds) (combine names (map PF start))) Metropolis names start dens moved (metropolis_rule dens).
Proof.
  intros RV. rewrite Forall_forall in RV.
  destruct (chain_gen vs PR NE NA UP RV SC Metropolis (DeltaFun false vds) returned start (fun _ => True) moved LS I) as (d0 & E0 & H).
  - intros d t x r K1 K2 _ _ LX LR. unfold returned in LR. rewrite map_length in LR. destruct (free_moves vs (proj1 NA) vds LD DN d t x r start K1 (fun v Iv => proj1 (RV v Iv)) LX LR) as [A B]. auto.
  - exists d0. split; [exact E0|]. intros fn h given d t qd EL ES CO SR. apply (H fn h given d t qd); try assumption.
    + eapply scored_valid, (SR start LS).
    + apply metropolis_rule_for. exact SR.
Qed.

Lemma bounded_law lims : Forall2 interval_rv vs lims -> within lims start ->
  exists d0, make_sd vs [] None = Ok d0 /\ forall fn h given d t qd,
  elementwise names h fn -> sd_set_prob d0 (Some fn) given = Ok d -> computes names qd (tran_of t) ->
  (forall x, length x = length vs -> scored (spec_of (sd_pscale d)) (h (map PF x))) ->
  let dens x := denote (spec_of (sd_pscale d)) (h (map PF x)) in
  samples_as (mkChain d t (DeltaFun true vds) (combine names (map PF start))) Metropolis names start dens (moved_in lims) (metropolis_rule dens).
Proof.
  intros IV W.
  assert (RV : forall v, In v vs -> vs_vtype (rv_state v) = Some VFloat /\ vs_vset (rv_state v) <> None).
  { intros v Iv. apply In_nth_error in Iv. destruct Iv as (i & Iv). destruct (nth_error lims i) as [l|] eqn:Il.
    - destruct (Forall2_nth_both _ _ _ IV i v l Iv Il) as [-> _]. split; [reflexivity|discriminate].
    - apply nth_error_None in Il. rewrite <- (Forall2_len IV) in Il. assert (i < length vs)%nat by (apply nth_error_Some; congruence). lia. }
  destruct (chain_gen vs PR NE NA UP RV SC Metropolis (DeltaFun true vds) returned start (within lims) (moved_in lims) LS W) as (d0 & E0 & H).
  - intros d t x r K1 K2 _ WX LX LR. unfold returned in LR. rewrite map_length in LR. exact (bounded_moves vs (proj1 NA) vds LD DN d t x r start lims K1 IV WX LX LR).
  - exists d0. split; [exact E0|]. intros fn h given d t qd EL ES CO SR. apply (H fn h given d t qd); try assumption.
    + eapply scored_valid, (SR start LS).
    + apply metropolis_rule_for. exact SR.
Qed.

Lemma hastings_law : Forall real_rv vs ->
  exists d0, make_sd vs [] None = Ok d0 /\ forall fn h given d q qd,
  elementwise names h fn -> sd_set_prob d0 (Some fn) given = Ok d -> computes names qd q ->
  (forall x, length x = length vs -> scored (spec_of (sd_pscale d)) (h (map PF x))) ->
  (forall x y, length x = length vs -> length y = length vs -> scored (spec_of (sd_pscale d)) (qd (map PF x) (map PF y))) ->
  let dens x := denote (spec_of (sd_pscale d)) (h (map PF x)) in
  let prop := prop_density (spec_of (sd_pscale d)) qd in
  samples_as (mkChain d (TranOne q) (DeltaFun false vds) (combine names (map PF start))) Hastings names start dens moved
    (unless_improper prop (metropolis_rule dens)).
Proof.
  intros RV. rewrite Forall_forall in RV.
  destruct (chain_gen vs PR NE NA UP RV SC Hastings (DeltaFun false vds) returned start (fun _ => True) moved LS I) as (d0 & E0 & H).
  - intros d t x r K1 K2 _ _ LX LR. unfold returned in LR. rewrite map_length in LR. destruct (free_moves vs (proj1 NA) vds LD DN d t x r start K1 (fun v Iv => proj1 (RV v Iv)) LX LR) as [A B]. auto.
  - exists d0. split; [exact E0|]. intros fn h given d q qd EL ES CO SR SQ. cbv zeta. apply (H fn h given d (TranOne q) qd); try assumption.
    + eapply scored_valid, (SR start LS).
    + intros x y dp dp' prop rv _ _ Lx Ly S1 S2 S3 ->. eexists. split.
      * unfold named_scores. cbn [f_o f_p f_q f_r opt_prob]. rewrite S1, S2, S3. cbn [bind]. apply hastings_at; auto.
      * unfold unless_improper, prop_density. destruct (Rle_dec _ 0); reflexivity.
Qed.

Lemma two_way_law : Forall real_rv vs -> (forall v, vs = [v] -> rv_tran v = TRNone) ->
  exists d0, make_sd vs [] None = Ok d0 /\ forall fn h given d q r qd,
  elementwise names h fn -> sd_set_prob d0 (Some fn) given = Ok d -> computes names qd q ->
  linear_scale (spec_of (sd_pscale d)) ->
  let dens x := denote (spec_of (sd_pscale d)) (h (map PF x)) in
  let prop := prop_density (spec_of (sd_pscale d)) qd in
  samples_as (mkChain d (TranTwo q r) (DeltaFun false vds) (combine names (map PF start))) Hastings names start dens moved
    (unless_improper prop (weighted_rule dens prop)).
Proof.
  intros RV NT. rewrite Forall_forall in RV.
  destruct (chain_gen vs PR NE NA UP RV SC Hastings (DeltaFun false vds) returned start (fun _ => True) moved LS I) as (d0 & E0 & H).
  - intros d t x r K1 K2 _ _ LX LR. unfold returned in LR. rewrite map_length in LR. destruct (free_moves vs (proj1 NA) vds LD DN d t x r start K1 (fun v Iv => proj1 (RV v Iv)) LX LR) as [A B]. auto.
  - exists d0. split; [exact E0|]. intros fn h given d q r qd EL ES CO SR. cbv zeta. apply (H fn h given d (TranTwo q r) qd); try assumption.
    + apply SR.
    + intros x y dp dp' prop rv _ _ Lx Ly S1 S2 S3 TU.
      assert (TU' : exists rd, rv = Some rd /\ scalar_prob rd = scalar_prob prop).
      { clear -NT TU. destruct vs as [|v [|v' l]]; [exact TU| |exact TU]. rewrite (NT v eq_refl) in TU. exact TU. }
      destruct TU' as (rd & -> & S4). eexists. split.
      * unfold named_scores. cbn [f_o f_p f_q f_r opt_prob]. rewrite S1, S2, S3. cbn [bind]. rewrite S4, S3. cbn [bind]. apply hastings_both; auto.
      * unfold unless_improper, weighted_rule, prop_density. destruct (Rle_dec _ 0); reflexivity.
Qed.
End Laws.
