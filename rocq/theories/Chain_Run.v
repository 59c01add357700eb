(** Samplers of a process with a transition function as Markov chains. *)
From Coq Require Import String Ascii ZArith Reals Lra Bool Arith Lia Permutation List.
From Verif Require Import Base Num Tensor TensorLemmas OdLemmas RNumLemmas PScales PScales_Spec PScales_Proofs Names Names_Spec Names_Proofs
  Distr PDModel PDUtils PD_Spec PD_Simple_Spec PD_Make PD_Simple PD_Sums PD_Valid
  VariableModel RVModel RV_Spec FieldModel Field_Spec Field_Dims RFModel RF_Spec RF_Proofs RF_Joint RF_Step SDUtils SDUtils_Proofs
  SDModel SD_Spec SD_Proofs SD_Joint SD_Thm SPModel SP_Spec SP_Proofs SP_Scores ChainModel Chain_Spec Chain_Proofs.
Import ListNotations.

(** *** Successors *)
Lemma od_set_mid {A} (d1 d2 : odict A) k x y : ~ In k (od_keys d1) -> od_set (d1 ++ (k, x) :: d2) k y = (d1 ++ (k, y) :: d2)%list.
Proof.
  induction d1 as [|[k0 z] d1 IH]; intros N; cbn.
  - rewrite String.eqb_refl. reflexivity.
  - destruct (String.eqb_spec k k0) as [->|NE]; [exfalso; apply N; left; reflexivity|]. f_equal. apply IH. intros C. apply N. right. exact C.
Qed.

Section Apply.
Context {TR : Trunc R}.
Implicit Types (vs : list (rv R)).

Lemma apply_each vs vds xs ls ys bound rs : NoDup (names_of vs) -> length vds = length vs -> length ls = length vs -> length xs = length vs -> length ys = length vs ->
  (forall i v dc x d y, nth_error vs i = Some v -> nth_error vds i = Some dc -> nth_error xs i = Some x -> nth_error ls i = Some d -> nth_error ys i = Some y ->
     apply_delta (rv_state v) None dc true [x] d (Some bound) (rs i) = Ok [y]) ->
  f_apply_delta vs vds (combine (names_of vs) xs) ls bound rs = Ok (combine (names_of vs) ys).
Proof.
  intros ND L1 L2 L3 L4 H. unfold f_apply_delta. set (values := combine (names_of vs) xs) at 1.
  assert (G : forall l j ws zs us es pre, length ws = length l -> length zs = length l -> length us = length l -> length es = length l ->
    (forall i v dc x d y, nth_error l i = Some v -> nth_error ws i = Some dc -> nth_error zs i = Some x -> nth_error us i = Some d -> nth_error es i = Some y ->
      od_get values (rv_name v) = Some x /\ apply_delta (rv_state v) None dc true [x] d (Some bound) (rs (j + i)) = Ok [y]) ->
    NoDup (od_keys pre ++ names_of l) ->
    fold_res (fun (vals : odict (pyval R)) (ivd : nat * (rv R * (dconf R * delta R))) =>
      let '(i, (v, (dc, d))) := ivd in
      let! x := od_getR values (rv_name v) in
      let! ys := apply_delta (rv_state v) None dc true [x] d (Some bound) (rs i) in
      match ys with [y] => Ok (od_set vals (rv_name v) y) | _ => Err TypeError end)
    (combine (seq j (length l)) (combine l (combine ws us))) (pre ++ combine (names_of l) zs)%list = Ok (pre ++ combine (names_of l) es)%list).
  { induction l as [|v l IH]; intros j [|w ws] [|z zs] [|u us] [|e es] pre E1 E2 E3 E4 HH NDp; try discriminate; [reflexivity|].
    cbn [length seq combine fold_res names_of map]. destruct (HH 0 v w z u e eq_refl eq_refl eq_refl eq_refl eq_refl) as [G1 G2].
    assert (od_getR values (rv_name v) = Ok z) as -> by (apply od_getR_ok; exact G1). cbn [bind]. rewrite Nat.add_0_r in G2. rewrite G2. cbn [bind].
    rewrite od_set_mid. 2:{ intros C. cbn [names_of map] in NDp. apply NoDup_remove_2 in NDp. apply NDp, in_or_app. auto. }
    specialize (IH (S j) ws zs us es (pre ++ [(rv_name v, e)])%list). cbn in E1, E2, E3, E4.
    rewrite <- !app_assoc in IH. cbn [app] in IH. apply IH; try lia.
    - intros i v0 dc x d y I1 I2 I3 I4 I5. replace (S j + i) with (j + S i) by lia. exact (HH (S i) v0 dc x d y I1 I2 I3 I4 I5).
    - unfold od_keys in *. rewrite map_app, <- app_assoc. exact NDp. }
  apply (G vs 0 vds xs ls ys []); auto. intros i v dc x d y I1 I2 I3 I4 I5. split; [|apply (H i v dc x d y); assumption].
  eapply zip_get; [exact ND| |exact I3]. unfold names_of. rewrite nth_error_map, I1. reflexivity.
Qed.

Lemma add_real (s : vstate R) dc a d r : vs_vtype s = Some VFloat -> dc_delta dc = DNone ->
  apply_delta s None dc true [PF a] (DScal d) (Some false) r = Ok [PF (a + as_num d)%R].
Proof.
  intros VT DN. unfold apply_delta, delta_or. rewrite VT, DN. destruct (v_true d) eqn:V; cbn [bind].
  - cbn [map v_add revtype vtype_of vtype_eqb as_num]. unfold revtype. cbn. reflexivity.
  - unfold v_true in V. apply negb_false_iff, Reqb_iff in V. rewrite V. rn. rewrite Rplus_0_r. reflexivity.
Qed.
End Apply.

Lemma map_seq_nth {A} (l : list A) d : map (fun i => nth i l d) (seq 0 (length l)) = l.
Proof.
  induction l as [|x l IH]; [reflexivity|]. cbn [length seq map nth]. f_equal. rewrite <- seq_shift, map_map. exact IH.
Qed.

Lemma map_fst_combine {A B} (l : list A) (m : list B) : length l = length m -> map fst (combine l m) = l.
Proof. revert m. induction l as [|x l IH]; intros [|y m] E; try discriminate; [reflexivity|]. cbn. f_equal. apply IH. auto. Qed.

(** *** The probability of the successors *)
Section Prob.
Context {F : Fmt R} {TR : Trunc R}.
Variable vs : list (rv R).
Let names := names_of vs.
Hypothesis PR : printable F.
Hypothesis NE : vs <> [].
Hypothesis NA : named_apart names.
Hypothesis VN : forall v, In v vs -> vs_vset (rv_state v) <> None.
Hypothesis SC : scales_ok vs.

(** A distribution of the variables at the numbers ys, held as the number h ys. *)
Definition dist_at (q : pscale R) (h : list (pyval R) -> R) (p : pd R) (ys : list (pyval R)) : Prop :=
  valid_pd p [] /\ od_keys (p_marg p) = names /\ od_keys (p_cond p) = [] /\ p_pscale p = q /\
  (forall i k, nth_error names i = Some k -> variable p k = Some (Scal (VNum (as_num (nth i ys (PF 0%R)))))) /\
  exists t, p_prob p = Some t /\ shape t = [] /\ get t [] = h ys.

Lemma given_value v y (r : rnd R) : vs_vset (rv_state v) <> None -> rv_evaluate v (VGiven [y] true) r = Ok (tscalar y).
Proof.
  intros V. unfold rv_evaluate. destruct (vs_vset (rv_state v)) as [l|] eqn:E; [|congruence].
  assert (evaluate (rv_state v) None (VGiven [y] true) r = Ok (OScalar y)) as Q by (unfold evaluate; rewrite E; reflexivity).
  rewrite Q. destruct (is_bool (rv_state v)), (rv_prob v); reflexivity.
Qed.

Lemma called_at : exists d0, make_sd vs [] None = Ok d0 /\ forall fn h given d,
  elementwise names h fn -> sd_set_prob d0 (Some fn) given = Ok d ->
  rf_rvs (sd_rf d) = vs /\ fd_keys (rf_fld (sd_rf d)) = names /\
  eval_pscale (spec_of (sd_pscale d)) = Ok (sd_pscale d) /\
  (valid_scale (spec_of (sd_pscale d)) -> forall ys, length ys = length names ->
  exists p vals, sd_call d (entries (combine names ys)) NoIid no_rnd = Ok (p, vals) /\ dist_at (sd_pscale d) h p ys).
Proof.
  assert (AN : (vs ++ [])%list = vs) by apply app_nil_r.
  destruct (make_sd_ok vs [] None NE) as (f & fl & fr & q & ql & qr & PO & E); try (rewrite AN; assumption); [rewrite AN; apply NA|].
  eexists. split; [exact E|]. intros fn h given d EL ES. pose proof ES as ES'. destruct (set_prob_ok _ _ _ _ _ _ _ _ ES) as (q' & Ed & EQ).
  destruct (po_all _ _ _ _ _ _ _ _ PO) as (K1 & K2 & _). rewrite AN in K1, K2.
  split. { rewrite Ed. cbn [sd_rf]. unfold rf_rvs. cbn [rf_all rf_fld]. rewrite AN. apply pick_all. exact K2. }
  split. { rewrite Ed. exact K1. }
  split. { rewrite Ed. exact EQ. }
  intros VS ys LY. set (values := entries (combine names ys)).
  assert (KV : od_keys values = names) by (unfold values, entries, od_keys; rewrite map_map; cbn [fst]; apply (zip_keys names ys); exact LY).
  assert (GV : forall i k, nth_error names i = Some k -> od_get values k = Some (One (FNum (nth i ys (PF 0%R))))).
  { intros i k I. unfold values, entries. rewrite (od_get_map (fun y => One (FNum y))).
    assert (nth_error ys i = Some (nth i ys (PF 0%R))) as Y by (apply nth_error_nth'; rewrite LY; apply nth_error_Some; congruence).
    rewrite (zip_get names ys i k _ (proj1 NA) I Y). reflexivity. }
  assert (NX : forall k, needs_axis values k = false).
  { intros k. unfold needs_axis. destruct (od_get values k) eqn:G; [|reflexivity]. assert (I : In k (od_keys values)) by (eapply od_get_some_key; exact G). rewrite KV in I.
    apply In_nth_error in I. destruct I as (i & I). rewrite (GV i k I) in G. injection G as <-. reflexivity. }
  assert (FN : forall l, filter (needs_axis values) l = []) by (induction l as [|k l IH]; [reflexivity|]; cbn; rewrite NX; exact IH).
  destruct (call_conditional vs [] values (fun i => FNum (nth i ys (PF 0%R))) (fun i => VGiven [nth i ys (PF 0%R)] true) no_rnd
              (fun i => tscalar (nth i ys (PF 0%R))) PR NE) as (d1 & E1 & HC); try (rewrite AN); try assumption.
  - rewrite KV. apply NA.
  - rewrite KV. apply incl_refl.
  - intros i v Iv. split; [apply GV; unfold names, names_of; rewrite nth_error_map, Iv; reflexivity|]. split; [constructor|].
    split; [apply given_value, VN; eapply nth_error_In; exact Iv|]. left. split; reflexivity.
  - assert (d1 = mkSD (mkRF (vs ++ []) f q) (mkRF vs fl ql) (roots_field [] fr qr) None None q) by congruence. subst d1.
    rewrite AN in HC, ES'. destruct (HC fn h given d EL ES') as (p & vals & C1 & VP & MP & CP & SP & VV & PP). rewrite FN in *.
    exists p, vals. split; [exact C1|]. split; [exact VP|]. split; [exact MP|]. split; [exact CP|]. split; [exact SP|]. split.
    + intros i k I. unfold names, names_of in I. rewrite nth_error_map in I. destruct (nth_error vs i) as [v|] eqn:Iv; [|discriminate]. injection I as <-.
      rewrite (VV i v Iv). reflexivity.
    + destruct (vp_prob _ _ VP) as (t & Pt & St). assert (S0 : p_shape p = []) by (pose proof (vp_shape _ _ VP) as Q; destruct (p_shape p); [reflexivity|discriminate]).
      exists t. split; [exact Pt|]. split; [congruence|].
      assert (B : in_bounds p [] (fun _ => 0)). { unfold in_bounds. intros k []. }
      specialize (PP _ B). unfold prob_at in PP. rewrite Pt, SP in PP. cbn [map] in PP.
      apply denote_inj in PP; [|exact VS]. rewrite PP. f_equal. unfold at_positions.
      transitivity (map (fun i => nth i ys (PF 0%R)) (map fst (combine (seq 0 (length vs)) vs))).
      * rewrite map_map. reflexivity.
      * rewrite map_fst_combine by (rewrite seq_length; reflexivity).
        replace (length vs) with (length ys) by (rewrite LY; unfold names, names_of; rewrite map_length; reflexivity). apply map_seq_nth.
Qed.
End Prob.

(** *** Chains *)

(** The reverse proposal: none for a symmetric transition, else one that holds the
    same number. *)
Definition turned (ch : chain R) (prop : cdist R) (rv : option (cdist R)) : Prop :=
  match ch_tran ch with
  | TranOne _ => rv = None
  | TranTwo _ _ => if unit_tran ch then rv = None else exists rd, rv = Some rd /\ scalar_prob rd = scalar_prob prop
  end.

Lemma turned_ok {F : Fmt R} (ch : chain R) prop : valid_pd (cd_pd prop) [] -> exists rv, chain_revp ch prop = Ok rv /\ turned ch prop rv.
Proof.
  intros V. unfold chain_revp, turned. destruct (ch_tran ch) as [t|t t']; [eexists; split; reflexivity|].
  destruct (unit_tran ch); [eexists; split; reflexivity|].
  destruct (make_pd_again (cd_pd prop) [] (p_cond (cd_pd prop)) (p_marg (cd_pd prop)) V) as (w & E & Vw & _ & M & C & P & S & VV).
  - pose proof (vp_entries _ _ V) as G. apply Forall_app in G. apply Forall_app. tauto.
  - eapply Permutation_trans; [apply Permutation_app_comm|]. apply V.
  - unfold reval_tran. rewrite E. cbn [bind]. eexists. split; [reflexivity|]. eexists. split; [reflexivity|]. unfold scalar_prob. cbn [cd_pd]. rewrite P. reflexivity.
Qed.

Section Chain.
Context {F : Fmt R} {TR : Trunc R}.
Variable vs : list (rv R).
Let names := names_of vs.
Hypothesis PR : printable F.
Hypothesis NE : vs <> [].
Hypothesis NA : named_apart names.
Hypothesis UP : unprimed names.
Variables (ch : chain R) (m : mcmc) (h : list (pyval R) -> R) (qd : list (pyval R) -> list (pyval R) -> R)
  (nums : crnd R -> list R) (start : list R) (ok : list R -> Prop) (move : list R -> list R -> list R) (acc : list R -> list R -> R).
Let q := sd_pscale (ch_sd ch).
Let n := length vs.
Hypothesis HV : ch_rvs ch = vs.
Hypothesis HK : ch_keys ch = names.
Hypothesis HQ : eval_pscale (spec_of q) = Ok q.
Hypothesis HP : forall ys, length ys = length names ->
  exists p vals, sd_call (ch_sd ch) (entries (combine names ys)) NoIid no_rnd = Ok (p, vals) /\ dist_at vs q h p ys.
Hypothesis HT : computes names qd (tran_of (ch_tran ch)).
Hypothesis HS : ch_start ch = combine names (map PF start).
Hypothesis LS : length start = n.
Hypothesis OS : ok start.
Hypothesis HM : forall x r, ok x -> length x = n -> length (nums r) = n ->
  let y := move x (nums r) in
  successors ch (combine names (map PF x)) r = Ok (combine names (map PF y)) /\ ok y /\ length y = n.
(** What the scores are, for distributions that hold these numbers; a missing score
    counts as 1. *)
Hypothesis HA : forall x y dp dp' prop rv, ok x -> ok y -> length x = n -> length y = n ->
  scalar_prob dp = Ok (h (map PF x)) -> scalar_prob dp' = Ok (h (map PF y)) -> scalar_prob prop = Ok (qd (map PF x) (map PF y)) ->
  turned ch prop rv ->
  exists sc, named_scores m (spec_of q) (mkOPQR (Some dp) (Some dp') (Some prop) rv) = Ok sc /\
    match sc with Some s => s = acc x y | None => acc x y = 1%R end.

Let dens (x : list R) : R := denote (spec_of q) (h (map PF x)).
Let eng := chain_engine ch.
Let cfg := chain_config ch m.
Let fine : crnd R -> Prop := well_drawn_by nums n.

Definition here (x : list R) (l : opqr (cdist R)) : Prop :=
  ok x /\ length x = n /\ (exists d, f_p l = Some d /\ dist_at vs q h (cd_pd d) (map PF x)) /\
  exists p xs, f_q l = Some p /\ length xs = length names /\ cd_held p = held vs xs (map PF x).

Lemma len_names : length names = n.
Proof. unfold names, names_of. apply map_length. Qed.

Lemma at_scalar d ys : dist_at vs q h (cd_pd d) ys -> scalar_prob d = Ok (h ys).
Proof. intros (_ & _ & _ & _ & _ & t & P & S & G). unfold scalar_prob. rewrite P, S, G. reflexivity. Qed.

Lemma at_sample {Sc} (s : @opqrstuv (cdist R) Sc) d x : length x = n -> x_v s = Some d -> dist_at vs q h (cd_pd d) (map PF x) -> sample_at names dens s x.
Proof.
  intros L E (V & M & C & S & VV & t & P & Sh & G). exists d. split; [exact E|]. split; [exact V|]. split; [exact M|].
  split; [destruct (p_cond (cd_pd d)); [reflexivity|discriminate]|]. split.
  - intros i k I. rewrite (VV i k I). do 3 f_equal.
    rewrite (map_nth (@PF R)). reflexivity.
  - intros a. unfold prob_at. rewrite P, S. cbn [map]. rewrite G. reflexivity.
Qed.

(** One proposal from x. *)
Lemma propose_ok x r : ok x -> length x = n -> fine r ->
  let y := move x (nums r) in
  exists prop rv d, chain_step ch (combine names (map PF x)) r = Ok prop /\ chain_revp ch prop = Ok rv /\ turned ch prop rv /\
    chain_prob ch prop = Ok d /\ scalar_prob prop = Ok (qd (map PF x) (map PF y)) /\
    here y (mkOPQR None (Some d) (Some prop) rv).
Proof.
  intros Ox Lx [Lr Tr] y. destruct (HM x r Ox Lx Lr) as (SU & Oy & Ly). fold y in SU, Oy, Ly.
  assert (L1 : length (map (@PF R) x) = length (names_of vs)) by (rewrite map_length, Lx; symmetry; exact len_names).
  assert (L2 : length (map (@PF R) y) = length (names_of vs)) by (rewrite map_length, Ly; symmetry; exact len_names).
  destruct (step_ok vs PR NE NA UP ch (map PF x) (map PF y) r qd HV HK HQ L1 L2 SU HT) as (p & E & V & M & C & S & t & P & Sh & G).
  set (prop := mkCD p (held vs (map PF x) (map PF y))) in *.
  destruct (turned_ok ch prop V) as (rv & ER & TU). destruct (HP (map PF y) L2) as (pd & vals & EC & DA).
  exists prop, rv, (mkCD pd (combine names (map PF y))). split; [exact E|]. split; [exact ER|]. split; [exact TU|]. split.
  { unfold chain_prob, prob_of, prop. cbn [cd_held]. rewrite (held_suffixed vs NA UP) by assumption. cbn [bind]. fold names. rewrite EC. reflexivity. }
  split. { unfold scalar_prob, prop. cbn [cd_pd]. rewrite P, Sh, G. reflexivity. }
  split; [exact Oy|]. split; [exact Ly|]. split; [eexists; split; [reflexivity|exact DA]|].
  exists prop, (map PF x). split; [reflexivity|]. split; [exact L1|reflexivity].
Qed.

Lemma first_advance r : fine r ->
  exists s l, SPModel.advance eng cfg None r = Ok (OutFull s, Some l) /\
    let y := move start (nums r) in here y l /\ sample_at names dens s y.
Proof.
  intros Fr. destruct (propose_ok start r OS LS Fr) as (prop & rv & d & E1 & E2 & TU & E3 & E4 & (Oy & Ly & (d' & Ed & DA) & Hq)).
  cbn [f_p] in Ed. injection Ed as <-.
  assert (SCR : named_scores m (spec_of q) (mkOPQR None (Some d) (Some prop) rv) = Ok None).
  { unfold named_scores. cbn [f_o f_p f_q f_r opt_prob bind]. rewrite (at_scalar d _ DA). cbn [bind]. destruct m; [reflexivity|].
    rewrite E4. cbn [bind]. unfold turned in TU. destruct (ch_tran ch); [rewrite TU; reflexivity|]. destruct (unit_tran ch); [rewrite TU; reflexivity|].
    destruct TU as (rd & -> & E5). cbn [opt_prob]. rewrite E5, E4. reflexivity. }
  eexists. exists (mkOPQR None (Some d) (Some prop) rv). split.
  { unfold advance, cfg, chain_config. cbn [c_tran c_prop c_delta c_scores c_thresh c_update negb andb]. unfold sample. cbn [c_tran].
    unfold sample_tran, eng, chain_engine. cbn [e_step e_revp e_prob]. rewrite HS. rewrite E1. cbn [bind]. rewrite E2. cbn [bind]. rewrite E3. cbn [bind].
    fold q. rewrite SCR. cbn [bind]. reflexivity. }
  cbv zeta. split; [split; [exact Oy|]; split; [exact Ly|]; split; [exists d; split; [reflexivity|exact DA]|exact Hq]|].
  apply (at_sample _ d); auto.
Qed.

Lemma next_advance x l r : here x l -> fine r ->
  exists s l', SPModel.advance eng cfg (Some l) r = Ok (OutFull s, Some l') /\
    let y := move x (nums r) in
    let x' := if Rle_dec (cr_thresh r) (acc x y) then y else x in here x' l' /\ sample_at names dens s x'.
Proof.
  intros (Ox & Lx & (dx & Edx & DX) & (px & xs & Epx & Lxs & Hpx)) Fr. cbv zeta.
  destruct (propose_ok x r Ox Lx Fr) as (prop & rv & d & E1 & E2 & TU & E3 & E4 & (Oy & Ly & (d' & Ed & DA) & Hq)).
  cbn [f_p] in Ed. injection Ed as <-. set (y := move x (nums r)) in *.
  destruct (HA x y dx d prop rv Ox Oy Lx Ly (at_scalar _ _ DX) (at_scalar _ _ DA) E4 TU) as (sc & ES & SA).
  assert (L1 : length (map (@PF R) x) = length (names_of vs)) by (rewrite map_length, Lx; symmetry; exact len_names).
  assert (ADV : SPModel.advance eng cfg (Some l) r =
    if n_leb (cr_thresh r) (match sc with Some s => s | None => 1%R end) then
      Ok (OutFull (mkFull (mkOPQR (Some dx) (Some d) (Some prop) rv) sc (Some (cr_thresh r)) VTrue (Some d)), Some (mkOPQR (Some dx) (Some d) (Some prop) rv))
    else Ok (OutFull (mkFull (mkOPQR (Some dx) (Some d) (Some prop) rv) sc (Some (cr_thresh r)) VNone (Some dx)), Some l)).
  { unfold advance, cfg, chain_config. cbn [c_tran c_prop c_delta c_scores c_thresh c_update negb andb]. unfold sample. cbn [c_tran].
    rewrite Epx. unfold sample_tran, eng, chain_engine. cbn [e_step e_revp e_prob]. rewrite Hpx, (held_suffixed vs NA UP) by assumption. cbn [bind].
    fold names. rewrite E1. cbn [bind]. rewrite E2. cbn [bind]. rewrite E3. cbn [bind]. fold q. rewrite Edx, ES. cbn [bind f_p f_o].
    destruct sc as [s|]; cbn [metropolis_update].
    - destruct (n_leb (cr_thresh r) s) eqn:LE; reflexivity.
    - assert (n_leb (cr_thresh r) 1%R = true) as -> by (apply Rleb_iff; apply Fr). reflexivity. }
  assert (SV : match sc with Some s => s | None => 1%R end = acc x y) by (destruct sc; congruence).
  rewrite SV in ADV. destruct (Rle_dec (cr_thresh r) (acc x y)) as [LE|LE].
  - assert (B : n_leb (cr_thresh r) (acc x y) = true) by (apply Rleb_iff; exact LE). rewrite B in ADV.
    eexists. eexists. split; [exact ADV|]. split; [split; [exact Oy|]; split; [exact Ly|]; split; [exists d; split; [reflexivity|exact DA]|exact Hq]|].
    apply (at_sample _ d); auto.
  - assert (B : n_leb (cr_thresh r) (acc x y) = false) by (apply Rleb_false_iff; lra). rewrite B in ADV.
    eexists. exists l. split; [exact ADV|]. split; [split; [exact Ox|]; split; [exact Lx|]; split; [eauto|eauto]|].
    apply (at_sample _ dx); auto.
Qed.

Lemma run_from x l c rs : here x l -> Forall fine rs ->
  exists ss l', loc_run eng cfg None (mkLoc c (Some l) false) rs = (l', map (fun s => Yield (OutFull s)) ss) /\
    Forall2 (sample_at names dens) ss (accept_chain move acc x (map (drawn_by nums) rs)).
Proof.
  revert x l c. induction rs as [|r rs IH]; intros x l c H FR.
  - exists [], (mkLoc c (Some l) false). split; [reflexivity|constructor].
  - pose proof (Forall_inv FR) as F1. pose proof (Forall_inv_tail FR) as F2. destruct (next_advance x l r H F1) as (s & l' & EA & HH & SA).
    destruct (IH _ l' (S c) HH F2) as (ss & l'' & ER & FF). exists (s :: ss), l''. split.
    + cbn [loc_run]. unfold loc_step. cbn [l_done l_last l_count]. rewrite EA, ER. reflexivity.
    + cbn [map drawn_by accept_chain]. constructor; assumption.
Qed.

Lemma run_start rs : Forall fine rs ->
  exists ss l', loc_run eng cfg None (mkLoc 0 None false) rs = (l', map (fun s => Yield (OutFull s)) ss) /\
    Forall2 (sample_at names dens) ss (sampled_chain move acc start (map (drawn_by nums) rs)).
Proof.
  destruct rs as [|r rs]; intros FR.
  - exists [], (mkLoc 0 None false). split; [reflexivity|constructor].
  - pose proof (Forall_inv FR) as F1. pose proof (Forall_inv_tail FR) as F2. destruct (first_advance r F1) as (s & l' & EA & HH & SA).
    destruct (run_from _ l' 1 rs HH F2) as (ss & l'' & ER & FF). exists (s :: ss), l''. split.
    + cbn [loc_run]. unfold loc_step. cbn [l_done l_last l_count]. rewrite EA, ER. reflexivity.
    + cbn [map drawn_by sampled_chain]. constructor; assumption.
Qed.

(** Any sampler of the process, whatever happens to the others. *)
Lemma sampler_chain pre post : no_reset (pre ++ post) -> steps_of (created pre) pre = [] -> Forall fine (steps_of (created pre) post) ->
  exists ss, outcomes_of (created pre) (snd (run eng cfg new_process (pre ++ ENew None :: post))) = map (fun s => Yield (OutFull s)) ss /\
    Forall2 (sample_at names dens) ss (sampled_chain move acc start (map (drawn_by nums) (steps_of (created pre) post))).
Proof.
  intros NR SP FR. pose proof (sampler_view eng cfg pre None post NR SP) as H.
  destruct (run eng cfg new_process (pre ++ ENew None :: post)) as [st os]. cbn [snd].
  destruct (run_start _ FR) as (ss & l' & ER & FF). rewrite ER in H. destruct H as (H & _). exists ss. auto.
Qed.
End Chain.
