(** Samplers that share a position in a scan. *)
From Coq Require Import String Ascii ZArith Reals Lra Bool Arith Lia Permutation List.
From Verif Require Import Base Num Tensor TensorLemmas OdLemmas RNumLemmas PScales PScales_Spec PScales_Proofs Names Names_Spec Names_Proofs
  Distr PDModel PDUtils PD_Spec PD_Simple_Spec PD_Make PD_Simple PD_Sums PD_Valid
  VariableModel RVModel RV_Spec FieldModel Field_Spec Field_Dims RFModel RF_Spec RF_Proofs RF_Joint RF_Step SDUtils SDUtils_Proofs
  SDModel SD_Spec SD_Proofs SD_Joint SD_Thm SPModel SP_Spec SP_Proofs SP_Scores ChainModel Chain_Spec Chain_Proofs Chain_Run
  GibbsModel Gibbs_Spec.
Import ListNotations.

Lemma numbers_app {D Sc} (o1 o2 : list (nat * @outcome D Sc)) g : forall k,
  numbers_of k g (o1 ++ o2) = (numbers_of k g o1 ++ numbers_of (k + length (filter (fun o => match snd o with Yield _ => true | _ => false end) o1)) g o2)%list.
Proof.
  induction o1 as [|[i [o| |e]] o1 IH]; intros k; cbn [app numbers_of filter snd length]; rewrite ?Nat.add_0_r; try reflexivity.
  - rewrite Nat.add_succ_r, <- Nat.add_succ_l. rewrite IH. destruct (Nat.eqb i g); reflexivity.
  - apply IH.
  - apply IH.
Qed.

Lemma numbers_none {D Sc} (os : list (nat * @outcome D Sc)) g : outcomes_of g os = [] -> forall k, numbers_of k g os = [].
Proof.
  unfold outcomes_of. induction os as [|[i o] os IH]; intros E k; [reflexivity|]. cbn [filter fst map] in E. cbn [numbers_of].
  destruct (Nat.eqb_spec i g) as [->|N].
  - cbn [map] in E. discriminate.
  - destruct o; auto.
Qed.

Section Run.
Context {F : Fmt R} {TR : Trunc R}.
Variable vs : list (rv R).
Let names := names_of vs.
Hypothesis PR : printable F.
Hypothesis NE : vs <> [].
Hypothesis NA : named_apart names.
Hypothesis UP : unprimed names.
Variables (G : gibbs R) (m : rule) (h : list (pyval R) -> R) (qd : list (pyval R) -> list (pyval R) -> R)
  (start : list R) (prop : nat -> list R -> grnd R -> list R) (acc : option (list R -> list R -> R))
  (PosOk : nat -> option Z -> Prop) (fine : grnd R -> Prop).
Let q := sd_pscale (gb_sd G).
Let n := length vs.
Hypothesis HV : rf_rvs (sd_rf (gb_sd G)) = vs.
Hypothesis HK : gb_keys G = names.
Hypothesis HQ : eval_pscale (spec_of q) = Ok q.
Hypothesis HP : forall ys, length ys = length names ->
  exists p vals, sd_call (gb_sd G) (entries (combine names ys)) NoIid no_rnd = Ok (p, vals) /\ dist_at vs q h p ys.
Hypothesis HT : computes names qd (gb_cond G false).
Hypothesis HS : gb_start G = combine names (map PF start).
Hypothesis LS : length start = n.
Hypothesis P0 : PosOk 0 None.
Hypothesis HM : forall k pos x r, PosOk k pos -> length x = n ->
  let y := prop k x r in length y = n /\
  exists pos', PosOk (S k) pos' /\ eval_tfun G false (combine names (map PF x)) pos r = (pos', Ok (combine names (map PF y))).

(** The reverse proposal: none for a symmetric transition, else one that holds the
    same number. *)
Definition gturned (pr : cdist R) (rv : option (cdist R)) : Prop :=
  match gb_tran G with
  | Some (TranOne _) => rv = None
  | _ => exists rd, rv = Some rd /\ scalar_prob rd = scalar_prob pr
  end.

Hypothesis HA : match m, acc with
  | GibbsRule, None => True
  | Mcmc mm, Some a =>
      (forall r, fine r -> (gr_thresh r <= 1)%R) /\
      forall x y dp dp' pr rv, length x = n -> length y = n ->
      scalar_prob dp = Ok (h (map PF x)) -> scalar_prob dp' = Ok (h (map PF y)) -> scalar_prob pr = Ok (qd (map PF x) (map PF y)) ->
      gturned pr rv ->
      exists sc, named_scores mm (spec_of q) (mkOPQR (Some dp) (Some dp') (Some pr) rv) = Ok sc /\
        match sc with Some s => s = a x y | None => a x y = 1%R end
  | _, _ => False
  end.

Let dens (x : list R) : R := denote (spec_of q) (h (map PF x)).
Let eng := gb_engine G.
Let cfg := gb_config G m.

Definition ghere (x : list R) (l : opqr (cdist R)) : Prop :=
  length x = n /\ (exists d, f_p l = Some d /\ dist_at vs q h (cd_pd d) (map PF x)) /\
  exists p xs, f_q l = Some p /\ length xs = length names /\ cd_held p = held vs xs (map PF x).

Lemma glen_names : length names = n.
Proof. unfold names, names_of. apply map_length. Qed.

Lemma gat_scalar d ys : dist_at vs q h (cd_pd d) ys -> scalar_prob d = Ok (h ys).
Proof. intros (_ & _ & _ & _ & _ & t & P & S & Gt). unfold scalar_prob. rewrite P, S, Gt. reflexivity. Qed.

Lemma gat_sample {Sc} (s : @opqrstuv (cdist R) Sc) d x : length x = n -> x_v s = Some d -> dist_at vs q h (cd_pd d) (map PF x) -> sample_at names dens s x.
Proof.
  intros L E (V & M & C & S & VV & t & P & Sh & Gt). exists d. split; [exact E|]. split; [exact V|]. split; [exact M|].
  split; [destruct (p_cond (cd_pd d)); [reflexivity|discriminate]|]. split.
  - intros i k I. rewrite (VV i k I). do 3 f_equal.
    rewrite (map_nth (@PF R)). reflexivity.
  - intros a. unfold prob_at. rewrite P, S. cbn [map]. rewrite Gt. reflexivity.
Qed.

Lemma gturned_ok pr : valid_pd (cd_pd pr) [] -> exists rv, gb_revp G pr = Ok rv /\ gturned pr rv.
Proof.
  intros V. unfold gb_revp, gturned.
  assert (Q : exists rv, (let! p := reval_tran (cd_pd pr) in Ok (Some (mkCD p (cd_held pr)))) = Ok rv /\ exists rd, rv = Some rd /\ scalar_prob rd = scalar_prob pr).
  { destruct (make_pd_again (cd_pd pr) [] (p_cond (cd_pd pr)) (p_marg (cd_pd pr)) V) as (w & E & Vw & _ & M & C & P & S & VV).
    - pose proof (vp_entries _ _ V) as E. apply Forall_app in E. apply Forall_app. tauto.
    - eapply Permutation_trans; [apply Permutation_app_comm|]. apply V.
    - unfold reval_tran. rewrite E. cbn [bind]. eexists. split; [reflexivity|]. eexists. split; [reflexivity|]. unfold scalar_prob. cbn [cd_pd]. rewrite P. reflexivity. }
  destruct (gb_tran G) as [[t|t t']|]; [eexists; split; reflexivity|exact Q|exact Q].
Qed.

(** One proposal from x. *)
Lemma gpropose_ok k pos x r : PosOk k pos -> length x = n ->
  let y := prop k x r in
  exists pos' pr rv d, gb_step G false (combine names (map PF x)) pos r = (pos', Ok pr) /\ PosOk (S k) pos' /\ gb_revp G pr = Ok rv /\ gturned pr rv /\
    prob_of (gb_sd G) pr = Ok d /\ scalar_prob pr = Ok (qd (map PF x) (map PF y)) /\
    ghere y (mkOPQR None (Some d) (Some pr) rv).
Proof.
  intros Pk Lx y. destruct (HM k pos x r Pk Lx) as (Ly & pos' & Pk' & EV). fold y in Ly, EV.
  assert (L1 : length (map (@PF R) x) = length (names_of vs)) by (rewrite map_length, Lx; symmetry; exact glen_names).
  assert (L2 : length (map (@PF R) y) = length (names_of vs)) by (rewrite map_length, Ly; symmetry; exact glen_names).
  destruct (step_to_ok vs PR NE NA UP (gb_sd G) (gb_cond G false) (combine names (map PF x)) (combine names (map PF y)) (map PF x) (map PF y) qd HV HK HQ
             (zip_gives vs NA _ L1) (zip_gives vs NA _ L2) HT) as (p & E & V & M & C & S & t & P & Sh & Gt).
  set (pr := mkCD p (held vs (map PF x) (map PF y))) in *.
  destruct (gturned_ok pr V) as (rv & ER & TU). destruct (HP (map PF y) L2) as (pd & vals & EC & DA).
  exists pos', pr, rv, (mkCD pd (combine names (map PF y))). split.
  { unfold gb_step, known. rewrite HK. unfold names. rewrite !(zip_filter vs). fold names. rewrite EV. cbn [bind]. rewrite E. reflexivity. }
  split; [exact Pk'|]. split; [exact ER|]. split; [exact TU|]. split.
  { unfold prob_of, pr. cbn [cd_held]. rewrite (held_suffixed vs NA UP) by assumption. cbn [bind]. fold names. rewrite EC. reflexivity. }
  split. { unfold scalar_prob, pr. cbn [cd_pd]. rewrite P, Sh, Gt. reflexivity. }
  split; [exact Ly|]. split; [eexists; split; [reflexivity|exact DA]|].
  exists pr, (map PF x). split; [reflexivity|]. split; [exact L1|reflexivity].
Qed.

(** The state of a sampler that has not finished. *)
Definition at_state (lo : option (opqr (cdist R))) (xo : option (list R)) : Prop :=
  match lo, xo with
  | None, None => True
  | Some l, Some x => ghere x l
  | _, _ => False
  end.
Definition next_state (k : nat) (xo : option (list R)) (r : grnd R) : list R :=
  match xo with None => prop k start r | Some x => decided acc (gr_thresh r) x (prop k x r) end.
Definition from_of (lo : option (opqr (cdist R))) : option (@SPModel.start (cdist R)) :=
  match lo with None => Some FromArgs | Some l => option_map FromLast (f_q l) end.

Lemma advance_ok k pos lo xo r : PosOk k pos -> at_state lo xo -> fine r ->
  exists s l pos' from, SPModel.advance eng cfg lo (pos, r) = Ok (OutFull s, Some l) /\
    ghere (next_state k xo r) l /\ sample_at names dens s (next_state k xo r) /\
    from_of lo = Some from /\ fst (gb_from G from pos r) = pos' /\ PosOk (S k) pos'.
Proof.
  intros Pk AT Fr. destruct lo as [l|], xo as [x|]; try contradiction; cbn [at_state next_state from_of] in *.
  - destruct AT as (Lx & (dx & Edx & DX) & (px & xs & Epx & Lxs & Hpx)).
    destruct (gpropose_ok k pos x r Pk Lx) as (pos' & pr & rv & d & E1 & Pk' & E2 & TU & E3 & E4 & (Ly & (d' & Ed & DA) & Hq)).
    cbn [f_p] in Ed. injection Ed as <-. set (y := prop k x r) in *.
    assert (L1 : length (map (@PF R) x) = length (names_of vs)) by (rewrite map_length, Lx; symmetry; exact glen_names).
    assert (FE : gb_from G (FromLast px) pos r = (pos', Ok pr)).
    { cbn [gb_from]. rewrite Hpx, (held_suffixed vs NA UP) by assumption. fold names. exact E1. }
    assert (SE : SPModel.sample eng cfg (Some (Some l)) (pos, r) = Ok (mkOPQR (Some dx) (Some d) (Some pr) rv)).
    { unfold SPModel.sample. assert (c_tran cfg = true) as -> by (unfold cfg, gb_config; destruct m; reflexivity). rewrite Epx.
      unfold sample_tran, eng, gb_engine. cbn [e_step e_revp e_prob fst snd]. rewrite FE. cbn [snd bind]. rewrite E2. cbn [bind]. rewrite E3. cbn [bind]. rewrite Edx. reflexivity. }
    assert (AV : exists s l', SPModel.advance eng cfg (Some l) (pos, r) = Ok (OutFull s, Some l') /\ ghere (decided acc (gr_thresh r) x y) l' /\ sample_at names dens s (decided acc (gr_thresh r) x y)).
    { unfold advance. rewrite SE. unfold decided. destruct m as [|mm], acc as [a|]; try contradiction.
      - cbn. eexists. eexists. split; [reflexivity|]. split; [split; [exact Ly|]; split; [exists d; auto|exact Hq]|]. apply (gat_sample _ d); auto.
      - destruct HA as [HF HA']. destruct (HA' x y dx d pr rv Lx Ly (gat_scalar _ _ DX) (gat_scalar _ _ DA) E4 TU) as (sc & ES & SA).
        cbn [cfg gb_config c_tran c_prop c_delta c_scores c_thresh c_update negb andb bind]. fold q. rewrite ES. cbn [bind snd f_p f_o].
        destruct (Rle_dec (gr_thresh r) (a x y)) as [LE|LE].
        + assert (U : metropolis_update sc (gr_thresh r) = VTrue).
          { destruct sc as [s|]; [|reflexivity]. cbn [metropolis_update]. rewrite (proj2 (Rleb_iff _ _)); [reflexivity|lra]. }
          destruct sc as [s|]; cbn [bind]; rewrite U.
          * cbn. eexists. eexists. split; [reflexivity|]. split; [split; [exact Ly|]; split; [exists d; auto|exact Hq]|]. apply (gat_sample _ d); auto.
          * cbn. eexists. eexists. split; [reflexivity|]. split; [split; [exact Ly|]; split; [exists d; auto|exact Hq]|]. apply (gat_sample _ d); auto.
        + destruct sc as [s|]; [|exfalso; specialize (HF r Fr); lra]. cbn [bind].
          assert (metropolis_update (Some s) (gr_thresh r) = VNone) as -> by (cbn [metropolis_update]; rewrite (proj2 (Rleb_false_iff _ _)); [reflexivity|lra]).
          cbn. eexists. exists l. split; [reflexivity|]. split; [split; [exact Lx|]; split; [exists dx; auto|exists px, xs; auto]|]. apply (gat_sample _ dx); auto. }
    destruct AV as (s & l' & AV1 & AV2 & AV3). exists s, l', pos', (FromLast px). split; [exact AV1|]. split; [exact AV2|]. split; [exact AV3|].
    split; [rewrite Epx; reflexivity|]. split; [rewrite FE; reflexivity|exact Pk'].
  - destruct (gpropose_ok k pos start r Pk LS) as (pos' & pr & rv & d & E1 & Pk' & E2 & TU & E3 & E4 & (Ly & (d' & Ed & DA) & Hq)).
    cbn [f_p] in Ed. injection Ed as <-. set (y := prop k start r) in *.
    assert (FE : gb_from G FromArgs pos r = (pos', Ok pr)) by (cbn [gb_from]; rewrite HS; exact E1).
    assert (SE : SPModel.sample eng cfg None (pos, r) = Ok (mkOPQR None (Some d) (Some pr) rv)).
    { unfold SPModel.sample. assert (c_tran cfg = true) as -> by (unfold cfg, gb_config; destruct m; reflexivity).
      unfold sample_tran, eng, gb_engine. cbn [e_step e_revp e_prob fst snd]. rewrite FE. cbn [snd bind]. rewrite E2. cbn [bind]. rewrite E3. reflexivity. }
    assert (SCR : forall mm, named_scores mm (spec_of q) (mkOPQR None (Some d) (Some pr) rv) = Ok None).
    { intros mm. unfold named_scores. cbn [f_o f_p f_q f_r opt_prob bind]. rewrite (gat_scalar d _ DA). cbn [bind]. destruct mm; [reflexivity|].
      rewrite E4. cbn [bind]. unfold gturned in TU.
      assert (exists o, opt_prob rv = Ok o) as (o & ->).
      { destruct (gb_tran G) as [[t|t t']|]; [rewrite TU; eexists; reflexivity| |]; destruct TU as (rd & -> & E5); cbn [opt_prob]; rewrite E5, E4; eexists; reflexivity. }
      reflexivity. }
    exists (mkFull (mkOPQR None (Some d) (Some pr) rv) (match m with GibbsRule => Some Nan | Mcmc _ => None end)
             (match m with GibbsRule => Some Nan | Mcmc _ => Some (Score (gr_thresh r)) end) VTrue (Some d)), (mkOPQR None (Some d) (Some pr) rv), pos', FromArgs.
    split. { unfold advance. rewrite SE. unfold cfg, gb_config. destruct m as [|mm]; cbn [c_tran c_prop c_delta c_scores c_thresh c_update negb andb bind]; [reflexivity|].
             fold q. rewrite SCR. reflexivity. }
    split; [split; [exact Ly|]; split; [exists d; auto|exact Hq]|]. split; [apply (gat_sample _ d); auto|]. split; [reflexivity|]. split; [rewrite FE; reflexivity|exact Pk'].
Qed.

(** *** All samplers *)
Definition inv (st : process (cdist R)) (xs : nat -> option (list R)) : Prop :=
  wf st /\ forall g v, view st g = Some v -> l_done (snd v) = true \/ at_state (l_last (snd v)) (xs g).

Lemma inv_new st xs stop : inv st xs -> inv (new_sampler st stop) (set_fun xs (length (p_gens st)) None).
Proof.
  intros [W H]. split; [apply new_wf; exact W|]. intros g v V.
  destruct (Nat.eq_dec g (length (p_gens st))) as [->|Ng].
  - rewrite new_view_self in V. injection V as <-. cbn. unfold set_fun. rewrite Nat.eqb_refl. right. exact I.
  - pose proof (view_lt _ _ _ V) as L. cbn in L. rewrite app_length in L. cbn in L.
    rewrite new_view in V by lia. unfold set_fun. destruct (Nat.eqb_spec g (length (p_gens st))); [contradiction|]. apply H. exact V.
Qed.

Lemma start_view st g stop c lo : wf st -> view st g = Some (stop, mkLoc c lo false) ->
  step_start st g = if match stop with None => true | Some s => c <? s end then from_of lo else None.
Proof.
  intros W V. unfold view in V. unfold step_start. destruct (nth_error (p_gens st) g) as [gn|] eqn:E; [|discriminate].
  destruct (p_last st g) as [la|] eqn:EL; [|discriminate]. injection V as <- <- <- ->.
  rewrite (wf_get st g gn W E), EL. unfold from_of. destruct (g_stop gn) as [s|]; [destruct (p_counter st g <? s)|]; destruct la; reflexivity.
Qed.

Lemma start_done (st : process (cdist R)) g stop c lo : view st g = Some (stop, mkLoc c lo true) -> step_start st g = None.
Proof.
  intros V. unfold view in V. unfold step_start. destruct (nth_error (p_gens st) g) as [gn|] eqn:E; [|discriminate].
  destruct (p_last st g); [|discriminate]. injection V as <- <- <- ->. reflexivity.
Qed.

Lemma start_missing (st : process (cdist R)) g : length (p_gens st) <= g -> step_start st g = None.
Proof. intros L. unfold step_start. destruct (nth_error (p_gens st) g) eqn:E; [|reflexivity]. assert (g < length (p_gens st)) by (apply nth_error_Some; congruence). lia. Qed.

(** What one step of generator i does to the process, and to the position. *)
Lemma resume_ok st xs k pos i r : inv st xs -> PosOk k pos -> fine r ->
  let (st', o) := resume eng cfg st i (pos, r) in
  let pos' := match step_start st i with None => pos | Some from => fst (gb_from G from pos r) end in
  length (p_gens st') = length (p_gens st) /\
  (forall g, g <> i -> view st' g = view st g) /\
  match o with
  | Yield out => exists stop c lo l s, view st i = Some (stop, mkLoc c lo false) /\ (match stop with None => true | Some s => c <? s end) = true /\
      out = OutFull s /\ view st' i = Some (stop, mkLoc (S c) (Some l) false) /\
      sample_at names dens s (next_state k (xs i) r) /\ at_state lo (xs i) /\
      inv st' (set_fun xs i (Some (next_state k (xs i) r))) /\ PosOk (S k) pos'
  | Stopped => inv st' xs /\ pos' = pos /\ exists stop c lo d c' lo', view st i = Some (stop, mkLoc c lo d) /\ view st' i = Some (stop, mkLoc c' lo' true) /\
      (d = true \/ exists s, stop = Some s /\ s <= c)
  | Raised _ => inv st' xs /\ pos' = pos /\ length (p_gens st) <= i
  end.
Proof.
  intros [W H] Pk Fr. destruct (Nat.lt_ge_cases i (length (p_gens st))) as [L|L].
  - destruct (wf_view st i W L) as ([stop [c lo d]] & V). pose proof (resume_local eng cfg st i (pos, r) _ W V) as RL. cbn [fst snd] in RL.
    destruct (resume eng cfg st i (pos, r)) as [st' o]. cbv zeta.
    destruct d.
    + cbn in RL. destruct RL as (-> & W' & LG & V' & VO). split; [exact LG|]. split; [exact VO|].
      rewrite (start_done _ _ _ _ _ V). split; [|split; [reflexivity|exists stop, c, lo, true, c, lo; auto]].
      split; [exact W'|]. intros g v Vg. destruct (Nat.eq_dec g i) as [->|Ng]; [rewrite V' in Vg; injection Vg as <-; left; reflexivity|]. rewrite VO in Vg by exact Ng. exact (H g v Vg).
    + destruct (H i _ V) as [C|AT]; [discriminate|]. cbn [snd l_last] in AT. rewrite (start_view _ _ _ _ _ W V).
      destruct (advance_ok k pos lo (xs i) r Pk AT Fr) as (s & l & pos' & from & EA & HH & SA & EF & EP & PK').
      destruct (match stop with None => true | Some s => c <? s end) eqn:GO.
      * assert (LE : loc_step eng cfg stop (mkLoc c lo false) (pos, r) = (mkLoc (S c) (Some l) false, Yield (OutFull s))).
        { unfold loc_step. cbn [l_done l_last l_count]. rewrite EA. destruct stop as [s'|]; [rewrite GO|]; reflexivity. }
        rewrite LE in RL. destruct RL as (-> & W' & LG & V' & VO). split; [exact LG|]. split; [exact VO|].
        exists stop, c, lo, l, s. split; [exact V|]. split; [exact GO|]. split; [reflexivity|]. split; [exact V'|]. split; [exact SA|]. split; [exact AT|]. split.
        { split; [exact W'|]. intros g v Vg. unfold set_fun. destruct (Nat.eqb_spec g i) as [->|Ng].
          - rewrite V' in Vg. injection Vg as <-. right. exact HH.
          - rewrite VO in Vg by exact Ng. exact (H g v Vg). }
        rewrite EF, EP. exact PK'.
      * destruct stop as [s'|]; [|discriminate].
        assert (LE : loc_step eng cfg (Some s') (mkLoc c lo false) (pos, r) = (mkLoc 0 None true, Stopped)).
        { unfold loc_step. cbn [l_done l_last l_count]. rewrite GO. reflexivity. }
        rewrite LE in RL. destruct RL as (-> & W' & LG & V' & VO). split; [exact LG|]. split; [exact VO|]. split; [|split; [reflexivity|]].
        { split; [exact W'|]. intros g v Vg. destruct (Nat.eq_dec g i) as [->|Ng]; [rewrite V' in Vg; injection Vg as <-; left; reflexivity|]. rewrite VO in Vg by exact Ng. exact (H g v Vg). }
        exists (Some s'), c, lo, false, 0, None. split; [exact V|]. split; [exact V'|]. right. exists s'. split; [reflexivity|]. apply Nat.ltb_ge. exact GO.
  - rewrite resume_missing by exact L. rewrite start_missing by exact L. split; [reflexivity|]. split; [reflexivity|]. split; [split; assumption|]. split; [reflexivity|exact L].
Qed.

Definition chain_from (xo : option (list R)) (steps : list (nat * grnd R)) : list (list R) :=
  match xo with None => tfun_samples prop acc start steps | Some x => tfun_chain prop acc x steps end.

Lemma chain_cons xo k r steps : chain_from xo ((k, r) :: steps) = next_state k xo r :: chain_from (Some (next_state k xo r)) steps.
Proof. destruct xo; reflexivity. Qed.

Lemma outcomes_cons {Sc} g i (o : @outcome (cdist R) Sc) os : outcomes_of g ((i, o) :: os) = if Nat.eqb i g then o :: outcomes_of g os else outcomes_of g os.
Proof. unfold outcomes_of. cbn [filter fst]. destruct (Nat.eqb i g); reflexivity. Qed.

Lemma run_from_ok evs : forall st xs k pos g stop c lo d, inv st xs -> PosOk k pos -> no_reset evs -> (forall i r, In (EStep i r) evs -> fine r) ->
  view st g = Some (stop, mkLoc c lo d) ->
  let os := snd (run eng cfg st (placed G m st pos evs)) in
  let rs := steps_of g evs in
  let M := length rs in
  exists ss, outcomes_of g os = (map (fun s => Yield (OutFull s)) ss ++ repeat Stopped (M - length ss))%list /\
    length ss = (if d then 0 else match stop with None => M | Some s => Nat.min (s - c) M end) /\
    length (numbers_of k g os) = length ss /\
    Forall2 (sample_at names dens) ss (chain_from (xs g) (combine (numbers_of k g os) rs)).
Proof.
  induction evs as [|[stop'|i r|] evs IH]; intros st xs k pos g stop c lo d IV Pk NR FI V.
  - exists []. cbn. split; [reflexivity|]. split; [destruct d; [reflexivity|]; destruct stop; [rewrite Nat.min_0_r|]; reflexivity|]. split; [reflexivity|]. destruct (xs g); constructor.
  - cbn [placed SPModel.run steps_of flat_map app]. fold (steps_of g evs).
    assert (Lg : g < length (p_gens st)) by (eapply view_lt; exact V).
    specialize (IH (new_sampler st stop') (set_fun xs (length (p_gens st)) None) k pos g stop c lo d (inv_new _ _ _ IV) Pk).
    assert (XS : set_fun xs (length (p_gens st)) None g = xs g) by (unfold set_fun; destruct (Nat.eqb_spec g (length (p_gens st))); [lia|reflexivity]).
    rewrite XS in IH. apply IH; [intros C; apply NR; right; exact C|intros j r' C; apply (FI j r'); right; exact C|rewrite new_view by exact Lg; exact V].
  - cbn [placed SPModel.run]. pose proof (resume_ok st xs k pos i r IV Pk (FI i r (or_introl eq_refl))) as RO.
    destruct (resume (gb_engine G) (gb_config G m) st i (pos, r)) as [st' o] eqn:ER. cbv beta zeta in RO. fold eng cfg in ER |- *.
    assert (ER' : resume eng cfg st i (pos, r) = (st', o)) by exact ER. rewrite ER' in RO. clear ER.
    set (pos' := match step_start st i with Some from => fst (gb_from G from pos r) | None => pos end) in *. cbn [fst].
    rewrite ER'. destruct RO as (LG & VO & RO).
    assert (NR' : no_reset evs) by (intros C; apply NR; right; exact C). assert (FI' : forall j r', In (EStep j r') evs -> fine r') by (intros j r' C; apply (FI j r'); right; exact C).
    destruct (run eng cfg st' (placed G m st' pos' evs)) as [st2 os2] eqn:E2. cbn [snd].
    cbv zeta. rewrite outcomes_cons. unfold steps_of. cbn [flat_map]. fold (steps_of g evs). cbn [numbers_of].
    destruct (Nat.eqb_spec i g) as [->|Ng].
    + cbn [app]. destruct o as [out| |e].
      * destruct RO as (stop0 & c0 & lo0 & l & s & V0 & GO & -> & V1 & SA & AT & IV' & Pk'). rewrite V in V0. injection V0 as <- <- <- ->.
        destruct (IH st' _ (S k) pos' g stop (S c) (Some l) false IV' Pk' NR' FI' V1) as (ss & A & B & B' & C). rewrite E2 in A, B', C. cbn [snd] in A, B', C.
        exists (s :: ss). cbn [map app length]. split; [rewrite A; reflexivity|]. split; [|split; [cbn [length]; rewrite B'; reflexivity|]].
        -- rewrite B. destruct stop as [s0|]; [|reflexivity]. apply Nat.ltb_lt in GO. lia.
        -- cbn [combine]. rewrite chain_cons. constructor; [exact SA|]. unfold set_fun in C. rewrite Nat.eqb_refl in C. exact C.
      * destruct RO as (IV' & EP & stop0 & c0 & lo0 & d0 & c1 & lo1 & V0 & V1 & DD). rewrite V in V0. injection V0 as <- <- <- <-.
        destruct (IH st' xs k pos' g stop c1 lo1 true IV') as (ss & A & B & B' & C); try assumption; [rewrite EP; exact Pk|]. rewrite E2 in A, B', C. cbn [snd] in A, B', C.
        destruct ss; [|discriminate]. exists []. cbn [map app length] in *. rewrite A. split; [rewrite Nat.sub_0_r; cbn [repeat]; rewrite Nat.sub_0_r; reflexivity|].
        split. { destruct d; [reflexivity|]. destruct DD as [DD|(s0 & -> & LE)]; [discriminate|]. replace (s0 - c) with 0 by lia. reflexivity. }
        split; [exact B'|]. destruct (numbers_of k g os2); [|discriminate]. cbn [combine] in *. exact C.
      * destruct RO as (_ & _ & LE). exfalso. pose proof (view_lt _ _ _ V). lia.
    + cbn [app]. assert (V' : view st' g = Some (stop, mkLoc c lo d)) by (rewrite VO by congruence; exact V).
      destruct o as [out| |e].
      * destruct RO as (stop0 & c0 & lo0 & l & s & V0 & GO & -> & V1 & SA & AT & IV' & Pk').
        destruct (IH st' _ (S k) pos' g stop c lo d IV' Pk' NR' FI' V') as (ss & A & B & B' & C). rewrite E2 in A, B', C. cbn [snd] in A, B', C.
        exists ss. split; [exact A|]. split; [exact B|]. split; [exact B'|]. unfold set_fun in C. destruct (Nat.eqb_spec g i); [congruence|]. exact C.
      * destruct RO as (IV' & EP & _). destruct (IH st' xs k pos' g stop c lo d IV') as (ss & A & B & B' & C); try assumption; [rewrite EP; exact Pk|].
        rewrite E2 in A, B', C. exists ss. auto.
      * destruct RO as (IV' & EP & _). destruct (IH st' xs k pos' g stop c lo d IV') as (ss & A & B & B' & C); try assumption; [rewrite EP; exact Pk|].
        rewrite E2 in A, B', C. exists ss. auto.
  - exfalso. apply NR. left. reflexivity.
Qed.

(** The samplers before. *)
Lemma run_before evs : forall st xs k pos rest, inv st xs -> PosOk k pos -> no_reset evs -> (forall i r, In (EStep i r) evs -> fine r) ->
  exists st' xs' k' pos' os, inv st' xs' /\ PosOk k' pos' /\ length (p_gens st') = length (p_gens st) + created evs /\
    snd (run eng cfg st (placed G m st pos (evs ++ rest))) = (os ++ snd (run eng cfg st' (placed G m st' pos' rest)))%list /\
    (forall g, steps_of g evs = [] -> outcomes_of g os = []) /\
    k' = k + length (filter (fun o : nat * @outcome (cdist R) (gscore R) => match snd o with Yield _ => true | _ => false end) os).
Proof.
  induction evs as [|[stop'|i r|] evs IH]; intros st xs k pos rest IV Pk NR FI.
  - exists st, xs, k, pos, []. split; [exact IV|]. split; [exact Pk|]. split; [cbn; lia|]. split; [reflexivity|]. split; [reflexivity|cbn; lia].
  - cbn [app placed SPModel.run]. destruct (IH (new_sampler st stop') (set_fun xs (length (p_gens st)) None) k pos rest (inv_new _ _ _ IV) Pk) as (st' & xs' & k' & pos' & os & A & B & C & D & E & H);
      [intros X; apply NR; right; exact X|intros j r' X; apply (FI j r'); right; exact X|].
    exists st', xs', k', pos', os. split; [exact A|]. split; [exact B|]. split; [rewrite C; cbn; rewrite app_length; unfold created; cbn; lia|]. split; [exact D|]. split; [exact E|exact H].
  - cbn [app placed SPModel.run]. pose proof (resume_ok st xs k pos i r IV Pk (FI i r (or_introl eq_refl))) as RO.
    destruct (resume (gb_engine G) (gb_config G m) st i (pos, r)) as [st1 o] eqn:ER. cbv beta zeta in RO. fold eng cfg in ER |- *.
    assert (ER' : resume eng cfg st i (pos, r) = (st1, o)) by exact ER. rewrite ER' in RO. clear ER.
    set (pos1 := match step_start st i with Some from => fst (gb_from G from pos r) | None => pos end) in *. cbn [fst].
    rewrite ER'. destruct RO as (LG & VO & RO).
    assert (NR' : no_reset evs) by (intros C; apply NR; right; exact C). assert (FI' : forall j r', In (EStep j r') evs -> fine r') by (intros j r' C; apply (FI j r'); right; exact C).
    assert (Q : exists xs1 k1, inv st1 xs1 /\ PosOk k1 pos1 /\ k1 = match o with Yield _ => S k | _ => k end).
    { destruct o as [out| |e].
      - destruct RO as (stop0 & c0 & lo0 & l & s & V0 & GO & -> & V1 & SA & AT & IV' & Pk'). eexists. exists (S k). split; [exact IV'|]. split; [exact Pk'|reflexivity].
      - destruct RO as (IV' & EP & _). exists xs, k. split; [exact IV'|]. split; [rewrite EP; exact Pk|reflexivity].
      - destruct RO as (IV' & EP & _). exists xs, k. split; [exact IV'|]. split; [rewrite EP; exact Pk|reflexivity]. }
    destruct Q as (xs1 & k1 & IV1 & Pk1 & K1).
    destruct (IH st1 xs1 k1 pos1 rest IV1 Pk1 NR' FI') as (st' & xs' & k' & pos' & os & A & B & C & D & E & H).
    exists st', xs', k', pos', ((i, o) :: os). split; [exact A|]. split; [exact B|]. split; [rewrite C, LG; unfold created; cbn; reflexivity|]. split.
    { destruct (run eng cfg st1 (placed G m st1 pos1 (evs ++ rest))) as [st2 os2]. cbn [snd] in *. rewrite D. reflexivity. }
    split. { intros g Sg. unfold steps_of in Sg. cbn [flat_map] in Sg. fold (steps_of g evs) in Sg. rewrite outcomes_cons. destruct (Nat.eqb_spec i g); [discriminate|]. apply E. exact Sg. }
    rewrite H, K1. cbn [filter snd]. destruct o; cbn [length]; lia.
  - exfalso. apply NR. left. reflexivity.
Qed.

Lemma sampler_scans : scans_as G m fine names start dens prop acc.
Proof.
  unfold scans_as. intros pre stop post NR SP FI. cbv zeta. unfold gb_run. fold eng cfg.
  assert (I0 : inv new_process (fun _ => None)).
  { split; [apply new_process_wf|]. intros g v V. unfold view in V. cbn in V. destruct g; discriminate. }
  assert (NR1 : no_reset pre) by (intros C; apply NR, in_or_app; auto).
  assert (NR2 : no_reset post) by (intros C; apply NR, in_or_app; auto).
  destruct (run_before pre new_process (fun _ => None) 0 None (ENew stop :: post) I0 P0 NR1) as (st' & xs' & k' & pos' & os & A & B & C & D & E & H).
  { intros i r I. apply (FI i r), in_or_app. auto. }
  rewrite D. cbn in C. specialize (E (created pre) SP). cbn [placed SPModel.run]. rewrite outcomes_app, E. cbn [app].
  rewrite numbers_app, (numbers_none os _ E), <- H. cbn [app].
  assert (V : view (new_sampler st' stop) (created pre) = Some (stop, mkLoc 0 None false)) by (rewrite <- C; apply new_view_self).
  destruct (run_from_ok post (new_sampler st' stop) (set_fun xs' (length (p_gens st')) None) k' pos' (created pre) stop 0 None false (inv_new _ _ _ A) B NR2) as (ss & X1 & X2 & X3 & X4); [|exact V|].
  { intros i r I. apply (FI i r), in_or_app. auto. }
  exists ss. split; [exact X1|]. split; [rewrite X2; destruct stop; [rewrite Nat.sub_0_r|]; reflexivity|]. split; [exact X3|].
  unfold set_fun in X4. rewrite <- C, Nat.eqb_refl in X4. rewrite <- C. exact X4.
Qed.
End Run.
