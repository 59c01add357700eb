(** The properties of samplers of a process with a proposal function. *)
From Coq Require Import String Ascii ZArith Reals Lra Bool Arith Lia Permutation List.
From Verif Require Import Base Num Tensor TensorLemmas OdLemmas RNumLemmas PScales PScales_Spec PScales_Proofs Names Names_Spec Names_Proofs
  Distr PDModel PDUtils PD_Spec PD_Simple_Spec PD_Make PD_Simple PD_Sums PD_Valid PD_Marg PD_Align PD_Product2 PD_Product3 PD_Summate_Spec PD_Summate
  VariableModel RVModel RV_Spec FieldModel Field_Spec Field_Dims RFModel RF_Spec RF_Proofs RF_Joint SDUtils SDUtils_Spec SDUtils_Proofs
  SDModel SD_Spec SD_Proofs SD_Joint SD_Thm SPModel SP_Spec SP_Proofs ChainModel Chain_Spec Chain_Proofs Chain_Run OmcModel Omc_Spec Omc_Proofs Omc_Run.
Import ListNotations.
Local Open Scope list_scope.

Lemma proposed {F : Fmt R} {TR : Trunc R} (leafs roots : list (rv R)) (values : odict (fentry R))
    (x : nat -> fval R) (a : nat -> values_in R) (r : nat -> rnd R) (A : nat -> tensor (pyval R)) (suf : string) :
  let vs := leafs ++ roots in let with_suffix := map (fun k => k ++ suf)%string in
  printable F -> leafs <> [] -> named_apart (names_of vs) -> scales_ok vs ->
  NoDup (od_keys values) -> incl (od_keys values) (names_of vs) ->
  (forall i v, nth_error vs i = Some v -> evaluates v values (x i) (a i) (r i) (A i)) ->
  named_apart (with_suffix (names_of vs)) ->
  (suf = ""%string \/ forall k k', In k (names_of vs) -> In k' (names_of vs) -> (k ++ suf)%string <> k') ->
  let L := filter (needs_axis values) (names_of vs) in
  exists d0, make_sd leafs roots None = Ok d0 /\ forall (fn : probfun R) given d g gd,
  sd_set_prob d0 (Some fn) given = Ok d -> proposes (names_of vs) gd g ->
  exists p held, sd_propose d g values suf r = Ok (mkOD p held) /\
    valid_pd p (with_suffix L) /\ od_keys (p_marg p) = with_suffix (names_of vs) /\ od_keys (p_cond p) = [] /\
    p_pscale p = sd_pscale d /\
    (forall i v, nth_error vs i = Some v -> variable p (rv_name v ++ suf)%string = Some (var_of (to_value (A i)))) /\
    forall s, in_bounds p (with_suffix L) s ->
      prob_at p (with_suffix L) s = denote (spec_of (sd_pscale d)) (gd (at_positions values vs A (fun k => s (k ++ suf)%string))).
Proof.
  intros vs ws PR NL NA SC ND IN HE NS DJ L.
  destruct (propose_gen leafs roots values x a r A PR NL NA SC ND IN HE suf NS DJ) as (d0 & E0 & H).
  exists d0. split; [exact E0|]. intros fn given d g gd HS HG.
  destruct (H fn given d g gd HS HG) as (p & vals & EP & _ & _ & _ & VP & MP & CP & SP & VV & t & PT & ST & GT).
  eexists. eexists. split; [exact EP|]. split; [exact VP|]. split; [exact MP|]. split; [exact CP|]. split; [exact SP|]. split; [exact VV|].
  intros s IB. unfold prob_at. rewrite PT, SP. f_equal. apply GT. exact IB.
Qed.

Section Thm.
Context {F : Fmt R} {TR : Trunc R}.
Variables (leafs roots : list (rv R)) (lims : list limits) (d : sdep R) (h : list (pyval R) -> R).
Let names := names_of (leafs ++ roots).

Lemma rejection g gd start given keyset score : proposal_process leafs roots lims d h g gd -> sampler_of leafs roots start given keyset ->
  omc_samples (mkOmc d g false "'" start keyset) score (names_of leafs) (names_of roots) h gd (points lims given).
Proof.
  intros (OP & HV & HG & d0 & fn & sc & HM & HS & HF) (PK & AS).
  exact (sampler_points leafs roots lims OP d0 d fn h sc HM HS HF HV g gd HG false start keyset score given PK AS).
Qed.

Lemma unmoved g gd start given keyset score : proposal_process leafs roots lims d h g gd -> sampler_of leafs roots start given keyset ->
  omc_samples (mkOmc d g true "'" start keyset) score (names_of leafs) (names_of roots) h gd (stuck lims given).
Proof.
  intros (OP & HV & HG & d0 & fn & sc & HM & HS & HF) (PK & AS) pre post NR SP.
  destruct (sampler_points leafs roots lims OP d0 d fn h sc HM HS HF HV g gd HG true start keyset score given PK AS pre post NR SP) as (ss & E & H).
  exists ss. split; [exact E|]. unfold om_points, stuck in *. destruct (steps_of (created pre) post); exact H.
Qed.

Lemma sample_value ps gd score s xt i k : sample_of (names_of leafs) (names_of roots) ps h gd score s xt -> nth_error names i = Some k ->
  value_in s k (nth i (fst xt) 0%R).
Proof.
  intros (p & pq & E & (_ & _ & _ & _ & V & _) & _) I. exists p. rewrite E. split; [reflexivity|]. apply V.
  unfold names, names_of in I. rewrite map_app in I. exact I.
Qed.

Lemma value_unique s k z z' : value_in s k z -> value_in s k z' -> z = z'.
Proof. intros (p & E & V) (p' & E' & V'). congruence. Qed.

Lemma f2_tl {B C} (P : B -> C -> Prop) l m : Forall2 P l m -> Forall2 P (tl l) (tl m).
Proof. destruct 1; [constructor|assumption]. Qed.

Lemma forgotten g gd start given keyset score i k y l : proposal_process leafs roots lims d h g gd -> sampler_of leafs roots start given keyset ->
  nth_error names i = Some k -> nth_error given i = Some (Some y) -> nth_error lims i = Some l -> (lm_lo l <= lm_hi l)%R ->
  (y < lm_lo l \/ lm_hi l < y)%R ->
  forall pre post, no_reset (pre ++ post) -> steps_of (created pre) pre = [] ->
  (forall r, In r (steps_of (created pre) post) -> 0 <= r_unif (or_vars r i) 0%nat <= 1)%R ->
  exists samples, yields (mkOmc d g false "'" start keyset) score pre post samples /\ length samples = length (steps_of (created pre) post) /\
    (forall s, hd_error samples = Some s -> value_in s k y) /\ (forall s, In s (tl samples) -> ~ value_in s k y).
Proof.
  intros PP SO Ik Iy Il LE OUT pre post NR SP RU. destruct (rejection g gd start given keyset score PP SO pre post NR SP) as (ss & E & H).
  exists ss. split; [exact E|]. destruct (steps_of (created pre) post) as [|r rs]; cbn [points] in H.
  - inversion H; subst. split; [reflexivity|]. split; [discriminate|intros s []].
  - pose proof PP as (OP & _). split; [rewrite (f2_len _ _ _ H); cbn [length]; rewrite map_length; reflexivity|]. split.
    + intros s HH. destruct ss as [|s0 ss]; [discriminate|]. injection HH as <-. inversion H as [|a0 b0 l0 m0 S1 S2]; subst.
      pose proof (sample_value _ _ _ _ _ i k S1 Ik) as V. cbn [fst] in V.
      pose proof (fill_nth given (drawn_in lims r) i _ _ Iy (drawn_nth lims r i l Il)) as FN. rewrite (nth_error_nth _ i 0%R FN) in V. exact V.
    + intros s IS V. apply f2_tl in H. cbn [tl] in H. apply In_nth_error in IS. destruct IS as (j & Ij).
      destruct (f2_nth _ _ _ _ _ H Ij) as (xt & Ix & SA). rewrite nth_error_map in Ix. destruct (nth_error rs j) as [r'|] eqn:Er; [|discriminate].
      injection Ix as <-. pose proof (sample_value _ _ _ _ _ i k SA Ik) as V'. cbn [fst] in V'.
      rewrite (nth_error_nth _ i 0%R (drawn_nth lims r' i l Il)) in V'. pose proof (value_unique s k _ _ V V') as EQ.
      assert (U : (0 <= r_unif (or_vars r' i) 0%nat <= 1)%R) by (apply RU; right; eapply nth_error_In; exact Er).
      assert ((lm_lo l <= y <= lm_hi l)%R); [|lra]. rewrite EQ. split; nra.
Qed.

Lemma same_draws g1 gd1 g2 gd2 start given keyset score1 score2 :
  proposal_process leafs roots lims d h g1 gd1 -> proposal_process leafs roots lims d h g2 gd2 -> sampler_of leafs roots start given keyset ->
  forall pre post, no_reset (pre ++ post) -> steps_of (created pre) pre = [] ->
  exists s1 s2, yields (mkOmc d g1 false "'" start keyset) score1 pre post s1 /\ yields (mkOmc d g2 false "'" start keyset) score2 pre post s2 /\
    Forall2 (fun a b => forall k, In k names -> exists x, value_in a k x /\ value_in b k x) s1 s2.
Proof.
  intros P1 P2 SO pre post NR SP.
  destruct (rejection g1 gd1 start given keyset score1 P1 SO pre post NR SP) as (s1 & E1 & H1).
  destruct (rejection g2 gd2 start given keyset score2 P2 SO pre post NR SP) as (s2 & E2 & H2).
  exists s1, s2. split; [exact E1|]. split; [exact E2|]. apply forall2_nth; [rewrite (f2_len _ _ _ H1), (f2_len _ _ _ H2); reflexivity|].
  intros j a b Ia Ib k Ik. destruct (f2_nth _ _ _ _ _ H1 Ia) as (xt & Ix & SA). destruct (f2_nth _ _ _ _ _ H2 Ib) as (xt' & Ix' & SB).
  assert (xt' = xt) by congruence. subst xt'. apply In_nth_error in Ik. destruct Ik as (i & Ik).
  eexists. split; eapply sample_value; eauto.
Qed.

(** *** suffix=False *)
Lemma stops g gd delta start given keyset score : proposal_process leafs roots lims d h g gd -> sampler_of leafs roots start given keyset ->
  forall pre post, no_reset (pre ++ post) -> steps_of (created pre) pre = [] ->
  outcomes_of (created pre) (snd (run (om_engine (mkOmc d g delta "" start keyset)) (om_config (mkOmc d g delta "" start keyset) score) new_process (pre ++ ENew None :: post)))
    = match steps_of (created pre) post with [] => [] | _ :: rs => Raised TypeError :: map (fun _ => Stopped) rs end.
Proof.
  intros (OP & HV & HG & d0 & fn & sc & HM & HS & HF) (PK & AS) pre post NR SP.
  set (o := mkOmc d g delta "" start keyset).
  pose proof (sampler_view (om_engine o) (om_config o score) pre None post NR SP) as H.
  destruct (run (om_engine o) (om_config o score) new_process (pre ++ ENew None :: post)) as [st os]. cbn [snd].
  destruct (steps_of (created pre) post) as [|r rs]; [apply H|].
  assert (ADV : SPModel.advance (om_engine o) (om_config o score) None r = Err TypeError).
  { unfold advance, SPModel.sample. change (c_tran (om_config o score)) with (om_unit o).
    rewrite (no_unit_gen leafs roots lims OP d0 d fn sc HM HS o eq_refl). cbn [negb andb c_prop om_config]. unfold SPModel.sample_prop.
    destruct (plain_prob leafs roots lims OP d0 d fn sc HM HS g gd HG o start given r eq_refl AS) as (prop & E1 & E2).
    cbn [om_engine e_propose e_prob]. change (om_sd o) with d. change (om_prop o) with g. change (om_start o) with start. change (om_suffix o) with ""%string.
    rewrite E1. cbn [bind]. rewrite E2. reflexivity. }
  cbn [loc_run] in H. unfold loc_step in H at 1. cbn [l_done l_last l_count] in H. rewrite ADV in H.
  assert (ST : forall n la rs, loc_run (om_engine o) (om_config o score) None (mkLoc n la true) rs = (mkLoc n la true, map (fun _ => Stopped) rs)).
  { intros n la. induction rs0 as [|r0 rs0 IH]; [reflexivity|]. cbn [loc_run]. unfold loc_step. cbn [l_done]. rewrite IH. reflexivity. }
  rewrite ST in H. apply H.
Qed.

(** *** Summaries *)
Lemma maybe_acc {A B} (f : A -> option B) l acc :
  fold_left (fun acc x => match f x with None => acc | Some e => Some (match acc with None => [e] | Some l => l ++ [e] end) end) l acc =
  match flat_map (fun x => match f x with Some e => [e] | None => [] end) l with
  | [] => acc
  | m => Some (match acc with None => m | Some l0 => l0 ++ m end)
  end.
Proof.
  revert acc. induction l as [|x l IH]; intros acc; [reflexivity|]. cbn [fold_left flat_map]. rewrite IH. destruct (f x) as [e|]; [|reflexivity].
  cbn [app]. destruct (flat_map _ l); destruct acc; cbn; rewrite <- ?app_assoc; reflexivity.
Qed.

Lemma maybe_is {A B} (f : A -> option B) l : maybe f l = match flat_map (fun x => match f x with Some e => [e] | None => [] end) l with [] => None | m => Some m end.
Proof. unfold maybe. rewrite maybe_acc. destruct (flat_map _ l); reflexivity. Qed.

Lemma maybe_none {A B} (f : A -> option B) l : (forall x, In x l -> f x = None) -> maybe f l = None.
Proof.
  intros H. rewrite maybe_is. enough (flat_map (fun x => match f x with Some e => [e] | None => [] end) l = []) as -> by reflexivity.
  induction l as [|x l IH]; [reflexivity|]. cbn. rewrite H by (left; reflexivity). apply IH. intros y I. apply H. right. exact I.
Qed.

Lemma maybe_f2 {A B C} (f : A -> option B) (g : B -> C -> Prop) l (m : list C) : Forall2 (fun x c => exists e, f x = Some e /\ g e c) l m -> l <> [] ->
  exists es, maybe f l = Some es /\ es <> [] /\ Forall2 g es m.
Proof.
  intros H NE. rewrite maybe_is.
  assert (G : Forall2 g (flat_map (fun x => match f x with Some e => [e] | None => [] end) l) m).
  { clear NE. induction H as [|x c l m (e & E & G) H IH]; [constructor|]. cbn. rewrite E. cbn. constructor; assumption. }
  destruct (flat_map _ l) as [|e es]; [|exists (e :: es); split; [reflexivity|split; [discriminate|exact G]]].
  inversion G; subst. inversion H; subst. contradiction.
Qed.

Lemma f2_map_eq {A B} (f : B -> A) (l : list A) m : Forall2 (fun a b => a = f b) l m -> l = map f m.
Proof. induction 1; cbn; congruence. Qed.

Lemma variable_number (p : pd R) k z : variable p k = Some (Scal (VNum z)) -> holds_number p k z.
Proof.
  unfold variable, var_of, holds_number. destruct (od_get (p_vals p) k) as [v|]; [|discriminate].
  destruct v; intros E; try discriminate; [injection E as ->; left; reflexivity|]. destruct (shape _); discriminate.
Qed.

Lemma number_unique (p : pd R) k z z' : variable p k = Some (Scal (VNum z)) -> holds_number p k z' -> z' = z.
Proof.
  unfold variable, var_of, holds_number. intros E [H|(a & H & S & _)]; rewrite H in E; [congruence|]. rewrite S in E. discriminate.
Qed.

Lemma total_columns (ds : list (odist R)) pts marg cond ps y : ds <> [] -> marg ++ cond <> [] ->
  Forall2 (fun e xt => stands_at (od_pd e) ps marg cond (fst xt) (y (map PF (fst xt)))) ds pts ->
  exists p, total (@od_pd R) (Some ds) = Ok (Some p) /\ columns p ps marg cond pts y.
Proof.
  intros NE NM H. unfold total.
  assert (LP : length (map (@od_pd R) ds) = length pts) by (rewrite map_length; eapply f2_len; exact H).
  assert (SM : samples (map (@od_pd R) ds) marg cond [] ps).
  { intros p I. apply in_map_iff in I. destruct I as (e & <- & I). apply In_nth_error in I. destruct I as (j & I).
    destruct (f2_nth _ _ _ _ _ H I) as (xt & _ & (VP & SP & MP & CP & VV & _)). split; [exact VP|]. split; [exact MP|]. split; [exact CP|]. split; [exact SP|].
    split; [intros k _ []|]. intros k Ik _. apply In_nth_error in Ik. destruct Ik as (i & Ik). eexists. apply variable_number. apply (VV i k Ik). }
  destruct (summate_ok (map (@od_pd R) ds) marg cond [] ps) as (p & E & K & M & C & S & _ & V & t & PT & ST & GT).
  - intros C. apply NE. destruct ds; [reflexivity|discriminate].
  - exact SM.
  - destruct (marg ++ cond) as [|k l] eqn:EM; [congruence|]. exists k. split; [left; reflexivity|intros []].
  - exists p. split; [exact E|]. split; [exact M|]. split; [exact C|]. split; [exact K|]. split; [exact S|]. rewrite LP in *. split.
    + intros i k Ik. assert (IN : In k (marg ++ cond)) by (eapply nth_error_In; exact Ik).
      destruct (V k IN (fun x => x)) as (D & a & Ga & Sa & Ha). split; [exact D|]. exists a. split; [exact Ga|]. split; [exact Sa|].
      intros j xt Ij. assert (EX : exists e, nth_error ds j = Some e).
      { destruct (nth_error ds j) as [e|] eqn:Ee; [eauto|]. exfalso. apply nth_error_None in Ee. rewrite map_length in LP. rewrite LP in Ee.
        apply nth_error_None in Ee. congruence. }
      destruct EX as (e & Ie). destruct (f2_nth _ _ _ _ _ H Ie) as (xt' & Ij' & (_ & _ & _ & _ & VV & _)). assert (xt' = xt) by congruence. subst xt'.
      apply (number_unique (od_pd e) k); [apply (VV i k Ik)|]. apply Ha. rewrite nth_error_map, Ie. reflexivity.
    + exists t. split; [exact PT|]. split; [exact ST|]. intros j xt Ij.
      assert (EX : exists e, nth_error ds j = Some e).
      { destruct (nth_error ds j) as [e|] eqn:Ee; [eauto|]. exfalso. apply nth_error_None in Ee. rewrite map_length in LP. rewrite LP in Ee.
        apply nth_error_None in Ee. congruence. }
      destruct EX as (e & Ie). destruct (f2_nth _ _ _ _ _ H Ie) as (xt' & Ij' & (_ & SP & _ & _ & _ & PA)). assert (xt' = xt) by congruence. subst xt'.
      destruct (GT j (od_pd e)) as (u & Pu & ->); [rewrite nth_error_map, Ie; reflexivity|].
      specialize (PA (fun _ => 0)). unfold prob_at in PA. rewrite Pu, SP in PA. exact PA.
Qed.

Lemma kept_f2 ps gd score ss pts : Forall2 (sample_of (names_of leafs) (names_of roots) ps h gd score) ss pts ->
  Forall2 (fun s xt => exists x, s = inr x /\ sample_of (names_of leafs) (names_of roots) ps h gd score x xt /\ x_u x = VTrue)
    (filter counts (map inr ss)) (accepted h gd score pts).
Proof.
  induction 1 as [|s xt ss pts SA H IH]; [constructor|]. cbn [map filter accepted]. fold (accepted h gd score pts). cbn [counts].
  pose proof SA as (p & pq & _ & _ & _ & _ & _ & AC & RJ). destruct (Rle_dec _ _) as [LE|NLE].
  - destruct (AC LE) as [U _]. rewrite U. constructor; [|exact IH]. exists s. auto.
  - rewrite RJ by lra. exact IH.
Qed.

Lemma f2_imp {B C} (P Q : B -> C -> Prop) l m : (forall b c, P b c -> Q b c) -> Forall2 P l m -> Forall2 Q l m.
Proof. intros I. induction 1; constructor; auto. Qed.

Lemma summary_ok ps gd score ss pts : leafs <> [] ->
  Forall2 (sample_of (names_of leafs) (names_of roots) ps h gd score) ss pts ->
  let acc := accepted h gd score pts in
  exists sm, summarise (@od_pd R) true (map inr ss) = Ok sm /\ sm_o sm = None /\ sm_r sm = None /\ sm_u sm = map (fun _ => VTrue) acc /\
    match acc with
    | [] => sm_p sm = None /\ sm_q sm = None /\ sm_v sm = None /\ sm_s sm = None /\ sm_t sm = None
    | _ => exists p q, sm_p sm = Some p /\ sm_v sm = Some p /\ sm_q sm = Some q /\
        columns p ps (names_of leafs) (names_of roots) acc h /\ columns q ps (primed names) [] acc gd /\
        sm_s sm = Some (map (fun xt => score (h (map PF (fst xt))) (gd (map PF (fst xt)))) acc) /\ sm_t sm = Some (map snd acc)
    end.
Proof.
  intros NL H acc. pose proof (kept_f2 ps gd score ss pts H) as K. fold acc in K. unfold summarise.
  set (kept := filter counts (map inr ss)) in *.
  assert (NIL : kept = [] \/ kept <> []) by (destruct kept; [left; reflexivity|right; discriminate]).
  destruct NIL as [EK|NE].
  { rewrite EK in K |- *. assert (EA : acc = []) by (inversion K; reflexivity). rewrite EA. cbn. eexists. split; [reflexivity|]. cbn. auto 10. }
  assert (NA : acc <> []) by (intros C; apply NE; rewrite C in K; destruct kept as [|k0 l0]; [reflexivity|inversion K]).
  rewrite (maybe_none (fun s : psample (odist R) R => match s with inl x => f_o x | inr x => f_o (x_opqr x) end)).
  2:{ intros s I. apply In_nth_error in I. destruct I as (j & I). destruct (f2_nth _ _ _ _ _ K I) as (xt & _ & x & -> & (p & pq & E & _) & _). rewrite E. reflexivity. }
  rewrite (maybe_none (fun s : psample (odist R) R => match s with inl x => f_r x | inr x => f_r (x_opqr x) end)).
  2:{ intros s I. apply In_nth_error in I. destruct I as (j & I). destruct (f2_nth _ _ _ _ _ K I) as (xt & _ & x & -> & (p & pq & E & _) & _). rewrite E. reflexivity. }
  cbn [total bind].
  destruct (maybe_f2 (fun s : psample (odist R) R => match s with inl x => f_p x | inr x => f_p (x_opqr x) end)
     (fun e xt => stands_at (od_pd e) ps (names_of leafs) (names_of roots) (fst xt) (h (map PF (fst xt)))) kept acc) as (P & EP & NP & FP); [|exact NE|].
  { eapply f2_imp; [|exact K]. intros s xt (x & -> & (p & pq & E & SP & _) & _). exists p. rewrite E. split; [reflexivity|exact SP]. }
  destruct (maybe_f2 (fun s : psample (odist R) R => match s with inl x => f_q x | inr x => f_q (x_opqr x) end)
     (fun e xt => stands_at (od_pd e) ps (primed names) [] (fst xt) (gd (map PF (fst xt)))) kept acc) as (Q & EQ & NQ & FQ); [|exact NE|].
  { eapply f2_imp; [|exact K]. intros s xt (x & -> & (p & pq & E & _ & SQ & _) & _). exists pq. rewrite E. split; [reflexivity|].
    unfold names, names_of. rewrite map_app. exact SQ. }
  assert (EV : maybe (fun s : psample (odist R) R => match s with inl _ => None | inr x => x_v x end) kept = Some P).
  { rewrite <- EP, !maybe_is.
    enough (EF : flat_map (fun s : psample (odist R) R => match match s with inl _ => None | inr x => x_v x end with Some e => [e] | None => [] end) kept =
      flat_map (fun s : psample (odist R) R => match match s with inl x => f_p x | inr x => f_p (x_opqr x) end with Some e => [e] | None => [] end) kept)
      by (rewrite EF; reflexivity).
    clear -K. induction K as [|s xt k a (x & -> & (p & pq & E & _ & _ & _ & _ & AC & RJ) & U) K IH]; [reflexivity|].
    cbn [flat_map]. rewrite IH. f_equal. rewrite E. cbn [f_p].
    destruct (Rlt_le_dec (score (h (map PF (fst xt))) (gd (map PF (fst xt)))) (snd xt)) as [L|L]; [rewrite (RJ L) in U; discriminate|].
    destruct (AC L) as [_ ->]. reflexivity. }
  destruct (maybe_f2 (fun s : psample (odist R) R => match s with inl _ => None | inr x => x_s x end)
     (fun e xt => e = score (h (map PF (fst xt))) (gd (map PF (fst xt)))) kept acc) as (S' & ES & _ & FS); [|exact NE|].
  { eapply f2_imp; [|exact K]. intros s xt (x & -> & (p & pq & E & _ & _ & E4 & _) & _). eexists. split; [exact E4|reflexivity]. }
  destruct (maybe_f2 (fun s : psample (odist R) R => match s with inl _ => None | inr x => x_t x end)
     (fun e (xt : list R * R) => e = snd xt) kept acc) as (T' & ET & _ & FT); [|exact NE|].
  { eapply f2_imp; [|exact K]. intros s xt (x & -> & (p & pq & E & _ & _ & _ & E5 & _) & _). eexists. split; [exact E5|reflexivity]. }
  destruct (maybe_f2 (fun s : psample (odist R) R => match s with inl _ => None | inr x => Some (x_u x) end)
     (fun e (xt : list R * R) => e = VTrue) kept acc) as (U' & EU & _ & FU); [|exact NE|].
  { eapply f2_imp; [|exact K]. intros s xt (x & -> & _ & U). eexists. split; [reflexivity|exact U]. }
  assert (NM : names_of leafs ++ names_of roots <> []) by (destruct leafs; [contradiction|discriminate]).
  destruct (total_columns P acc _ _ ps h NP NM FP) as (p & E1 & C1).
  destruct (total_columns Q acc (primed names) [] ps gd NQ) as (pq & E2 & C2); [|exact FQ|].
  { unfold names, primed, names_of. destruct leafs; [contradiction|discriminate]. }
  rewrite EP, E1. cbn [bind]. rewrite EQ, E2. cbn [bind]. rewrite EV, E1. cbn [bind]. rewrite ES, ET, EU. eexists. split; [reflexivity|]. cbn.
  split; [reflexivity|]. split; [reflexivity|]. split; [exact (f2_map_eq (fun _ => VTrue) U' acc FU)|].
  destruct acc as [|xt l] eqn:EA; [congruence|]. exists p, pq. split; [reflexivity|]. split; [reflexivity|]. split; [reflexivity|].
  split; [exact C1|]. split; [exact C2|]. split; f_equal.
  - exact (f2_map_eq _ S' _ FS).
  - exact (f2_map_eq _ T' _ FT).
Qed.
End Thm.

(** Summaries of any samples. *)
Section Sums.
Context {F : Fmt R} {D Sc : Type} (view : D -> pd R).

Lemma summary_left_out b (l1 l2 : list (psample D Sc)) x : x_u x = VFalse ->
  summarise view b (l1 ++ inr x :: l2) = summarise view b (l1 ++ l2).
Proof.
  intros U. unfold summarise. assert (Q : filter counts (l1 ++ inr x :: l2) = filter counts (l1 ++ l2)).
  { rewrite !filter_app. cbn [filter counts]. rewrite U. reflexivity. }
  rewrite Q. reflexivity.
Qed.

Lemma summary_kept b (l : list (psample D Sc)) sm : summarise view b l = Ok sm ->
  sm_u sm = (if b then flat_map (fun s => match s with inr x => match x_u x with VFalse => [] | u => [u] end | inl _ => [] end) l else []) /\
  match sm_s sm with Some ss => ss | None => [] end =
    flat_map (fun s => match s with inr x => match x_u x, x_s x with VFalse, _ | _, None => [] | _, Some y => [y] end | inl _ => [] end) l.
Proof.
  unfold summarise. intros H. repeat (apply bind_ok in H as (? & _ & H)). injection H as <-. cbn [sm_u sm_s]. clear. rewrite !maybe_is. split.
  - destruct b; [|reflexivity]. match goal with |- match match ?z with _ => _ end with _ => _ end = _ => transitivity z; [destruct z; reflexivity|] end.
    induction l as [|[x|x] l IH]; cbn [filter counts flat_map app]; [reflexivity|exact IH|]. destruct (x_u x) eqn:U; cbn [flat_map app]; rewrite ?U, ?IH; reflexivity.
  - match goal with |- match match ?z with _ => _ end with _ => _ end = _ => transitivity z; [destruct z; reflexivity|] end.
    induction l as [|[x|x] l IH]; cbn [filter counts flat_map app]; [reflexivity|exact IH|].
    destruct (x_u x) eqn:U; cbn [flat_map app]; rewrite ?IH; try reflexivity; destruct (x_s x); reflexivity.
Qed.
End Sums.
