(** Values and densities of variables with transformations. *)
From Coq Require Import String ZArith Reals Bool Arith List Lra Lia.
From Verif Require Import Base Num RNumLemmas Tensor PScales PScales_Spec PScales_Proofs Distr Likelihoods Lik_Slice VariableModel Var_Spec Var_Proofs
  RVModel RV_Spec RV_Proofs DistModel TransModel Trans_Spec Trans_Proofs.
Import ListNotations.
Local Open Scope R_scope.

Section W.
Variables (name : string) (ps : pscale R) (s : settings) (w : trv R) (a b : R).
Hypothesis M : made name ps s w.
Hypothesis B : between_limits s a b.

Let AG : agrees name ps s w := made_agrees _ _ _ _ M.

Lemma lims_plain : st_u s = None \/ st_no s = true -> exists x y, lims_of s = (AV x, AV y) /\ as_num x = a /\ as_num y = b.
Proof.
  destruct B as [(x & X & <-) (y & Y & <-)]. intros H. exists x, y. rewrite !as_num_num. split; auto.
  unfold lims_of. rewrite X, Y. destruct H as [H|H]; rewrite H; auto. destruct (st_no s); reflexivity.
Qed.

Lemma lims_trans t : st_u s = Some t -> st_no s = false ->
  exists x y, lims_of s = (AV x, AV y) /\ as_num x = u_fwd (tr_u t) a /\ as_num y = u_fwd (tr_u t) b.
Proof.
  destruct B as [(x & X & <-) (y & Y & <-)]. intros Hu Hn. unfold lims_of. rewrite X, Y, Hu, Hn. cbn [option_map u_image].
  do 2 eexists. split; [reflexivity|]. rewrite !as_num_num. cbn. auto.
Qed.

Lemma len_trans t : st_u s = Some t ->
  len_of s = Some (Rabs (u_fwd (tr_u t) b - u_fwd (tr_u t) a)).
Proof.
  destruct B as [(x & X & <-) (y & Y & <-)]. intros Hu. unfold len_of. rewrite X, Y, Hu. cbn [option_map u_image span].
  f_equal. rewrite n_max_R, n_min_R. cbn [n_sub RNum]. rewrite (as_num_num x), (as_num_num y). cbn [as_num].
  set (p := u_fwd (tr_u t) (num x)). set (q := u_fwd (tr_u t) (num y)).
  unfold Rmax, Rmin, Rabs. destruct (Rle_dec p q), (Rcase_abs (q - p)); lra.
Qed.

Lemma eval_at n r lo hi x y : st_pfun s = None -> lims_of s = (AV x, AV y) -> as_num x = lo -> as_num y = hi ->
  tv_evaluate w (VSet n) r =
  Ok (out_map (match st_u s, st_no s with Some t, false => u_inv (tr_u t) | _, _ => fun x => x end)
        (uniform lo hi (Some n) (is_tup (st_e0 s)) (is_tup (st_e1 s)) (r_unif r))).
Proof.
  intros HP L <- <-. unfold tv_evaluate. rewrite (ag_pfun _ _ _ _ AG), HP, (ag_lims _ _ _ _ AG), L,
    (ag_e0 _ _ _ _ AG), (ag_e1 _ _ _ _ AG), (ag_u _ _ _ _ AG), (ag_no _ _ _ _ AG). reflexivity.
Qed.

End W.

Lemma uniform_places lo hi n x0 x1 r f :
  answer (out_map f (uniform (T := R) lo hi (Some n) x0 x1 (r_unif r))) =
  map (fun i => PF (f (lo + (hi - lo) * place n x0 x1 r i))) (seq 0 (Nat.max 1 (Z.abs_nat n))).
Proof.
  destruct n as [|p|p].
  - cbn. unfold draw. reflexivity.
  - pose proof (Pos2Nat.is_pos p) as P. cbn [Z.abs_nat]. rewrite Nat.max_r by lia.
    unfold place. destruct (Nat.eqb_spec (Pos.to_nat p + skip x0 + skip x1) 1) as [E|E].
    + destruct x0, x1; cbn [skip] in E; try lia. assert (Pos.to_nat p = 1)%nat as E1 by lia.
      rewrite E1. assert (p = 1%positive) by (apply Pos2Nat.inj; rewrite E1; reflexivity). subst p.
      rewrite uniform_one. replace ((lo + hi) / 2) with (lo + (hi - lo) * / 2) by lra. reflexivity.
    + rewrite uniform_grid by (change b1 with skip; lia). change b1 with skip. cbn [out_map answer]. rewrite map_map. apply map_ext. intros i.
      unfold cut. do 2 f_equal. unfold Rdiv. ring.
  - pose proof (Pos2Nat.is_pos p) as P. cbn [Z.abs_nat]. rewrite Nat.max_r by lia.
    cbn [uniform out_map answer]. rewrite map_map. reflexivity.
Qed.

Lemma place_unit n x0 x1 r i : (forall i, 0 <= r_unif r i < 1) -> (i < Nat.max 1 (Z.abs_nat n))%nat -> 0 <= place n x0 x1 r i <= 1.
Proof.
  intros U H. destruct n as [|p|p]; unfold place; try (specialize (U i); lra).
  pose proof (Pos2Nat.is_pos p) as P. cbn [Z.abs_nat] in H.
  destruct (Nat.eqb_spec (Pos.to_nat p + skip x0 + skip x1) 1) as [E|E]; [lra|].
  set (m := (Pos.to_nat p + skip x0 + skip x1 - 1)%nat).
  assert (0 < INR m) by (apply lt_0_INR; lia).
  assert (INR (i + skip x0) <= INR m) by (apply le_INR; unfold m; destruct x0, x1; cbn [skip] in *; lia).
  pose proof (pos_INR (i + skip x0)). split.
  - apply Rmult_le_pos; auto. left. apply Rinv_0_lt_compat. auto.
  - apply Rmult_le_reg_r with (INR m); auto. unfold Rdiv. rewrite Rmult_assoc, Rinv_l; lra.
Qed.

(** C202 *)
Lemma values_transformed name ps s w t a b n r :
  made name ps s w -> st_pfun s = None -> st_u s = Some t -> st_no s = false ->
  between_limits s a b -> a < b -> increases t a b \/ decreases t a b -> (forall i, 0 <= r_unif r i < 1) ->
  exists o, tv_evaluate w (VSet n) r = Ok o /\ length (answer o) = Nat.max 1 (Z.abs_nat n) /\
    forall i, (i < length (answer o))%nat -> exists x, nth_error (answer o) i = Some (PF x) /\ a <= x <= b /\
      u_fwd (tr_u t) x = u_fwd (tr_u t) a + (u_fwd (tr_u t) b - u_fwd (tr_u t) a) * place n (is_tup (st_e0 s)) (is_tup (st_e1 s)) r i.
Proof.
  intros M HP Hu Hn B L MO U. destruct (lims_trans s a b B t Hu Hn) as (lo & hi & E & Lo & Hi).
  eexists. split; [apply (eval_at _ _ _ _ M _ _ _ _ _ _ HP E Lo Hi)|]. rewrite Hu, Hn, uniform_places.
  rewrite map_length, seq_length. split; auto. intros i I.
  pose proof (place_unit n (is_tup (st_e0 s)) (is_tup (st_e1 s)) r i U I) as PU.
  set (k := place n _ _ r i) in *.
  eexists. split; [rewrite nth_error_map, (nth_error_nth' _ 0%nat) by (rewrite seq_length; auto); rewrite seq_nth by auto; reflexivity|].
  cbn [Nat.add]. fold k.
  set (p := u_fwd (tr_u t) a) in *. set (q := u_fwd (tr_u t) b) in *.
  destruct MO as [[I1 I2]|[I1 I2]]; fold p q in I2; apply I2.
  - assert (p < q) by (apply I1; lra). split; nra.
  - assert (q < p) by (apply I1; lra). split; nra.
Qed.

Lemma increases_le t a b x y : increases t a b -> a <= x <= b -> a <= y <= b ->
  (x <= y <-> u_fwd (tr_u t) x <= u_fwd (tr_u t) y).
Proof.
  intros [I _] X Y. split; intros H.
  - destruct H as [H|<-]; [left; apply I; lra|lra].
  - destruct (Rle_lt_dec x y) as [G|G]; auto. assert (u_fwd (tr_u t) y < u_fwd (tr_u t) x) by (apply I; lra). lra.
Qed.

(** The default density *)
Lemma length_prob len ps : holdable ps len -> exists x, prob_of_length (Some len) ps = Ok x /\ denote (spec_of ps) x = / len.
Proof.
  intros (L & (V & U & G) & _ & Bd). pose proof npz_pos as NP. unfold prob_of_length.
  destruct (rescale_preserves (tscalar (n_opp (log_prob1 len))) (PSStr "log") (spec_of ps)) as (t & Et & _ & D); auto.
  { apply valid_log. } { discriminate. }
  rewrite Et. cbn [bind]. eexists. split; [reflexivity|].
  assert (DL : denote (PSStr "log") (n_opp (log_prob1 len)) = / len).
  { unfold denote. cbn [factor log_kind]. unfold log_prob1.
    assert (LE : n_leb npz len = true) by (apply Rleb_iff; auto). rewrite LE, n_opp_R. cbn [n_ln RNum].
    rewrite exp_Ropp, exp_ln by lra. ring. }
  rewrite D; [exact DL|cbn; discriminate|]. intros _ K. cbn [get tscalar]. rewrite DL. auto.
Qed.

Section D.
Variables (name : string) (ps : pscale R) (s : settings) (w : trv R) (t : trans R) (a b : R).
Hypothesis M : made name ps s w.
Hypothesis B : between_limits s a b.
Hypothesis G : st_given s = None.
Hypothesis Hu : st_u s = Some t.
Let len := Rabs (u_fwd (tr_u t) b - u_fwd (tr_u t) a).
Hypothesis H : holdable ps len.

Lemma default_is : exists x, denote (spec_of ps) x = / len /\ is_log ps = log_kind (spec_of ps) /\
  tv_pscale w = ps /\ tv_has w = true /\
  if st_no s then exists d, tr_der t = Some d /\
      tv_prob w = TPFun (fun y => if is_log ps then n_add x (n_ln (d y)) else n_mul x (d y))
  else tv_prob w = TPScalar x.
Proof.
  pose proof (made_agrees _ _ _ _ M) as AG. destruct (length_prob len ps H) as (x & X & D).
  exists x. split; auto. split; [apply is_log_kind; apply H|]. split; [apply (ag_ps _ _ _ _ AG)|]. split; [apply (ag_has _ _ _ _ AG)|].
  pose proof (ag_prob _ _ _ _ AG) as P. unfold prob_is in P. rewrite G, Hu, (len_trans s a b B t Hu) in P. fold len in P.
  destruct P as (y & Y & P). rewrite X in Y. injection Y as <-. exact P.
Qed.

Lemma flat_density : st_no s = false ->
  density w (member s) (fun _ => / len) /\ impossible w (fun x => ~ member s x).
Proof.
  intros No. destruct default_is as (x & D & IL & Ps & Has & P). rewrite No in P.
  pose proof (made_agrees _ _ _ _ M) as AG.
  assert (E : forall vals, exists p, tv_eval_prob w vals = Ok p /\ shape p = shape vals /\
    forall idx, get p idx = if inside_b (interval (st_e0 s) (st_e1 s)) (get vals idx) then x else if is_log ps then nni else 0).
  { intros vals. unfold tv_eval_prob. rewrite P, Has, Ps, (ag_e0 _ _ _ _ AG), (ag_e1 _ _ _ _ AG). cbn [negb].
    unfold uniform_prob. destruct H as (_ & _ & EP & _). rewrite EP. cbn [bind uniform_rest].
    eexists. split; [reflexivity|]. split; reflexivity. }
  assert (I : forall v, inside_b (interval (st_e0 s) (st_e1 s)) v = true <-> member s (num v)).
  { intros v. unfold inside_b, member. destruct (inside_interval (st_e0 s) (st_e1 s) v) as (c & -> & Q). exact Q. }
  split; intros vals; destruct (E vals) as (p & Ep & Sp & Gp); exists p; (split; [auto|split; [auto|]]); intros idx Q; rewrite Gp.
  - apply I in Q. rewrite Q, Ps. exact D.
  - destruct (inside_b _ (get vals idx)) eqn:J; [apply I in J; contradiction|]. rewrite Ps, IL. reflexivity.
Qed.

Lemma curved_density d : st_no s = true -> tr_der t = Some d ->
  density w (fun x => log_kind (spec_of ps) = true -> 0 < d x) (fun x => d x / len).
Proof.
  intros No Td vals. destruct default_is as (x & D & IL & Ps & Has & P). rewrite No in P.
  destruct P as (d' & Td' & P). rewrite Td in Td'. injection Td' as <-.
  unfold tv_eval_prob. rewrite P. eexists. split; [reflexivity|]. split; [reflexivity|].
  intros idx Q. cbn [tmap get]. rewrite as_num_num. unfold denote in *. rewrite Ps, IL.
  destruct (log_kind (spec_of ps)).
  - cbn [n_add n_ln RNum]. rewrite exp_plus, exp_ln by (apply Q; auto). rewrite <- Rmult_assoc, D. unfold Rdiv. ring.
  - cbn [n_mul RNum]. rewrite <- Rmult_assoc, D. unfold Rdiv. ring.
Qed.
End D.

Lemma integral_unique f a b P Q : integral f a b P -> integral f a b Q -> P = Q.
Proof. intros [i <-] [j <-]. apply RiemannInt_P5. Qed.

Lemma integral_derive u d a c : a <= c -> (forall x, a <= x <= c -> derivable_pt_lim u x (d x) /\ continuity_pt d x) ->
  integral d a c (u c - u a).
Proof.
  intros L H. assert (C0 : forall x, a <= x <= c -> continuity_pt d x) by (intros x X; apply H; auto).
  pose proof (continuity_implies_RiemannInt L C0) as pr. exists pr.
  rewrite (RiemannInt_P20 L (FTC_P1 L C0) pr).
  assert (A : antiderivative d u a c).
  { split; auto. intros x X. destruct (H x X) as [D _]. exists (exist _ (d x) D). reflexivity. }
  pose proof (RiemannInt_P29 L C0) as A'.
  destruct (antiderivative_Ucte d u _ a c A A') as (k & K).
  rewrite (K c), (K a) by lra. ring.
Qed.

Lemma RInt_part t d a b c k : derivative t d a b -> a <= c <= b ->
  integral (fun x => d x / k) a c ((u_fwd (tr_u t) c - u_fwd (tr_u t) a) / k).
Proof.
  intros [_ H] C.
  replace ((u_fwd (tr_u t) c - u_fwd (tr_u t) a) / k) with (u_fwd (tr_u t) c * / k - u_fwd (tr_u t) a * / k) by (unfold Rdiv; ring).
  apply (integral_derive (fun x => u_fwd (tr_u t) x * / k)); [lra|]. intros x X. destruct (H x) as [D C0]; [lra|]. split.
  - replace (d x / k) with (d x * / k + u_fwd (tr_u t) x * 0) by (unfold Rdiv; ring).
    apply (derivable_pt_lim_mult (u_fwd (tr_u t)) (fun _ => / k)); auto. apply derivable_pt_lim_const.
  - apply (continuity_pt_mult d (fun _ => / k)); auto. apply continuity_pt_const. intros ? ?. reflexivity.
Qed.

(** C203 *)
Lemma no_ucov_density name ps s w t d a b :
  made name ps s w -> st_given s = None -> st_u s = Some t -> st_no s = true ->
  between_limits s a b -> a < b -> increases t a b -> derivative t d a b ->
  (log_kind (spec_of ps) = true -> forall x, a <= x <= b -> 0 < d x) ->
  holdable ps (u_fwd (tr_u t) b - u_fwd (tr_u t) a) ->
  exists f, density w (fun x => a <= x <= b) f /\
    (forall c, a <= c <= b -> integral f a c ((u_fwd (tr_u t) c - u_fwd (tr_u t) a) / (u_fwd (tr_u t) b - u_fwd (tr_u t) a))) /\
    integral f a b 1.
Proof.
  intros M G Hu No B L I D Pos H.
  assert (LT : u_fwd (tr_u t) a < u_fwd (tr_u t) b) by (apply I; lra).
  set (len := u_fwd (tr_u t) b - u_fwd (tr_u t) a) in *.
  assert (E : Rabs (u_fwd (tr_u t) b - u_fwd (tr_u t) a) = len) by (apply Rabs_right; unfold len; lra).
  exists (fun x => d x / len). split; [|split].
  - rewrite <- E in H. intros vals. destruct (curved_density _ _ _ _ _ _ _ M B G Hu H d No (proj1 D) vals) as (p & P1 & P2 & P3).
    exists p. split; auto. split; auto. intros idx Q. rewrite P3; [rewrite E; reflexivity|]. intros K. apply Pos; auto.
  - intros c C. apply RInt_part with (b := b); auto.
  - replace 1 with ((u_fwd (tr_u t) b - u_fwd (tr_u t) a) / len) by (unfold len; field; lra).
    apply RInt_part with (b := b); auto. lra.
Qed.

(** Values drawn by change of variables follow the density of no change of variables. *)
Lemma same_law name name' ps s s' v w t d a b n r :
  made name ps s v -> st_pfun s = None -> st_u s = Some t -> st_no s = false -> between_limits s a b ->
  made name' ps s' w -> st_given s' = None -> st_u s' = Some t -> st_no s' = true -> between_limits s' a b ->
  a < b -> increases t a b -> derivative t d a b ->
  (log_kind (spec_of ps) = true -> forall x, a <= x <= b -> 0 < d x) ->
  holdable ps (u_fwd (tr_u t) b - u_fwd (tr_u t) a) -> (n <= 0)%Z -> (forall i, 0 <= r_unif r i < 1) ->
  exists o f, tv_evaluate v (VSet n) r = Ok o /\ length (answer o) = Nat.max 1 (Z.abs_nat n) /\
    density w (fun x => a <= x <= b) f /\
    forall c, a <= c <= b -> exists P, integral f a c P /\
      forall i, (i < length (answer o))%nat -> exists x, nth_error (answer o) i = Some (PF x) /\ a <= x <= b /\
        (x <= c <-> r_unif r i <= P).
Proof.
  intros M HP Hu Hn B M' G' Hu' Hn' B' L I D Pos H N U.
  destruct (values_transformed _ _ _ _ t a b n r M HP Hu Hn B L (or_introl I) U) as (o & Eo & Lo & Vo).
  destruct (no_ucov_density _ _ _ _ t d a b M' G' Hu' Hn' B' L I D Pos H) as (f & Df & If & _).
  exists o, f. split; auto. split; auto. split; auto. intros c C. eexists. split; [apply If; auto|].
  intros i Hi. destruct (Vo i Hi) as (x & X & XB & XU). exists x. split; auto. split; auto.
  rewrite (increases_le t a b x c I XB C), XU.
  replace (place n (is_tup (st_e0 s)) (is_tup (st_e1 s)) r i) with (r_unif r i) by (destruct n; try reflexivity; lia).
  assert (LT : u_fwd (tr_u t) a < u_fwd (tr_u t) b) by (apply I; lra).
  set (p := u_fwd (tr_u t) a) in *. set (q := u_fwd (tr_u t) b) in *. set (m := u_fwd (tr_u t) c) in *.
  assert (K : m - p = (m - p) / (q - p) * (q - p)) by (field; lra). set (z := (m - p) / (q - p)) in *.
  split; intros Q.
  - apply Rmult_le_reg_r with (q - p); [lra|]. rewrite <- K. lra.
  - apply Rmult_le_compat_r with (r := q - p) in Q; [|lra]. rewrite <- K in Q. lra.
Qed.

(** With no change of variables the values drawn are those of no transformation. *)
Lemma no_ucov_values name ps s w t a b n r :
  made name ps s w -> st_pfun s = None -> st_u s = Some t -> st_no s = true -> between_limits s a b ->
  exists o, tv_evaluate w (VSet n) r = Ok o /\ length (answer o) = Nat.max 1 (Z.abs_nat n) /\
    forall i, (i < length (answer o))%nat ->
      nth_error (answer o) i = Some (PF (a + (b - a) * place n (is_tup (st_e0 s)) (is_tup (st_e1 s)) r i)).
Proof.
  intros M HP Hu Hn B. destruct (lims_plain s a b B (or_intror Hn)) as (lo & hi & E & Lo & Hi).
  eexists. split; [apply (eval_at _ _ _ _ M _ _ _ _ _ _ HP E Lo Hi)|]. rewrite Hu, Hn, uniform_places.
  rewrite map_length, seq_length. split; auto. intros i I.
  rewrite nth_error_map, (nth_error_nth' _ 0%nat) by (rewrite seq_length; auto). rewrite seq_nth by auto. reflexivity.
Qed.

(** C204: change of variables *)
Lemma flat_integral name ps s w t a b :
  made name ps s w -> st_given s = None -> st_u s = Some t -> st_no s = false ->
  between_limits s a b -> a < b ->
  holdable ps (Rabs (u_fwd (tr_u t) b - u_fwd (tr_u t) a)) ->
  exists f, density w (member s) f /\ impossible w (fun x => ~ member s x) /\
    (integral f a b 1 <-> Rabs (u_fwd (tr_u t) b - u_fwd (tr_u t) a) = b - a).
Proof.
  intros M G Hu No B L H. destruct (flat_density _ _ _ _ _ _ _ M B G Hu H No) as [D Z].
  set (len := Rabs _) in *. exists (fun _ => / len). split; auto. split; auto.
  assert (P : 0 < len) by (destruct H as (H & _); pose proof npz_pos; lra).
  assert (C : integral (fun _ => / len) a b ((b - a) / len)).
  { replace ((b - a) / len) with (b * / len - a * / len) by (unfold Rdiv; ring).
    apply (integral_derive (fun x => x * / len)); [lra|]. intros x _. split.
    - pose proof (derivable_pt_lim_mult (fun x => x) (fun _ => / len) x 1 0 (derivable_pt_lim_id x) (derivable_pt_lim_const (/ len) x)) as DM.
      cbv beta in DM. replace (1 * / len + x * 0) with (/ len) in DM by ring. exact DM.
    - apply continuity_pt_const. intros ? ?. reflexivity. }
  split; intros Q.
  - pose proof (integral_unique _ _ _ _ _ C Q) as X.
    assert (K : b - a = (b - a) / len * len) by (field; lra). rewrite X in K. lra.
  - rewrite <- Q in C. replace 1 with (len / len) by (field; lra). exact C.
Qed.

Lemma falling_integral name ps s w t d a b :
  made name ps s w -> st_given s = None -> st_u s = Some t -> st_no s = true ->
  between_limits s a b -> a < b -> decreases t a b -> derivative t d a b -> log_kind (spec_of ps) = false ->
  holdable ps (u_fwd (tr_u t) a - u_fwd (tr_u t) b) ->
  exists f, density w (fun _ => True) f /\ integral f a b (-1).
Proof.
  intros M G Hu No B L I D NL H.
  assert (LT : u_fwd (tr_u t) b < u_fwd (tr_u t) a) by (apply I; lra).
  assert (E : Rabs (u_fwd (tr_u t) b - u_fwd (tr_u t) a) = u_fwd (tr_u t) a - u_fwd (tr_u t) b)
    by (rewrite Rabs_left by lra; lra).
  rewrite <- E in H.
  exists (fun x => d x / Rabs (u_fwd (tr_u t) b - u_fwd (tr_u t) a)). split.
  - intros vals. destruct (curved_density _ _ _ _ _ _ _ M B G Hu H d No (proj1 D) vals) as (p & P1 & P2 & P3).
    exists p. split; auto. split; auto. intros idx _. apply (P3 idx). congruence.
  - rewrite E. replace (-1) with ((u_fwd (tr_u t) b - u_fwd (tr_u t) a) / (u_fwd (tr_u t) a - u_fwd (tr_u t) b)) by (field; lra).
    apply RInt_part with (b := b); auto. lra.
Qed.

(** Outside of the set *)
Lemma curved_outside name ps s w t d a b :
  made name ps s w -> st_given s = None -> st_u s = Some t -> st_no s = true -> tr_der t = Some d ->
  between_limits s a b -> holdable ps (Rabs (u_fwd (tr_u t) b - u_fwd (tr_u t) a)) ->
  forall x, 0 < d x -> density w (fun y => y = x) (fun _ => d x / Rabs (u_fwd (tr_u t) b - u_fwd (tr_u t) a)) /\
    0 < d x / Rabs (u_fwd (tr_u t) b - u_fwd (tr_u t) a).
Proof.
  intros M G Hu No Td B H x X. split.
  - intros vals. destruct (curved_density _ _ _ _ _ _ _ M B G Hu H d No Td vals) as (p & P1 & P2 & P3).
    exists p. split; auto. split; auto. intros idx Q. rewrite P3; rewrite Q; auto.
  - apply Rdiv_lt_0_compat; auto. destruct H as (H & _). pose proof npz_pos. lra.
Qed.
