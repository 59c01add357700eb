(** expectation (pd.py 373-405). *)
From Coq Require Import Ascii String ZArith Reals Lra Bool Arith Lia Permutation List.
From Verif Require Import Base Num Tensor TensorBcast OdLemmas TensorLemmas RNumLemmas PScales
  PScales_Spec PScales_Proofs PScales_Prod Names Names_Spec Names_Proofs Distr PDModel PD_Spec PD_Make PD_Sums
  PD_Valid PD_Marg PD_Align PD_Expect_Spec.
Import ListNotations.
Local Open Scope nat_scope.

Lemma n_pow_R (x : R) n : n_pow x n = (x ^ n)%R.
Proof. induction n as [|n IH]; [reflexivity|]. cbn [n_pow pow]. rewrite IH. rn. ring. Qed.

Lemma set_add_all l : forall acc, NoDup (acc ++ l) -> fold_left set_addZ l acc = acc ++ l.
Proof.
  induction l as [|z l IH]; intros acc N; cbn [fold_left]; [symmetry; apply app_nil_r|].
  assert (M : Zmem z acc = false).
  { apply not_true_is_false. unfold Zmem. rewrite existsb_exists. intros (y & I & E). apply Z.eqb_eq in E. subst y.
    apply NoDup_remove_2 in N. apply N. apply in_or_app. auto. }
  unfold set_addZ at 2. rewrite M. rewrite IH.
  - rewrite <- app_assoc. reflexivity.
  - rewrite <- app_assoc. exact N.
Qed.

(** A column read at a position of the whole. *)
Lemma ravel_column (sz : string -> nat) (a : string -> nat) k L : NoDup L -> In k L ->
  ravel (mask sz [k] L) (midx [k] a L) = a k.
Proof.
  intros N. induction N as [|x L Hx N IH]; intros I; [destruct I|].
  cbn [mask midx map ravel]. fold (mask sz [k] L). fold (midx [k] a L).
  destruct (mem_str x [k]) eqn:M.
  - apply mem_str_iff in M. destruct M as [<-|[]].
    assert (E : mask sz [k] L = repeat 1 (length L) /\ midx [k] a L = repeat 0 (length L)).
    { clear -Hx. induction L as [|y L IH]; [split; reflexivity|]. cbn [mask midx map repeat length].
      assert (My : mem_str y [k] = false) by (apply mem_str_false; intros [<-|[]]; apply Hx; left; reflexivity).
      rewrite My. destruct IH as [E1 E2]; [intros C; apply Hx; right; exact C|].
      unfold mask in E1. unfold midx in E2. rewrite E1, E2. split; reflexivity. }
    destruct E as [E1 E2]. rewrite E1, E2, prod_ones. 
    assert (Z : forall n, ravel (repeat 1 n) (repeat 0 n) = 0) by (induction n; cbn; auto).
    rewrite Z. lia.
  - destruct I as [<-|I]; [|rewrite IH by exact I; reflexivity].
    exfalso. apply mem_str_false in M. apply M. left. reflexivity.
Qed.

Section Expect.
Context {F : Fmt R}.
Variables (p : pd R) (L : list string).
Hypothesis V : valid_pd p L.
Hypothesis FS : fine_scale p.

Lemma column_shape k a : In k L -> od_get (p_vals p) k = Some (VArr a) -> shape a = mask (size_of p) [k] L.
Proof.
  intros I G. destruct (In_nth_error _ _ I) as (j & J). destruct (vp_column _ _ V j k J) as (a' & n & A1 & A2 & A3 & A4 & A5).
  assert (a' = a) by congruence. subst a'. rewrite A3.
  assert (Sz : size_of p k = n).
  { unfold size_of, variable. rewrite G. cbn. rewrite A3. destruct j; cbn [repeat app]; rewrite to_list_length; unfold tsize; rewrite A3; apply prod_axis. }
  rewrite <- Sz. pose proof (vp_axes _ _ V) as N. clear -J N. revert j J. unfold mask.
  induction L as [|x l IH]; intros j J; [destruct j; discriminate|].
  inversion N as [|? ? Hx N']; subst. destruct j as [|j]; cbn [nth_error] in J.
  - injection J as ->. cbn [map repeat app length]. rewrite (proj2 (mem_str_iff k [k])) by (left; reflexivity). f_equal.
    rewrite Nat.sub_succ, Nat.sub_0_r. clear -Hx. induction l as [|y l IH]; [reflexivity|]. cbn [map length repeat].
    assert (My : mem_str y [k] = false) by (apply mem_str_false; intros [<-|[]]; apply Hx; left; reflexivity).
    rewrite My. f_equal. apply IH. intros C. apply Hx. right. exact C.
  - cbn [map repeat app length]. rewrite Nat.sub_succ.
    assert (Mx : mem_str x [k] = false) by (apply mem_str_false; intros [<-|[]]; apply Hx; eapply nth_error_In; eauto).
    rewrite Mx. f_equal. apply IH; assumption.
Qed.

(** The product of the probabilities with (a function of) a column. *)
Lemma times_column (t : tensor R) (g : R -> R) k a l : In k L -> od_get (p_vals p) k = Some (VArr a) ->
  variable p k = Some (Col l) -> shape t = map (size_of p) L ->
  exists pv, tbin n_mul t (tmap g a) = Ok pv /\ shape pv = map (size_of p) L /\
    forall b, in_bounds p L b -> get pv (map b L) = (get t (map b L) * g (nth (b k) l 0))%R.
Proof.
  intros I G Vk St. pose proof (column_shape k a I G) as Sa.
  assert (Mt : shape t = mask (size_of p) L L) by (rewrite mask_all; [exact St|apply incl_refl]).
  destruct (@tbin_ok R R R n_mul t (tmap g a) (map (size_of p) L)) as (pv & E & Sp & Gp).
  { cbn [shape tmap]. rewrite Mt, Sa. unfold bcast_shape, pad_shape. rewrite !mask_length, Nat.max_id, Nat.sub_diag. cbn [repeat app].
    rewrite merge_mask. f_equal. apply mask_all. intros x Hx. apply in_or_app. auto. }
  exists pv. split; [exact E|]. split; [exact Sp|]. intros b Bb. rewrite Gp. rn. cbn [shape tmap get].
  rewrite bcast_idx_id by (rewrite St; apply in_range_map; exact Bb). f_equal. f_equal.
  rewrite Sa, bcast_mask by exact Bb.
  unfold variable in Vk. rewrite G in Vk. cbn in Vk. destruct (shape a) eqn:Es; [discriminate|]. injection Vk as <-.
  rewrite <- (ravel_column (size_of p) b k L (vp_axes _ _ V) I). rewrite <- Sa, <- Es, to_list_get; [reflexivity|].
  rewrite Es, Sa. apply midx_in_range. intros x Hx _. apply Bb, Hx.
Qed.

Section Keys.
Variables (keys : list string) (e : option nat).
Hypothesis KM : incl keys (od_keys (p_marg p)).
Hypothesis RA : raisable p keys e.
Hypothesis LR : log_scaled p -> forall b, in_bounds p L b -> (prob_at p L b <= npi)%R.

Definition ks := filter (fun k => mem_str k keys && mem_str k L) (p_keylist p).

Lemma ks_in k : In k ks <-> In k keys /\ In k L.
Proof.
  unfold ks. rewrite filter_In, andb_true_iff, !mem_str_iff. split; [tauto|]. intros [H1 H2]. split; [|auto].
  apply (vp_incl _ _ V), H2.
Qed.
Lemma ks_nodup : NoDup ks. Proof. apply filter_nodup, (vp_keys _ _ V). Qed.
Lemma ks_incl : incl ks L. Proof. intros k K. apply ks_in in K. apply K. Qed.
Lemma ks_restrict : restrict ks L = restrict keys L.
Proof. unfold restrict. apply filter_ext_in. intros k K. apply eq_true_iff_eq. rewrite !mem_str_iff, ks_in. tauto. Qed.
Lemma ks_without : without ks L = without keys L.
Proof. unfold without. apply filter_ext_in. intros k K. f_equal. apply eq_true_iff_eq. rewrite !mem_str_iff, ks_in. tauto. Qed.

Lemma ks_axes : exists kdims,
  map_res (fun k => od_getR (p_dims p) k) (filter (fun k => mem_str k keys) (p_keylist p)) = Ok kdims /\
  fold_left set_addZ (flat_map (fun o => match o with Some d => [d] | None => [] end) kdims) [] = map (fun k => Z.of_nat (pos k L)) ks.
Proof.
  eexists. split.
  - apply (map_res_all _ (fun k => if mem_str k L then Some (Z.of_nat (pos k L)) else None)).
    intros k K. apply filter_In in K. apply (vp_dim p L V), K.
  - assert (E : flat_map (fun o : option Z => match o with Some d => [d] | None => [] end)
       (map (fun k => if mem_str k L then Some (Z.of_nat (pos k L)) else None) (filter (fun k => mem_str k keys) (p_keylist p)))
       = map (fun k => Z.of_nat (pos k L)) ks).
    { unfold ks. clear. induction (p_keylist p) as [|k l IH]; [reflexivity|]. cbn [filter].
      destruct (mem_str k keys); cbn [map flat_map andb filter]; [|exact IH].
      destruct (mem_str k L); cbn [map flat_map app]; rewrite IH; reflexivity. }
    rewrite E. rewrite set_add_all; [reflexivity|]. cbn [app].
    pose proof ks_nodup as N. pose proof ks_incl as I. revert N I. generalize ks as l. clear.
    induction l as [|k l IH]; intros N I; cbn; constructor.
    + intros C. apply in_map_iff in C. destruct C as (k' & E & K'). apply Nat2Z.inj, pos_inj in E.
      * subst. inversion N; contradiction.
      * apply I. right. exact K'.
      * apply I. left. reflexivity.
    + inversion N; subst. apply IH; [assumption|]. intros x Hx. apply I. right. exact Hx.
Qed.

Definition result_of (k : string) (v : value R) (o : option (value R)) : Prop :=
  if mem_str k keys then
    if mem_str k L then
      exists l t, variable p k = Some (Col l) /\ o = Some (VArr t) /\ shape t = map (size_of p) (without keys L) /\
        forall a, in_bounds p (without keys L) a ->
          get t (map a (without keys L)) =
            (sum_over (sized p (restrict keys L)) (fun b => prob_at p L b * raised e (nth (b k) l 0)) a / Rmax npz (weight p L keys a))%R
    else o = Some (raised_scalar e v)
  else if od_mem (p_cond p) k then o = Some v else o = None.

Lemma expect_ok : keys <> [] -> exists vals, expectation p keys e = Ok vals /\
  (forall k v, od_get (p_vals p) k = Some v -> result_of k v (od_get vals k)) /\
  (forall k, ~ In k (p_keylist p) -> od_get vals k = None).
Proof.
  intros NE. destruct ks_axes as (kdims & E1 & E2).
  destruct (vp_prob_get p L V) as (t & Et & Ept & St).
  destruct (to_unit p L V FS t) as (t1 & E3 & S1 & G1).
  destruct (sum_axes_ok p L V t1 ks) as (s & E4 & S4 & G4); [congruence|exact ks_nodup|exact ks_incl|].
  assert (PB : forall b, in_bounds p L b -> get t1 (map b L) = prob_at p L b).
  { intros b Bb. unfold prob_at. rewrite Et. apply G1. intros Lg. specialize (LR Lg b Bb). unfold prob_at in LR. rewrite Et in LR. exact LR. }
  assert (BB : forall a b, in_bounds p (without keys L) a ->
     (forall k n, In (k, n) (sized p (restrict keys L)) -> b k < n) ->
     (forall x, ~ In x (map fst (sized p (restrict keys L))) -> b x = a x) -> in_bounds p L b).
  { intros a b Ba B1 B2 k K. destruct (mem_str k keys) eqn:M.
    - apply B1. unfold sized. apply in_map_iff. exists k. split; [reflexivity|]. apply in_restrict. apply mem_str_iff in M. auto.
    - apply mem_str_false in M. rewrite B2.
      + apply Ba. apply in_without. auto.
      + unfold sized. rewrite map_map. cbn [fst]. rewrite map_id. rewrite in_restrict. tauto. }
  assert (NS : NoDup (map fst (sized p (restrict keys L)))).
  { unfold sized. rewrite map_map. cbn [fst]. rewrite map_id. apply filter_nodup, (vp_axes _ _ V). }
  (* the total to divide by *)
  assert (W : forall a, in_bounds p (without keys L) a -> get s (map a (without keys L)) = weight p L keys a).
  { intros a Ba. rewrite <- ks_without, G4, ks_restrict. unfold weight. apply sum_over_in_range; [exact NS|].
    intros b B1 B2. apply PB. apply (BB a b Ba B1 B2). }
  set (sum_axes := map (fun k => Z.of_nat (pos k L)) ks) in *.
  assert (SPr : exists sp, (match sum_axes with [] => Ok (tscalar (tsum_all t1)) | _ => tsum_axes t1 sum_axes end) = Ok sp /\
                 (ks <> [] -> sp = s)).
  { destruct ks as [|k0 l0] eqn:Ek; unfold sum_axes; cbn [map].
    - eexists. split; [reflexivity|]. intros C. destruct (C eq_refl).
    - exists s. split; [exact E4|auto]. }
  destruct SPr as (sp & E5 & E6).
  set (f := fun vals (it : string * value R * bool) =>
              let '(key, v, sing) := it in
              if mem_str key keys then
                let! val := pow_value v e in
                if (sing : bool) then Ok (od_set vals key val)
                else match val with
                     | VArr a =>
                         let! pv := tbin n_mul t1 a in
                         let! num := tsum_axes pv sum_axes in
                         let! e := div_prob num sp None PSNone in
                         Ok (od_set vals key (VArr e))
                     | _ => Err TypeError
                     end
              else if od_mem (p_cond p) key then Ok (od_set vals key v)
              else Ok vals).
  destruct (@fold_res_ok _ (odict (value R)) f
     (fun pre vals => (forall k v b, In (k, v, b) pre -> result_of k v (od_get vals k)) /\
                      (forall k, ~ In k (names pre) -> od_get vals k = None)) (p_items p) []) as (vals & Ev & Hv & Hn).
  { split; [intros k v b []|reflexivity]. }
  { intros pre [[k v] sg] post vals EI [I1 I2].
    destruct (items_split p L V pre k v sg post EI) as (Gk & Sg & Nk & KL & Kk).
    assert (OLD : forall w k' v' b', In (k', v', b') pre -> od_get (od_set vals k w) k' = od_get vals k').
    { intros w k' v' b' I'. apply od_get_set_ne. intros C. subst k'. apply Nk. unfold names. apply in_map_iff. exists (k, v', b'). auto. }
    assert (STEP : forall vals', (vals' = vals \/ exists w, vals' = od_set vals k w) -> result_of k v (od_get vals' k) ->
       (forall k0 v0 b, In (k0, v0, b) (pre ++ [(k, v, sg)]) -> result_of k0 v0 (od_get vals' k0)) /\
       (forall k0, ~ In k0 (names (pre ++ [(k, v, sg)])) -> od_get vals' k0 = None)).
    { intros vals' HV' HR. split.
      - intros k0 v0 b0 I0. apply in_app_or in I0. destruct I0 as [I0|[I0|[]]].
        + replace (od_get vals' k0) with (od_get vals k0); [apply (I1 _ _ _ I0)|].
          destruct HV' as [->|(w & ->)]; [reflexivity|]. symmetry. eapply OLD. exact I0.
        + injection I0 as <- <- <-. exact HR.
      - intros k0 N0. rewrite names_app in N0. assert (N1 : ~ In k0 (names pre)) by (intros C; apply N0; apply in_or_app; auto).
        assert (N2 : k0 <> k) by (intros C; apply N0; apply in_or_app; right; cbn; auto).
        destruct HV' as [->|(w & ->)]; [apply I2, N1|]. rewrite od_get_set_ne by auto. apply I2, N1. }
    unfold f. cbn beta iota. destruct (mem_str k keys) eqn:Mk.
    - assert (Kin : In k keys) by (apply mem_str_iff; exact Mk).
      destruct (mem_str k L) eqn:ML.
      + (* a column *)
        assert (IL : In k L) by (apply mem_str_iff; exact ML). subst sg. cbn [negb].
        destruct (In_nth_error _ _ IL) as (j & J). destruct (vp_column _ _ V j k J) as (a & n & A1 & A2 & A3 & A4 & A5).
        assert (v = VArr a) by congruence. subst v.
        assert (Vk : variable p k = Some (Col (to_list a))).
        { unfold variable. rewrite Gk. cbn. rewrite A3. destruct j; reflexivity. }
        assert (PW : exists g, pow_value (VArr a) e = Ok (VArr (tmap g a)) /\ forall x, g x = raised e x).
        { unfold pow_value. destruct e as [[|m]|].
          - exists (fun x => x). split; [destruct a; reflexivity|reflexivity].
          - exists (fun x => n_pow x (S m)). split; [reflexivity|]. intros x. apply n_pow_R.
          - exists (fun x => x). split; [destruct a; reflexivity|reflexivity]. }
        destruct PW as (g & W1 & Wg).
        destruct (times_column t1 g k a (to_list a) IL Gk Vk) as (pv & P1 & P2 & P3); [congruence|].
        destruct (sum_axes_ok p L V pv ks) as (num & P4 & P5 & P6); [exact P2|exact ks_nodup|exact ks_incl|].
        assert (Nks : ks <> []) by (intros C; assert (X : In k ks) by (apply ks_in; auto); rewrite C in X; destruct X).
        specialize (E6 Nks). subst sp.
        destruct (div_prob_linear_total num s (map (size_of p) (without keys L))) as (r & R1 & R2 & R3).
        { rewrite P5, S4. rewrite ks_without. apply bcast_same. }
        rewrite W1. cbn [bind]. rewrite P1. cbn [bind].
        fold sum_axes in P4. rewrite P4. cbn [bind]. rewrite R1. cbn [bind]. eexists. split; [reflexivity|].
        apply STEP; [eauto|]. unfold result_of. rewrite Mk, ML. exists (to_list a), r. split; [exact Vk|].
        rewrite od_get_set_eq. split; [reflexivity|]. split; [exact R2|].
        intros b Bb. destruct (R3 (map b (without keys L))) as [R4 _]; [apply in_range_map; exact Bb|]. rewrite R4.
        rewrite !bcast_idx_id by (rewrite ?P5, ?S4, ks_without; apply in_range_map; exact Bb).
        rewrite (W b Bb). f_equal.
        rewrite <- ks_without, P6, ks_restrict. apply sum_over_in_range; [exact NS|].
        intros c C1 C2. pose proof (BB b c Bb C1 C2) as Bc. rewrite (P3 c Bc), (PB c Bc), Wg. reflexivity.
      + subst sg. cbn [negb].
        assert (PW : pow_value v e = Ok (raised_scalar e v)).
        { assert (NL : ~ In k L) by (apply mem_str_false; exact ML).
          pose proof (proj2 (vp_sing p L V k v Gk) NL) as Sv.
          assert (Vs : variable p k = Some (Scal v)).
          { unfold variable. rewrite Gk. destruct v as [| | |a|]; try reflexivity. cbn. destruct (shape a) eqn:Es; [reflexivity|].
            rewrite arr_not_singleton in Sv by (rewrite Es; discriminate). discriminate. }
          destruct (RA k v Kin Vs) as [-> | [-> | (x & ->)]]; [destruct v; reflexivity|destruct v; reflexivity|].
          unfold pow_value, raised_scalar, raised. destruct e as [[|m]|]; [reflexivity| |reflexivity]. rewrite n_pow_R. reflexivity. }
        rewrite PW. cbn [bind]. eexists. split; [reflexivity|]. apply STEP; [eauto|]. unfold result_of. rewrite Mk, ML. apply od_get_set_eq.
    - destruct (od_mem (p_cond p) k) eqn:MC.
      + eexists. split; [reflexivity|]. apply STEP; [eauto|]. unfold result_of. rewrite Mk, MC. apply od_get_set_eq.
      + eexists. split; [reflexivity|]. apply STEP; [auto|]. unfold result_of. rewrite Mk, MC. apply I2, Nk. }
  exists vals. split.
  - unfold expectation. replace (match keys with [] => od_keys (p_marg p) | _ :: _ => keys end) with keys by (destruct keys; [contradiction|reflexivity]).
    assert (KMb : keys_marginal p keys = Ok tt).
    { unfold keys_marginal. replace (forallb (fun k => od_mem (p_marg p) k) keys) with true; [reflexivity|].
      symmetry. apply forallb_forall. intros k K. apply od_mem_iff, KM, K. }
    rewrite KMb. cbn [bind]. rewrite E1. cbn [bind]. rewrite E2. rewrite Ept. cbn [bind]. rewrite E3. cbn [bind].
    fold sum_axes. rewrite E5. cbn [bind]. exact Ev.
  - split.
    + intros k v G. apply (Hv k v (issingleton v)). rewrite (vp_items p L V). apply in_map_iff. exists (k, v). split; [reflexivity|]. apply od_get_in, G.
    + intros k N. apply Hn. rewrite (names_items p L V). exact N.
Qed.
End Keys.
End Expect.
