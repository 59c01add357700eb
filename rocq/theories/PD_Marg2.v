(** Consequences of the correctness of marginalise: totals, composition, marginal. *)
From Coq Require Import String ZArith Reals Lra Bool Arith Lia Permutation List.
From Verif Require Import Base Num Tensor TensorBcast OdLemmas TensorLemmas RNumLemmas PScales
  PScales_Spec PScales_Proofs Names Names_Spec Distr PDModel PD_Spec PD_Make PD_Sums PD_Valid PD_Marg.
Import ListNotations.
Local Open Scope R_scope.

Section Marg2.
Context {F : Fmt R}.

Lemma prob_at_reads p L : reads L (prob_at p L).
Proof.
  intros b b' H. unfold prob_at. destruct (p_prob p); auto. f_equal. f_equal. apply map_ext_in. auto.
Qed.

Lemma prob_at_ext p L : extensional (prob_at p L).
Proof. eapply reads_extensional, prob_at_reads. Qed.

Lemma size_of_same p q k : variable q k = variable p k -> size_of q k = size_of p k.
Proof. unfold size_of. intros ->. auto. Qed.

Lemma sized_same p q ks :
  (forall k, In k ks -> variable q k = variable p k) -> sized q ks = sized p ks.
Proof.
  intros H. unfold sized. apply map_ext_in. intros k Hk. f_equal. apply size_of_same; auto.
Qed.

Lemma in_bounds_same p q ks a :
  (forall k, In k ks -> variable q k = variable p k) -> (in_bounds q ks a <-> in_bounds p ks a).
Proof.
  intros H. unfold in_bounds. split; intros B k Hk; specialize (B k Hk).
  - rewrite <- (size_of_same p q k); auto.
  - rewrite (size_of_same p q k); auto.
Qed.

Lemma sized_keys p ks : map fst (sized p ks) = ks.
Proof. unfold sized. rewrite map_map. cbn. apply map_id. Qed.

Lemma sized_app p ks ks' : sized p (ks ++ ks') = sized p ks ++ sized p ks'.
Proof. unfold sized. apply map_app. Qed.

Lemma restrict_without_perm ks l : NoDup l -> Permutation (without ks l ++ restrict ks l) l.
Proof.
  intros N. apply NoDup_Permutation; auto.
  - apply nodup_app_iff. split; [apply filter_nodup; auto|]. split; [apply filter_nodup; auto|].
    intros x H1 H2. apply in_without in H1. apply in_restrict in H2. tauto.
  - intros x. rewrite in_app_iff, in_without, in_restrict.
    destruct (in_dec string_dec x ks); tauto.
Qed.

Lemma log_scaled_same p q : p_pscale q = p_pscale p -> (log_scaled q <-> log_scaled p).
Proof. unfold log_scaled. intros ->. tauto. Qed.

Lemma fine_scale_same p q : p_pscale q = p_pscale p -> fine_scale p -> fine_scale q.
Proof. unfold fine_scale. intros ->. tauto. Qed.

(** Total probability. *)
Lemma marginalise_total p L keys :
  valid_pd p L -> fine_scale p -> key_ordered p L ->
  incl keys (od_keys (p_marg p)) -> incl keys L -> without keys (p_keylist p) <> [] ->
  (log_scaled p -> (forall b, in_bounds p L b -> prob_at p L b <= npi) /\
     forall a, in_bounds p (without keys L) a ->
       npz <= sum_over (sized p (restrict keys L)) (prob_at p L) a) ->
  exists q, marginalise p keys = Ok q /\
    forall a, sum_over (sized q (without keys L)) (prob_at q (without keys L)) a =
              sum_over (sized p L) (prob_at p L) a.
Proof.
  intros V FS KO IM IK NE LG.
  destruct (marginalise_ok p L V FS keys IM IK (key_ordered_aligned p L keys KO IK) NE) as
    (q & E & Vq & Kq & Mq & Cq & Sq & Vr & Pq).
  exists q. split; auto. intros a.
  assert (SV : forall k, In k (without keys L) -> variable q k = variable p k).
  { intros k Hk. apply Vr. rewrite Kq. apply in_without in Hk. apply in_without. split; [|tauto].
    apply (vp_incl _ _ V). tauto. }
  rewrite (sized_same p q) by auto.
  transitivity (sum_over (sized p (without keys L ++ restrict keys L)) (prob_at p L) a).
  - rewrite sized_app, sum_over_app. apply sum_over_in_range.
    + rewrite sized_keys. apply filter_nodup, (vp_axes _ _ V).
    + intros b Hb _.
      assert (Bb : in_bounds p (without keys L) b).
      { intros k Hk. apply Hb. unfold sized. apply in_map_iff. eauto. }
      apply Pq; auto. intros Lk. destruct (LG Lk) as [L1 L2]. auto.
  - apply sum_over_perm.
    + apply prob_at_ext.
    + rewrite sized_keys. eapply Permutation_NoDup; [apply Permutation_sym, restrict_without_perm|];
      apply (vp_axes _ _ V).
    + unfold sized. apply Permutation_map, restrict_without_perm, (vp_axes _ _ V).
Qed.

Lemma without_app k1 k2 l : without (k1 ++ k2) l = without k2 (without k1 l).
Proof.
  unfold without. rewrite filter_filter. apply filter_ext. intros x.
  unfold mem_str. rewrite existsb_app, negb_orb, andb_comm. auto.
Qed.

Lemma marginalise_compose p L k1 k2 :
  valid_pd p L -> fine_scale p -> key_ordered p L ->
  incl (k1 ++ k2) (od_keys (p_marg p)) -> incl (k1 ++ k2) L ->
  (forall k, In k k1 -> ~ In k k2) ->
  without (k1 ++ k2) (p_keylist p) <> [] ->
  (log_scaled p -> (forall b, in_bounds p L b -> prob_at p L b <= npi) /\
     (forall a, in_bounds p L a ->
        npz <= sum_over (sized p (restrict k1 L)) (prob_at p L) a <= npi) /\
     (forall a, in_bounds p L a ->
        npz <= sum_over (sized p (restrict (k1 ++ k2) L)) (prob_at p L) a)) ->
  exists q1 q2 q, marginalise p k1 = Ok q1 /\ marginalise q1 k2 = Ok q2 /\
    marginalise p (k1 ++ k2) = Ok q /\ same_pd q q2 (without (k1 ++ k2) L).
Proof.
  intros V FS KO IM IK DJ NE LG.
  assert (IM1 : incl k1 (od_keys (p_marg p))) by (intros x Hx; apply IM, in_or_app; auto).
  assert (IM2 : incl k2 (od_keys (p_marg p))) by (intros x Hx; apply IM, in_or_app; auto).
  assert (IK1 : incl k1 L) by (intros x Hx; apply IK, in_or_app; auto).
  assert (IK2 : incl k2 L) by (intros x Hx; apply IK, in_or_app; auto).
  assert (NE1 : without k1 (p_keylist p) <> []).
  { intros C. apply NE. rewrite without_app, C. auto. }
  destruct (marginalise_ok p L V FS k1 IM1 IK1 (key_ordered_aligned p L k1 KO IK1) NE1) as
    (q1 & E1 & V1 & Kq1 & Mq1 & Cq1 & Sq1 & Vr1 & Pq1).
  destruct (marginalise_ok p L V FS (k1 ++ k2) IM IK (key_ordered_aligned p L _ KO IK) NE) as
    (q & E & Vq & Kq & Mq & Cq & Sq & Vr & Pq).
  assert (KO1 : key_ordered q1 (without k1 L)) by (eapply key_ordered_without; eauto).
  assert (IK12 : incl k2 (without k1 L)).
  { intros k Hk. apply in_without. split; auto. intros C. exact (DJ k C Hk). }
  assert (IM12 : incl k2 (od_keys (p_marg q1))).
  { intros k Hk. rewrite Mq1, (od_keys_filter (fun x => negb (mem_str x k1))). apply filter_In.
    split; auto. apply negb_true_iff, mem_str_false. intros C. exact (DJ k C Hk). }
  assert (NE2 : without k2 (p_keylist q1) <> []) by (rewrite Kq1, <- without_app; auto).
  destruct (marginalise_ok q1 (without k1 L) V1 (fine_scale_same p q1 Sq1 FS) k2 IM12 IK12
     (key_ordered_aligned q1 _ k2 KO1 IK12) NE2) as
    (q2 & E2 & V2 & Kq2 & Mq2 & Cq2 & Sq2 & Vr2 & Pq2).
  exists q1, q2, q. do 3 (split; [assumption|]).
  assert (SV1 : forall k, In k (without k1 L) -> variable q1 k = variable p k).
  { intros k Hk. apply Vr1. rewrite Kq1. apply in_without in Hk. apply in_without. split; [|tauto].
    apply (vp_incl _ _ V). tauto. }
  assert (SVq : forall k, In k (without (k1 ++ k2) L) -> variable q k = variable p k).
  { intros k Hk. apply Vr. rewrite Kq. apply in_without in Hk. apply in_without. split; [|tauto].
    apply (vp_incl _ _ V). tauto. }
  assert (KK : p_keylist q2 = p_keylist q) by (rewrite Kq2, Kq1, Kq, without_app; auto).
  split; auto. split.
  { rewrite Mq2, Mq1, Mq, filter_filter. apply filter_ext. intros [k e]. cbn.
    unfold mem_str. rewrite existsb_app, negb_orb, andb_comm. auto. }
  split; [congruence|]. split; [congruence|]. split.
  { intros k Hk. rewrite Vr2 by congruence. rewrite Vr by auto. apply Vr1.
    rewrite Kq, without_app in Hk. rewrite Kq1. apply in_without in Hk. tauto. }
  intros a Ba. apply (in_bounds_same p q) in Ba; auto.
  (* extend the assignment within bounds *)
  set (a0 := fun k => if mem_str k (k1 ++ k2) then 0%nat else a k).
  assert (B0 : in_bounds p L a0).
  { intros k Hk. unfold a0. destruct (mem_str k (k1 ++ k2)) eqn:M.
    - destruct (vp_axis p L V k Hk) as (_ & _ & _ & _ & H & _). exact H.
    - apply Ba. apply in_without. apply mem_str_false in M. auto. }
  assert (SB : forall ks, incl ks (k1 ++ k2) -> forall b, in_bounds p (without ks L) b ->
     exists b', in_bounds p L b' /\ sum_over (sized p (restrict ks L)) (prob_at p L) b =
                                     sum_over (sized p (restrict ks L)) (prob_at p L) b').
  { intros ks Iks b Bb. exists (fun k => if mem_str k ks then 0%nat else b k). split.
    - intros k Hk. destruct (mem_str k ks) eqn:M.
      + destruct (vp_axis p L V k Hk) as (_ & _ & _ & _ & H & _). exact H.
      + apply Bb. apply in_without. apply mem_str_false in M. auto.
    - apply (sum_over_reads _ L _ (prob_at_reads p L)). intros x Hx. apply filter_In in Hx.
      destruct Hx as [Hx1 Hx2]. rewrite sized_keys in Hx2.
      destruct (mem_str x ks) eqn:M; auto. apply negb_true_iff, mem_str_false in Hx2.
      exfalso. apply Hx2. apply in_restrict. apply mem_str_iff in M. auto. }
  assert (P1 : forall b, in_bounds p (without k1 L) b ->
     prob_at q1 (without k1 L) b = sum_over (sized p (restrict k1 L)) (prob_at p L) b).
  { intros b Bb. apply Pq1; auto. intros Lk. destruct (LG Lk) as (L1 & L2 & _). split; auto.
    destruct (SB k1 (incl_appl _ (incl_refl _)) b Bb) as (b' & Bb' & Eb). rewrite Eb. apply L2; auto. }
  assert (R12 : restrict k2 (without k1 L) = restrict k2 L).
  { unfold restrict, without. rewrite filter_filter. apply filter_ext_in. intros x Hx.
    destruct (mem_str x k2) eqn:M; auto. cbn. apply negb_true_iff, mem_str_false.
    intros C. apply mem_str_iff in M. exact (DJ x C M). }
  assert (S12 : sum_over (sized q1 (restrict k2 (without k1 L))) (prob_at q1 (without k1 L)) a =
                sum_over (sized p (restrict (k1 ++ k2) L)) (prob_at p L) a).
  { rewrite (sized_same p q1) by (intros k Hk; apply SV1; apply in_restrict in Hk; tauto).
    rewrite R12.
    transitivity (sum_over (sized p (restrict k2 L ++ restrict k1 L)) (prob_at p L) a).
    - rewrite sized_app, sum_over_app. apply sum_over_in_range.
      + rewrite sized_keys. apply filter_nodup, (vp_axes _ _ V).
      + intros b Hb Hx. apply P1. intros k Hk. apply in_without in Hk.
        destruct (in_dec string_dec k k2) as [H2|H2].
        * apply Hb. unfold sized. apply in_map_iff. exists k. split; auto. apply in_restrict. tauto.
        * rewrite Hx. { apply Ba. apply in_without. rewrite in_app_iff. tauto. }
          rewrite sized_keys, in_restrict. tauto.
    - assert (PP : Permutation (restrict k2 L ++ restrict k1 L) (restrict (k1 ++ k2) L)).
      { apply NoDup_Permutation.
        - apply nodup_app_iff. split; [apply filter_nodup, (vp_axes _ _ V)|].
          split; [apply filter_nodup, (vp_axes _ _ V)|].
          intros x H1 H2. apply in_restrict in H1. apply in_restrict in H2. apply (DJ x); tauto.
        - apply filter_nodup, (vp_axes _ _ V).
        - intros x. rewrite in_app_iff, !in_restrict, in_app_iff. tauto. }
      apply sum_over_perm.
      + apply prob_at_ext.
      + rewrite sized_keys. eapply Permutation_NoDup; [apply Permutation_sym; exact PP|].
        apply filter_nodup, (vp_axes _ _ V).
      + unfold sized. apply Permutation_map. exact PP. }
  rewrite without_app. rewrite without_app in Pq, Ba.
  assert (B12 : in_bounds q1 (without k2 (without k1 L)) a).
  { apply (in_bounds_same p q1); auto. intros k Hk. apply SV1. apply in_without in Hk. tauto. }
  rewrite Pq2; auto.
  - rewrite Pq; auto. intros Lk. destruct (LG Lk) as (L1 & L2 & L3). split; auto.
    destruct (SB (k1 ++ k2) (incl_refl _) a) as (a' & Ba' & Ea). { rewrite without_app. auto. }
    rewrite Ea. auto.
  - intros Lk. apply (log_scaled_same p q1 Sq1) in Lk. destruct (LG Lk) as (L1 & L2 & L3). split.
    + intros b Bb. apply (in_bounds_same p q1) in Bb; auto. rewrite P1 by auto.
      destruct (SB k1 (incl_appl _ (incl_refl _)) b Bb) as (b' & Bb' & Eb). rewrite Eb. apply L2; auto.
    + rewrite S12. destruct (SB (k1 ++ k2) (incl_refl _) a) as (a' & Ba' & Ea).
      { rewrite without_app. auto. }
      rewrite Ea. auto.
Qed.

(** marginal(keys): everything else is summed out. *)
Lemma marginal_is_marginalise p L keys :
  valid_pd p L -> incl keys (od_keys (p_marg p)) ->
  (forall k, In k (od_keys (p_marg p)) -> ~ In k L -> In k keys) ->
  marginal p keys =
  marginalise p (filter (fun k => mem_str k (od_keys (p_marg p)) && mem_str k L && negb (mem_str k keys))
                        (p_keylist p)).
Proof.
  intros V IM SC. unfold marginal, keys_marginal.
  assert (KM : forallb (fun k => od_mem (p_marg p) k) keys = true).
  { apply forallb_forall. intros k Hk. apply od_mem_iff. auto. }
  rewrite KM. cbn [assert_ bind].
  assert (Kk : forall k, In k keys -> In k (p_keylist p)) by (intros k Hk; apply (vp_key_iff p L V); auto).
  set (dm := fun k => if mem_str k L then Some (Z.of_nat (pos k L)) else None).
  rewrite (map_res_all _ dm) by (intros k Hk; apply (vp_dim p L V); auto). cbn [bind].
  set (dims := flat_map _ _).
  assert (Hd : forall d, Zmem d dims = true <-> exists k, In k keys /\ In k L /\ d = Z.of_nat (pos k L)).
  { intros d. unfold Zmem. rewrite existsb_exists. split.
    - intros (x & Hx & Ex). apply Z.eqb_eq in Ex. subst x. apply in_flat_map in Hx.
      destruct Hx as (o & Ho & Hx). apply in_map_iff in Ho. destruct Ho as (k & Eo & Hk).
      unfold dm in Eo. destruct (mem_str k L) eqn:M; subst o; [|destruct Hx].
      destruct Hx as [<-|[]]. exists k. apply mem_str_iff in M. auto.
    - intros (k & Hk & HL & ->). exists (Z.of_nat (pos k L)). split; [|apply Z.eqb_refl].
      apply in_flat_map. exists (Some (Z.of_nat (pos k L))). split; [|cbn; auto].
      apply in_map_iff. exists k. split; auto. unfold dm. apply mem_str_iff in HL. rewrite HL. auto. }
  rewrite (map_res_all _ (fun _ => tt)).
  2:{ intros k Hk. rewrite (vp_dim p L V k Hk). cbn [bind]. destruct (mem_str k L) eqn:M; auto.
      destruct (mem_str k keys) eqn:Mk; [rewrite orb_true_r; auto|]. rewrite orb_false_r.
      destruct (Zmem (Z.of_nat (pos k L)) dims) eqn:Zd; auto. exfalso.
      apply Hd in Zd. destruct Zd as (k' & Hk' & HL' & E). apply Nat2Z.inj in E.
      apply mem_str_iff in M. apply pos_inj in E; auto. subst k'. apply mem_str_iff in Hk'. congruence. }
  cbn [bind].
  assert (SS : subset_str (map (fun it => fst (fst it)) (filter (fun it => snd it)
       (filter (fun it => od_mem (p_marg p) (fst (fst it))) (p_items p)))) keys = true).
  { apply subset_str_iff. intros k Hk. apply in_map_iff in Hk. destruct Hk as ([[k0 v] s] & <- & Hin).
    apply filter_In in Hin. destruct Hin as [Hin Hs]. apply filter_In in Hin. destruct Hin as [Hin Hm].
    cbn in *. subst s. destruct (vp_in_items p L V _ _ _ Hin) as (G & Sg & Kk0).
    apply SC; [apply od_mem_iff; auto|]. symmetry in Sg. apply negb_true_iff, mem_str_false in Sg. auto. }
  rewrite SS, orb_true_r. cbn [assert_ bind]. f_equal.
  rewrite filter_filter. rewrite <- (names_items p L V). unfold names.
  assert (FM : forall (f : string -> bool) (g : string * value R * bool -> bool) l,
     (forall x, In x l -> f (fst (fst x)) = g x) ->
     map (fun it => fst (fst it)) (filter g l) = filter f (map (fun x => fst (fst x)) l)).
  { intros f g l. induction l as [|x l IH]; cbn; auto. intros H. rewrite (H x) by auto.
    destruct (g x); cbn; rewrite IH; auto. }
  apply FM. intros [[k v] s] Hin. destruct (vp_in_items p L V _ _ _ Hin) as (G & -> & Kk0). cbn.
  rewrite negb_involutive.
  assert (Em : mem_str k (od_keys (p_marg p)) = od_mem (p_marg p) k).
  { apply eq_true_iff_eq. rewrite mem_str_iff, od_mem_iff. tauto. }
  rewrite Em. destruct (od_mem (p_marg p) k), (mem_str k L), (mem_str k keys); auto.
Qed.

End Marg2.
