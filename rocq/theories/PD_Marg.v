(** marginalise and marginal. *)
From Coq Require Import String ZArith Reals Lra Bool Arith Lia Permutation List.
From Verif Require Import Base Num Tensor TensorBcast OdLemmas TensorLemmas RNumLemmas PScales
  PScales_Spec PScales_Proofs Names Names_Spec Distr PDModel PD_Spec PD_Make PD_Sums PD_Valid.
Import ListNotations.

(** *** lists of names *)

Lemma before_app k l m : ~ In k l -> before k (l ++ k :: m) = l.
Proof.
  induction l as [|x l IH]; cbn; intros H.
  - rewrite String.eqb_refl. auto.
  - destruct (String.eqb_spec x k); [exfalso; auto|]. rewrite IH; auto.
Qed.

Lemma before_pos k l : In k l -> length (before k l) = pos k l.
Proof.
  induction l as [|x l IH]; cbn; [tauto|]. intros H. destruct (String.eqb_spec x k); cbn; auto.
  rewrite IH; auto. destruct H; congruence || auto.
Qed.

Lemma before_filter f k l : f k = true -> before k (filter f l) = filter f (before k l).
Proof.
  intros Hf. induction l as [|x l IH]; cbn; auto. destruct (String.eqb_spec x k).
  - subst. rewrite Hf. cbn. rewrite String.eqb_refl. auto.
  - destruct (f x) eqn:E; cbn; rewrite ?E.
    + destruct (String.eqb_spec x k); [contradiction|]. congruence.
    + auto.
Qed.

Lemma filter_filter {A} (f g : A -> bool) l : filter f (filter g l) = filter (fun x => f x && g x) l.
Proof.
  induction l as [|x l IH]; cbn; auto. destruct (g x) eqn:E; cbn; rewrite IH.
  - rewrite andb_true_r. auto.
  - rewrite andb_false_r. auto.
Qed.

Lemma filter_length_split {A} (f : A -> bool) l :
  length (filter f l) + length (filter (fun x => negb (f x)) l) = length l.
Proof. induction l; cbn; auto. destruct (f a); cbn; lia. Qed.

Lemma pos_without k ks l : In k l -> ~ In k ks ->
  pos k (without ks l) = pos k l - length (restrict ks (before k l)).
Proof.
  intros Hk Hn. assert (Hf : negb (mem_str k ks) = true) by (apply negb_true_iff, mem_str_false; auto).
  rewrite <- (before_pos k l Hk).
  rewrite <- (before_pos k (without ks l)) by (apply filter_In; auto).
  unfold without. rewrite before_filter by auto.
  rewrite <- (filter_length_split (fun x => mem_str x ks) (before k l)). unfold restrict.
  lia.
Qed.

Lemma in_without k ks l : In k (without ks l) <-> In k l /\ ~ In k ks.
Proof. unfold without. rewrite filter_In, negb_true_iff, mem_str_false. tauto. Qed.

Lemma in_restrict k ks l : In k (restrict ks l) <-> In k l /\ In k ks.
Proof. unfold restrict. rewrite filter_In, mem_str_iff. tauto. Qed.

Lemma restrict_before_le ks k l : In k l -> ~ In k ks ->
  length (restrict ks (before k l)) <= pos k l.
Proof.
  intros Hk _. rewrite <- before_pos by auto. unfold restrict. clear.
  induction (before k l); cbn; auto. destruct (mem_str a ks); cbn; lia.
Qed.

(** *** scales *)

Section Scale.
Context {F : Fmt R}.

Lemma one_ps_eq : (one_ps : pspec R) = PSFloat 1%R.
Proof. reflexivity. Qed.

Lemma factor_one : factor (PSFloat 1%R) = 1%R.
Proof. unfold factor. destruct (Req_EM_T 1 0); lra. Qed.

Lemma log_kind_one : log_kind (PSFloat 1%R) = false.
Proof. cbn. destruct (Req_EM_T 1 0); auto. lra. Qed.

Lemma denote_one (v : R) : denote (PSFloat 1%R) v = v.
Proof. unfold denote. rewrite factor_one, log_kind_one. lra. Qed.

Lemma vp_not_unit_log p L : valid_pd p L -> ~ unit_log (spec_of (p_pscale p)).
Proof.
  intros V E. pose proof (vp_pscale _ _ V) as H. destruct (p_pscale p) as [c|re im]; [discriminate E|].
  unfold unit_log in E. cbn [spec_of] in E. inversion E; subst.
  cbn [spec_of eval_pscale] in H.
  assert (E1 : n_eqb 1%R n1 && n_eqb 0%R n0 = true).
  { apply andb_true_iff. split; apply Reqb_iff; reflexivity. }
  rewrite E1 in H. discriminate.
Qed.

Lemma in_range_map p l a : in_range (map (size_of p) l) (map a l) <-> in_bounds p l a.
Proof.
  unfold in_range, in_bounds. split.
  - intros H k Hk. induction l as [|x l IH]; [destruct Hk|]. cbn in H. inversion H; subst.
    destruct Hk as [->|Hk]; auto.
  - induction l as [|x l IH]; cbn; intros H; constructor; auto.
Qed.

Variable p : pd R.
Variable L : list string.
Hypothesis V : valid_pd p L.
Hypothesis FS : fine_scale p.

Lemma gap_one : no_tiny_gap (spec_of (p_pscale p)) (PSFloat 1%R).
Proof. destruct FS as [_ G]. unfold no_tiny_gap in *. rewrite factor_one. exact G. Qed.

Lemma gap_one' : no_tiny_gap (PSFloat 1%R) (spec_of (p_pscale p)).
Proof.
  pose proof gap_one as [G|G]; [left; auto|right]. rewrite Rabs_minus_sym. auto.
Qed.

Lemma valid_one : valid_scale (PSFloat 1%R).
Proof. split; cbn; auto. lra. Qed.

Lemma not_unit_one : ~ unit_log (PSFloat 1%R).
Proof. discriminate. Qed.

Lemma to_unit t : exists t1, rescale t (spec_of (p_pscale p)) one_ps = Ok t1 /\ shape t1 = shape t /\
  forall idx, (log_scaled p -> denote (spec_of (p_pscale p)) (get t idx) <= npi)%R ->
    get t1 idx = denote (spec_of (p_pscale p)) (get t idx).
Proof.
  destruct (rescale_preserves t (spec_of (p_pscale p)) (PSFloat 1%R)) as (t1 & E & S & H).
  - apply FS.
  - apply valid_one.
  - eapply vp_not_unit_log; eauto.
  - apply not_unit_one.
  - apply gap_one.
  - exists t1. split; [exact E|]. split; auto. intros idx B.
    rewrite <- (denote_one (get t1 idx)). apply H.
    + rewrite log_kind_one. congruence.
    + intros Lk _. rewrite factor_one. unfold Rdiv. rewrite Rinv_1, Rmult_1_r. apply B. exact Lk.
Qed.

Lemma from_unit t : exists t1, rescale t one_ps (spec_of (p_pscale p)) = Ok t1 /\ shape t1 = shape t /\
  forall idx, (log_scaled p -> npz <= get t idx)%R ->
    denote (spec_of (p_pscale p)) (get t1 idx) = get t idx.
Proof.
  destruct (rescale_preserves t (PSFloat 1%R) (spec_of (p_pscale p))) as (t1 & E & S & H).
  - apply valid_one.
  - apply FS.
  - apply not_unit_one.
  - eapply vp_not_unit_log; eauto.
  - apply gap_one'.
  - exists t1. split; [exact E|]. split; auto. intros idx B.
    rewrite <- (denote_one (get t idx)). apply H.
    + intros _ Lk. apply B. exact Lk.
    + rewrite log_kind_one. congruence.
Qed.

(** *** sums over named axes *)

Lemma norm_axes_pos ks : NoDup ks -> incl ks L ->
  norm_axes (length L) (map (fun k => Z.of_nat (pos k L)) ks) = Ok (map (fun k => pos k L) ks).
Proof.
  intros N I. rewrite <- (map_map (fun k => pos k L) Z.of_nat). apply norm_axes_nat.
  - induction N as [|k ks H N IH]; cbn; constructor.
    + intros C. apply in_map_iff in C. destruct C as (k' & E & Hk').
      apply pos_inj in E; [subst; auto| |]; apply I; cbn; auto.
    + apply IH. intros x Hx. apply I. cbn. auto.
  - intros x Hx. apply in_map_iff in Hx. destruct Hx as (k & <- & Hk). apply pos_lt. auto.
Qed.

Lemma mem_restrict ks k : In k L -> mem_str k (restrict ks L) = mem_str k ks.
Proof.
  intros H. apply eq_true_iff_eq. rewrite !mem_str_iff, in_restrict. tauto.
Qed.

Lemma without_restrict ks : without (restrict ks L) L = without ks L.
Proof.
  unfold without. apply filter_ext_in. intros k Hk. rewrite mem_restrict; auto.
Qed.

(** Summing over the axes of ks (in any order). *)
Lemma sum_axes_ok (t : tensor R) ks :
  shape t = map (size_of p) L -> NoDup ks -> incl ks L ->
  exists s, tsum_axes t (map (fun k => Z.of_nat (pos k L)) ks) = Ok s /\
    shape s = map (size_of p) (without ks L) /\
    forall a, get s (map a (without ks L)) =
              sum_over (sized p (restrict ks L)) (fun b => get t (map b L)) a.
Proof.
  intros S N I. unfold tsum_axes, reduce. unfold ndim. rewrite S, map_length.
  rewrite norm_axes_pos by auto. cbn [bind]. rewrite mask_of_pos; auto; [|apply (vp_axes _ _ V)].
  eexists. split; [reflexivity|]. cbn [shape get]. split.
  - rewrite unmasked_map. reflexivity.
  - intros a. change n_add with Rplus. change (n0 : R) with 0%R.
    assert (U : without ks L = unmasked (map (fun k => mem_str k ks) L) L).
    { rewrite <- (map_id L) at 3. rewrite unmasked_map, map_id. reflexivity. }
    rewrite U. rewrite reduce_at_sum.
    + assert (C : combine L (map (size_of p) L) = map (fun k => (k, size_of p k)) L).
      { clear. induction L; cbn; congruence. }
      rewrite C, masked_map. reflexivity.
    + apply (vp_axes _ _ V).
    + rewrite map_length. auto.
    + rewrite map_length. auto.
Qed.

Lemma prod_axes_ok (t : tensor R) ks :
  shape t = map (size_of p) L -> NoDup ks -> incl ks L ->
  exists s, reduce n_mul n1 t (map (fun k => Z.of_nat (pos k L)) ks) = Ok s /\
    shape s = map (size_of p) (without ks L) /\
    forall a, get s (map a (without ks L)) =
              prod_over (sized p (restrict ks L)) (fun b => get t (map b L)) a.
Proof.
  intros S N I. unfold reduce. unfold ndim. rewrite S, map_length.
  rewrite norm_axes_pos by auto. cbn [bind]. rewrite mask_of_pos; auto; [|apply (vp_axes _ _ V)].
  eexists. split; [reflexivity|]. cbn [shape get]. split.
  - rewrite unmasked_map. reflexivity.
  - intros a. change n_mul with Rmult. change (n1 : R) with 1%R.
    assert (U : without ks L = unmasked (map (fun k => mem_str k ks) L) L).
    { rewrite <- (map_id L) at 3. rewrite unmasked_map, map_id. reflexivity. }
    rewrite U. rewrite reduce_at_prod.
    + assert (C : combine L (map (size_of p) L) = map (fun k => (k, size_of p k)) L).
      { clear. induction L; cbn; congruence. }
      rewrite C, masked_map. reflexivity.
    + apply (vp_axes _ _ V).
    + rewrite map_length. auto.
    + rewrite map_length. auto.
Qed.

(** *** the loop of marginalise *)

Definition names {A B} (pre : list (string * A * B)) : list string := map (fun x => fst (fst x)) pre.

Lemma names_items : names (p_items p) = p_keylist p.
Proof.
  unfold names. rewrite (vp_items p L V), map_map. reflexivity.
Qed.

Lemma items_split pre k v s post : p_items p = pre ++ (k, v, s) :: post ->
  od_get (p_vals p) k = Some v /\ s = negb (mem_str k L) /\ ~ In k (names pre) /\
  p_keylist p = names pre ++ k :: names post /\ In k (p_keylist p).
Proof.
  intros E. assert (Hin : In (k, v, s) (p_items p)) by (rewrite E; apply in_or_app; cbn; auto).
  destruct (vp_in_items p L V k v s Hin) as (G & Sg & Kk).
  assert (KL : p_keylist p = names pre ++ k :: names post).
  { rewrite <- names_items, E. unfold names. rewrite map_app. reflexivity. }
  repeat split; auto. pose proof (vp_keys _ _ V) as ND. rewrite KL in ND.
  apply NoDup_remove_2 in ND. rewrite in_app_iff in ND. tauto.
Qed.

Lemma names_app {A B} (l m : list (string * A * B)) : names (l ++ m) = names l ++ names m.
Proof. unfold names. apply map_app. Qed.

(** Dimension after the removal of the axes counted in key order. *)
Definition shifted (keys : list string) (k : string) : option Z :=
  Some (Z.of_nat (pos k L) - Z.of_nat (length (restrict keys (before k (p_keylist p)))))%Z.

Definition kept_axes (keys ks : list string) : list string :=
  filter (fun k => mem_str k L && negb (mem_str k keys)) ks.

Lemma od_del_remaining {A} (m : odict A) ks k :
  NoDup (od_keys m) ->
  od_del (filter (fun kv => negb (mem_str (fst kv) ks)) m) k =
  filter (fun kv => negb (mem_str (fst kv) (ks ++ [k]))) m.
Proof.
  intros N. rewrite od_del_filter.
  - rewrite filter_filter. apply filter_ext. intros [k' e]. cbn.
    unfold mem_str. rewrite existsb_app. cbn. rewrite orb_false_r, negb_orb, andb_comm. auto.
  - rewrite (od_keys_filter (fun x => negb (mem_str x ks))). apply filter_nodup. auto.
Qed.

Lemma marginalise_loop keys : incl keys L ->
  exists st, fold_res (marginalise_step p keys) (p_items p) (mkMS (p_marg p) [] [] 0%Z []) = Ok st /\
    m_marg st = filter (fun kv => negb (mem_str (fst kv) keys)) (p_marg p) /\
    m_vals st = filter (fun kv => negb (mem_str (fst kv) keys)) (p_vals p) /\
    m_axes st = map (fun k => Z.of_nat (pos k L)) (restrict keys (p_keylist p)) /\
    m_dims st = map (fun k => (k, shifted keys k)) (kept_axes keys (p_keylist p)).
Proof.
  intros IK.
  destruct (@fold_res_ok _ _ (marginalise_step p keys) (fun pre st =>
    m_marg st = filter (fun kv => negb (mem_str (fst kv) (restrict keys (names pre)))) (p_marg p) /\
    m_vals st = filter (fun kv => negb (mem_str (fst kv) keys)) (map fst pre) /\
    m_delta st = Z.of_nat (length (restrict keys (names pre))) /\
    m_axes st = map (fun k => Z.of_nat (pos k L)) (restrict keys (names pre)) /\
    m_dims st = map (fun k => (k, shifted keys k)) (kept_axes keys (names pre)))
    (p_items p) (mkMS (p_marg p) [] [] 0%Z [])) as (st & E & Hm & Hv & Hd & Ha & Hdi).
  { cbn. repeat split; auto. clear. induction (p_marg p); cbn; congruence. }
  { intros pre [[k v] s] post st E (Hm & Hv & Hd & Ha & Hdi).
    destruct (items_split _ _ _ _ _ E) as (G & -> & Kpre & KL & Kk).
    assert (Kr : forall ks, ~ In k (restrict ks (names pre))) by (intros ks C; apply in_restrict in C; tauto).
    unfold marginalise_step. destruct (mem_str k keys) eqn:Mk.
    - assert (KLk : In k L) by (apply IK, mem_str_iff; auto).
      rewrite (proj2 (mem_str_iff k L) KLk). cbn [negb assert_ bind].
      rewrite (vp_dim p L V k Kk), (proj2 (mem_str_iff k L) KLk). cbn [bind].
      eexists. split; [reflexivity|]. cbn [m_marg m_vals m_dims m_delta m_axes].
      assert (R1 : restrict keys (names (pre ++ [(k, v, false)])) = restrict keys (names pre) ++ [k]).
      { rewrite names_app. unfold restrict. rewrite filter_app. cbn. rewrite Mk. auto. }
      rewrite R1. repeat split.
      + rewrite Hm. apply od_del_remaining. apply (vp_marg_cond p L V).
      + rewrite Hv, map_app, filter_app. cbn. rewrite Mk. cbn. rewrite app_nil_r. auto.
      + rewrite Hd, app_length. cbn. lia.
      + rewrite Ha. unfold set_addZ. assert (Zm : Zmem (Z.of_nat (pos k L)) (map (fun k0 => Z.of_nat (pos k0 L)) (restrict keys (names pre))) = false).
        { apply not_true_is_false. intros C. unfold Zmem in C. apply existsb_exists in C.
          destruct C as (x & Hx & Ex). apply Z.eqb_eq in Ex. subst x. apply in_map_iff in Hx.
          destruct Hx as (k' & Ek' & Hk'). apply Nat2Z.inj in Ek'.
          apply in_restrict in Hk'. destruct Hk' as [Hk1 Hk2].
          apply pos_inj in Ek'; auto. subst. auto. }
        rewrite Zm, map_app. auto.
      + rewrite Hdi. f_equal. rewrite names_app. unfold kept_axes. rewrite filter_app. cbn.
        rewrite Mk. rewrite andb_false_r, app_nil_r. auto.
    - assert (R1 : forall s, restrict keys (names (pre ++ [(k, v, s)])) = restrict keys (names pre)).
      { intros s. rewrite names_app. unfold restrict. rewrite filter_app. cbn. rewrite Mk, app_nil_r. auto. }
      assert (Nv : ~ In k (od_keys (m_vals st))).
      { rewrite Hv. rewrite (od_keys_filter (fun x => negb (mem_str x keys))). intros C. apply filter_In in C.
        apply Kpre. unfold od_keys in C. rewrite map_map in C. apply C. }
      destruct (mem_str k L) eqn:ML; cbn [negb].
      + rewrite (vp_dim p L V k Kk), ML. cbn [bind].
        eexists. split; [reflexivity|]. cbn [m_marg m_vals m_dims m_delta m_axes]. rewrite R1.
        repeat split; auto.
        * rewrite od_set_new by auto. rewrite Hv, map_app, filter_app. cbn. rewrite Mk. auto.
        * assert (Nd : ~ In k (od_keys (m_dims st))).
          { rewrite Hdi. unfold od_keys. rewrite map_map. cbn. rewrite map_id. intros C.
            apply filter_In in C. tauto. }
          rewrite od_set_new by auto. rewrite Hdi, names_app. unfold kept_axes.
          rewrite filter_app. cbn. rewrite ML, Mk. cbn. rewrite map_app. cbn. f_equal.
          unfold shifted. rewrite KL, before_app by auto. rewrite Hd. auto.
      + cbn [bind]. eexists. split; [reflexivity|]. cbn [m_marg m_vals m_dims m_delta m_axes]. rewrite R1.
        repeat split; auto.
        * rewrite od_set_new by auto. rewrite Hv, map_app, filter_app. cbn. rewrite Mk. auto.
        * rewrite Hdi. f_equal. rewrite names_app. unfold kept_axes. rewrite filter_app. cbn. rewrite ML.
          cbn. rewrite app_nil_r. auto. }
  exists st. split; auto. rewrite names_items in *. repeat split; auto.
  - rewrite Hm. apply filter_ext_in. intros [k e] Hin. cbn. f_equal.
    apply eq_true_iff_eq. rewrite !mem_str_iff, in_restrict. split; [tauto|]. intros Hk. split; auto.
    apply (vp_incl _ _ V). auto.
  - rewrite Hv. rewrite (vp_items p L V), map_map. rewrite map_id. auto.
Qed.

(** The removed axes before a kept variable are as many in key order as in axis order. *)
Definition aligned (keys : list string) : Prop :=
  forall k, In k (without keys L) ->
    length (restrict keys (before k (p_keylist p))) = length (restrict keys (before k L)).

Lemma restrict_keylist_perm keys : incl keys L ->
  Permutation (restrict keys (p_keylist p)) (restrict keys L).
Proof.
  intros I. apply NoDup_Permutation.
  - apply filter_nodup, (vp_keys _ _ V).
  - apply filter_nodup, (vp_axes _ _ V).
  - intros k. rewrite !in_restrict. split; [intros []; split; auto|].
    intros [H1 H2]. split; auto. apply (vp_incl _ _ V). auto.
Qed.

(** What marginalise does whenever the shifted axes are a permutation L' of the
    kept axes with the same sizes: the probabilities of the kept axes are
    relabelled by L'. *)
Lemma marginalise_gen keys L' :
  incl keys (od_keys (p_marg p)) -> incl keys L ->
  NoDup L' -> (forall k, In k L' <-> In k (without keys L)) ->
  (forall j k, nth_error L' j = Some k -> shifted keys k = Some (Z.of_nat j)) ->
  map (size_of p) L' = map (size_of p) (without keys L) ->
  without keys (p_keylist p) <> [] ->
  exists q, marginalise p keys = Ok q /\ valid_pd q L' /\
    p_keylist q = without keys (p_keylist p) /\
    p_marg q = filter (fun kv => negb (mem_str (fst kv) keys)) (p_marg p) /\
    p_cond q = p_cond p /\ p_pscale q = p_pscale p /\
    (forall k, In k (p_keylist q) -> variable q k = variable p k) /\
    forall a a', map a' L' = map a (without keys L) -> in_bounds p (without keys L) a ->
      (log_scaled p -> (forall b, in_bounds p L b -> prob_at p L b <= npi)%R /\
                       (npz <= sum_over (sized p (restrict keys L)) (prob_at p L) a)%R) ->
      prob_at q L' a' = sum_over (sized p (restrict keys L)) (prob_at p L) a.
Proof.
  intros IM IK NDL IFF SHF SZ NE.
  destruct (vp_prob_get p L V) as (t & Pt & Rt & St).
  destruct (marginalise_loop keys IK) as (st & E & Hm & Hv & Ha & Hd).
  destruct (to_unit t) as (t1 & E1 & S1 & G1).
  assert (NR : NoDup (restrict keys (p_keylist p))) by (apply filter_nodup, (vp_keys _ _ V)).
  assert (IR : incl (restrict keys (p_keylist p)) L).
  { intros k Hk. apply in_restrict in Hk. apply IK. tauto. }
  destruct (sum_axes_ok t1 (restrict keys (p_keylist p))) as (s & Es & Ss & Gs); auto; [congruence|].
  destruct (from_unit s) as (s1 & E2 & S2 & G2).
  assert (W : without (restrict keys (p_keylist p)) L = without keys L).
  { unfold without. apply filter_ext_in. intros k Hk. f_equal. apply eq_true_iff_eq.
    rewrite !mem_str_iff, in_restrict. split; [tauto|]. split; auto. apply (vp_incl _ _ V). auto. }
  assert (Rr : restrict (restrict keys (p_keylist p)) L = restrict keys L).
  { unfold restrict at 1 3. apply filter_ext_in. intros k Hk. apply eq_true_iff_eq.
    rewrite !mem_str_iff, in_restrict. split; [tauto|]. split; auto. apply (vp_incl _ _ V). auto. }
  rewrite W in Ss, Gs. rewrite Rr in Gs.
  destruct (vp_marg_cond p L V) as (NM & NC & DJ).
  assert (Kv : od_keys (m_vals st) = without keys (p_keylist p)).
  { rewrite Hv. apply (od_keys_filter (fun x => negb (mem_str x keys))). }
  assert (Gv : forall k v, od_get (m_vals st) k = Some v -> od_get (p_vals p) k = Some v /\ ~ In k keys).
  { intros k v G. rewrite Hv, (od_get_filter (fun x => negb (mem_str x keys))) in G.
    destruct (mem_str k keys) eqn:M; cbn in G; [discriminate|]. apply mem_str_false in M. auto. }
  assert (Kd : od_keys (m_dims st) = kept_axes keys (p_keylist p)).
  { rewrite Hd. unfold od_keys. rewrite map_map. cbn. apply map_id. }
  destruct (make_pd_from p L V (m_vals st) (m_dims st) L' (m_marg st) (p_cond p)
              s1 (spec_of (p_pscale p)) (p_pscale p)) as (q & Eq & Vq & Kq & Mq & Cq & Pq & Sq & Varq).
  - rewrite Kv. apply filter_nodup, (vp_keys _ _ V).
  - intros C. rewrite C in Kv. cbn in Kv. congruence.
  - rewrite Kv. intros k Hk. apply in_without in Hk. tauto.
  - intros k v G _. apply Gv; auto.
  - intros k v G Hk. apply Gv in G. destruct G as [G _].
    destruct (vp_axis p L V k Hk) as (a & Ga & _). rewrite G in Ga. inversion Ga; subst.
    exists a. destruct (vp_tsize p L V k a Hk G) as (T1 & T2 & T3 & T4).
    repeat split; auto. unfold variable. rewrite G. cbn. destruct (shape a); [contradiction|auto].
  - auto.
  - intros k. rewrite IFF, Kv, !in_without. split; [|tauto]. intros [H1 H2]. repeat split; auto.
    apply (vp_incl _ _ V). auto.
  - intros j k Hj. assert (Hk : In k (without keys L)) by (apply IFF; eapply nth_error_In; eauto).
    apply in_without in Hk as Hk'. destruct Hk' as [Hk1 Hk2].
    apply od_in_get. { rewrite Kd. apply filter_nodup, (vp_keys _ _ V). }
    rewrite Hd. apply in_map_iff. exists k. split.
    + f_equal. auto.
    + apply filter_In. split; [apply (vp_incl _ _ V); auto|].
      apply andb_true_iff. split; [apply mem_str_iff; auto|]. apply negb_true_iff, mem_str_false. auto.
  - intros k _ Hn. left. apply od_get_none. rewrite Kd. intros C. apply filter_In in C.
    destruct C as [_ C]. apply andb_true_iff in C. destruct C as [C _]. apply mem_str_iff in C. auto.
  - rewrite Kd, Kv. intros k Hk. apply filter_In in Hk. destruct Hk as [Hk C].
    apply andb_true_iff in C. destruct C as [_ C]. apply filter_In. auto.
  - rewrite Kd. apply filter_nodup, (vp_keys _ _ V).
  - congruence.
  - intros ke Hke. rewrite Hm in Hke. apply in_app_or in Hke. apply in_or_app.
    destruct Hke as [Hke|Hke]; auto. apply filter_In in Hke. tauto.
  - rewrite Kv, Hm, (od_keys_filter (fun x => negb (mem_str x keys))).
    assert (FC : od_keys (p_cond p) = filter (fun x => negb (mem_str x keys)) (od_keys (p_cond p))).
    { assert (FA : forall l, (forall k, In k l -> ~ In k keys) -> filter (fun x => negb (mem_str x keys)) l = l).
      { induction l as [|x l IH]; cbn; auto. intros H. rewrite (proj2 (mem_str_false x keys)); cbn; auto.
        rewrite IH; auto. }
      rewrite FA; auto. intros k Hk C. apply IM in C. eapply DJ; eauto. }
    rewrite FC, <- filter_app. unfold without.
    assert (FP : forall (f : string -> bool) l m, Permutation l m -> Permutation (filter f l) (filter f m)).
    { intros f l m P. induction P; cbn; auto.
      - destruct (f x); auto.
      - destruct (f x), (f y); auto. constructor.
      - etransitivity; eauto. }
    apply FP, (vp_names _ _ V).
  - apply (vp_pscale _ _ V).
  - apply (vp_pscale _ _ V).
  - exists q. split.
    { unfold marginalise, keys_marginal.
      assert (KM : forallb (fun k => od_mem (p_marg p) k) keys = true).
      { apply forallb_forall. intros k Hk. apply od_mem_iff. auto. }
      rewrite KM. cbn [assert_ bind]. rewrite E. cbn [bind]. rewrite Rt. cbn [bind].
      rewrite E1. cbn [bind]. rewrite Ha. rewrite Es. cbn [bind]. rewrite E2. cbn [bind]. exact Eq. }
    split; auto. split; [congruence|]. split; [congruence|]. split; auto. split; auto.
    split. { intros k Hk. apply Varq. congruence. }
    intros a a' Haa Ba Lg. unfold prob_at at 1. rewrite Pq, Sq, Haa.
    assert (SE : get s (map a (without keys L)) = sum_over (sized p (restrict keys L)) (prob_at p L) a).
    { rewrite Gs. apply sum_over_in_range.
      - unfold sized. rewrite map_map. cbn. rewrite map_id. apply filter_nodup, (vp_axes _ _ V).
      - intros b Hb Hx. unfold prob_at. rewrite Pt. apply G1. intros Lk.
        destruct (Lg Lk) as [Lg1 _]. specialize (Lg1 b). unfold prob_at in Lg1. rewrite Pt in Lg1.
        apply Lg1. intros k Hk. destruct (in_dec string_dec k keys) as [Hkk|Hkk].
        + apply Hb. unfold sized. apply in_map_iff. exists k. split; auto. apply in_restrict. auto.
        + rewrite Hx. * apply Ba. apply in_without. auto.
          * unfold sized. rewrite map_map. cbn. rewrite map_id, in_restrict. tauto. }
    rewrite G2; auto. intros Lk. rewrite SE. apply Lg. auto.
Qed.

Lemma aligned_shifted keys j k : aligned keys -> nth_error (without keys L) j = Some k ->
  shifted keys k = Some (Z.of_nat j).
Proof.
  intros AL Hj. assert (Hk : In k (without keys L)) by (eapply nth_error_In; eauto).
  apply in_without in Hk as Hk'. destruct Hk' as [Hk1 Hk2].
  unfold shifted. rewrite AL by auto. f_equal.
  rewrite <- (nth_pos k (without keys L) j); auto; [|apply filter_nodup, (vp_axes _ _ V)].
  rewrite pos_without by auto. pose proof (restrict_before_le keys k L Hk1 Hk2). lia.
Qed.

Lemma marginalise_ok keys :
  incl keys (od_keys (p_marg p)) -> incl keys L -> aligned keys ->
  without keys (p_keylist p) <> [] ->
  exists q, marginalise p keys = Ok q /\ valid_pd q (without keys L) /\
    p_keylist q = without keys (p_keylist p) /\
    p_marg q = filter (fun kv => negb (mem_str (fst kv) keys)) (p_marg p) /\
    p_cond q = p_cond p /\ p_pscale q = p_pscale p /\
    (forall k, In k (p_keylist q) -> variable q k = variable p k) /\
    forall a, in_bounds p (without keys L) a ->
      (log_scaled p -> (forall b, in_bounds p L b -> prob_at p L b <= npi)%R /\
                       (npz <= sum_over (sized p (restrict keys L)) (prob_at p L) a)%R) ->
      prob_at q (without keys L) a = sum_over (sized p (restrict keys L)) (prob_at p L) a.
Proof.
  intros IM IK AL NE.
  destruct (marginalise_gen keys (without keys L)) as (q & E & Vq & K & M & C & S & Var & P); auto.
  - apply filter_nodup, (vp_axes _ _ V).
  - tauto.
  - intros j k Hj. apply aligned_shifted; auto.
  - exists q. do 7 (split; [assumption|]). intros a Ba Lg. apply P; auto.
Qed.

Lemma key_ordered_aligned keys : key_ordered p L -> incl keys L -> aligned keys.
Proof.
  intros KO IK k Hk. apply in_without in Hk. destruct Hk as [Hk1 Hk2].
  assert (B : before k L = filter (fun x => mem_str x L) (before k (p_keylist p))).
  { rewrite <- before_filter by (apply mem_str_iff; auto). unfold key_ordered in KO. rewrite <- KO. auto. }
  rewrite B. unfold restrict. rewrite filter_filter. f_equal. apply filter_ext. intros x.
  destruct (mem_str x keys) eqn:M; cbn; auto. symmetry. apply mem_str_iff, IK, mem_str_iff. auto.
Qed.

Lemma key_ordered_without q keys : key_ordered p L ->
  p_keylist q = without keys (p_keylist p) -> key_ordered q (without keys L).
Proof.
  intros KO KQ. unfold key_ordered in *. rewrite KQ.
  assert (B : without keys L = filter (fun x => negb (mem_str x keys) && mem_str x L) (p_keylist p)).
  { unfold without. rewrite KO at 1. rewrite filter_filter. auto. }
  rewrite B at 1. unfold without at 2. rewrite filter_filter. apply filter_ext. intros x.
  destruct (mem_str x keys) eqn:M; cbn.
  - rewrite !andb_false_r. auto.
  - rewrite !andb_true_r. apply eq_true_iff_eq. rewrite !mem_str_iff, in_without.
    apply mem_str_false in M. tauto.
Qed.

End Scale.
