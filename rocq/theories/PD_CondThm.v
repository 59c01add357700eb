(** Conditioning in name order. *)
From Coq Require Import String ZArith Reals Lra Bool Arith Lia Permutation List.
From Verif Require Import Base Num Tensor TensorBcast OdLemmas TensorLemmas RNumLemmas PScales PScales_Spec
  PScales_Proofs PScales_Prod Names Names_Spec Distr PDModel PDUtils PD_Spec PD_Make PD_Sums PD_Valid PD_Marg PD_Align
  PD_Move PD_Cond PD_Cond2 PD_Cond3 PD_Cond_Spec.
Import ListNotations.

Section CondThm.
Context {F : Fmt R}.
Variable p : pd R.
Variable L : list string.
Hypothesis V : valid_pd p L.
Hypothesis O : in_name_order p L.
Variable keys : list string.
Hypothesis NK : NoDup keys.
Hypothesis IM : incl keys (od_keys (p_marg p)).

Lemma kcols_L : kcols p L = L.
Proof. destruct O as [_ KO]. symmetry. exact KO. Qed.

Lemma sumcols_rest : sumcols p L keys = rest p L keys.
Proof.
  unfold sumcols. rewrite kcols_L. unfold rest, marg_columns, without, restrict. rewrite filter_filter.
  apply filter_ext. intros k. replace (mem_str k (od_keys (p_marg p))) with (od_mem (p_marg p) k); auto. apply eq_true_iff_eq. rewrite mem_str_iff. apply od_mem_iff.
Qed.

Lemma cmarg_eq : cmarg p keys = filter (fun kv => negb (mem_str (fst kv) keys)) (p_marg p).
Proof. reflexivity. Qed.

Lemma ccond_eq : ccond p keys = p_cond p ++ filter (fun kv => mem_str (fst kv) keys) (p_marg p).
Proof.
  unfold ccond. f_equal. destruct O as [OK _]. destruct (vp_marg_cond p L V) as (NM & NC & DJ).
  assert (E : restrict keys (p_keylist p) = filter (fun k => mem_str k keys) (od_keys (p_marg p))).
  { rewrite OK. unfold restrict. rewrite filter_app, (filter_none _ (od_keys (p_cond p))), app_nil_r; auto.
    intros k Hk Hm. apply mem_str_iff in Hm. apply (DJ k); auto. }
  rewrite E. rewrite <- (od_keys_filter (fun k => mem_str k keys)). unfold od_keys. rewrite map_map.
  rewrite <- map_id. apply map_ext_in. intros [k e] Hin. cbn. f_equal. unfold mentry.
  apply filter_In in Hin. destruct Hin as [Hin _]. rewrite (proj2 (od_in_get (p_marg p) k e NM)) || (apply od_in_get in Hin; auto; rewrite Hin); auto.
Qed.

Lemma nodup_rest : NoDup (rest p L keys).
Proof. apply filter_nodup, filter_nodup, (vp_axes _ _ V). Qed.

Lemma evidence_eq L' a : NoDup L' -> (forall k, In k L' <-> In k L) ->
  evidence p L keys L' a = marginal_at p L keys a.
Proof.
  intros NL' LL. unfold evidence, marginal_at. rewrite sumcols_rest. apply sum_over_perm.
  - apply prob_ext.
  - unfold sized. rewrite map_map. cbn. rewrite map_id. apply filter_nodup. auto.
  - unfold sized. apply Permutation_map. apply NoDup_Permutation; [apply filter_nodup; auto|apply nodup_rest|].
    intros k. rewrite in_restrict, LL. split; [tauto|]. intros H. split; auto.
    unfold rest in H. apply in_without in H. destruct H as [H _]. apply in_restrict in H. tauto.
Qed.

Lemma cnorm_iff : cnorm p L keys = true <-> ~ incl keys L.
Proof.
  unfold cnorm. rewrite existsb_exists. split.
  - intros (k & Hk & H). apply andb_true_iff in H. destruct H as [H1 H2]. apply mem_str_iff in H1.
    apply negb_true_iff, mem_str_false in H2. auto.
  - intros H. destruct (forallb (fun k => mem_str k L) keys) eqn:E.
    + exfalso. apply H. intros k Hk. rewrite forallb_forall in E. apply mem_str_iff. auto.
    + assert (Ex : exists k, In k keys /\ mem_str k L = false).
      { clear - E. induction keys as [|k l IH]; cbn in E; [discriminate|]. destruct (mem_str k L) eqn:M; cbn in E.
        - destruct (IH E) as (x & H1 & H2). exists x. cbn. auto.
        - exists k. cbn. auto. }
      destruct Ex as (k & Hk & M). exists k. split; [apply (vp_key_iff p L V); left; auto|].
      rewrite M, (proj2 (mem_str_iff k keys) Hk). reflexivity.
Qed.

Lemma cond_iff : fine_scale p -> (exists q, conditionalise p keys = Ok q) <-> movable p L keys.
Proof.
  intros FS. split.
  - intros [q E]. destruct (cond_needs_order p L V keys NK IM q E) as (L' & N & I & H).
    apply (order_movable p L V O keys IM L'); auto.
  - intros M. destruct (movable_order p L V O keys IM M) as (L' & N & I & H).
    destruct (cond_result p L V FS keys NK IM L' N I H) as (q & E & _). exists q. exact E.
Qed.

Lemma marginal_ignores a b : (forall k, ~ In k (rest p L keys) -> b k = a k) ->
  marginal_at p L keys b = marginal_at p L keys a.
Proof.
  intros H. unfold marginal_at.
  assert (G : forall ks f, extensional f -> forall a b, (forall k, ~ In k (map fst ks) -> b k = a k) ->
     sum_over ks f b = sum_over ks f a).
  { clear. induction ks as [|[k n] ks IH]; intros f E a b H; cbn.
    - apply E. intros x. apply H. cbn. tauto.
    - apply sum_n_ext. intros i _. apply IH; auto. intros x Hx. unfold upd. destruct (String.eqb_spec x k); auto.
      apply H. cbn. intuition congruence. }
  apply G; [apply prob_ext|]. unfold sized. rewrite map_map. cbn. rewrite map_id. exact H.
Qed.

Lemma cond_ok : fine_scale p -> movable p L keys ->
  exists q L', conditionalise p keys = Ok q /\ valid_pd q L' /\ Permutation L' L /\
    p_marg q = filter (fun ke => negb (mem_str (fst ke) keys)) (p_marg p) /\
    p_cond q = p_cond p ++ filter (fun ke => mem_str (fst ke) keys) (p_marg p) /\
    p_pscale q = p_pscale p /\
    (forall k, In k (p_keylist p) -> variable q k = variable p k) /\
    (* columns as keys *)
    (incl keys L -> rest p L keys <> [] ->
     forall a, in_bounds p L a -> (npz <= marginal_at p L keys a)%R ->
       (log_scaled p -> (forall b, in_bounds p L b -> prob_at p L b <= npi)%R /\
                        (npz <= prob_at p L a / marginal_at p L keys a)%R) ->
       prob_at q L' a = (prob_at p L a / marginal_at p L keys a)%R) /\
    (* some scalar among the keys *)
    (~ incl keys L -> rest p L keys <> [] ->
     forall a, in_bounds p L a -> (npz <= total p L)%R -> (npz <= marginal_at p L keys a / total p L)%R ->
       (log_scaled p -> (npz <= factor (spec_of (p_pscale p)) <= npi)%R /\
                        (npz <= prob_at p L a / marginal_at p L keys a)%R) ->
       prob_at q L' a = (prob_at p L a / marginal_at p L keys a)%R) /\
    (* no marginal column left *)
    (incl keys L -> rest p L keys = [] ->
     forall a, in_bounds p L a ->
       (log_scaled p -> (forall b, in_bounds p L b -> prob_at p L b <= npi)%R /\ (npz <= prob_at p L a)%R) ->
       prob_at q L' a = prob_at p L a) /\
    (~ incl keys L -> rest p L keys = [] ->
     forall a, in_bounds p L a -> (npz <= total p L)%R ->
       (log_scaled p -> (npz <= factor (spec_of (p_pscale p)) <= npi)%R /\ (npz <= prob_at p L a / total p L)%R) ->
       prob_at q L' a = (prob_at p L a / total p L)%R).
Proof.
  intros FS M. destruct (movable_order p L V O keys IM M) as (L' & N & I & H).
  destruct (cond_result p L V FS keys NK IM L' N I H) as (q & E & Vq & Kq & Mq & Cq & Sq & Varq & Pr).
  exists q, L'. split; auto. split; auto. split; [apply NoDup_Permutation; auto; apply (vp_axes _ _ V)|].
  split; auto. split; [rewrite Cq; apply ccond_eq|]. split; auto. split; auto.
  rewrite sumcols_rest in Pr. unfold norm_ok, Q in Pr.
  assert (CF : incl keys L -> cnorm p L keys = false).
  { intros Hi. apply not_true_is_false. intros C. apply cnorm_iff in C. auto. }
  repeat match goal with |- _ /\ _ => split end.
  - intros Hi NR a Ba Hm Lg. rewrite CF in Pr by auto.
    assert (NO : log_scaled p -> forall b, in_bounds p L b -> (prob_at p L b <= npi)%R) by (intros Lk; apply Lg; auto).
    destruct (Pr NO a Ba) as [_ Pr2]. rewrite evidence_eq in Pr2 by auto. apply Pr2; auto; [congruence|]. intros Lk. apply Lg; auto.
  - intros Hi NR a Ba Ht Hm Lg. rewrite (proj2 cnorm_iff Hi) in Pr.
    assert (NO : (log_scaled p -> npz <= factor (spec_of (p_pscale p)) <= npi)%R /\ (~ log_scaled p -> npz <= tot p L)%R).
    { split; [intros Lk; apply Lg; auto|intros _; exact Ht]. }
    destruct (Pr NO a Ba) as [_ Pr2]. rewrite evidence_eq in Pr2 by auto. apply Pr2; auto.
    + intros _. pose proof npz_pos. unfold tot. lra.
    + intros Lk. apply Lg; auto.
  - intros Hi NR a Ba Lg. rewrite CF in Pr by auto.
    assert (NO : log_scaled p -> forall b, in_bounds p L b -> (prob_at p L b <= npi)%R) by (intros Lk; apply Lg; auto).
    destruct (Pr NO a Ba) as [Pr1 _]. apply Pr1; auto. intros Lk. apply Lg; auto.
  - intros Hi NR a Ba Ht Lg. rewrite (proj2 cnorm_iff Hi) in Pr.
    assert (NO : (log_scaled p -> npz <= factor (spec_of (p_pscale p)) <= npi)%R /\ (~ log_scaled p -> npz <= tot p L)%R).
    { split; [intros Lk; apply Lg; auto|intros _; exact Ht]. }
    destruct (Pr NO a Ba) as [Pr1 _]. apply Pr1; auto. intros Lk. apply Lg; auto.
Qed.

(** The conditional probabilities sum to one over the columns still marginal. *)
Lemma cond_sums_to_one q L' : fine_scale p -> conditionalise p keys = Ok q -> valid_pd q L' -> Permutation L' L ->
  (forall a, in_bounds p L a -> (npz <= marginal_at p L keys a)%R ->
       (log_scaled p -> (forall b, in_bounds p L b -> prob_at p L b <= npi)%R /\
                        (npz <= prob_at p L a / marginal_at p L keys a)%R) ->
       prob_at q L' a = (prob_at p L a / marginal_at p L keys a)%R) ->
  forall a, in_bounds p L a -> (npz <= marginal_at p L keys a)%R ->
   (log_scaled p -> forall b, in_bounds p L b -> (prob_at p L b <= npi)%R /\
       (npz <= prob_at p L b / marginal_at p L keys b)%R) ->
  sum_over (sized p (rest p L keys)) (prob_at q L') a = 1%R.
Proof.
  intros FS E Vq PM H a Ba Hm Lg.
  transitivity (sum_over (sized p (rest p L keys)) (fun b => / marginal_at p L keys a * prob_at p L b)%R a).
  - apply sum_over_in_range.
    + unfold sized. rewrite map_map. cbn. rewrite map_id. apply nodup_rest.
    + intros b Hb Ho. unfold sized in Ho. rewrite map_map in Ho. cbn in Ho. rewrite map_id in Ho.
      assert (Mb : marginal_at p L keys b = marginal_at p L keys a) by (apply marginal_ignores; auto).
      assert (Bb : in_bounds p L b).
      { intros k Hk. destruct (in_dec string_dec k (rest p L keys)) as [Hr|Hr].
        - apply Hb. unfold sized. apply in_map_iff. exists k. auto.
        - rewrite Ho by auto. apply Ba. auto. }
      rewrite H; auto.
      * rewrite Mb. unfold Rdiv. lra.
      * rewrite Mb. auto.
      * intros Lk. split; [intros; apply Lg; auto|apply Lg; auto].
  - rewrite sum_over_scal. fold (marginal_at p L keys a). pose proof npz_pos. field. lra.
Qed.

End CondThm.
