(** Bayes' theorem through product and conditionalise. *)
From Coq Require Import Ascii String ZArith Reals Lra Bool Arith Lia Permutation List.
From Verif Require Import Base Num Tensor TensorBcast OdLemmas TensorLemmas RNumLemmas PScales
  PScales_Spec PScales_Proofs Names Names_Spec Names_Proofs Distr PDModel PDUtils PD_Spec PD_Make PD_Sums
  PD_Valid PD_Marg PD_Examples PD_Cond_Spec PD_Cond2 PD_Cond3 PD_CondThm PD_CondEx PD_Product_Spec PD_Product2 PD_Product3
  PD_Bayes_Spec PD_ProductEx PD_Div_Spec PD_Div.
Import ListNotations.

Lemma filter_self (f : string -> bool) l : (forall k, In k l -> f k = true) -> filter f l = l.
Proof.
  induction l as [|x l IH]; intros H; [reflexivity|]. cbn. rewrite H by (left; reflexivity). f_equal. apply IH.
  intros k K. apply H. right. exact K.
Qed.

Lemma restrict_parts (A B C L : list string) :
  L = filter (fun k => mem_str k L) (A ++ B ++ C) -> NoDup (A ++ B ++ C) ->
  restrict A L = filter (fun k => mem_str k L) A /\ restrict B L = filter (fun k => mem_str k L) B /\
  restrict C L = filter (fun k => mem_str k L) C /\
  restrict (A ++ B) L = filter (fun k => mem_str k L) A ++ filter (fun k => mem_str k L) B /\
  restrict (B ++ A) L = filter (fun k => mem_str k L) A ++ filter (fun k => mem_str k L) B.
Proof.
  set (g := fun k => mem_str k L). clearbody g. intros E N. 
  apply nodup_app_iff in N. destruct N as (NA & NBC & D1). apply nodup_app_iff in NBC. destruct NBC as (NB & NC & D2).
  assert (In_ : forall X Y, incl X Y -> filter (fun k => mem_str k Y) (filter g X) = filter g X).
  { intros X Y I. apply filter_self. intros k K. apply filter_In in K. apply mem_str_iff, I, K. }
  assert (Out : forall X Y, (forall k, In k X -> ~ In k Y) -> filter (fun k => mem_str k Y) (filter g X) = []).
  { intros X Y D. apply filter_none. intros k K M. apply filter_In in K. apply mem_str_iff in M. apply (D k); tauto. }
  unfold restrict. rewrite E, !filter_app.
  assert (DAB : forall k, In k A -> ~ In k B) by (intros k K Q; apply (D1 k K), in_or_app; auto).
  assert (DAC : forall k, In k A -> ~ In k C) by (intros k K Q; apply (D1 k K), in_or_app; auto).
  assert (DBC : forall k, In k B -> ~ In k C) by (intros k K Q; apply (D2 k K Q)).
  assert (IAB : incl A (A ++ B)) by (intros k K; apply in_or_app; auto).
  assert (IBB : incl B (A ++ B)) by (intros k K; apply in_or_app; auto).
  assert (IAB' : incl A (B ++ A)) by (intros k K; apply in_or_app; auto).
  assert (IBB' : incl B (B ++ A)) by (intros k K; apply in_or_app; auto).
  assert (DC : forall k, In k C -> ~ In k (A ++ B)) by (intros k K Q; apply in_app_iff in Q; destruct Q as [Q|Q]; [apply (DAC k Q K)|apply (DBC k Q K)]).
  assert (DC' : forall k, In k C -> ~ In k (B ++ A)) by (intros k K Q; apply in_app_iff in Q; destruct Q as [Q|Q]; [apply (DBC k Q K)|apply (DAC k Q K)]).
  rewrite (In_ A A), (In_ B B), (In_ C C) by apply incl_refl.
  rewrite (Out A B), (Out A C), (Out B C) by auto.
  rewrite (Out B A), (Out C A), (Out C B) by (intros k K Q; first [apply (DAB k Q K)|apply (DAC k Q K)|apply (DBC k Q K)]).
  rewrite (In_ A (A ++ B)), (In_ B (A ++ B)), (In_ A (B ++ A)), (In_ B (B ++ A)), (Out C (A ++ B)), (Out C (B ++ A)) by auto.
  rewrite !app_nil_r. cbn. auto.
Qed.

Section Bayes.
Context {F : Fmt R}.

Lemma div_divisible (p : pd R) (L : list string) (q : pd R) (L2 : list string) :
  divisible p L q L2 -> fine_scale p -> fine_scale q ->
  exists r, truediv p q = Ok r /\ quotient_of p L q r /\
    forall a, in_bounds p L a -> (prob_at p L a <= npi)%R -> (npz <= prob_at q L2 a <= npi)%R ->
      (log_scaled p -> (npz <= prob_at p L a / prob_at q L2 a)%R) ->
      prob_at r L a = (prob_at p L a / prob_at q L2 a)%R.
Proof.
  intros [[V V2 HC HI HV] HL HS] FS FS2.
  destruct (div_ok p q L L2 V V2 HC HI HV HL HS FS FS2) as (r & E & Vr & Mr & Cr & Sr & Vv & Pr).
  exists r. split; [exact E|]. split; [|exact Pr]. split; [exact Vr|]. split; [exact Mr|]. split; [|auto].
  intros k. rewrite Cr. unfold dcond, od_keys. rewrite map_app, map_map. cbn [dent fst]. rewrite map_id, in_app_iff, filter_In, mem_str_iff.
  change (map fst (p_cond p)) with (od_keys (p_cond p)). unfold dkeys.
  change (map fst (p_marg q)) with (od_keys (p_marg q)).
  assert (Q : In k (od_keys (p_marg q)) -> In k (p_keylist p)) by (intros K; apply (vp_key_iff p L V); left; apply HI, K).
  tauto.
Qed.

Lemma div_conditional_column (p : pd R) (L : list string) (q : pd R) (L2 : list string) (k : string) :
  matching p L q L2 -> In k L2 -> In k (od_keys (p_cond q)) -> (2 <= size_of q k)%nat ->
  exists e, truediv p q = Err e.
Proof.
  intros [V V2 HC HI HV] K KC Sk. apply (div_cond_column p q L L2 V V2 HC HI HV k K); [|exact Sk].
  intros C. destruct (vp_marg_cond q L2 V2) as (_ & _ & D). apply (D k C KC).
Qed.

End Bayes.

Section Bayes.
Context {F : Fmt R}.
Variables (pri lik : pd R) (axes : pd R -> list string) (args : list (pd R)).
Hypothesis Hargs : args = [pri; lik] \/ args = [lik; pri] /\ no_free_columns pri lik axes.
Hypothesis HM : multipliable args axes.
Hypothesis Hcol : marg_columns pri (axes pri) <> [].
Hypothesis Hf : fine_product pri lik.

Lemma in_args p : In p args <-> p = pri \/ p = lik.
Proof. destruct Hargs as [-> | [-> _]]; cbn; intuition congruence. Qed.

Lemma bayes : exists j q L', product args PSNone = Ok (Some j) /\
  conditionalise j (od_keys (p_marg lik)) = Ok q /\ valid_pd q L' /\
  (forall k, In k L' <-> In k (axes pri) \/ In k (axes lik)) /\
  od_keys (p_marg q) = od_keys (p_marg pri) /\
  (forall k, In k (od_keys (p_cond q)) <-> In k (od_keys (p_marg lik)) \/
      In k (od_keys (p_cond pri) ++ od_keys (p_cond lik)) /\ ~ In k (od_keys (p_marg pri))) /\
  (forall p k, p = pri \/ p = lik -> In k (p_keylist p) -> variable q k = variable p k) /\
  forall a, both_in_bounds pri lik axes a -> (npz <= evidence_at pri lik axes a)%R ->
    observable pri lik axes -> log_range pri lik axes a ->
    prob_at q L' a = (joint_at pri lik axes a / evidence_at pri lik axes a)%R.
Proof.
  assert (Ip : In pri args) by (apply in_args; auto). assert (Il : In lik args) by (apply in_args; auto).
  pose proof (mu_valid _ _ HM _ Ip) as Vp. pose proof (mu_valid _ _ HM _ Il) as Vl.
  destruct (product_multipliable args axes HM) as (j & L & Ej & Vj & [Kj Oj] & Mj & Cj & Varj & _ & Sj & Fj & Lj & Pj).
  set (Mp := od_keys (p_marg pri)) in *. set (keys := od_keys (p_marg lik)) in *.
  assert (Varp : forall k, In k (p_keylist pri) -> variable j k = variable pri k) by (intros; apply Varj; auto).
  assert (Varl : forall k, In k (p_keylist lik) -> variable j k = variable lik k) by (intros; apply Varj; auto).
  assert (KJ : forall k, In k (p_keylist j) -> In k (p_keylist pri) \/ In k (p_keylist lik)).
  { intros k K. apply (vp_key_iff j L Vj) in K.
    assert (Q : exists p, In p args /\ In k (p_keylist p)).
    { destruct K as [K|K].
      - rewrite Mj in K. unfold marginals in K. apply in_flat_map in K. destruct K as (p & I & K). exists p. split; auto.
        apply (vp_key_iff p (axes p) (mu_valid _ _ HM p I)). auto.
      - apply Cj in K. destruct K as [K _]. unfold conditionals in K. apply in_flat_map in K. destruct K as (p & I & K). exists p. split; auto.
        apply (vp_key_iff p (axes p) (mu_valid _ _ HM p I)). auto. }
    destruct Q as (p & I & Q). apply in_args in I. destruct I as [-> | ->]; auto. }
  assert (LL : forall k, In k L <-> In k (axes pri) \/ In k (axes lik)).
  { intros k. rewrite (axis_col j L k Vj). split.
    - intros (l & E). assert (K : In k (p_keylist j)) by (apply (vp_incl _ _ Vj), (axis_col j L k Vj); eauto).
      apply KJ in K. destruct K as [K|K]; [left; apply (axis_col pri _ k Vp)|right; apply (axis_col lik _ k Vl)]; exists l; [rewrite <- Varp by auto|rewrite <- Varl by auto]; exact E.
    - intros [K|K].
      + assert (K' := K). apply (vp_incl _ _ Vp) in K'. apply (axis_col pri _ k Vp) in K. destruct K as (l & E). exists l. rewrite Varp; auto.
      + assert (K' := K). apply (vp_incl _ _ Vl) in K'. apply (axis_col lik _ k Vl) in K. destruct K as (l & E). exists l. rewrite Varl; auto. }
  assert (Szp : forall k, In k (p_keylist pri) -> size_of j k = size_of pri k) by (intros k K; unfold size_of; rewrite Varp; auto).
  assert (Szl : forall k, In k (p_keylist lik) -> size_of j k = size_of lik k) by (intros k K; unfold size_of; rewrite Varl; auto).
  assert (Bd : forall a, both_in_bounds pri lik axes a <-> in_bounds j L a).
  { intros a. unfold both_in_bounds, in_bounds. split.
    - intros [B1 B2] k K. apply LL in K. destruct K as [K|K]; [rewrite Szp by (apply (vp_incl _ _ Vp); auto)|rewrite Szl by (apply (vp_incl _ _ Vl); auto)]; auto.
    - intros B. split; intros k K; [rewrite <- Szp by (apply (vp_incl _ _ Vp); auto)|rewrite <- Szl by (apply (vp_incl _ _ Vl); auto)]; apply B, LL; auto. }
  assert (NK : NoDup keys) by (apply (vp_marg_cond lik _ Vl)).
  assert (NP : NoDup Mp) by (apply (vp_marg_cond pri _ Vp)).
  assert (MjE : od_keys (p_marg j) = Mp ++ keys /\ args = [pri; lik] \/ od_keys (p_marg j) = keys ++ Mp /\ args = [lik; pri] /\ no_free_columns pri lik axes).
  { rewrite Mj. unfold marginals. destruct Hargs as [-> | [-> H]]; [left|right]; cbn; rewrite app_nil_r; auto. }
  assert (IM : incl keys (od_keys (p_marg j))).
  { intros k K. destruct MjE as [[-> _] | [-> _]]; apply in_or_app; auto. }
  assert (Dis : forall k, In k Mp -> ~ In k keys).
  { intros k K1 K2. destruct (vp_marg_cond j L Vj) as (N & _). destruct MjE as [[E _] | [E _]]; rewrite E in N; apply nodup_app_iff in N; destruct N as (_ & _ & N); apply (N k); auto. }
  set (g := fun k => mem_str k L).
  assert (NJ : NoDup (od_keys (p_marg j) ++ od_keys (p_cond j))) by (rewrite <- Kj; apply (vp_keys _ _ Vj)).
  unfold key_ordered in Oj. rewrite Kj in Oj.
  assert (RK : restrict keys L = filter g keys).
  { destruct MjE as [[E _] | [E _]]; rewrite E, <- app_assoc in Oj, NJ; apply restrict_parts in Oj; auto; apply Oj. }
  assert (RM : marg_columns j L = filter g Mp ++ filter g keys /\ args = [pri; lik] \/
               marg_columns j L = filter g keys ++ filter g Mp /\ no_free_columns pri lik axes).
  { unfold marg_columns. destruct MjE as [[E Q] | [E [Q Nf]]]; rewrite E, <- app_assoc in Oj, NJ; apply restrict_parts in Oj; auto; rewrite E; [left|right];
    (split; [apply Oj|assumption]). }
  assert (PR : Permutation (filter g Mp) (marg_columns pri (axes pri))).
  { apply NoDup_Permutation; [apply filter_nodup, NP|apply filter_nodup, (vp_axes _ _ Vp)|]. intros k. unfold marg_columns, restrict, g.
    rewrite !filter_In, !mem_str_iff. fold Mp. split; [|intros [K1 K2]; split; auto; apply LL; auto].
    intros [K1 K2]. split; auto. apply (axis_col pri _ k Vp). apply (axis_col j L k Vj) in K2. destruct K2 as (l & E). exists l.
    rewrite <- Varp; auto. apply (vp_key_iff pri _ Vp). auto. }
  assert (NE : filter g Mp <> []). { intros C. rewrite C in PR. apply Permutation_nil in PR. auto. }
  assert (RE : rest j L keys = filter g Mp).
  { unfold rest, without. destruct RM as [[-> _] | [-> _]]; rewrite filter_app.
    - rewrite (filter_self _ (filter g Mp)), (filter_none _ (filter g keys)), app_nil_r; auto.
      + intros k K M. apply negb_true_iff, mem_str_false in M. apply filter_In in K. tauto.
      + intros k K. apply negb_true_iff, mem_str_false. apply filter_In in K. apply Dis; tauto.
    - rewrite (filter_self _ (filter g Mp)), (filter_none _ (filter g keys)); auto.
      + intros k K M. apply negb_true_iff, mem_str_false in M. apply filter_In in K. tauto.
      + intros k K. apply negb_true_iff, mem_str_false. apply filter_In in K. apply Dis; tauto. }
  assert (FS : fine_scale j).
  { split.
    - destruct Sj as [[Q _]|[-> | ->]]; [exact Q| |]; split; cbn; auto; lra.
    - unfold no_tiny_gap. cbn [factor]. rewrite ln_1, Rminus_0_r, Fj.
      assert (E : Rprod (map (fun p => factor (spec_of (p_pscale p))) args) = (factor (spec_of (p_pscale pri)) * factor (spec_of (p_pscale lik)))%R).
      { destruct Hargs as [-> | [-> _]]; cbn; ring. }
      rewrite E. unfold fine_product in Hf. cbv zeta in Hf. destruct Hf as [-> | H]; [left; apply ln_1|right; exact H]. }
  assert (MV : movable j L keys).
  { destruct RM as [[RM _] | [RM Nf]]; [left|right].
    - unfold last_block. cbv zeta. rewrite RK. exists (filter g Mp). split; [exact RM|]. left. intros C. apply app_eq_nil in C. tauto.
    - unfold first_block. cbv zeta. rewrite RK. exists (filter g Mp). split; [exact RM|]. split; [exact NE|]. left.
      unfold cond_columns, restrict. apply filter_none. intros k K M. apply mem_str_iff in M. apply LL in K.
      destruct (vp_marg_cond j L Vj) as (_ & _ & D). apply (D k); auto. destruct MjE as [[-> _] | [-> _]]; apply in_app_iff;
      (assert (Q : In k (od_keys (p_marg pri) ++ od_keys (p_marg lik))) by (apply Nf; apply in_app_iff; exact K));
      apply in_app_iff in Q; tauto. }
  assert (NR : rest j L keys <> []) by (rewrite RE; exact NE).
  destruct (cond_quotient j L keys Vj (conj Kj (eq_trans Oj (f_equal _ (eq_sym Kj)))) FS NK IM MV NR) as (q & L' & Eq & (Vq & PL & Mq & Cq & Sq & Varq) & Pq).
  exists j, q, L'. split; [exact Ej|]. split; [exact Eq|]. split; [exact Vq|].
  split. { intros k. rewrite <- LL. split; apply Permutation_in; [exact PL|apply Permutation_sym; exact PL]. }
  assert (FK : forall (f : string -> bool) (d : odict string), od_keys (filter (fun ke => f (fst ke)) d) = filter f (od_keys d)).
  { intros f d. unfold od_keys. induction d as [|[k e] d IHd]; [reflexivity|]. cbn. destruct (f k); cbn; rewrite IHd; reflexivity. }
  split.
  { rewrite Mq, (FK (fun k => negb (mem_str k keys))). destruct MjE as [[-> _] | [-> _]]; rewrite filter_app.
    - rewrite (filter_self _ Mp), (filter_none _ keys), app_nil_r; auto.
      + intros k K M. apply negb_true_iff, mem_str_false in M. tauto.
      + intros k K. apply negb_true_iff, mem_str_false, Dis, K.
    - rewrite (filter_self _ Mp), (filter_none _ keys); auto.
      + intros k K M. apply negb_true_iff, mem_str_false in M. tauto.
      + intros k K. apply negb_true_iff, mem_str_false, Dis, K. }
  split.
  { intros k. assert (Ck : od_keys (p_cond q) = od_keys (p_cond j) ++ filter (fun k => mem_str k keys) (od_keys (p_marg j))).
    { rewrite Cq. unfold od_keys at 1. rewrite map_app. f_equal. apply (FK (fun k => mem_str k keys)). }
    rewrite Ck, in_app_iff, Cj, filter_In, mem_str_iff.
    assert (MM : In k (marginals args) <-> In k Mp \/ In k keys) by (rewrite <- Mj; destruct MjE as [[-> _] | [-> _]]; rewrite in_app_iff; tauto).
    assert (CC : In k (conditionals args) <-> In k (od_keys (p_cond pri) ++ od_keys (p_cond lik))).
    { unfold conditionals. destruct Hargs as [-> | [-> _]]; cbn; rewrite app_nil_r, !in_app_iff; tauto. }
    rewrite MM, CC. specialize (IM k). destruct (in_dec string_dec k keys); tauto. }
  split.
  { intros p k I K. apply in_args in I. assert (Q : variable j k = variable p k) by (apply Varj; auto).
    rewrite Varq; [exact Q|]. unfold variable in Q. destruct (vp_get p k K) as (v & G). rewrite G in Q.
    destruct (od_get (p_vals j) k) as [w|] eqn:Gj; [|discriminate]. eapply od_get_some_key. exact Gj. }
  intros a Ba Hev Hob Hlog.
  assert (LogJ : log_scaled j -> log_scaled pri \/ log_scaled lik).
  { intros Q. apply Lj in Q. destruct Q as (p & I & Q). apply in_args in I. destruct I as [-> | ->]; auto. }
  assert (JE : forall b, both_in_bounds pri lik axes b -> prob_at j L b = joint_at pri lik axes b).
  { intros b Bb. rewrite Pj.
    - unfold joint_at. destruct Hargs as [-> | [-> _]]; cbn; ring.
    - apply Bd. exact Bb.
    - intros (p & I & Lg) r Ir Nr. assert (LL2 : log_scaled pri \/ log_scaled lik) by (apply in_args in I; destruct I as [-> | ->]; auto).
      destruct (Hlog LL2) as (H1 & _). destruct (H1 b Bb) as [H2 _]. apply H2.
      + exists p. split; [|exact Lg]. apply in_args in I. cbn. destruct I as [-> | ->]; auto.
      + apply in_args in Ir. cbn. destruct Ir as [-> | ->]; auto.
      + exact Nr. }
  assert (Jext : extensional (joint_at pri lik axes)).
  { intros b b' E. unfold joint_at. f_equal; apply prob_ext; exact E. }
  assert (SM : sized j (filter g Mp) = sized pri (filter g Mp)).
  { apply map_ext_in. intros k K. f_equal. apply Szp. apply (vp_key_iff pri _ Vp). apply filter_In in K. tauto. }
  assert (NDs : NoDup (map fst (sized j (filter g Mp)))).
  { unfold sized. rewrite map_map. cbn. rewrite map_id. apply filter_nodup, NP. }
  assert (ME : forall b, both_in_bounds pri lik axes b -> marginal_at j L keys b = evidence_at pri lik axes b).
  { intros b Bb. unfold marginal_at, evidence_at. rewrite RE.
    transitivity (sum_over (sized j (filter g Mp)) (joint_at pri lik axes) b).
    - apply sum_over_in_range; [exact NDs|]. intros c Hc Ho. apply JE. apply Bd. intros k K.
      unfold sized in Ho. rewrite map_map in Ho. cbn in Ho. rewrite map_id in Ho.
      destruct (in_dec string_dec k (filter g Mp)) as [Hr|Hr].
      + apply Hc. unfold sized. apply in_map_iff. eauto.
      + rewrite Ho by exact Hr. apply Bd; auto.
    - apply sum_over_perm; [exact Jext|exact NDs|]. rewrite SM. unfold sized. apply Permutation_map. exact PR. }
  rewrite Pq.
  - rewrite JE, ME by exact Ba. reflexivity.
  - apply Bd, Ba.
  - rewrite ME by exact Ba. exact Hev.
  - destruct Hob as [Ho|[Ho1 Ho2]].
    + left. intros k K. apply LL. right. apply Ho. exact K.
    + right.
      assert (PLL : Permutation (filter g Mp) L).
      { apply NoDup_Permutation; [apply filter_nodup, NP|apply (vp_axes _ _ Vj)|]. intros k. unfold g. rewrite filter_In, mem_str_iff.
        split; [tauto|]. intros K. split; auto. apply LL in K. apply Ho1. destruct K; auto. }
      assert (TT : total j L = marginal_at j L keys a).
      { unfold total, marginal_at. rewrite RE.
        assert (NDL : NoDup (map fst (sized j L))) by (unfold sized; rewrite map_map; cbn; rewrite map_id; apply (vp_axes _ _ Vj)).
        rewrite (sum_over_perm (sized j L) (sized j (filter g Mp))).
        - pose proof (sum_over_reads (sized j (filter g Mp)) L (prob_at j L)) as Rd.
          apply Rd.
          + intros b b' E. apply prob_reads. exact E.
          + intros x Hx. apply filter_In in Hx. destruct Hx as [Hx1 Hx2]. apply negb_true_iff, mem_str_false in Hx2. exfalso. apply Hx2.
            unfold sized. rewrite map_map. cbn. rewrite map_id. eapply Permutation_in; [apply Permutation_sym; exact PLL|exact Hx1].
        - apply prob_ext.
        - exact NDL.
        - unfold sized. apply Permutation_map, Permutation_sym, PLL. }
      rewrite TT, ME by exact Ba. split; [exact Hev|]. pose proof npz_pos. pose proof npz_lt_1.
      unfold Rdiv. rewrite Rinv_r by lra. lra.
  - intros Q. apply LogJ in Q. destruct (Hlog Q) as (H1 & H2 & H3). split; [|split].
    + intros b Bb. apply Bd in Bb. rewrite JE by exact Bb. apply H1. exact Bb.
    + rewrite Fj. replace (Rprod (map (fun p => factor (spec_of (p_pscale p))) args)) with (factor (spec_of (p_pscale pri)) * factor (spec_of (p_pscale lik)))%R; [exact H2|].
      destruct Hargs as [-> | [-> _]]; cbn; ring.
    + rewrite JE, ME by exact Ba. exact H3.
Qed.

(** The product divided by the prior is the likelihood. *)
Lemma bayes_back : od_keys (p_cond pri) = [] -> incl (od_keys (p_cond lik)) (od_keys (p_marg pri)) ->
  in_name_order pri (axes pri) -> fine_scale pri ->
  exists j r L', product args PSNone = Ok (Some j) /\ truediv j pri = Ok r /\ valid_pd r L' /\
  (forall k, In k L' <-> In k (axes pri) \/ In k (axes lik)) /\
  od_keys (p_marg r) = od_keys (p_marg lik) /\
  (forall k, In k (od_keys (p_cond r)) <-> In k (od_keys (p_marg pri))) /\
  (forall p k, p = pri \/ p = lik -> In k (p_keylist p) -> variable r k = variable p k) /\
  forall a, both_in_bounds pri lik axes a -> log_safe [pri; lik] axes a ->
    (joint_at pri lik axes a <= npi)%R -> (npz <= prob_at pri (axes pri) a <= npi)%R ->
    (log_scaled pri \/ log_scaled lik -> (npz <= prob_at lik (axes lik) a)%R) ->
    prob_at r L' a = prob_at lik (axes lik) a.
Proof.
  intros PC LC [ON1 ON2] FSp.
  assert (Ip : In pri args) by (apply in_args; auto). assert (Il : In lik args) by (apply in_args; auto).
  pose proof (mu_valid _ _ HM _ Ip) as Vp. pose proof (mu_valid _ _ HM _ Il) as Vl.
  destruct (product_multipliable args axes HM) as (j & L & Ej & Vj & [Kj Oj] & Mj & Cj & Varj & _ & Sj & Fj & Lj & Pj).
  set (Mp := od_keys (p_marg pri)) in *. set (keys := od_keys (p_marg lik)) in *.
  assert (Varp : forall k, In k (p_keylist pri) -> variable j k = variable pri k) by (intros; apply Varj; auto).
  assert (Varl : forall k, In k (p_keylist lik) -> variable j k = variable lik k) by (intros; apply Varj; auto).
  assert (KJ : forall k, In k (p_keylist j) -> In k (p_keylist pri) \/ In k (p_keylist lik)).
  { intros k K. apply (vp_key_iff j L Vj) in K.
    assert (Q : exists p, In p args /\ In k (p_keylist p)).
    { destruct K as [K|K].
      - rewrite Mj in K. unfold marginals in K. apply in_flat_map in K. destruct K as (p & I & K). exists p. split; auto.
        apply (vp_key_iff p (axes p) (mu_valid _ _ HM p I)). auto.
      - apply Cj in K. destruct K as [K _]. unfold conditionals in K. apply in_flat_map in K. destruct K as (p & I & K). exists p. split; auto.
        apply (vp_key_iff p (axes p) (mu_valid _ _ HM p I)). auto. }
    destruct Q as (p & I & Q). apply in_args in I. destruct I as [-> | ->]; auto. }
  assert (LL : forall k, In k L <-> In k (axes pri) \/ In k (axes lik)).
  { intros k. rewrite (axis_col j L k Vj). split.
    - intros (l & E). assert (K : In k (p_keylist j)) by (apply (vp_incl _ _ Vj), (axis_col j L k Vj); eauto).
      apply KJ in K. destruct K as [K|K]; [left; apply (axis_col pri _ k Vp)|right; apply (axis_col lik _ k Vl)]; exists l; [rewrite <- Varp by auto|rewrite <- Varl by auto]; exact E.
    - intros [K|K].
      + assert (K' := K). apply (vp_incl _ _ Vp) in K'. apply (axis_col pri _ k Vp) in K. destruct K as (l & E). exists l. rewrite Varp; auto.
      + assert (K' := K). apply (vp_incl _ _ Vl) in K'. apply (axis_col lik _ k Vl) in K. destruct K as (l & E). exists l. rewrite Varl; auto. }
  assert (Szp : forall k, In k (p_keylist pri) -> size_of j k = size_of pri k) by (intros k K; unfold size_of; rewrite Varp; auto).
  assert (Szl : forall k, In k (p_keylist lik) -> size_of j k = size_of lik k) by (intros k K; unfold size_of; rewrite Varl; auto).
  assert (Bd : forall a, both_in_bounds pri lik axes a <-> in_bounds j L a).
  { intros a. unfold both_in_bounds, in_bounds. split.
    - intros [B1 B2] k K. apply LL in K. destruct K as [K|K]; [rewrite Szp by (apply (vp_incl _ _ Vp); auto)|rewrite Szl by (apply (vp_incl _ _ Vl); auto)]; auto.
    - intros B. split; intros k K; [rewrite <- Szp by (apply (vp_incl _ _ Vp); auto)|rewrite <- Szl by (apply (vp_incl _ _ Vl); auto)]; apply B, LL; auto. }
  assert (MjE : od_keys (p_marg j) = Mp ++ keys \/ od_keys (p_marg j) = keys ++ Mp).
  { rewrite Mj. unfold marginals. destruct Hargs as [-> | [-> H]]; [left|right]; cbn; rewrite app_nil_r; auto. }
  assert (CE : od_keys (p_cond j) = []).
  { destruct (od_keys (p_cond j)) as [|k l] eqn:E; [reflexivity|exfalso].
    assert (Q : In k (k :: l)) by (left; reflexivity). apply Cj in Q. destruct Q as [Q1 Q2]. apply Q2. rewrite <- Mj.
    assert (Q3 : In k Mp).
    { unfold conditionals in Q1. apply in_flat_map in Q1. destruct Q1 as (p & I & K). apply in_args in I. destruct I as [-> | ->].
      - rewrite PC in K. destruct K.
      - apply LC, K. }
    destruct MjE as [-> | ->]; apply in_or_app; auto. }
  assert (Dis : forall k, In k Mp -> ~ In k keys).
  { intros k K1 K2. destruct (vp_marg_cond j L Vj) as (N & _). destruct MjE as [E | E]; rewrite E in N; apply nodup_app_iff in N; destruct N as (_ & _ & N); apply (N k); auto. }
  set (g := fun k => mem_str k L).
  assert (NJ : NoDup (od_keys (p_marg j) ++ od_keys (p_cond j))) by (rewrite <- Kj; apply (vp_keys _ _ Vj)).
  unfold key_ordered in Oj. rewrite Kj in Oj.
  assert (RK : restrict Mp L = filter g Mp).
  { destruct MjE as [E | E]; rewrite E, <- app_assoc in Oj, NJ; apply restrict_parts in Oj; auto; apply Oj. }
  assert (AX : axes pri = restrict Mp L).
  { rewrite RK. rewrite PC, app_nil_r in ON1. unfold key_ordered in ON2. rewrite ON1 in ON2. fold Mp in ON2.
    rewrite ON2 at 1. apply filter_ext_in. intros k K. unfold g. apply eq_true_iff_eq. rewrite !mem_str_iff.
    split; [intros Q; apply LL; auto|]. intros Q. apply (axis_col pri _ k Vp). apply (axis_col j L k Vj) in Q.
    destruct Q as (l & E). exists l. rewrite <- Varp; auto. apply (vp_key_iff pri _ Vp). auto. }
  assert (FS : fine_scale j).
  { split.
    - destruct Sj as [[Q _]|[-> | ->]]; [exact Q| |]; split; cbn; auto; lra.
    - unfold no_tiny_gap. cbn [factor]. rewrite ln_1, Rminus_0_r, Fj.
      assert (E : Rprod (map (fun p => factor (spec_of (p_pscale p))) args) = (factor (spec_of (p_pscale pri)) * factor (spec_of (p_pscale lik)))%R).
      { destruct Hargs as [-> | [-> _]]; cbn; ring. }
      rewrite E. unfold fine_product in Hf. cbv zeta in Hf. destruct Hf as [-> | H]; [left; apply ln_1|right; exact H]. }
  assert (DV : divisible j L pri (axes pri)).
  { constructor; [constructor|exact AX|].
    - exact Vj.
    - exact Vp.
    - rewrite CE, PC. tauto.
    - intros k K. destruct MjE as [-> | ->]; apply in_or_app; auto.
    - intros k K. symmetry. apply Varp. apply (vp_key_iff pri _ Vp). auto.
    - intros E. exfalso. apply Hcol. rewrite E. reflexivity. }
  destruct (div_divisible j L pri (axes pri) DV FS FSp) as (r & Er & (Vr & Mr & Cr & Sr & Vv) & Pr).
  exists j, r, L. split; [exact Ej|]. split; [exact Er|]. split; [exact Vr|]. split; [exact LL|].
  split.
  { rewrite Mr. assert (FK : forall (f : string -> bool) (d : odict string), od_keys (filter (fun ke => f (fst ke)) d) = filter f (od_keys d)).
    { intros f d. unfold od_keys. induction d as [|[k e] d IHd]; [reflexivity|]. cbn. destruct (f k); cbn; rewrite IHd; reflexivity. }
    rewrite (FK (fun k => negb (mem_str k (od_keys (p_marg pri))))). fold Mp.
    destruct MjE as [-> | ->]; rewrite filter_app.
    - rewrite (filter_self _ keys), (filter_none _ Mp); auto.
      + intros k K M. apply negb_true_iff, mem_str_false in M. tauto.
      + intros k K. apply negb_true_iff, mem_str_false. intros Q. apply (Dis k Q K).
    - rewrite (filter_self _ keys), (filter_none _ Mp), app_nil_r; auto.
      + intros k K M. apply negb_true_iff, mem_str_false in M. tauto.
      + intros k K. apply negb_true_iff, mem_str_false. intros Q. apply (Dis k Q K). }
  split. { intros k. rewrite Cr, CE. cbn. tauto. }
  split.
  { intros p k I K. apply in_args in I. assert (Q : variable j k = variable p k) by (apply Varj; auto).
    rewrite Vv; [exact Q|]. unfold variable in Q. destruct (vp_get p k K) as (v & G). rewrite G in Q.
    destruct (od_get (p_vals j) k) as [w|] eqn:Gj; [|discriminate]. eapply od_get_some_key. exact Gj. }
  intros a Ba Hls Hj Hp Hlog.
  assert (LogJ : log_scaled j -> log_scaled pri \/ log_scaled lik).
  { intros Q. apply Lj in Q. destruct Q as (p & I & Q). apply in_args in I. destruct I as [-> | ->]; auto. }
  assert (JE : prob_at j L a = joint_at pri lik axes a).
  { rewrite Pj.
    - unfold joint_at. destruct Hargs as [-> | [-> _]]; cbn; ring.
    - apply Bd. exact Ba.
    - intros (p & I & Lg) x Ix Nx. apply Hls.
      + exists p. split; [|exact Lg]. apply in_args in I. cbn. destruct I as [-> | ->]; auto.
      + apply in_args in Ix. cbn. destruct Ix as [-> | ->]; auto.
      + exact Nx. }
  pose proof npz_pos.
  assert (QE : (prob_at j L a / prob_at pri (axes pri) a)%R = prob_at lik (axes lik) a).
  { rewrite JE. unfold joint_at. field. lra. }
  rewrite Pr.
  - exact QE.
  - apply Bd, Ba.
  - rewrite JE. exact Hj.
  - exact Hp.
  - intros Q. rewrite QE. apply Hlog, LogJ, Q.
Qed.
End Bayes.
