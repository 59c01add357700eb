(** Where marginalise puts the variables that are left, for every distribution. *)
From Coq Require Import String ZArith Reals Lra Bool Arith Lia Permutation List.
From Verif Require Import Base Num Tensor TensorBcast OdLemmas TensorLemmas RNumLemmas PScales
  PScales_Spec PScales_Proofs Names Names_Spec Names_Proofs Distr PDModel PD_Spec PD_Make PD_Sums
  PD_Valid PD_Marg PD_Marg2 PD_MargRefute PD_MargThm.
Import ListNotations.
Local Open Scope list_scope.
Local Open Scope nat_scope.

Section P.
Context {F : Fmt R}.

Lemma fold_inv {A B} (f : A -> B -> result A) (P : A -> Prop) :
  (forall a b a', P a -> f a b = Ok a' -> P a') -> forall l a a', P a -> fold_res f l a = Ok a' -> P a'.
Proof.
  intros H. induction l as [|b l IH]; cbn; intros a a' Pa E; [injection E as <-; exact Pa|].
  destruct (f a b) as [a1|e] eqn:E1; cbn in E; [|discriminate]. eapply IH; [|exact E]. eapply H; eauto.
Qed.

Lemma dims_step_keeps (st st' : @dstate R) kv k d : od_get (s_dims st) k = Some d ->
  dims_step false st kv = Ok st' -> od_get (s_dims st') k = Some d.
Proof.
  intros G. unfold dims_step. destruct (issingleton (snd kv)).
  - destruct (od_get (s_dims st) (fst kv)) as [[d'|]|] eqn:E; intros H; try discriminate; injection H as <-; [exact G|].
    cbn. rewrite od_get_set_ne; [exact G|]. intros ->. congruence.
  - destruct (snd kv) as [| | |a|]; try discriminate. destruct (assert_ _); cbn [bind]; [|discriminate].
    destruct (assert_ _); cbn [bind]; [|discriminate]. destruct (od_get (s_dims st) (fst kv)) as [[d'|]|]; try discriminate.
    destruct (py_indexR (length (s_shape st)) d') as [i|]; cbn [bind]; [|discriminate].
    destruct (py_indexR (s_ndim st) d') as [j|]; cbn [bind]; [|discriminate].
    match goal with |- context [if ?b then _ else _] => destruct b end.
    + destruct (reshape _ _); cbn [bind]; [|discriminate]. intros H. injection H as <-. exact G.
    + cbn [bind]. intros H. injection H as <-. exact G.
Qed.

Lemma make_pd_dims name vals dims prob ps (q : pd R) k d : make_pd name vals (Some dims) prob ps = Ok q ->
  od_get dims k = Some d -> od_get (p_dims q) k = Some d.
Proof.
  unfold make_pd. destruct (str_margcond name) as [[m c]|e]; cbn [bind]; [|discriminate].
  destruct (make_dist name vals (Some dims)) as [dd|e] eqn:E; cbn [bind]; [|discriminate].
  destruct (override_names _ _) as [[m' c']|e]; cbn [bind]; [|discriminate].
  destruct (eval_pscale ps); cbn [bind]; [|discriminate]. destruct (check_prob _ _); cbn [bind]; [|discriminate].
  intros H G. injection H as <-. cbn. unfold make_dist in E. destruct vals as [|kv vals]; [injection E as <-; exact G|].
  destruct (clean_vals _) as [vals1|e]; cbn [bind] in E; [|discriminate].
  destruct (fold_res _ _ _) as [st|e] eqn:Ef; cbn [bind] in E; [|discriminate].
  destruct (full_shape _); cbn [bind] in E; [|discriminate]. injection E as <-. cbn.
  refine (@fold_inv _ _ _ (fun st => od_get (s_dims st) k = Some d) _ _ _ _ _ Ef); [|exact G].
  intros st0 b st1 P1 P2. exact (dims_step_keeps _ _ _ _ _ P1 P2).
Qed.

(** The loop of marginalise, whatever the distribution. *)
Lemma step_after (p : pd R) keys it st st' k d : fst (fst it) <> k -> od_get (m_dims st) k = Some d ->
  marginalise_step p keys st it = Ok st' -> od_get (m_dims st') k = Some d.
Proof.
  destruct it as [[k' v] s]. cbn [fst]. intros NE G. unfold marginalise_step. destruct (mem_str k' keys).
  - destruct (assert_ _); cbn [bind]; [|discriminate]. destruct (od_getR _ _) as [[d'|]|]; cbn [bind]; try discriminate.
    intros H. injection H as <-. exact G.
  - destruct s; cbn [bind].
    + intros H. injection H as <-. exact G.
    + destruct (od_getR _ _) as [[d'|]|]; cbn [bind]; try discriminate.
      intros H. injection H as <-. cbn. rewrite od_get_set_ne; [exact G|congruence].
Qed.

Lemma step_delta (p : pd R) keys it st st' : marginalise_step p keys st it = Ok st' ->
  m_delta st' = (m_delta st + Z.of_nat (length (restrict keys [fst (fst it)])))%Z.
Proof.
  destruct it as [[k' v] s]. cbn [fst]. unfold marginalise_step, restrict. cbn [filter]. destruct (mem_str k' keys).
  - destruct (assert_ _); cbn [bind]; [|discriminate]. destruct (od_getR _ _) as [[d'|]|]; cbn [bind]; try discriminate.
    intros H. injection H as <-. reflexivity.
  - destruct s; cbn [bind].
    + intros H. injection H as <-. cbn. lia.
    + destruct (od_getR _ _) as [[d'|]|]; cbn [bind]; try discriminate. intros H. injection H as <-. cbn. lia.
Qed.

Lemma loop_delta (p : pd R) keys its st st' : fold_res (marginalise_step p keys) its st = Ok st' ->
  m_delta st' = (m_delta st + Z.of_nat (length (restrict keys (names its))))%Z.
Proof.
  revert st. induction its as [|it its IH]; cbn [fold_res]; intros st E; [injection E as <-; cbn; lia|].
  destruct (marginalise_step p keys st it) as [s1|e] eqn:E1; cbn [bind] in E; [|discriminate].
  rewrite (IH _ E), (step_delta _ _ _ _ _ E1). unfold names. cbn [map]. unfold restrict. cbn [filter].
  destruct (mem_str (fst (fst it)) keys); cbn; lia.
Qed.

Lemma fold_res_split {A B} (f : A -> B -> result A) l m a a' : fold_res f (l ++ m) a = Ok a' ->
  exists a1, fold_res f l a = Ok a1 /\ fold_res f m a1 = Ok a'.
Proof.
  revert a. induction l as [|b l IH]; cbn; intros a E; [eauto|]. destruct (f a b); cbn in *; [|discriminate]. apply IH. exact E.
Qed.

Lemma items_names (p : pd R) : d_aresing (p_d p) = map (fun kv => issingleton (snd kv)) (p_vals p) ->
  p_items p = map (fun kv => (fst kv, snd kv, issingleton (snd kv))) (p_vals p).
Proof.
  unfold p_items, p_vals. intros ->. induction (d_vals (p_d p)) as [|[k v] l IH]; cbn; [reflexivity|]. f_equal. exact IH.
Qed.

Lemma kept_place (p : pd R) keys q k v d :
  NoDup (p_keylist p) -> d_aresing (p_d p) = map (fun kv => issingleton (snd kv)) (p_vals p) ->
  marginalise p keys = Ok q -> ~ In k keys ->
  od_get (p_vals p) k = Some v -> issingleton v = false -> od_get (p_dims p) k = Some (Some d) ->
  od_get (p_dims q) k = Some (Some (d - Z.of_nat (length (restrict keys (before k (p_keylist p)))))%Z).
Proof.
  intros ND HS E NK G S D. unfold marginalise in E. destruct (keys_marginal p keys); cbn [bind] in E; [|discriminate].
  destruct (fold_res _ _ _) as [st|e] eqn:Ef; cbn [bind] in E; [|discriminate].
  destruct (p_probR p); cbn [bind] in E; [|discriminate]. destruct (rescale _ _ _); cbn [bind] in E; [|discriminate].
  destruct (tsum_axes _ _); cbn [bind] in E; [|discriminate]. destruct (rescale _ _ _); cbn [bind] in E; [|discriminate].
  refine (make_pd_dims _ _ _ _ _ _ _ _ E _). clear E.
  rewrite (items_names _ HS) in Ef. apply od_get_in in G. apply in_split in G as (l1 & l2 & El).
  assert (K : p_keylist p = map fst l1 ++ k :: map fst l2).
  { change (p_keylist p) with (map fst (p_vals p)). rewrite El, map_app. reflexivity. }
  rewrite El, map_app in Ef. cbn [map fst snd] in Ef. apply fold_res_split in Ef as (s1 & E1 & E2). cbn [fold_res] in E2.
  destruct (marginalise_step p keys s1 (k, v, issingleton v)) as [s2|e] eqn:Es; cbn [bind] in E2; [|discriminate].
  rewrite K in ND. pose proof (NoDup_remove_2 _ _ _ ND) as NI. rewrite in_app_iff in NI.
  assert (H2 : od_get (m_dims s2) k = Some (Some (d - m_delta s1)%Z)).
  { unfold marginalise_step in Es. destruct (mem_str k keys) eqn:M; [apply mem_str_iff in M; contradiction|]. rewrite S in Es.
    unfold od_getR in Es. rewrite D in Es. cbn [bind] in Es. injection Es as <-. cbn. apply od_get_set_eq. }
  rewrite K, before_app by tauto. pose proof (loop_delta _ _ _ _ _ E1) as HD. cbn in HD.
  assert (Hn : names (map (fun kv : string * value R => (fst kv, snd kv, issingleton (snd kv))) l1) = map fst l1).
  { unfold names. rewrite map_map. reflexivity. }
  rewrite Hn in HD. rewrite HD in H2.
  clear -E2 H2 NI. revert s2 H2 E2. induction l2 as [|[k' v'] l2 IH]; cbn [map fold_res]; intros s2 H2 E2; [injection E2 as <-; exact H2|].
  cbn [fst snd] in E2. destruct (marginalise_step p keys s2 _) as [s3|e] eqn:Es; cbn [bind] in E2; [|discriminate].
  refine (IH _ s3 _ E2).
  - cbn [map fst In] in NI. tauto.
  - refine (step_after _ _ _ _ _ _ _ _ H2 Es). cbn. cbn [map fst In] in NI. intros ->. tauto.
Qed.

Lemma counts_keys (p : pd R) keys q k v d :
  NoDup (p_keylist p) -> d_aresing (p_d p) = map (fun kv => issingleton (snd kv)) (p_vals p) ->
  marginalise p keys = Ok q -> NoDup keys -> ~ In k keys -> incl keys (before k (p_keylist p)) ->
  od_get (p_vals p) k = Some v -> issingleton v = false -> od_get (p_dims p) k = Some (Some d) ->
  od_get (p_dims q) k = Some (Some (d - Z.of_nat (length keys))%Z).
Proof.
  intros ND HS E NDk NK IB G S D. rewrite (kept_place p keys q k v d ND HS E NK G S D). do 4 f_equal.
  apply Permutation_length. apply NoDup_Permutation; [|exact NDk|].
  - apply filter_nodup. apply od_get_some_key in G. change (In k (p_keylist p)) in G. apply in_split in G as (l1 & l2 & El).
    rewrite El in ND |- *. pose proof (NoDup_remove_2 _ _ _ ND) as NI. rewrite before_app by (rewrite in_app_iff in NI; tauto).
    clear -ND. induction l1 as [|x l1 IH]; [constructor|]. inversion ND; subst. constructor; [rewrite in_app_iff in *; tauto|auto].
  - intros x. rewrite in_restrict. split; [tauto|]. auto.
Qed.

Lemma correct_iff (p : pd R) (L keys : list string) :
  valid_pd p L -> fine_scale p -> incl keys (od_keys (p_marg p)) -> incl keys L -> without keys (p_keylist p) <> [] ->
  ((exists q, marginalise p keys = Ok q /\ valid_pd q (without keys L)) <->
   forall k, In k (without keys L) ->
     length (restrict keys (before k (p_keylist p))) = length (restrict keys (before k L))).
Proof.
  intros V FS IM IK NE. split.
  - intros (q & E & Vq) k I. apply in_without in I as I'. destruct I' as [IL NK].
    destruct (In_nth_error _ _ IL) as (j & Ej). destruct (vp_column _ _ V _ _ Ej) as (a & n & G & Pn & Sh & _ & D).
    assert (Sg : issingleton (VArr a) = false) by (apply arr_not_singleton; rewrite Sh; destruct j; discriminate).
    pose proof (kept_place p keys q k _ _ (vp_keys _ _ V) (vp_aresing _ _ V) E NK G Sg D) as D1.
    destruct (vp_column _ _ Vq _ _ (pos_nth k _ I)) as (_ & _ & _ & _ & _ & _ & D2).
    rewrite D1 in D2. injection D2 as D2.
    assert (Pj : pos k L = j).
    { apply (proj1 (NoDup_nth_error L) (vp_axes _ _ V)); [apply pos_lt; exact IL|]. rewrite Ej. apply pos_nth. exact IL. }
    pose proof (restrict_before_le keys k L IL NK) as LE.
    pose proof (pos_without k keys L IL NK) as PW. lia.
  - intros AL. destruct (marginalise_aligned F p L keys V FS IM IK AL NE) as (q & E & Vq & _). eauto.
Qed.

End P.
