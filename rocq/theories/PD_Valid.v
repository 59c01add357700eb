(** Consequences of [valid_pd], and building one distribution from another. *)
From Coq Require Import String ZArith Reals Lra Bool Arith Lia Permutation List.
From Verif Require Import Base Num Tensor TensorBcast OdLemmas TensorLemmas PScales Names Names_Spec
  Distr PDModel PD_Spec PD_Make PD_Sums.
Import ListNotations.

Section Valid.
Context {F : Fmt R}.
Variable p : pd R.
Variable L : list string.
Hypothesis V : valid_pd p L.

Lemma vp_get k : In k (p_keylist p) -> exists v, od_get (p_vals p) k = Some v.
Proof. intros H. apply od_key_get. exact H. Qed.

Lemma vp_axis k : In k L ->
  exists a, od_get (p_vals p) k = Some (VArr a) /\
    shape a = repeat 1 (pos k L) ++ size_of p k :: repeat 1 (length L - S (pos k L)) /\
    tsize a = size_of p k /\ 0 < size_of p k /\
    nth_error (p_shape p) (pos k L) = Some (size_of p k) /\
    od_get (p_dims p) k = Some (Some (Z.of_nat (pos k L))).
Proof.
  intros Hk. pose proof (pos_nth _ _ Hk) as Hj.
  destruct (vp_column _ _ V _ _ Hj) as (a & n & G & Pn & Sh & Nt & D).
  assert (Sz : size_of p k = n).
  { assert (E : var_of (VArr a) = Col (to_list a)).
    { cbn. rewrite Sh. destruct (pos k L); reflexivity. }
    unfold size_of, variable. rewrite G, E, to_list_length.
    unfold tsize. rewrite Sh. apply prod_axis. }
  rewrite Sz. exists a. repeat split; auto. unfold tsize. rewrite Sh. apply prod_axis.
Qed.

Lemma vp_tsize k a : In k L -> od_get (p_vals p) k = Some (VArr a) ->
  tsize a = size_of p k /\ shape a <> [] /\ tsize a = list_max (shape a) /\ 0 < tsize a.
Proof.
  intros Hk G. destruct (vp_axis k Hk) as (a' & G' & Sh & Ts & Pn & _).
  rewrite G in G'. inversion G'; subst a'. rewrite Sh in *. repeat split; auto.
  - destruct (pos k L); discriminate.
  - rewrite list_max_axis; auto.
  - lia.
Qed.

Lemma vp_sing k v : od_get (p_vals p) k = Some v -> (issingleton v = true <-> ~ In k L).
Proof.
  intros G. split.
  - intros S Hk. destruct (vp_axis k Hk) as (a & G' & _). rewrite G in G'. inversion G'; subst.
    destruct (vp_tsize k a Hk G) as (_ & Sn & _). rewrite arr_not_singleton in S; auto. discriminate.
  - intros Hk. apply (vp_scalar _ _ V k v G Hk).
Qed.

Lemma vp_sing_false k v : od_get (p_vals p) k = Some v -> (issingleton v = false <-> In k L).
Proof.
  intros G. pose proof (vp_sing k v G). destruct (issingleton v).
  - split; [discriminate|]. intros Hk. exfalso. tauto.
  - split; auto. intros _. destruct (in_dec string_dec k L); auto. exfalso.
    assert (false = true) by tauto. discriminate.
Qed.

Lemma vp_dim_scalar k : In k (p_keylist p) -> ~ In k L -> od_get (p_dims p) k = Some None.
Proof.
  intros Hk Hn. destruct (vp_get k Hk) as (v & G). apply (vp_scalar _ _ V k v G Hn).
Qed.

Lemma vp_shape_sizes : p_shape p = map (size_of p) L.
Proof.
  apply nth_ext with (d := 0) (d' := 0).
  - rewrite map_length. apply (vp_shape _ _ V).
  - intros j Hj. rewrite (vp_shape _ _ V) in Hj.
    destruct (nth_error L j) as [k|] eqn:Ek; [|apply nth_error_None in Ek; lia].
    assert (Hk : In k L) by (eapply nth_error_In; eauto).
    destruct (vp_axis k Hk) as (a & _ & _ & _ & _ & Nt & _).
    rewrite (nth_pos k L j (vp_axes _ _ V) Ek) in Nt.
    rewrite (nth_error_nth _ _ _ Nt).
    symmetry. apply nth_error_nth. rewrite nth_error_map, Ek. reflexivity.
Qed.

Lemma vp_items : p_items p = map (fun kv => (kv, issingleton (snd kv))) (p_vals p).
Proof. unfold p_items. rewrite (vp_aresing _ _ V). apply combine_map_self. Qed.

Lemma vp_marg_cond : NoDup (od_keys (p_marg p)) /\ NoDup (od_keys (p_cond p)) /\
  forall k, In k (od_keys (p_marg p)) -> ~ In k (od_keys (p_cond p)).
Proof.
  apply nodup_app_iff. eapply Permutation_NoDup; [apply Permutation_sym, (vp_names _ _ V)|].
  apply (vp_keys _ _ V).
Qed.

Lemma vp_key_iff k : In k (p_keylist p) <-> In k (od_keys (p_marg p)) \/ In k (od_keys (p_cond p)).
Proof.
  rewrite <- in_app_iff. split; apply Permutation_in; [apply Permutation_sym|]; apply (vp_names _ _ V).
Qed.

Lemma vp_combine_sizes : combine L (p_shape p) = sized p L.
Proof.
  rewrite vp_shape_sizes. unfold sized. clear. induction L; cbn; congruence.
Qed.

Lemma vp_dim k : In k (p_keylist p) ->
  od_getR (p_dims p) k = Ok (if mem_str k L then Some (Z.of_nat (pos k L)) else None).
Proof.
  intros Hk. apply od_getR_ok. destruct (mem_str k L) eqn:M.
  - apply mem_str_iff in M. destruct (vp_axis k M) as (a & H). apply H.
  - apply mem_str_false in M. apply vp_dim_scalar; auto.
Qed.

Lemma vp_in_items k v s : In ((k, v), s) (p_items p) ->
  od_get (p_vals p) k = Some v /\ s = negb (mem_str k L) /\ In k (p_keylist p).
Proof.
  rewrite vp_items. intros H. apply in_map_iff in H. destruct H as ([k0 v0] & E & Hin).
  cbn in E. inversion E; subst. apply od_in_get in Hin; [|apply (vp_keys _ _ V)].
  split; auto. split; [|eapply od_get_some_key; exact Hin].
  pose proof (vp_sing_false k v Hin). pose proof (vp_sing k v Hin).
  destruct (mem_str k L) eqn:M; cbn.
  - apply mem_str_iff in M. tauto.
  - apply mem_str_false in M. tauto.
Qed.

(** A distribution over some of the variables of p. *)
Lemma make_pd_from (vals : odict (value R)) (dims : odict (option Z)) (L' : list string)
    (marg cond : odict string) (t : tensor R) (ps : pspec R) (psc : pscale R) :
  NoDup (od_keys vals) -> vals <> [] -> incl (od_keys vals) (p_keylist p) ->
  (forall k v, od_get vals k = Some v -> ~ In k L -> od_get (p_vals p) k = Some v) ->
  (forall k v, od_get vals k = Some v -> In k L ->
     exists a, v = VArr a /\ shape a <> [] /\ tsize a = list_max (shape a) /\
               variable p k = Some (Col (to_list a))) ->
  NoDup L' -> (forall k, In k L' <-> In k L /\ In k (od_keys vals)) ->
  (forall j k, nth_error L' j = Some k -> od_get dims k = Some (Some (Z.of_nat j))) ->
  (forall k, In k (od_keys vals) -> ~ In k L -> od_get dims k = None \/ od_get dims k = Some None) ->
  incl (od_keys dims) (od_keys vals) -> NoDup (od_keys dims) ->
  shape t = map (size_of p) L' ->
  (forall ke, In ke (marg ++ cond) -> In ke (p_marg p ++ p_cond p)) ->
  Permutation (od_keys marg ++ od_keys cond) (od_keys vals) ->
  eval_pscale ps = Ok psc -> eval_pscale (spec_of psc) = Ok psc ->
  exists q, make_pd (margcond_str (od_vals marg) (od_vals cond)) vals (Some dims) (Some t) ps = Ok q /\
    valid_pd q L' /\ p_keylist q = od_keys vals /\
    p_marg q = marg /\ p_cond q = cond /\
    p_prob q = Some t /\ p_pscale q = psc /\
    (forall k, In k (od_keys vals) -> variable q k = variable p k).
Proof.
  intros ND NE IK HS HA NL HL HD HDs ID NDd SH HE PM EP EI.
  assert (RI : forall m, incl m (marg ++ cond) -> map (render vals L') m = m).
  { intros m Hm. rewrite <- (map_id m) at 2. apply map_ext_in. intros [k e] Hin.
    unfold render. cbn. f_equal. destruct (mem_str k L') eqn:M; auto.
    destruct (od_get vals k) as [v|] eqn:G; auto.
    apply mem_str_false in M.
    assert (Hk : ~ In k L). { intros C. apply M. apply HL. split; auto. eapply od_get_some_key; eauto. }
    symmetry. apply (vp_rendered _ _ V k v e); auto.
    apply od_in_get.
    - unfold od_keys. rewrite map_app. eapply Permutation_NoDup; [apply Permutation_sym, (vp_names _ _ V)|apply (vp_keys _ _ V)].
    - apply HE. apply Hm. auto. }
  assert (GE : Forall (fun ke => good_entry (snd ke) /\ key_of (snd ke) (fst ke)) (marg ++ cond)).
  { apply Forall_forall. intros ke Hke. apply HE in Hke.
    pose proof (vp_entries _ _ V) as VE. rewrite Forall_forall in VE. apply VE; auto. }
  destruct (@make_pd_ok F vals dims L' marg cond t ps psc) as
    (q & E & Vq & Kq & Mq & Cq & Pq & Sq & Varq); auto.
  - intros k Hk. apply (vp_reserved _ _ V). auto.
  - intros k Hk. apply HL in Hk. tauto.
  - intros k v G Hk. assert (Hn : ~ In k L).
    { intros C. apply Hk. apply HL. split; auto. eapply od_get_some_key; eauto. }
    split; [|apply HDs; auto; eapply od_get_some_key; eauto].
    apply (vp_sing k v); auto.
  - intros j k Hj. assert (Hk : In k L') by (eapply nth_error_In; eauto).
    apply HL in Hk as Hk'. destruct Hk' as [Hk1 Hk2].
    apply od_key_get in Hk2. destruct Hk2 as (v & G).
    destruct (HA k v G Hk1) as (a & -> & Sn & Mx & Vr).
    exists a. repeat split; auto.
    + destruct (vp_axis k Hk1) as (a0 & G0 & _ & T0 & P0 & _).
      unfold variable in Vr. rewrite G0 in Vr. cbn in Vr.
      destruct (shape a0) eqn:S0; [discriminate|]. inversion Vr as [El].
      apply (f_equal (@length R)) in El. rewrite !to_list_length in El. lia.
    + rewrite SH, nth_error_map, Hj. cbn. f_equal. unfold size_of. rewrite Vr.
      apply to_list_length.
  - rewrite SH, map_length. reflexivity.
  - rewrite RI by (apply incl_refl). auto.
  - exists q. rewrite RI in Mq by (apply incl_appl, incl_refl).
    rewrite RI in Cq by (apply incl_appr, incl_refl).
    do 7 (split; [assumption|]).
    intros k Hk. rewrite Varq. apply od_key_get in Hk. destruct Hk as (v & G). rewrite G.
    destruct (in_dec string_dec k L) as [Hk|Hk].
    + destruct (HA k v G Hk) as (a & -> & Sn & Mx & Vr). rewrite Vr. cbn.
      destruct (shape a); [contradiction|reflexivity].
    + unfold variable. rewrite (HS k v G Hk). reflexivity.
Qed.

(** The probabilities on the linear scale one. *)
Lemma vp_prob_get : exists t, p_prob p = Some t /\ p_probR p = Ok t /\ shape t = map (size_of p) L.
Proof.
  destruct (vp_prob _ _ V) as (t & E & S). exists t. unfold p_probR. rewrite E.
  repeat split; auto. rewrite S. apply vp_shape_sizes.
Qed.

End Valid.
