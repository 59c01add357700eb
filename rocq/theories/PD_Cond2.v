(** Conditioning: what conditionalise returns when the axes can be reordered. *)
From Coq Require Import String ZArith Reals Lra Bool Arith Lia Permutation List.
From Verif Require Import Base Num Tensor TensorBcast OdLemmas TensorLemmas RNumLemmas PScales PScales_Spec
  PScales_Proofs PScales_Prod Names Names_Spec Distr PDModel PDUtils PD_Spec PD_Make PD_Sums PD_Valid PD_Marg PD_Align
  PD_Move PD_Cond.
Import ListNotations.

Lemma fold_max_ge (l : list R) x : (x <= fold_left n_max l x)%R /\ forall y, In y l -> (y <= fold_left n_max l x)%R.
Proof.
  revert x. induction l as [|z l IH]; intros x; cbn; [split; [lra|tauto]|].
  destruct (IH (n_max x z)) as [H1 H2]. rewrite n_max_R in *. pose proof (Rmax_l x z). pose proof (Rmax_r x z).
  split; [lra|]. intros y [->|Hy]; [lra|auto].
Qed.

Lemma fold_max_in (l : list R) x : fold_left n_max l x = x \/ In (fold_left n_max l x) l.
Proof.
  revert x. induction l as [|z l IH]; intros x; cbn; auto.
  destruct (IH (n_max x z)) as [H|H]; auto. rewrite H, n_max_R. unfold Rmax. destruct (Rle_dec x z); auto.
Qed.

Lemma tmax_ok (t : tensor R) : 0 < tsize t ->
  exists m, tmax t = Ok m /\ (forall idx, in_range (shape t) idx -> get t idx <= m)%R /\
    exists idx, in_range (shape t) idx /\ get t idx = m.
Proof.
  intros H. unfold tmax. pose proof (to_list_length t) as Ll.
  assert (Get : forall x, In x (to_list t) -> exists idx, in_range (shape t) idx /\ get t idx = x).
  { intros x Hx. unfold to_list in Hx. apply in_map_iff in Hx. destruct Hx as (i & <- & Hi). apply in_seq in Hi.
    eexists. split; [|reflexivity]. apply unravel_in_range. unfold tsize in *. lia. }
  assert (Put : forall idx, in_range (shape t) idx -> In (get t idx) (to_list t)).
  { intros idx Hi. rewrite <- (to_list_get t 0%R Hi). apply nth_In. rewrite Ll. apply ravel_lt. auto. }
  destruct (to_list t) as [|x l] eqn:E; [cbn in Ll; lia|].
  exists (fold_left n_max l x). split; auto. destruct (fold_max_ge l x) as [G1 G2]. split.
  - intros idx Hi. apply Put in Hi. destruct Hi as [<-|Hi]; auto.
  - apply Get. destruct (fold_max_in l x) as [->|Hm]; cbn; auto.
Qed.

Section Cond2.
Context {F : Fmt R}.
Variable p : pd R.
Variable L : list string.
Hypothesis V : valid_pd p L.
Hypothesis FS : fine_scale p.
Variable keys : list string.
Hypothesis NK : NoDup keys.
Hypothesis IM : incl keys (od_keys (p_marg p)).
Variable L' : list string.
Hypothesis NL' : NoDup L'.
Hypothesis LL : forall k, In k L' <-> In k L.
Hypothesis NEW : forall k, In k L -> newdim p L keys k = Z.of_nat (pos k L').

Notation sz := (size_of p).
Notation P := (prob_at p L).

Lemma is_log_kind : is_log (p_pscale p) = log_kind (spec_of (p_pscale p)).
Proof.
  pose proof (vp_pscale _ _ V) as H. destruct (p_pscale p) as [c|re im]; [|reflexivity].
  cbn. destruct (Req_EM_T c 0) as [->|]; auto. exfalso. cbn in H.
  destruct (n_eqb 0%R n1) eqn:Ea.
  - apply Reqb_iff in Ea. change (n1 : R) with 1%R in Ea. lra.
  - assert (Eb : n_eqb 0%R n0 = true) by (apply Reqb_iff; reflexivity). rewrite Eb in H. discriminate H.
Qed.

Lemma newdim_inj x y : In x L -> In y L -> newdim p L keys x = newdim p L keys y -> x = y.
Proof.
  intros Hx Hy E. rewrite !NEW in E by auto. apply Nat2Z.inj in E. apply LL in Hx, Hy. apply (pos_inj x y L'); auto.
Qed.

Lemma sz_pos k : In k L -> 0 < sz k.
Proof.
  intros Hk. destruct (vp_axis p L V k Hk) as (a & Ga & _).
  apply In_nth_error in Hk as Hj. destruct Hj as [j Hj].
  destruct (vp_column _ _ V j k Hj) as (b & n & Gb & Hn & Sb & _). rewrite Ga in Gb. inversion Gb; subst b.
  unfold size_of, variable. rewrite Ga. unfold var_of. rewrite Sb.
  destruct (repeat 1 j ++ n :: repeat 1 (length L - S j)) as [|s0 s1] eqn:Es; [destruct j; discriminate|].
  rewrite to_list_length. unfold tsize. rewrite Sb, <- Es. rewrite prod_axis. auto.
Qed.

Lemma prob_ext : extensional P.
Proof. intros b b' E. unfold prob_at. replace (map b' L) with (map b L); auto. apply map_ext. auto. Qed.

Lemma prob_reads b b' : (forall k, In k L -> b k = b' k) -> P b = P b'.
Proof. intros E. unfold prob_at. replace (map b' L) with (map b L); auto. apply map_ext_in. auto. Qed.

(** redim: the same variables, reshaped *)
Lemma redim_ok : exists d, redim (p_d p) (newdims p L keys) = Ok d /\
  od_keys (d_vals d) = od_keys (newdims p L keys) /\
  (forall k v, od_get (d_vals d) k = Some v -> ~ In k L -> od_get (p_vals p) k = Some v) /\
  (forall k v, od_get (d_vals d) k = Some v -> In k L ->
     exists a, v = VArr a /\ shape a <> [] /\ tsize a = list_max (shape a) /\
               variable p k = Some (Col (to_list a))).
Proof.
  unfold redim.
  assert (E1' : exists l, map_res (fun key =>
              let! old := od_getR (d_dims (p_d p)) key in
              match old with
              | Some _ => assert_ (od_mem (newdims p L keys) key)
              | None => match od_get (newdims p L keys) key with
                        | Some (Some _) => Err AssertionError
                        | _ => Ok tt
                        end
              end) (d_keylist (p_d p)) = Ok l).
  { assert (Hs : forall key, In key (d_keylist (p_d p)) -> (let! old := od_getR (d_dims (p_d p)) key in
              match old with
              | Some _ => assert_ (od_mem (newdims p L keys) key)
              | None => match od_get (newdims p L keys) key with
                        | Some (Some _) => Err AssertionError
                        | _ => Ok tt
                        end
              end) = Ok tt).
    { intros k Hk. change (In k (p_keylist p)) in Hk. pose proof (vp_dim p L V k Hk) as D. unfold p_dims in D. rewrite D.
      destruct (mem_str k L) eqn:M; cbn [bind].
      - assert (O : od_mem (newdims p L keys) k = true) by (apply od_mem_iff, (in_newdims p L V keys IM); auto). rewrite O. reflexivity.
      - apply mem_str_false in M. rewrite (newdims_scalar p L V keys NK k) by auto. reflexivity. }
    exists (map (fun _ => tt) (d_keylist (p_d p))). apply map_res_ok. revert Hs. generalize (d_keylist (p_d p)). clear.
    induction l as [|k l IH]; intros Hs; cbn [map]; constructor; [apply Hs; cbn; auto|apply IH; intros; apply Hs; cbn; auto]. }
  destruct E1' as [l ->]. cbn [bind].
  set (vals := map (fun k => (k, match od_get (p_vals p) k with Some v => v | None => VArr (of_list 0%R []) end)) (od_keys (newdims p L keys))).
  assert (E2 : map_res (fun key => let! v := od_getR (d_vals (p_d p)) key in Ok (key, v)) (od_keys (newdims p L keys)) = Ok vals).
  { unfold vals. apply map_res_ok.
    assert (I : forall k, In k (od_keys (newdims p L keys)) -> In k (p_keylist p)) by (intros k; apply (in_newdims p L V keys IM)).
    revert I. generalize (od_keys (newdims p L keys)). intros l0 I. induction l0 as [|k l0 IH]; cbn [map]; constructor.
    - destruct (vp_get p k) as [v G]; [apply I; cbn; auto|]. unfold od_getR. change (d_vals (p_d p)) with (p_vals p). rewrite G. reflexivity.
    - apply IH. intros x Hx. apply I. cbn. auto. }
  rewrite E2. cbn [bind].
  assert (Kv : od_keys vals = od_keys (newdims p L keys)) by (unfold vals, od_keys; rewrite map_map; cbn; apply map_id).
  assert (Gv : forall k, od_get vals k = if in_dec string_dec k (p_keylist p) then od_get (p_vals p) k else None).
  { intros k. destruct (in_dec string_dec k (p_keylist p)) as [H|H].
    - destruct (vp_get p k H) as [v G]. rewrite G. apply od_in_get.
      + rewrite Kv. apply (nodup_newdims p L V keys NK).
      + unfold vals. apply in_map_iff. exists k. rewrite G. split; auto. apply (in_newdims p L V keys IM). auto.
    - apply od_get_none. rewrite Kv. rewrite (in_newdims p L V keys IM). auto. }
  assert (Gv' : forall k v, od_get vals k = Some v -> od_get (p_vals p) k = Some v).
  { intros k v G. rewrite Gv in G. destruct (in_dec string_dec k (p_keylist p)); congruence. }
  assert (Lp : incl L (p_keylist p)) by apply (vp_incl _ _ V).
  destruct (@make_dist_ok R (d_name (p_d p)) vals (newdims p L keys) L') as
    (d & Ed & _ & Kd & Hs & Ha & _).
  - rewrite Kv. apply (nodup_newdims p L V keys NK).
  - intros C. rewrite C in Kv. cbn in Kv. pose proof (vp_some _ _ V) as Ns. destruct (p_keylist p) as [|k0 r] eqn:Ek; [congruence|].
    assert (In k0 (od_keys (newdims p L keys))) by (apply (in_newdims p L V keys IM); rewrite Ek; cbn; auto). rewrite <- Kv in H. destruct H.
  - intros k Hk. rewrite Kv in Hk. apply (in_newdims p L V keys IM) in Hk. apply (vp_reserved _ _ V). auto.
  - auto.
  - intros k Hk. rewrite Kv. apply (in_newdims p L V keys IM). apply Lp, LL. auto.
  - intros k v G Hn. assert (Hn' : ~ In k L) by (rewrite <- LL; auto). apply Gv' in G. split.
    + apply (vp_scalar _ _ V k v); auto.
    + right. apply (newdims_scalar p L V keys NK); auto. eapply od_get_some_key; eauto.
  - intros j k Hj. assert (Hk : In k L) by (apply LL; eapply nth_error_In; eauto).
    destruct (vp_axis p L V k Hk) as (a & Ga & _). exists a.
    destruct (vp_tsize p L V k a Hk Ga) as (T1 & T2 & T3 & T4).
    rewrite Gv. destruct (in_dec string_dec k (p_keylist p)) as [_|C]; [|exfalso; apply C, Lp; auto].
    repeat split; auto. rewrite (newdims_col p L V keys NK k Hk), NEW by auto.
    rewrite (nth_pos k L' j); auto.
  - rewrite Kv. apply incl_refl.
  - apply (nodup_newdims p L V keys NK).
  - exists d. split; [exact Ed|]. split; [transitivity (od_keys vals); auto|].
    assert (In' : forall k v, od_get (d_vals d) k = Some v -> exists v0, od_get vals k = Some v0 /\ od_get (p_vals p) k = Some v0).
    { intros k v G. apply od_get_some_key in G. change (In k (d_keylist d)) in G. rewrite Kd in G. apply od_key_get in G.
      destruct G as [v0 G]. exists v0. auto. }
    split.
    + intros k v G Hn. destruct (In' k v G) as (v0 & G0 & G1). destruct (Hs k v0 G0) as [H1 _]; [rewrite LL; auto|]. congruence.
    + intros k v G Hk. destruct (In' k v G) as (v0 & G0 & G1).
      destruct (vp_axis p L V k Hk) as (a & Ga & _). rewrite G1 in Ga. inversion Ga; subst v0.
      destruct (vp_tsize p L V k a Hk G1) as (T1 & T2 & T3 & T4).
      assert (Hk' : In k L') by (apply LL; auto). apply In_nth_error in Hk'. destruct Hk' as [j Hj].
      destruct (Ha j k a Hj G0) as (a' & Ga' & Sa & Ta & _). rewrite G in Ga'. inversion Ga'; subst v.
      assert (Hj' : j < length L') by (apply nth_error_Some; congruence).
      exists a'. split; auto. split; [rewrite Sa; unfold axis_shape; destruct (length L'); [lia|]; destruct j; discriminate|].
      assert (Tp : 0 < tsize a).
      { pose proof (sz_pos k Hk) as S0. unfold size_of, variable in S0. rewrite G1 in S0. cbn in S0.
        destruct (shape a) eqn:Es; [contradiction|]. rewrite to_list_length in S0. auto. }
      split.
      * unfold tsize at 1. rewrite Sa, prod_axis_shape by auto. unfold axis_shape. rewrite set_nth_repeat by auto.
        rewrite list_max_axis; auto.
      * unfold variable. rewrite G1. cbn. destruct (shape a) eqn:Es; [contradiction|]. congruence.
Qed.

(** *** the probabilities *)
Definition tot : R := total p L.

(** after normalisation by the total, when a scalar is among the keys *)
Definition Q (b : assignment) : R := if cnorm p L keys then (P b / tot)%R else P b.

Definition norm_ok : Prop :=
  if cnorm p L keys
  then (log_scaled p -> npz <= factor (spec_of (p_pscale p)) <= npi)%R /\ (~ log_scaled p -> npz <= tot)%R
  else (log_scaled p -> forall b, in_bounds p L b -> P b <= npi)%R.

Definition norm_stage (prob1 : tensor R) : result (tensor R) :=
  let! prob2 := if cnorm p L keys && is_log (p_pscale p)
                then let! m := tmax prob1 in Ok (tmap (fun x => n_sub x m) prob1)
                else Ok prob1 in
  let! prob3 := rescale prob2 (spec_of (p_pscale p)) one_ps in
  if cnorm p L keys
  then div_prob prob3 (tscalar (tsum_all prob3)) None PSNone
  else Ok prob3.

Lemma total_reorder f : extensional f ->
  sum_over (sizes sz L') f (fun _ => 0) = sum_over (sized p L) f (fun _ => 0).
Proof.
  intros E. apply sum_over_perm; auto.
  - unfold sizes. rewrite map_map. cbn. rewrite map_id. auto.
  - unfold sizes, sized. apply Permutation_map. apply NoDup_Permutation; auto. apply (vp_axes _ _ V).
Qed.

Lemma exp_pos' x : (0 < exp x)%R. Proof. apply exp_pos. Qed.

Lemma norm_stage_ok (t u : tensor R) : p_prob p = Some t -> shape u = map sz L' ->
  (forall a, in_bounds p L a -> get u (map a L') = get t (map a L)) ->
  exists v, norm_stage u = Ok v /\ shape v = map sz L' /\
    (norm_ok -> forall a, in_bounds p L a -> get v (map a L') = Q a).
Proof.
  intros Pt Su Gu. unfold norm_stage, norm_ok, Q. set (sp := spec_of (p_pscale p)) in *.
  assert (Pa : forall b, P b = denote sp (get t (map b L))) by (intros b; unfold prob_at; rewrite Pt; reflexivity).
  assert (NF : map fst (sizes sz L') = L') by (unfold sizes; rewrite map_map; cbn; apply map_id).
  assert (IB : forall b, (forall k n, In (k, n) (sizes sz L') -> b k < n) -> in_bounds p L b).
  { intros b Hb k Hk. apply Hb. unfold sizes. apply in_map_iff. exists k. split; auto. apply LL. auto. }
  destruct (cnorm p L keys) eqn:Nm; cbn [andb].
  - rewrite is_log_kind. fold sp. destruct (log_kind sp) eqn:LK.
    + assert (Ts : 0 < tsize u).
      { unfold tsize. rewrite Su. assert (Hp : forall k, In k L' -> 0 < sz k) by (intros k Hk; apply sz_pos, LL; auto).
        clear - Hp. induction L' as [|k l IH]; [cbn; lia|]. change (prod_list (map sz (k :: l))) with (sz k * prod_list (map sz l)).
        apply Nat.mul_pos_pos; [apply Hp; cbn; auto|apply IH; intros; apply Hp; cbn; auto]. }
      destruct (tmax_ok u Ts) as (m & Em & Hm & (im & Rim & Gim)). rewrite Em. cbn [bind].
      set (u2 := tmap (fun x => n_sub x m) u).
      destruct (to_unit p L V FS u2) as (u3 & E3 & S3 & G3). fold sp in E3, G3. rewrite E3. cbn [bind].
      assert (S3' : shape u3 = map sz L') by (rewrite S3; exact Su).
      destruct (div_scalar sz L' u3 (tsum_all u3) S3') as (v & Ev & Sv & Gv). exists v. split; [exact Ev|]. split; [exact Sv|].
      intros [NO _] a Ha. fold sp in NO. specialize (NO LK). destruct NO as [NO1 NO2].
      assert (D : forall x, denote sp (x - m) = (denote sp x * exp (- m))%R).
      { intros x. unfold denote. rewrite LK. unfold Rminus. rewrite exp_plus. lra. }
      assert (G3' : forall b, in_bounds p L b -> get u3 (map b L') = (P b * exp (- m))%R).
      { intros b Hb. assert (Rb : in_range (shape u) (map b L')).
        { rewrite Su. apply in_range_sz. intros k Hk. apply Hb, LL. auto. }
        rewrite G3.
        - cbn [u2 tmap get]. unfold u2, tmap. cbn [get]. rn. rewrite D, Gu by auto. rewrite <- Pa. reflexivity.
        - intros _. unfold u2, tmap. cbn [get]. rn. unfold denote. fold sp. rewrite LK.
          apply Rle_trans with (factor sp * 1)%R; [|lra]. apply Rmult_le_compat_l.
          + pose proof npz_pos. lra.
          + rewrite <- exp_0. specialize (Hm _ Rb). destruct (Req_EM_T (get u (map b L') - m) 0) as [->|Ne]; [lra|].
            left. apply exp_increasing. lra. }
      assert (T3 : tsum_all u3 = (tot * exp (- m))%R).
      { rewrite (sum_all_ok sz L' NL' u3 S3'). unfold tot, total.
        transitivity (sum_over (sizes sz L') (fun b => exp (-m) * P b)%R (fun _ => 0)).
        - apply sum_over_in_range; [rewrite NF; auto|]. intros b Hb _. rewrite G3' by (apply IB; auto). lra.
        - rewrite sum_over_scal, total_reorder by apply prob_ext. lra. }
      (* some entry attains the maximum *)
      assert (Tge : (factor sp <= tot * exp (- m))%R).
      { set (bm := fun k => nth (pos k L') im 0).
        assert (Ebm : map bm L' = im).
        { apply nth_ext_nat.
          - rewrite map_length. apply in_range_length in Rim. rewrite Su, map_length in Rim. auto.
          - rewrite map_length. intros j Hj. destruct (nth_error L' j) as [k|] eqn:Ek; [|apply nth_error_None in Ek; lia].
            rewrite (nth_error_nth (map bm L') j 0 (x := bm k)) by (rewrite nth_error_map, Ek; reflexivity).
            unfold bm. rewrite (nth_pos k L' j); auto. }
        assert (Bm : in_bounds p L bm).
        { intros k Hk. apply LL in Hk. rewrite <- Ebm in Rim. rewrite Su in Rim. clearbody bm. clear - Rim Hk.
          unfold in_range in Rim. induction L' as [|x l IH]; [destruct Hk|]. cbn in Rim. inversion Rim; subst.
          destruct Hk as [->|Hk]; auto. }
        assert (Pm : (P bm * exp (- m) = factor sp)%R).
        { rewrite Pa, <- D. rewrite <- Gu by auto. rewrite Ebm, Gim. unfold denote. rewrite LK, Rminus_diag_eq by auto.
          rewrite exp_0. lra. }
        rewrite <- Pm. apply Rmult_le_compat_r; [left; apply exp_pos|].
        unfold tot, total.
        assert (Pn : forall b, (0 <= P b)%R).
        { intros b. rewrite Pa. unfold denote. rewrite LK. pose proof npz_pos. pose proof (exp_pos (get t (map b L))).
          apply Rmult_le_pos; lra. }
        assert (SG : forall ks f c, (forall b, (0 <= f b)%R) -> extensional f ->
                  forall a0, (forall k n, In (k, n) ks -> c k < n) -> NoDup (map fst ks) ->
                  (forall k, ~ In k (map fst ks) -> a0 k = c k) -> (f c <= sum_over ks f a0)%R).
        { clear. intros ks f c Fn Fe. induction ks as [|[k n] ks IH]; intros a0 Hc N Ho; cbn.
          - right. apply Fe. intros x. symmetry. apply Ho. cbn. tauto.
          - cbn in N. inversion N as [|? ? N1 N2]; subst.
            assert (T : (sum_over ks f (upd a0 k (c k)) <= sum_n n (fun i => sum_over ks f (upd a0 k i)))%R).
            { assert (Hk : c k < n) by (apply (Hc k n); cbn; auto). revert Hk.
              assert (Sn : forall a1, (0 <= sum_over ks f a1)%R).
              { clear - Fn. induction ks as [|[x m] ks IH]; intros a1; cbn; auto. apply sum_n_nonneg. auto. }
              clear - Sn. induction n as [|n IH]; intros Hk; [lia|]. cbn.
              destruct (Nat.eq_dec (c k) n) as [->|Ne].
              - assert (0 <= sum_n n (fun i => sum_over ks f (upd a0 k i)))%R by (apply sum_n_nonneg; auto). lra.
              - specialize (IH ltac:(lia)). specialize (Sn (upd a0 k n)). lra. }
            eapply Rle_trans; [|exact T]. apply IH; auto.
            + intros k' n' Hk'. apply (Hc k' n'). cbn. auto.
            + intros x Hx. unfold upd. destruct (String.eqb_spec x k); [subst; auto|]. apply Ho. cbn. intuition congruence. }
        rewrite (prob_reads bm (fun k => if in_dec string_dec k L then bm k else 0)).
        - apply SG; auto.
          + apply prob_ext.
          + intros k n Hk. unfold sized in Hk. apply in_map_iff in Hk. destruct Hk as (x & Ex & Hx). injection Ex as -> <-.
            destruct (in_dec string_dec k L); [|contradiction]. apply Bm; auto.
          + unfold sized. rewrite map_map. cbn. rewrite map_id. apply (vp_axes _ _ V).
          + intros k Hk. unfold sized in Hk. rewrite map_map in Hk. cbn in Hk. rewrite map_id in Hk.
            destruct (in_dec string_dec k L); [contradiction|reflexivity].
        - intros k Hk. destruct (in_dec string_dec k L); [reflexivity|contradiction]. }
      rewrite Gv by (intros k Hk; apply Ha, LL; auto). rewrite G3' by auto. rewrite T3.
      rewrite Rmax_right by lra. pose proof (exp_pos (- m)). pose proof npz_pos.
      assert (tot <> 0)%R. { intros C. rewrite C in Tge. lra. }
      field. split; lra.
    + cbn [bind]. destruct (to_unit p L V FS u) as (u3 & E3 & S3 & G3). fold sp in E3, G3. rewrite E3. cbn [bind].
      assert (S3' : shape u3 = map sz L') by (rewrite S3; exact Su).
      destruct (div_scalar sz L' u3 (tsum_all u3) S3') as (v & Ev & Sv & Gv). exists v. split; [exact Ev|]. split; [exact Sv|].
      intros [_ NO] a Ha.
      assert (NL : ~ log_scaled p) by (unfold log_scaled; fold sp; congruence). specialize (NO NL).
      assert (G3' : forall b, in_bounds p L b -> get u3 (map b L') = P b).
      { intros b Hb. rewrite G3 by (intros C; contradiction). rewrite Gu by auto. symmetry. apply Pa. }
      assert (T3 : tsum_all u3 = tot).
      { rewrite (sum_all_ok sz L' NL' u3 S3'). unfold tot, total. rewrite <- total_reorder by apply prob_ext.
        apply sum_over_in_range; [rewrite NF; auto|]. intros b Hb _. apply G3', IB; auto. }
      rewrite Gv by (intros k Hk; apply Ha, LL; auto). rewrite G3' by auto. rewrite T3, Rmax_right by lra. reflexivity.
  - cbn [bind]. destruct (to_unit p L V FS u) as (u3 & E3 & S3 & G3). fold sp in E3, G3. rewrite E3. cbn [bind].
    exists u3. split; auto. split; [congruence|]. intros NO a Ha. rewrite G3.
    + rewrite Gu by auto. symmetry. apply Pa.
    + intros Lk. fold sp. rewrite Gu, <- Pa by auto. apply NO; auto.
Qed.

Notation sumk := (sumcols p L keys).

Lemma sumk_props : NoDup sumk /\ incl sumk L'.
Proof.
  split; [apply filter_nodup, nodup_kcols; eauto|]. intros k Hk. apply filter_In in Hk. destruct Hk as [Hk _].
  apply (in_kcols p L V) in Hk. apply LL. auto.
Qed.

(** the sum over the remaining marginal columns *)
Definition evidence (a : assignment) : R := sum_over (sized p (restrict sumk L')) P a.

Theorem cond_result :
  exists q, conditionalise p keys = Ok q /\ valid_pd q L' /\
    p_keylist q = od_keys (newdims p L keys) /\
    p_marg q = cmarg p keys /\ p_cond q = ccond p keys /\ p_pscale q = p_pscale p /\
    (forall k, In k (p_keylist p) -> variable q k = variable p k) /\
    (norm_ok -> forall a, in_bounds p L a ->
       (sumk = [] -> (log_scaled p -> npz <= Q a)%R -> prob_at q L' a = Q a) /\
       (sumk <> [] -> (npz <= if cnorm p L keys then evidence a / tot else evidence a)%R ->
          (cnorm p L keys = true -> tot <> 0%R) ->
          (log_scaled p -> npz <= P a / evidence a)%R ->
          prob_at q L' a = (P a / evidence a)%R)).
Proof.
  destruct (vp_prob_get p L V) as (t & Pt & Rt & St).
  destruct (cond_loop p L V keys IM) as [delta EL].
  destruct redim_ok as (d & Ed & Kd & Ds & Da).
  destruct (cond_axes_eq p L V keys NK) as (sum & EA & Esum). specialize (Esum newdim_inj). subst sum.
  destruct sumk_props as [Nsk Isk].
  destruct (move_all sz L L' (kcols p L)) with (t := t) as (u & Eu & Su & Gu); auto.
  { apply (vp_axes _ _ V). } { apply (nodup_kcols p L V). } { apply (in_kcols p L V). }
  assert (En : map (newdim p L keys) (kcols p L) = map (fun k => Z.of_nat (pos k L')) (kcols p L)).
  { apply map_ext_in. intros k Hk. apply NEW, (in_kcols p L V). auto. }
  assert (Es : map (newdim p L keys) sumk = map (fun k => Z.of_nat (pos k L')) sumk).
  { apply map_ext_in. intros k Hk. apply NEW, LL, Isk. auto. }
  destruct (norm_stage_ok t u Pt Su Gu) as (v & Ev & Sv & Gv).
  (* the division *)
  assert (Dv : exists w, (match map (newdim p L keys) sumk with
                | [] => Ok v
                | l => let! s := tsum_keep v l in div_prob v s None PSNone
                end) = Ok w /\ shape w = map sz L' /\
     forall a, in_bounds p L a -> get w (map a L') =
       if (match sumk with [] => true | _ => false end) then get v (map a L')
       else (get v (map a L') / Rmax npz (sum_over (sizes sz (restrict sumk L')) (fun b => get v (map b L')) a))%R).
  { rewrite Es. destruct sumk as [|k0 ks0] eqn:Ek.
    - cbn [map]. exists v. auto.
    - set (ks := k0 :: ks0) in *.
      destruct (sum_keep_ok sz L' NL' v ks Sv Nsk Isk) as (s & Es' & Ss & Gs).
      destruct (div_keep sz L' v s ks Sv Ss) as (w & Ew & Sw & Gw).
      exists w. split.
      + cbn [map ks]. fold (map (fun k => Z.of_nat (pos k L')) ks). unfold ks in Es'. cbn [map] in Es'.
        rewrite Es'. cbn [bind]. exact Ew.
      + split; auto. intros a Ha. rewrite Gw by (intros k Hk; apply Ha, LL; auto). rewrite Gs. reflexivity. }
  destruct Dv as (w & Ew & Sw & Gw).
  destruct (from_unit p L V FS w) as (w1 & E6 & S6 & G6).
  destruct (vp_marg_cond p L V) as (NM & NC & DJ).
  destruct (make_pd_from p L V (d_vals d) (newdims p L keys) L' (cmarg p keys) (ccond p keys)
              w1 (spec_of (p_pscale p)) (p_pscale p)) as (q & Eq & Vq & Kq & Mq & Cq & Pq & Sq & Varq).
  - rewrite Kd. apply (nodup_newdims p L V keys NK).
  - intros C. rewrite C in Kd. cbn in Kd. pose proof (vp_some _ _ V) as Ns. destruct (p_keylist p) as [|k0 r] eqn:Ek; [congruence|].
    assert (H : In k0 (od_keys (newdims p L keys))) by (apply (in_newdims p L V keys IM); rewrite Ek; cbn; auto). rewrite <- Kd in H. destruct H.
  - rewrite Kd. intros k. apply (in_newdims p L V keys IM).
  - exact Ds.
  - exact Da.
  - auto.
  - intros k. rewrite Kd, (in_newdims p L V keys IM), LL. split; [|tauto]. intros H. split; auto. apply (vp_incl _ _ V). auto.
  - intros j k Hj. assert (Hk : In k L) by (apply LL; eapply nth_error_In; eauto).
    rewrite (newdims_col p L V keys NK k Hk), NEW by auto. rewrite (nth_pos k L' j); auto.
  - intros k Hk Hn. right. apply (newdims_scalar p L V keys NK); auto. rewrite Kd in Hk. apply (in_newdims p L V keys IM). auto.
  - rewrite Kd. apply incl_refl.
  - apply (nodup_newdims p L V keys NK).
  - congruence.
  - intros ke Hke. apply in_app_or in Hke. apply in_or_app. destruct Hke as [Hke|Hke].
    + left. apply filter_In in Hke. tauto.
    + unfold ccond in Hke. apply in_app_or in Hke. destruct Hke as [Hke|Hke]; auto. left.
      apply in_map_iff in Hke. destruct Hke as (k & <- & Hk). apply in_restrict in Hk. destruct Hk as [Hk1 Hk2].
      destruct (od_key_get (p_marg p) k) as (e & Ge); [apply IM; auto|]. unfold mentry. rewrite Ge. apply od_get_in. auto.
  - apply NoDup_Permutation.
    + apply nodup_app_iff. unfold cmarg, ccond. rewrite (od_keys_filter (fun x => negb (mem_str x keys))).
      split; [apply filter_nodup; auto|]. unfold od_keys at 1 3. rewrite map_app, map_map. cbn. rewrite map_id. split.
      * apply nodup_app_iff. split; [exact NC|]. split; [apply filter_nodup, (vp_keys _ _ V)|].
        intros k H1 H2. apply in_restrict in H2. destruct H2 as [_ H2]. apply IM in H2. apply (DJ k); auto.
      * intros k H1 H2. apply filter_In in H1. destruct H1 as [H1 H1']. apply in_app_or in H2. destruct H2 as [H2|H2].
        -- apply (DJ k); auto.
        -- apply in_restrict in H2. destruct H2 as [_ H2]. apply mem_str_iff in H2. rewrite H2 in H1'. discriminate.
    + rewrite Kd. apply (nodup_newdims p L V keys NK).
    + intros k. rewrite Kd, (in_newdims p L V keys IM), (vp_key_iff p L V). rewrite in_app_iff.
      unfold cmarg, ccond. rewrite (od_keys_filter (fun x => negb (mem_str x keys))), filter_In, negb_true_iff, mem_str_false.
      unfold od_keys at 2. rewrite map_app, map_map. cbn. rewrite map_id, in_app_iff, in_restrict.
      fold (od_keys (p_cond p)). rewrite (vp_key_iff p L V). specialize (IM k).
      destruct (in_dec string_dec k keys); tauto.
  - apply (vp_pscale _ _ V).
  - apply (vp_pscale _ _ V).
  - exists q. split.
    { unfold conditionalise, keys_marginal.
      assert (KM : forallb (fun k => od_mem (p_marg p) k) keys = true).
      { apply forallb_forall. intros k Hk. apply od_mem_iff. auto. }
      rewrite KM. cbn [assert_ bind]. rewrite EL. cbn [bind c_dims c_marg c_cond c_norm].
      rewrite (lower_dims_eq p L keys), (append_eq p L V keys NK IM). cbn [bind]. rewrite Ed. cbn [bind].
      rewrite EA. cbn [bind]. rewrite Rt. cbn [bind]. rewrite En, Eu. cbn [bind].
      unfold norm_stage in Ev. destruct (if cnorm p L keys && is_log (p_pscale p)
          then let! m := tmax u in Ok (tmap (fun x => n_sub x m) u) else Ok u) as [u2|] eqn:E2; [|discriminate Ev].
      cbn [bind] in *. destruct (rescale u2 (spec_of (p_pscale p)) one_ps) as [u3|] eqn:E3; [|discriminate Ev].
      cbn [bind] in *. rewrite Ev. cbn [bind].
      destruct (map (newdim p L keys) sumk) as [|d0 ds0] eqn:Em.
      - inversion Ew; subst w. cbn [bind]. rewrite E6. cbn [bind]. exact Eq.
      - rewrite Ew. cbn [bind]. rewrite E6. cbn [bind]. exact Eq. }
    split; auto. split; [congruence|]. split; auto. split; auto. split; auto. split.
    { intros k Hk. apply Varq. rewrite Kd. apply (in_newdims p L V keys IM). auto. }
    intros NO a Ha. specialize (Gv NO).
    assert (IBa : forall b, (forall k n, In (k, n) (sizes sz (restrict sumk L')) -> b k < n) ->
                    (forall x, ~ In x (map fst (sizes sz (restrict sumk L'))) -> b x = a x) -> in_bounds p L b).
    { intros b Hb Ho k Hk. destruct (in_dec string_dec k (restrict sumk L')) as [Hr|Hr].
      - apply Hb. unfold sizes. apply in_map_iff. exists k. auto.
      - rewrite Ho; [apply Ha; auto|]. unfold sizes. rewrite map_map. cbn. rewrite map_id. auto. }
    assert (SV : sum_over (sizes sz (restrict sumk L')) (fun b => get v (map b L')) a = 
                 sum_over (sizes sz (restrict sumk L')) Q a).
    { apply sum_over_in_range.
      - unfold sizes. rewrite map_map. cbn. rewrite map_id. apply filter_nodup. auto.
      - intros b Hb Ho. apply Gv. apply IBa; auto. }
    assert (SQ : sum_over (sizes sz (restrict sumk L')) Q a = if cnorm p L keys then (evidence a / tot)%R else evidence a).
    { unfold evidence, Q. destruct (cnorm p L keys); [|reflexivity].
      rewrite (sum_over_ext _ _ (fun b => / tot * P b)%R) by (intros; unfold Rdiv; lra).
      rewrite sum_over_scal. unfold sizes, sized, Rdiv. lra. }
    unfold prob_at at 1 3. rewrite Pq, Sq. split.
    + intros Z0 Lo. rewrite Z0 in *. rewrite G6; rewrite Gw by auto; [apply Gv; auto|]. intros Lk. rewrite Gv by auto. auto.
    + intros Z1 Hn Ht Lo.
      assert (W : get w (map a L') = (P a / evidence a)%R).
      { rewrite Gw by auto. destruct sumk as [|k0 ks0] eqn:Ek; [contradiction|]. rewrite SV, SQ, Rmax_right by auto. rewrite Gv by auto.
        pose proof npz_pos. unfold Q. destruct (cnorm p L keys); [|reflexivity].
        specialize (Ht eq_refl). assert (evidence a <> 0)%R.
        { intros C. rewrite C in Hn. unfold Rdiv in Hn. rewrite Rmult_0_l in Hn. lra. }
        field. auto. }
      rewrite G6; rewrite W; auto.
Qed.
End Cond2.
