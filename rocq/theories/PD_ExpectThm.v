(** Property lemmas and examples about expectations. *)
From Coq Require Import Ascii String ZArith QArith Reals Lra Bool Arith Lia Permutation List.
From Verif Require Import Base Num Tensor TensorBcast OdLemmas TensorLemmas RNumLemmas PScales
  PScales_Spec PScales_Proofs PScales_Prod Names Names_Spec Names_Proofs Distr PDModel PDUtils PD_Spec PD_Make PD_Sums
  PD_Valid PD_Marg PD_Align PD_Examples PD_ProductEx PD_CondEx PD_Expect_Spec PD_Expect.
Import ListNotations.
Local Open Scope R_scope.

Lemma sum_n_le n f g : (forall i, (i < n)%nat -> f i <= g i) -> sum_n n f <= sum_n n g.
Proof.
  induction n as [|n IH]; intros H; cbn [sum_n]; [lra|]. apply Rplus_le_compat; [apply IH; intros; apply H; lia|apply H; lia].
Qed.

Lemma sum_over_le ks f g a :
  NoDup (map fst ks) ->
  (forall b, (forall k n, In (k, n) ks -> (b k < n)%nat) ->
             (forall x, ~ In x (map fst ks) -> b x = a x) -> f b <= g b) ->
  sum_over ks f a <= sum_over ks g a.
Proof.
  revert a. induction ks as [|[k n] ks IH]; intros a ND H; cbn.
  - apply H; [intros ? ? []|auto].
  - inversion ND as [|? ? N1 N2]; subst. apply sum_n_le. intros i Hi. apply IH; auto.
    intros b Hb Hx. apply H.
    + intros k' n' [E|Hin]; auto. inversion E; subst. rewrite Hx by auto. rewrite upd_same. auto.
    + intros x Hnx. cbn in Hnx. rewrite Hx by tauto. apply upd_other. intuition congruence.
Qed.

Section Gen.
Context {F : Fmt R}.

(** Everything the keys' positions can range over, the others being at a. *)
Lemma ranged (p : pd R) (L keys : list string) a b : in_bounds p (without keys L) a ->
  (forall k n, In (k, n) (sized p (restrict keys L)) -> (b k < n)%nat) ->
  (forall x, ~ In x (map fst (sized p (restrict keys L))) -> b x = a x) -> in_bounds p L b.
Proof.
  intros Ba B1 B2 k K. destruct (mem_str k keys) eqn:M.
  - apply B1. unfold sized. apply in_map_iff. exists k. split; [reflexivity|]. apply in_restrict. apply mem_str_iff in M. auto.
  - apply mem_str_false in M. rewrite B2.
    + apply Ba. apply in_without. auto.
    + unfold sized. rewrite map_map. cbn [fst]. rewrite map_id. rewrite in_restrict. tauto.
Qed.

Lemma sized_nodup (p : pd R) (L keys : list string) : valid_pd p L -> NoDup (map fst (sized p (restrict keys L))).
Proof. intros V. unfold sized. rewrite map_map. cbn [fst]. rewrite map_id. apply filter_nodup, (vp_axes _ _ V). Qed.

Lemma column_in (p : pd R) (L : list string) k l : valid_pd p L -> variable p k = Some (Col l) -> In k L.
Proof.
  intros V Vk. destruct (mem_str k L) eqn:M; [apply mem_str_iff, M|]. apply mem_str_false in M.
  unfold variable in Vk. destruct (od_get (p_vals p) k) as [v|] eqn:G; [|discriminate].
  destruct (vp_scalar _ _ V k v G M) as [S _]. destruct v as [| | |a|]; cbn in Vk; try discriminate.
  destruct (shape a) eqn:E; [discriminate|]. rewrite arr_not_singleton in S by (rewrite E; discriminate). discriminate.
Qed.

Lemma scalar_notin (p : pd R) (L : list string) k v : valid_pd p L -> variable p k = Some (Scal v) -> ~ In k L /\ od_get (p_vals p) k = Some v.
Proof.
  intros V Vk. unfold variable in Vk. destruct (od_get (p_vals p) k) as [w|] eqn:G; [|discriminate].
  split.
  - intros I. destruct (In_nth_error _ _ I) as (j & J). destruct (vp_column _ _ V j k J) as (a & n & A1 & A2 & A3 & _).
    assert (w = VArr a) by congruence. subst w. cbn in Vk. rewrite A3 in Vk. destruct j; discriminate.
  - destruct w as [| | |a|]; cbn in Vk; try congruence. destruct (shape a); congruence.
Qed.

Lemma expectation_is (p : pd R) (L keys : list string) (e : option nat) :
  valid_pd p L -> fine_scale p -> keys <> [] -> incl keys (od_keys (p_marg p)) -> raisable p keys e ->
  (log_scaled p -> forall b, in_bounds p L b -> prob_at p L b <= npi) ->
  exists vals, expectation p keys e = Ok vals /\
    (forall k l, In k keys -> variable p k = Some (Col l) ->
       exists t, od_get vals k = Some (VArr t) /\ shape t = map (size_of p) (without keys L) /\
         forall a, in_bounds p (without keys L) a -> 
           get t (map a (without keys L)) =
            (sum_over (sized p (restrict keys L)) (fun b => prob_at p L b * raised e (nth (b k) l 0)) a / Rmax npz (weight p L keys a))) /\
    (forall k v, In k keys -> variable p k = Some (Scal v) -> od_get vals k = Some (raised_scalar e v)) /\
    (forall k, In k (od_keys (p_cond p)) -> od_get vals k = od_get (p_vals p) k) /\
    (forall k, ~ In k keys -> ~ In k (od_keys (p_cond p)) -> od_get vals k = None).
Proof.
  intros V FS NE KM RA LR. destruct (expect_ok p L V FS keys e KM RA LR NE) as (vals & Ev & H1 & H2).
  exists vals. split; [exact Ev|]. split; [|split; [|split]].
  - intros k l K Vk. pose proof (column_in p L k l V Vk) as IL.
    unfold variable in Vk. destruct (od_get (p_vals p) k) as [v|] eqn:G; [|discriminate].
    specialize (H1 k v G). unfold result_of in H1. apply mem_str_iff in K, IL. rewrite K, IL in H1.
    destruct H1 as (l' & t & X1 & X2 & X3 & X4). unfold variable in X1. rewrite G in X1. exists t.
    split; [exact X2|]. split; [exact X3|]. intros a Ba. replace l with l' by congruence. apply X4, Ba.
  - intros k v K Vk. destruct (scalar_notin p L k v V Vk) as [NL G].
    specialize (H1 k v G). unfold result_of in H1. apply mem_str_iff in K. apply mem_str_false in NL. rewrite K, NL in H1. exact H1.
  - intros k K. assert (NK : ~ In k keys) by (intros C; apply KM in C; exact (proj2 (proj2 (vp_marg_cond p L V)) k C K)).
    destruct (od_key_get (p_vals p) k) as (v & G); [apply (vp_key_iff p L V); auto|].
    specialize (H1 k v G). unfold result_of in H1. apply mem_str_false in NK. apply od_mem_iff in K. rewrite NK, K in H1. congruence.
  - intros k NK NC. destruct (od_get (p_vals p) k) as [v|] eqn:G.
    + specialize (H1 k v G). unfold result_of in H1. apply mem_str_false in NK. rewrite NK in H1.
      destruct (od_mem (p_cond p) k) eqn:M; [apply od_mem_iff in M; contradiction|exact H1].
    + apply H2. intros C. destruct (od_key_get (p_vals p) k C) as (v & C'). rewrite G in C'. discriminate.
Qed.

Lemma expectation_mean (p : pd R) (L keys : list string) (e : option nat) :
  valid_pd p L -> fine_scale p -> keys <> [] -> incl keys (od_keys (p_marg p)) -> raisable p keys e ->
  (log_scaled p -> forall b, in_bounds p L b -> prob_at p L b <= npi) ->
  exists vals, expectation p keys e = Ok vals /\
    (forall k l, In k keys -> variable p k = Some (Col l) ->
       exists t, od_get vals k = Some (VArr t) /\ shape t = map (size_of p) (without keys L) /\
         forall a, in_bounds p (without keys L) a -> npz <= weight p L keys a ->
           get t (map a (without keys L)) = mean p L keys (fun b => raised e (nth (b k) l 0)) a) /\
    (forall k v, In k keys -> variable p k = Some (Scal v) -> od_get vals k = Some (raised_scalar e v)) /\
    (forall k, In k (od_keys (p_cond p)) -> od_get vals k = od_get (p_vals p) k) /\
    (forall k, ~ In k keys -> ~ In k (od_keys (p_cond p)) -> od_get vals k = None).
Proof.
  intros V FS NE KM RA LR. destruct (expectation_is p L keys e V FS NE KM RA LR) as (vals & Ev & H1 & H2).
  exists vals. split; [exact Ev|]. split; [|exact H2]. intros k l K Vk. destruct (H1 k l K Vk) as (t & T1 & T2 & T3).
  exists t. split; [exact T1|]. split; [exact T2|]. intros a Ba W. rewrite (T3 a Ba), Rmax_right by exact W. reflexivity.
Qed.

Lemma expectation_between (p : pd R) (L keys : list string) (e : option nat) vals k l t lo hi a :
  valid_pd p L -> fine_scale p -> incl keys (od_keys (p_marg p)) -> raisable p keys e ->
  (forall b, in_bounds p L b -> 0 <= prob_at p L b) ->
  (log_scaled p -> forall b, in_bounds p L b -> prob_at p L b <= npi) ->
  expectation p keys e = Ok vals -> In k keys -> variable p k = Some (Col l) -> od_get vals k = Some (VArr t) ->
  (forall x, In x l -> lo <= raised e x <= hi) ->
  in_bounds p (without keys L) a -> npz <= weight p L keys a ->
  lo <= get t (map a (without keys L)) <= hi.
Proof.
  intros V FS KM RA PN LR Ev K Vk G B Ba W.
  assert (NE : keys <> []) by (intros C; rewrite C in K; destruct K).
  destruct (expectation_mean p L keys e V FS NE KM RA LR) as (vals' & Ev' & H1 & _).
  assert (vals' = vals) by congruence. subst vals'. destruct (H1 k l K Vk) as (t' & T1 & _ & T3).
  assert (t' = t) by congruence. subst t'. rewrite (T3 a Ba W). unfold mean.
  pose proof npz_pos as Z. assert (WP : 0 < weight p L keys a) by lra.
  assert (BV : forall b, in_bounds p L b -> lo <= raised e (nth (b k) l 0) <= hi).
  { intros b Bb. apply B. apply nth_In. specialize (Bb k (column_in p L k l V Vk)). unfold size_of in Bb. rewrite Vk in Bb. exact Bb. }
  split.
  - apply Rmult_le_reg_r with (weight p L keys a); [exact WP|]. unfold Rdiv. rewrite Rmult_assoc, Rinv_l, Rmult_1_r by lra.
    unfold weight. rewrite <- sum_over_scal. apply sum_over_le; [apply sized_nodup, V|].
    intros b B1 B2. pose proof (ranged p L keys a b Ba B1 B2) as Bb. specialize (PN b Bb). specialize (BV b Bb).
    rewrite Rmult_comm. apply Rmult_le_compat_l; tauto.
  - apply Rmult_le_reg_r with (weight p L keys a); [exact WP|]. unfold Rdiv. rewrite Rmult_assoc, Rinv_l, Rmult_1_r by lra.
    unfold weight. rewrite <- sum_over_scal. apply sum_over_le; [apply sized_nodup, V|].
    intros b B1 B2. pose proof (ranged p L keys a b Ba B1 B2) as Bb. specialize (PN b Bb). specialize (BV b Bb).
    rewrite (Rmult_comm hi). apply Rmult_le_compat_l; tauto.
Qed.

Lemma expectation_scale (p q : pd R) (L keys : list string) (e : option nat) (c : R) vals vals' :
  valid_pd p L -> valid_pd q L -> fine_scale p -> fine_scale q ->
  incl keys (od_keys (p_marg p)) -> incl keys (od_keys (p_marg q)) -> raisable p keys e ->
  (forall k, In k (p_keylist p) -> variable q k = variable p k) -> 0 < c ->
  (forall b, in_bounds p L b -> prob_at q L b = c * prob_at p L b) ->
  (log_scaled p -> forall b, in_bounds p L b -> prob_at p L b <= npi) ->
  (log_scaled q -> forall b, in_bounds q L b -> prob_at q L b <= npi) ->
  keys <> [] -> expectation p keys e = Ok vals -> expectation q keys e = Ok vals' ->
  (forall k l, In k keys -> variable p k = Some (Col l) ->
    exists t t', od_get vals k = Some (VArr t) /\ od_get vals' k = Some (VArr t') /\ shape t' = shape t /\
    forall a, in_bounds p (without keys L) a -> npz <= weight p L keys a -> npz <= c * weight p L keys a ->
      get t' (map a (without keys L)) = get t (map a (without keys L))) /\
  (forall k v, In k keys -> variable p k = Some (Scal v) -> od_get vals' k = od_get vals k).
Proof.
  intros V Vq FS FSq KM KMq RA VV CP PP LR LRq NE Ev Evq.
  assert (KK : forall k, In k keys -> In k (p_keylist p)).
  { intros k K. apply (vp_key_iff p L V). left. apply KM, K. }
  assert (LL : forall k, In k L -> size_of q k = size_of p k).
  { intros k K. unfold size_of. rewrite VV; [reflexivity|]. apply (vp_incl _ _ V), K. }
  assert (RAq : raisable q keys e).
  { intros k v K Vk. rewrite VV in Vk by (apply KK, K). apply (RA k v K Vk). }
  destruct (expectation_mean p L keys e V FS NE KM RA LR) as (w & Ew & H1 & H2 & _). assert (w = vals) by congruence. subst w.
  destruct (expectation_mean q L keys e Vq FSq NE KMq RAq LRq) as (w & Ewq & G1 & G2 & _). assert (w = vals') by congruence. subst w.
  assert (Zs : sized q (restrict keys L) = sized p (restrict keys L)).
  { unfold sized. apply map_ext_in. intros k K. apply in_restrict in K. rewrite LL by tauto. reflexivity. }
  split.
  - intros k l K Vk. destruct (H1 k l K Vk) as (t & T1 & T2 & T3).
    destruct (G1 k l K) as (t' & T1' & T2' & T3'); [rewrite VV by (apply KK, K); exact Vk|].
    exists t, t'. split; [exact T1|]. split; [exact T1'|]. split.
    { rewrite T2, T2'. apply map_ext_in. intros x X. apply in_without in X. apply LL. tauto. }
    intros a Ba W1 W2.
    assert (Bq : in_bounds q (without keys L) a).
    { intros x X. rewrite LL; [apply Ba, X|]. apply in_without in X. tauto. }
    assert (Wq : weight q L keys a = c * weight p L keys a).
    { unfold weight. rewrite Zs, <- sum_over_scal. apply sum_over_in_range; [apply sized_nodup, V|].
      intros b B1 B2. apply PP. apply (ranged p L keys a b Ba B1 B2). }
    rewrite (T3 a Ba W1), (T3' a Bq) by (rewrite Wq; exact W2). unfold mean. rewrite Wq, Zs.
    rewrite (sum_over_in_range _ (fun b => prob_at q L b * raised e (nth (b k) l 0)) (fun b => c * (prob_at p L b * raised e (nth (b k) l 0)))).
    + rewrite sum_over_scal. pose proof npz_pos. field. split; lra.
    + apply sized_nodup, V.
    + intros b B1 B2. rewrite PP by (apply (ranged p L keys a b Ba B1 B2)). ring.
  - intros k v K Vk. rewrite (H2 k v K Vk). apply G2; [exact K|]. rewrite VV by (apply KK, K). exact Vk.
Qed.

Lemma expectation_vanishing (p : pd R) (L keys : list string) (e : option nat) vals k l t a :
  valid_pd p L -> fine_scale p -> incl keys (od_keys (p_marg p)) -> raisable p keys e ->
  (log_scaled p -> forall b, in_bounds p L b -> prob_at p L b <= npi) ->
  expectation p keys e = Ok vals -> In k keys -> variable p k = Some (Col l) -> od_get vals k = Some (VArr t) ->
  in_bounds p (without keys L) a ->
  (forall b, in_bounds p L b -> (forall x, ~ In x keys -> b x = a x) -> prob_at p L b = 0) ->
  get t (map a (without keys L)) = 0.
Proof.
  intros V FS KM RA LR Ev K Vk G Ba PZ.
  assert (NE : keys <> []) by (intros C; rewrite C in K; destruct K).
  destruct (expectation_is p L keys e V FS NE KM RA LR) as (vals' & Ev' & H1 & _).
  assert (vals' = vals) by congruence. subst vals'. destruct (H1 k l K Vk) as (t' & T1 & _ & T3).
  assert (t' = t) by congruence. subst t'. rewrite (T3 a Ba).
  rewrite (sum_over_in_range _ _ (fun b => 0 * prob_at p L b)).
  - rewrite sum_over_scal. unfold Rdiv. ring.
  - apply sized_nodup, V.
  - intros b B1 B2. rewrite PZ; [ring|apply (ranged p L keys a b Ba B1 B2)|].
    intros x X. apply B2. unfold sized. rewrite map_map. cbn [fst]. rewrite map_id, in_restrict. tauto.
Qed.
End Gen.

Lemma expectation_all {F : Fmt R} (p : pd R) e : expectation p [] e = expectation p (od_keys (p_marg p)) e.
Proof. unfold expectation. destruct (od_keys (p_marg p)); reflexivity. Qed.

(** p(x,y,w=5|z) of PD_Examples: the squares of x and w, for each position of y and z. *)
Lemma ex_expect : exists p, ex_make = Ok p /\ let L := ["x"; "y"; "z"]%string in let keys := ["x"; "w"]%string in
  @valid_pd fmt_ex p L /\ fine_scale p /\ ~ log_scaled p /\ incl keys (od_keys (p_marg p)) /\ raisable p keys (Some 2%nat) /\
  variable p "x" = Some (Col [1; 2]) /\ variable p "w" = Some (Scal (VNum 5)) /\
  (forall b, in_bounds p L b -> prob_at p L b = / 6) /\
  exists a, a = (fun _ => 1%nat) /\ in_bounds p (without keys L) a /\ npz <= weight p L keys a /\
    mean p L keys (fun b => raised (Some 2%nat) (nth (b "x"%string) [1; 2] 0)) a = 5 / 2.
Proof.
  destruct ex_ok as (p & E & V & K & M & C & P & S & Vx & Vy & Vz & Vw). exists p. split; [exact E|].
  destruct (@fine_plain fmt_ex p S) as [FS NL].
  assert (PB : forall b, prob_at p ["x"; "y"; "z"]%string b = / 6).
  { intros b. unfold prob_at. rewrite P, S. cbn [spec_of]. rewrite denote_one. reflexivity. }
  assert (Zx : sized p (restrict ["x"; "w"] ["x"; "y"; "z"])%string = [("x"%string, 2%nat)]).
  { unfold sized, size_of. cbn -[variable]. rewrite Vx. reflexivity. }
  cbv zeta. split; [exact V|]. split; [exact FS|]. split; [exact NL|].
  split; [rewrite M; intros k Hk; cbn in *; tauto|]. split.
  { intros k v [<-|[<-|[]]] Hk; [congruence|]. right. right. exists 5. congruence. }
  split; [exact Vx|]. split; [exact Vw|]. split; [intros; apply PB|].
  exists (fun _ => 1%nat). split; [reflexivity|]. split.
  { intros k Hk. cbn in Hk. unfold size_of. destruct Hk as [<-|[<-|[]]]; [rewrite Vy|rewrite Vz]; cbn; lia. }
  assert (W : weight p ["x"; "y"; "z"]%string ["x"; "w"]%string (fun _ => 1%nat) = / 3).
  { unfold weight. rewrite Zx. cbn [sum_over sum_n]. rewrite !PB. lra. }
  rewrite W. split.
  { exact npz_third. }
  unfold mean. rewrite W, Zx. cbn [sum_over sum_n]. rewrite !PB. unfold upd. cbn. lra.
Qed.

(** p(x,y) of a square table, with the axes given and with the axes omitted. *)
Definition sq_vals : odict (value Q) := [("x", VArr (of_list 0 [0; 10])); ("y", VArr (of_list 0 [0; 1]))]%string%Q.
Definition sq_prob : tensor Q := mkT [2; 2]%nat (fun ix => match ix with [0; 0]%nat => 6#10 | [0; 1]%nat => 2#10 | _ => 1#10 end)%Q.
Definition sq_given := @make_pd Q _ fmt_q "x,y" sq_vals (Some [("x", Some 0%Z); ("y", Some 1%Z)]%string) (Some sq_prob) (PSFloat 1%Q).
Definition sq_omitted := @make_pd Q _ fmt_q "x,y" sq_vals None (Some sq_prob) (PSFloat 1%Q).
Definition mean_of (r : result (odict (value Q))) (k : string) : option (list Q) :=
  match r with Ok vals => option_map (fun v => map Qred (raveled_value v)) (od_get vals k) | Err _ => None end.

Lemma ex_omitted : exists p q, sq_given = Ok p /\ sq_omitted = Ok q /\
  p_shape p = p_shape q /\ p_dims p = p_dims q /\
  option_map raveled_value (od_get (p_vals p) "x") = option_map raveled_value (od_get (p_vals q) "x") /\
  mean_of (@expectation Q _ p ["x"; "y"]%string None) "x" = Some [2]%Q /\
  mean_of (@expectation Q _ q ["x"; "y"]%string None) "x" = Some [3]%Q.
Proof.
  destruct sq_given as [p|] eqn:Ep; [|vm_compute in Ep; discriminate]. exists p. vm_compute in Ep. injection Ep as <-.
  destruct sq_omitted as [q|] eqn:Eq; [|vm_compute in Eq; discriminate]. exists q. vm_compute in Eq. injection Eq as <-.
  repeat split; vm_compute; reflexivity.
Qed.
