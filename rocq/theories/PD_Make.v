(** The constructors of distributions: what they return on well-formed input. *)
From Coq Require Import String ZArith Reals Bool Arith Lia Permutation List.
From Verif Require Import Base Num Tensor TensorBcast OdLemmas TensorLemmas PScales Names Names_Spec
  Names_Proofs Distr PDModel PD_Spec.
Import ListNotations.

(** *** number of dimensions *)

Lemma ndim_of_dims_acc (dims : odict (option Z)) m :
  (forall k d, In (k, Some d) dims -> (0 <= d)%Z) ->
  let r := fold_left (fun n kd => match snd kd with
                       | Some d => Z.to_nat (Z.max (Z.of_nat n) (d + 1))
                       | None => n end) dims m in
  (m <= r)%nat /\ (forall k d, In (k, Some d) dims -> (d < Z.of_nat r)%Z) /\
  (r = m \/ exists k d, In (k, Some d) dims /\ Z.of_nat r = (d + 1)%Z).
Proof.
  cbn zeta. revert m. induction dims as [|[k o] dims IH]; intros m H; cbn.
  - repeat split; auto. intros k d [].
  - destruct o as [d|]; cbn.
    + assert (Hd : (0 <= d)%Z) by (apply (H k); cbn; auto).
      destruct (IH (Z.to_nat (Z.max (Z.of_nat m) (d + 1)))) as (A & B & C).
      { intros k' d' Hin. apply (H k'). cbn. auto. }
      set (r := fold_left _ _ _) in *.
      split; [lia|]. split.
      * intros k' d' [E|Hin]; [inversion E; subst; lia|eauto].
      * destruct C as [C|(k' & d' & Hin & C)].
        -- destruct (Z.max_spec (Z.of_nat m) (d + 1)) as [[? M]|[? M]]; rewrite M in C.
           ++ right. exists k, d. split; auto. rewrite C. lia.
           ++ left. rewrite C. lia.
        -- right. exists k', d'. auto.
    + destruct (IH m) as (A & B & C).
      { intros k' d' Hin. apply (H k'). cbn. auto. }
      split; auto. split.
      * intros k' d' [E|Hin]; [inversion E|eauto].
      * destruct C as [C|(k' & d' & Hin & C)]; auto. right. exists k', d'. auto.
Qed.

Lemma ndim_of_dims_layout (dims : odict (option Z)) (L : list string) :
  NoDup (od_keys dims) ->
  (forall k d, od_get dims k = Some (Some d) -> exists j, nth_error L j = Some k /\ d = Z.of_nat j) ->
  (forall j k, nth_error L j = Some k -> od_get dims k = Some (Some (Z.of_nat j))) ->
  ndim_of_dims dims = length L.
Proof.
  intros N H1 H2. unfold ndim_of_dims.
  destruct (ndim_of_dims_acc dims 0) as (A & B & C).
  { intros k d Hin. apply od_in_get in Hin; auto. apply H1 in Hin. destruct Hin as (j & _ & ->). lia. }
  set (r := fold_left _ _ _) in *.
  assert (Le : (r <= length L)%nat).
  { destruct C as [C|(k & d & Hin & C)]; [lia|].
    apply od_in_get in Hin; auto. apply H1 in Hin. destruct Hin as (j & Hj & ->).
    assert (j < length L)%nat by (apply nth_error_Some; congruence). lia. }
  destruct (Nat.eq_dec (length L) 0); [lia|].
  destruct (nth_error L (length L - 1)) as [k|] eqn:E.
  - apply H2 in E. apply od_get_in in E. apply B in E. lia.
  - apply nth_error_None in E. lia.
Qed.

Lemma set_nth_repeat {A} n j (x y : A) :
  j < n -> set_nth j x (repeat y n) = repeat y j ++ x :: repeat y (n - S j).
Proof.
  revert j. induction n as [|n IH]; intros [|j] H; cbn; try lia; auto.
  - rewrite Nat.sub_0_r. reflexivity.
  - rewrite IH by lia. reflexivity.
Qed.

Lemma prod_ones n : prod_list (repeat 1 n) = 1.
Proof. induction n; cbn; auto. change (fold_right Nat.mul 1) with prod_list. rewrite IHn. auto. Qed.

Lemma prod_axis_shape n j x : j < n -> prod_list (axis_shape n j x) = x.
Proof.
  intros H. unfold axis_shape. rewrite set_nth_repeat by auto.
  unfold prod_list. rewrite fold_right_app. cbn.
  change (fold_right Nat.mul 1) with prod_list. rewrite prod_ones, Nat.mul_1_r.
  clear H. induction j; cbn; auto. rewrite IHj. lia.
Qed.

Lemma list_max_axis j m x : 0 < x -> list_max (repeat 1 j ++ x :: repeat 1 m) = x.
Proof.
  intros H. unfold list_max.
  assert (M : forall m0 y, 0 < y -> fold_right Nat.max y (repeat 1 m0) = y).
  { induction m0; cbn [fold_right repeat]; auto. intros y Hy. rewrite IHm0; lia. }
  assert (M0 : fold_right Nat.max 0 (repeat 1 m) <= 1).
  { clear. induction m; cbn [fold_right repeat]; auto. lia. }
  rewrite fold_right_app. cbn [fold_right].
  rewrite M; lia.
Qed.

Lemma prod_axis j m x : prod_list (repeat 1 j ++ x :: repeat 1 m) = x.
Proof.
  unfold prod_list. rewrite fold_right_app. cbn.
  change (fold_right Nat.mul 1 (repeat 1 m)) with (prod_list (repeat 1 m)).
  rewrite prod_ones, Nat.mul_1_r. induction j; cbn; auto. rewrite IHj. lia.
Qed.

Section Make.
Context {T : Type} {N : Num T} {F : Fmt T}.

Lemma arr_not_singleton (a : tensor T) : shape a <> [] -> issingleton (VArr a) = false.
Proof. intros H. unfold issingleton. cbn. destruct (shape a); [contradiction|reflexivity]. Qed.

Lemma clean_vals_ok (vals : odict (value T)) :
  (forall k, In k (od_keys vals) -> ~ In k disallowed) ->
  (forall k v, In (k, v) vals -> issingleton v = true \/ exists a, v = VArr a) ->
  clean_vals vals = Ok vals.
Proof.
  intros R V. unfold clean_vals.
  rewrite (map_res_all _ (fun kv => kv)); [rewrite map_id; reflexivity|].
  intros [k v] Hin. cbn [fst snd].
  assert (Hk : ~ In k disallowed) by (apply R; apply (in_map fst) in Hin; exact Hin).
  apply mem_str_false in Hk. rewrite Hk.
  destruct v as [x|s|l|a|]; auto.
  destruct l as [|[z|b|x| |] [|e l]]; auto.
  destruct (V k (VSet [SEnone]) Hin) as [H|(a & H)]; discriminate.
Qed.

Lemma full_shape_ok l : Forall2 (fun o n => o = Some n) l (map (fun o => match o with Some n => n | None => 0 end) l) ->
  full_shape l = Ok (map (fun o => match o with Some n => n | None => 0 end) l).
Proof.
  intros H. apply map_res_ok. induction H; constructor; auto. subst. reflexivity.
Qed.

Lemma make_dist_gen name (vals : odict (value T)) (dims : odict (option Z)) (L : list string) :
  NoDup (od_keys vals) -> vals <> [] ->
  (forall k, In k (od_keys vals) -> ~ In k disallowed) ->
  NoDup L -> incl L (od_keys vals) ->
  (forall k v, od_get vals k = Some v -> ~ In k L ->
     issingleton v = true /\ (od_get dims k = None \/ od_get dims k = Some None)) ->
  (forall j k, nth_error L j = Some k ->
     exists a d, od_get vals k = Some (VArr a) /\ shape a <> [] /\ tsize a = list_max (shape a) /\
       od_get dims k = Some (Some d) /\ py_index (length L) d = Some j) ->
  ndim_of_dims dims = length L ->
  incl (od_keys dims) (od_keys vals) -> NoDup (od_keys dims) ->
  exists d, make_dist name vals (Some dims) = Ok d /\ d_name d = name /\
    d_keylist d = od_keys vals /\
    (forall k v, od_get vals k = Some v -> ~ In k L ->
       od_get (d_vals d) k = Some v /\ od_get (d_dims d) k = Some None) /\
    (forall j k a, nth_error L j = Some k -> od_get vals k = Some (VArr a) ->
       exists a', od_get (d_vals d) k = Some (VArr a') /\
         shape a' = axis_shape (length L) j (tsize a) /\ to_list a' = to_list a /\
         od_get (d_dims d) k = od_get dims k /\
         nth_error (d_shape d) j = Some (tsize a)) /\
    length (d_shape d) = length L /\ d_ndim d = Some (length L) /\
    d_aresing d = map (fun kv => issingleton (snd kv)) (d_vals d) /\
    d_issing d = Some (forallb (fun kv => issingleton (snd kv)) (d_vals d)) /\
    incl (od_keys (d_dims d)) (od_keys vals) /\ NoDup (od_keys (d_dims d)).
Proof.
  intros ND NE RS NL IL HS HA Nd ID NDd.
  assert (Cl : clean_vals vals = Ok vals).
  { apply clean_vals_ok; auto. intros k v Hin. apply od_in_get in Hin; auto.
    destruct (in_dec string_dec k L) as [Hk|Hk].
    - apply In_nth_error in Hk. destruct Hk as (j & Hj). destruct (HA j k Hj) as (a & dz & E & _).
      right. exists a. congruence.
    - left. eapply HS; eauto. }
  set (n := length L) in *.
  set (P := fun (pre : list (string * value T)) (st : dstate) =>
    od_keys (s_vals st) = od_keys vals /\ s_ndim st = n /\ length (s_shape st) = n /\
    incl (od_keys (s_dims st)) (od_keys vals) /\ NoDup (od_keys (s_dims st)) /\
    (forall k, ~ In k (od_keys pre) -> od_get (s_vals st) k = od_get vals k /\
                                       od_get (s_dims st) k = od_get dims k) /\
    (forall k v, In k (od_keys pre) -> od_get vals k = Some v -> ~ In k L ->
       od_get (s_vals st) k = Some v /\ od_get (s_dims st) k = Some None) /\
    (forall j k a, In k (od_keys pre) -> nth_error L j = Some k -> od_get vals k = Some (VArr a) ->
       exists a', od_get (s_vals st) k = Some (VArr a') /\
         shape a' = axis_shape n j (tsize a) /\ to_list a' = to_list a /\
         od_get (s_dims st) k = od_get dims k /\
         nth_error (s_shape st) j = Some (Some (tsize a)))).
  destruct (@fold_res_ok _ _ (dims_step false) P vals
             (mkDS vals dims n (repeat None n) [] 0)) as (st & Est & Pst).
  { unfold P; cbn. rewrite repeat_length. repeat split; auto; intros; contradiction. }
  { intros pre [k v] post st E (K & Hn & Ls & Id & Nds & Hout & Hsc & Har).
    assert (Kp : ~ In k (od_keys pre)).
    { rewrite E in ND. unfold od_keys in ND. rewrite map_app in ND. cbn in ND.
      apply NoDup_remove_2 in ND. rewrite in_app_iff in ND. unfold od_keys. tauto. }
    assert (Gv : od_get vals k = Some v).
    { apply od_in_get; auto. rewrite E. apply in_or_app. cbn. auto. }
    assert (Kv : In k (od_keys vals)) by (eapply od_get_some_key; eauto).
    destruct (Hout k Kp) as [Gsv Gsd].
    unfold dims_step. cbn [fst snd].
    destruct (in_dec string_dec k L) as [Hk|Hk].
    - apply In_nth_error in Hk. destruct Hk as (j & Hj).
      destruct (HA j k Hj) as (a & dz & Ea & Sa & Ma & Da & Dj).
      assert (v = VArr a) by congruence. subst v.
      assert (Lj : j < n) by (apply nth_error_Some; congruence).
      rewrite arr_not_singleton by auto. cbn zeta. rewrite (proj2 (Nat.eqb_eq _ _) Ma). cbn [assert_ bind].
      assert (M : od_mem (s_dims st) k = true) by (unfold od_mem; rewrite Gsd, Da; auto).
      rewrite M. cbn [assert_ bind]. rewrite Gsd, Da.
      rewrite Ls, Hn. unfold py_indexR. fold n in Dj. rewrite Dj. cbn [bind].
      assert (Q : exists a', (if negb (n =? ndim a) || negb (list_eqb Nat.eqb (shape a) (axis_shape n j (tsize a)))
          then let! a' := reshape (axis_shape n j (tsize a)) a in Ok (VArr a')
          else Ok (VArr a)) = Ok (VArr a') /\ shape a' = axis_shape n j (tsize a) /\
          to_list a' = to_list a).
      { destruct (negb (n =? ndim a) || negb (list_eqb Nat.eqb (shape a) (axis_shape n j (tsize a)))) eqn:B.
        - destruct (reshape_ok (axis_shape n j (tsize a)) a) as (a' & E1 & E2 & E3).
          { apply prod_axis_shape; auto. }
          exists a'. rewrite E1. cbn. auto.
        - apply orb_false_iff in B. destruct B as [_ B]. apply negb_false_iff, list_eqb_nat in B.
          exists a. auto. }
      destruct Q as (a' & Q1 & Q2 & Q3). rewrite Q1. cbn [bind].
      eexists. split; [reflexivity|]. unfold P; cbn [s_vals s_dims s_ndim s_shape].
      repeat split.
      + rewrite od_keys_set_old; auto. rewrite K. auto.
      + rewrite set_nth_length. auto.
      + auto.
      + auto.
      + rewrite od_get_set_ne; [apply Hout|]; intros C; apply H; unfold od_keys; rewrite map_app, in_app_iff; cbn; auto.
      + apply Hout. intros C. apply H. unfold od_keys. rewrite map_app, in_app_iff. auto.
      + rewrite od_get_set_ne.
        * apply Hsc; auto. unfold od_keys in H. rewrite map_app, in_app_iff in H. cbn in H.
          destruct H as [H|[H|[]]]; auto. subst. exfalso. apply H1. eapply nth_error_In; eauto.
        * intros C; subst. apply H1. eapply nth_error_In; eauto.
      + apply Hsc with (v := v); auto. unfold od_keys in H. rewrite map_app, in_app_iff in H. cbn in H.
        destruct H as [H|[H|[]]]; auto. subst. exfalso. apply H1. eapply nth_error_In; eauto.
      + intros j' k' b Hin Hj' Hb.
        destruct (string_dec k' k) as [->|Nk].
        * assert (j' = j) by exact (@nth_error_inj _ _ _ _ _ NL Hj' Hj). subst j'.
          assert (b = a) by congruence. subst b.
          exists a'. rewrite od_get_set_eq. repeat split; auto.
          apply nth_error_set_nth_eq. lia.
        * unfold od_keys in Hin. rewrite map_app, in_app_iff in Hin. cbn in Hin.
          destruct Hin as [Hin|[Hin|[]]]; [|congruence].
          destruct (Har j' k' b Hin Hj' Hb) as (b' & B1 & B2 & B3 & B4 & B5).
          exists b'. rewrite od_get_set_ne by auto. repeat split; auto.
          rewrite nth_error_set_nth_ne; auto. intros C; subst. congruence.
    - destruct (HS k v Gv Hk) as (Sv & Dk). rewrite Sv. rewrite Gsd.
      set (st' := mkDS (s_vals st) (od_set (s_dims st) k None) (s_ndim st) (s_shape st)
                      (s_sizes st) (s_count st)).
      assert (Q : exists st2, match od_get dims k with
          | Some None => Ok st | Some (Some _) => Err AssertionError | None => Ok st' end = Ok st2 /\
          s_vals st2 = s_vals st /\ s_ndim st2 = s_ndim st /\ s_shape st2 = s_shape st /\
          incl (od_keys (s_dims st2)) (od_keys vals) /\ NoDup (od_keys (s_dims st2)) /\
          od_get (s_dims st2) k = Some None /\
          forall k', k' <> k -> od_get (s_dims st2) k' = od_get (s_dims st) k').
      { destruct Dk as [Dk|Dk]; rewrite Dk.
        - exists st'. cbn. repeat split; auto.
          + intros x Hx. apply od_keys_set_in in Hx. destruct Hx as [->|Hx]; auto.
          + apply od_keys_set_nodup; auto.
          + apply od_get_set_eq.
          + intros k' Nk. apply od_get_set_ne; auto.
        - exists st. repeat split; auto. congruence. }
      destruct Q as (st2 & Q0 & Q1 & Q2 & Q3 & Q4 & Q5 & Q6 & Q7).
      exists st2. split; [exact Q0|].
      unfold P. rewrite Q1, Q2, Q3.
      assert (Dec : forall x, In x (od_keys (pre ++ [(k, v)])) <-> In x (od_keys pre) \/ x = k).
      { intros x. unfold od_keys. rewrite map_app, in_app_iff. cbn. intuition congruence. }
      repeat split; auto.
      + apply Hout. intros C. apply H. apply Dec. auto.
      + rewrite Q7 by (intros C; apply H; apply Dec; auto). apply Hout. intros C. apply H. apply Dec. auto.
      + apply Dec in H. destruct H as [H|H]; [apply Hsc; auto|]. subst. congruence.
      + apply Dec in H. destruct H as [H|H]; [|subst; auto].
        rewrite Q7 by congruence. eapply Hsc; eauto.
      + intros j' k' b Hin Hj' Hb. apply Dec in Hin. destruct Hin as [Hin|Hin].
        * destruct (Har j' k' b Hin Hj' Hb) as (b' & B1 & B2 & B3 & B4 & B5).
          exists b'. rewrite Q7 by congruence. auto.
        * subst. exfalso. apply Hk. eapply nth_error_In; eauto. }
  destruct Pst as (K & Hn & Ls & Id & Nds & _ & Hsc & Har).
  assert (FS : exists shp, full_shape (s_shape st) = Ok shp /\ length shp = n /\
     forall j k a, nth_error L j = Some k -> od_get vals k = Some (VArr a) ->
        nth_error shp j = Some (tsize a)).
  { exists (map (fun o => match o with Some n => n | None => 0 end) (s_shape st)).
    split; [|split].
    - apply full_shape_ok.
      assert (G : forall o, In o (s_shape st) -> exists m, o = Some m).
      { intros o Ho. apply In_nth_error in Ho. destruct Ho as (j & Hj).
        assert (Lj : j < n) by (rewrite <- Ls; apply nth_error_Some; congruence).
        destruct (nth_error L j) as [k|] eqn:Ek; [|apply nth_error_None in Ek; unfold n in Lj; lia].
        destruct (HA j k Ek) as (a & dz & Ea & _).
        destruct (Har j k a) as (a' & _ & _ & _ & _ & B); auto.
        { eapply od_get_some_key; eauto. }
        exists (tsize a). congruence. }
      clear -G. induction (s_shape st) as [|o l IH]; cbn; constructor.
      + destruct (G o (or_introl eq_refl)) as (m & ->). reflexivity.
      + apply IH. intros o' Ho'. apply G. cbn. auto.
    - rewrite map_length. auto.
    - intros j k a Hj Ha. destruct (Har j k a) as (a' & _ & _ & _ & _ & B); auto.
      { eapply od_get_some_key; eauto. }
      rewrite (map_nth_error _ _ _ B). reflexivity. }
  destruct FS as (shp & FS & FL & FA).
  assert (AR : map (fun kv => issingleton (snd kv)) vals = map (fun kv => issingleton (snd kv)) (s_vals st)).
  { assert (G : forall k v v', od_get vals k = Some v -> od_get (s_vals st) k = Some v' ->
              issingleton v = issingleton v').
    { intros k v v' Gv Gv'. pose proof (od_get_some_key _ _ Gv) as Kv.
      destruct (in_dec string_dec k L) as [Hk|Hk].
      - apply In_nth_error in Hk. destruct Hk as (j & Hj).
        destruct (HA j k Hj) as (a & dz & Ea & Sa & _).
        destruct (Har j k a Kv Hj Ea) as (a' & B1 & B2 & _).
        rewrite Gv in Ea. inversion Ea; subst. rewrite Gv' in B1. inversion B1; subst.
        rewrite !arr_not_singleton; auto. rewrite B2. unfold axis_shape.
        rewrite set_nth_repeat by (apply nth_error_Some; congruence). destruct j; discriminate.
      - destruct (Hsc k v Kv Gv Hk) as [B _]. congruence. }
    assert (ND2 : NoDup (od_keys (s_vals st))) by (rewrite K; auto).
    clear -G ND ND2 K. revert K ND ND2 G. generalize (s_vals st). induction vals as [|[k v] vals IH]; intros [|[k' v'] sv] K ND ND2 G; cbn in *; try discriminate; auto.
    injection K as Ek Ek2. subst k'. inversion ND as [|? ? N1 N2]; subst.
    inversion ND2 as [|? ? N3 N4]; subst. f_equal.
    - apply (G k); rewrite String.eqb_refl; auto.
    - apply IH; auto. intros k1 w w' Hw Hw'. apply (G k1).
      + destruct (String.eqb_spec k1 k); auto. subst. exfalso. apply N1.
        apply (od_get_some_key _ _ Hw).
      + destruct (String.eqb_spec k1 k); auto. subst. exfalso. apply N3.
        apply (od_get_some_key _ _ Hw'). }
  unfold make_dist. destruct vals as [|kv0 vals0] eqn:EV; [contradiction|]. rewrite <- EV in *.
  rewrite Cl. cbn [bind]. rewrite Nd. rewrite Est. cbn [bind]. rewrite FS. cbn [bind].
  eexists. split; [reflexivity|]. cbn [d_name d_keylist d_vals d_dims d_shape d_ndim d_aresing d_issing].
  split; auto. split; [exact K|]. split.
  { intros k v Gv Hk. apply Hsc; auto. eapply od_get_some_key; eauto. }
  split.
  { intros j k a Hj Ha. destruct (Har j k a) as (a' & B1 & B2 & B3 & B4 & B5); auto.
    { eapply od_get_some_key; eauto. }
    exists a'. repeat split; auto. eapply FA; eauto. }
  rewrite Hn, AR. repeat split; auto. f_equal.
  clear. induction (s_vals st) as [|[k v] l IH]; cbn; auto. rewrite IH. auto.
Qed.

Lemma make_dist_ok name (vals : odict (value T)) (dims : odict (option Z)) (L : list string) :
  NoDup (od_keys vals) -> vals <> [] ->
  (forall k, In k (od_keys vals) -> ~ In k disallowed) ->
  NoDup L -> incl L (od_keys vals) ->
  (forall k v, od_get vals k = Some v -> ~ In k L ->
     issingleton v = true /\ (od_get dims k = None \/ od_get dims k = Some None)) ->
  (forall j k, nth_error L j = Some k ->
     exists a, od_get vals k = Some (VArr a) /\ shape a <> [] /\ tsize a = list_max (shape a) /\
       od_get dims k = Some (Some (Z.of_nat j))) ->
  incl (od_keys dims) (od_keys vals) -> NoDup (od_keys dims) ->
  exists d, make_dist name vals (Some dims) = Ok d /\ d_name d = name /\
    d_keylist d = od_keys vals /\
    (forall k v, od_get vals k = Some v -> ~ In k L ->
       od_get (d_vals d) k = Some v /\ od_get (d_dims d) k = Some None) /\
    (forall j k a, nth_error L j = Some k -> od_get vals k = Some (VArr a) ->
       exists a', od_get (d_vals d) k = Some (VArr a') /\
         shape a' = axis_shape (length L) j (tsize a) /\ to_list a' = to_list a /\
         od_get (d_dims d) k = Some (Some (Z.of_nat j)) /\
         nth_error (d_shape d) j = Some (tsize a)) /\
    length (d_shape d) = length L /\ d_ndim d = Some (length L) /\
    d_aresing d = map (fun kv => issingleton (snd kv)) (d_vals d) /\
    d_issing d = Some (forallb (fun kv => issingleton (snd kv)) (d_vals d)) /\
    incl (od_keys (d_dims d)) (od_keys vals) /\ NoDup (od_keys (d_dims d)).
Proof.
  intros ND NE RS NL IL HS HA ID NDd.
  assert (Nd : ndim_of_dims dims = length L).
  { apply ndim_of_dims_layout; auto.
    - intros k d Hk. pose proof (od_get_some_key _ _ Hk) as Hin. apply ID in Hin.
      apply od_key_get in Hin. destruct Hin as (v & Hv).
      destruct (in_dec string_dec k L) as [Hk'|Hk'].
      + apply In_nth_error in Hk'. destruct Hk' as (j & Hj). exists j. split; auto.
        destruct (HA j k Hj) as (a & _ & _ & _ & E). congruence.
      + destruct (HS k v Hv Hk') as (_ & [E|E]); congruence.
    - intros j k Hj. destruct (HA j k Hj) as (a & _ & _ & _ & E). auto. }
  destruct (@make_dist_gen name vals dims L) as
    (d & Ed & Dn & Dk & Dsc & Dar & Dr); auto.
  { intros j k Hj. destruct (HA j k Hj) as (a & E & Sa & Ma & Da). exists a, (Z.of_nat j).
    repeat split; auto. apply py_index_nat. apply nth_error_Some. congruence. }
  exists d. repeat (split; [assumption|]). split; [|exact Dr].
  intros j k a Hj Ha. destruct (Dar j k a Hj Ha) as (a' & B1 & B2 & B3 & B4 & B5).
  exists a'. repeat split; auto. rewrite B4. destruct (HA j k Hj) as (a0 & _ & _ & _ & E). auto.
Qed.

End Make.

(** *** the PD constructor *)

Lemma od_set_same {A} (d : odict A) k v : od_get d k = Some v -> od_set d k v = d.
Proof.
  induction d as [|[k' v'] d IH]; cbn; [discriminate|].
  destruct (String.eqb_spec k k'); intros H.
  - inversion H; subst. reflexivity.
  - rewrite IH; auto.
Qed.

Lemma combine_map_self {A B} (f : A -> B) l : combine l (map f l) = map (fun x => (x, f x)) l.
Proof. induction l; cbn; congruence. Qed.

Section MakeR.
Context {F : Fmt R}.

(** The entry of a scalar shows its value. *)
Definition render (vals : odict (value R)) (L : list string) (ke : string * string)
  : string * string :=
  (fst ke, if mem_str (fst ke) L then snd ke
           else match od_get vals (fst ke) with
                | Some v => (fst ke ++ "=" ++ fmt_value v)%string
                | None => snd ke
                end).

Lemma od_set_render vals L (m : odict string) k v :
  od_get vals k = Some v -> ~ In k L -> In k (od_keys m) ->
  od_set m k (k ++ "=" ++ fmt_value v)%string =
  map (fun ke => if String.eqb (fst ke) k then render vals L ke else ke) m \/ ~ NoDup (od_keys m).
Proof.
  intros G Hk Hin. destruct (nodup_str (od_keys m)) eqn:ND.
  2:{ right. rewrite <- nodup_str_iff. congruence. }
  apply nodup_str_iff in ND. left.
  revert Hin. induction m as [|[k' e] m IH]; cbn; [tauto|]. intros Hin.
  inversion ND as [|? ? N1 N2]; subst.
  rewrite (String.eqb_sym k k'). destruct (String.eqb_spec k' k).
  - subst. f_equal.
    + unfold render. cbn. apply mem_str_false in Hk. rewrite Hk, G. reflexivity.
    + symmetry. rewrite <- (map_id m) at 2. apply map_ext_in. intros [k2 e2] H2. cbn.
      destruct (String.eqb_spec k2 k); auto. subst. exfalso. apply N1. apply (in_map fst) in H2. exact H2.
  - f_equal. apply IH; auto. destruct Hin; congruence || auto.
Qed.

Lemma render_keys vals L m : od_keys (map (render vals L) m) = od_keys m.
Proof. unfold od_keys. rewrite map_map. reflexivity. Qed.

Lemma override_names_ok (vals : odict (value R)) L (marg cond : odict string) :
  NoDup (od_keys vals) ->
  (forall k v, od_get vals k = Some v -> (issingleton v = true <-> ~ In k L)) ->
  Permutation (od_keys marg ++ od_keys cond) (od_keys vals) ->
  override_names (combine vals (map (fun kv => issingleton (snd kv)) vals)) (marg, cond)
  = Ok (map (render vals L) marg, map (render vals L) cond).
Proof.
  intros ND HS PM. unfold override_names.
  assert (NM : NoDup (od_keys marg ++ od_keys cond)).
  { eapply Permutation_NoDup; [apply Permutation_sym|]; eauto. }
  apply nodup_app_iff in NM. destruct NM as (NM & NC & DJ).
  rewrite combine_map_self.
  set (part := fun (ks : list string) => map (fun ke => if mem_str (fst ke) ks then render vals L ke else ke)).
  assert (PK : forall ks m, od_keys (part ks m) = od_keys m).
  { intros ks m. unfold part, od_keys. rewrite map_map. apply map_ext. intros [k e]. cbn.
    destruct (mem_str k ks); reflexivity. }
  set (f := fun mc it => _).
  destruct (@fold_res_ok _ _ f (fun pre mc =>
     mc = (part (map (fun x => fst (fst x)) pre) marg, part (map (fun x => fst (fst x)) pre) cond))
     (map (fun x => (x, issingleton (snd x))) vals) (marg, cond)) as (s & E & P).
  { cbn. unfold part. cbn. rewrite !map_id. reflexivity. }
  { intros pre [[k v] b] post mc Epre ->.
    assert (Hin : In ((k, v), b) (map (fun x => (x, issingleton (snd x))) vals)).
    { rewrite Epre. apply in_or_app. cbn. auto. }
    apply in_map_iff in Hin. destruct Hin as ([k0 v0] & E0 & Hin). cbn in E0.
    inversion E0; subst k0 v0 b. apply od_in_get in Hin; auto.
    set (ks := map (fun x => fst (fst x)) pre).
    assert (Kks : ~ In k ks).
    { assert (M : od_keys vals = ks ++ k :: map (fun x => fst (fst x)) post).
      { unfold od_keys, ks.
        transitivity (map (fun x => fst (fst x)) (map (fun x => (x, issingleton (snd x))) vals)).
        - rewrite map_map. reflexivity.
        - rewrite Epre, map_app. reflexivity. }
      rewrite M in ND. apply NoDup_remove_2 in ND. rewrite in_app_iff in ND. tauto. }
    unfold f at 1. cbn [fst snd]. rewrite map_app. cbn [map fst]. fold ks.
    assert (Nop : forall m, ~ In k (od_keys m) \/ issingleton v = false -> part (ks ++ [k]) m = part ks m).
    { intros m Hm. unfold part. apply map_ext_in. intros [k2 e2] H2. cbn.
      assert (K2 : In k2 (od_keys m)) by (apply (in_map fst) in H2; exact H2).
      destruct (mem_str k2 ks) eqn:M1.
      - apply mem_str_iff in M1. assert (M2 : mem_str k2 (ks ++ [k]) = true).
        { apply mem_str_iff, in_or_app. auto. } rewrite M2. auto.
      - destruct (mem_str k2 (ks ++ [k])) eqn:M2; auto.
        apply mem_str_iff in M2. apply in_app_or in M2. destruct M2 as [M2|[M2|[]]].
        { apply mem_str_iff in M2. congruence. }
        subst k2. destruct Hm as [Hm|Hm]; [contradiction|].
        unfold render. cbn. destruct (mem_str k L) eqn:ML; auto.
        apply mem_str_false in ML. apply (HS k v) in ML; auto. congruence. }
    destruct (issingleton v) eqn:Sv.
    2:{ eexists. split; [reflexivity|]. rewrite !Nop by auto. reflexivity. }
    assert (Hk : ~ In k L) by (apply (HS k v Hin); auto).
    assert (Upd : forall m, In k (od_keys m) -> NoDup (od_keys m) ->
       od_set (part ks m) k (k ++ "=" ++ fmt_value v)%string = part (ks ++ [k]) m).
    { intros m Hm Nm.
      destruct (@od_set_render vals L (part ks m) k v Hin Hk) as [E1|E1].
      { rewrite PK. auto. }
      2:{ rewrite PK in E1. contradiction. }
      rewrite E1. unfold part. rewrite map_map. apply map_ext. intros [k2 e2]. cbn [fst].
      destruct (mem_str k2 ks) eqn:M1.
      - apply mem_str_iff in M1. assert (M2 : mem_str k2 (ks ++ [k]) = true).
        { apply mem_str_iff, in_or_app. auto. } rewrite M2. cbn [fst render].
        destruct (String.eqb_spec k2 k); auto. subst. contradiction.
      - cbn [fst]. destruct (String.eqb_spec k2 k).
        + subst. assert (M2 : mem_str k (ks ++ [k]) = true).
          { apply mem_str_iff, in_or_app. cbn. auto. } rewrite M2. auto.
        + assert (M2 : mem_str k2 (ks ++ [k]) = false).
          { apply mem_str_false. rewrite in_app_iff. cbn. apply mem_str_false in M1. intuition congruence. }
          rewrite M2. auto. }
    assert (Kin : In k (od_keys marg ++ od_keys cond)).
    { eapply Permutation_in; [apply Permutation_sym; eauto|]. eapply od_get_some_key; eauto. }
    destruct (od_mem (part ks marg) k) eqn:Mm.
    - apply od_mem_iff in Mm. rewrite PK in Mm.
      eexists. split; [reflexivity|]. rewrite Upd by auto. rewrite (Nop cond); auto.
    - apply od_mem_false in Mm. rewrite PK in Mm.
      apply in_app_or in Kin. destruct Kin as [Kin|Kin]; [contradiction|].
      assert (Mc : od_mem (part ks cond) k = true) by (apply od_mem_iff; rewrite PK; auto).
      rewrite Mc. eexists. split; [reflexivity|]. rewrite Upd by auto. rewrite (Nop marg); auto. }
  change (fold_res f (map (fun x => (x, issingleton (snd x))) vals) (marg, cond) = Ok (map (render vals L) marg, map (render vals L) cond)).
  rewrite E, P. f_equal.
  assert (Full : forall m, incl (od_keys m) (od_keys vals) ->
     part (map (fun x => fst (fst x)) (map (fun x => (x, issingleton (snd x))) vals)) m = map (render vals L) m).
  { intros m Hm. unfold part. apply map_ext_in. intros [k e] H. cbn [fst].
    assert (M : mem_str k (map (fun x => fst (fst x)) (map (fun x => (x, issingleton (snd x))) vals)) = true).
    { apply mem_str_iff. rewrite map_map. cbn. apply Hm. apply (in_map fst) in H. exact H. }
    rewrite M. reflexivity. }
  rewrite !Full; auto; intros k Hk; eapply Permutation_in; eauto; apply in_or_app; auto.
Qed.

Lemma good_entries_dict (m : odict string) :
  Forall (fun ke => good_entry (snd ke) /\ key_of (snd ke) (fst ke)) m ->
  Forall good_entry (od_vals m) /\ entries_dict (od_vals m) m.
Proof.
  intros H. split; [|split; [reflexivity|]].
  - unfold od_vals. induction H as [|ke m [H1 H2] H IH]; cbn; constructor; auto.
  - eapply Forall_impl; [|exact H]. cbn. tauto.
Qed.

(** What a well-formed call of the constructor returns. *)
Lemma make_pd_ok (vals : odict (value R)) (dims : odict (option Z)) (L : list string)
    (marg cond : odict string) (t : tensor R) (ps : pspec R) (psc : pscale R) :
  NoDup (od_keys vals) -> vals <> [] ->
  (forall k, In k (od_keys vals) -> ~ In k disallowed) ->
  NoDup L -> incl L (od_keys vals) ->
  (forall k v, od_get vals k = Some v -> ~ In k L ->
     issingleton v = true /\ (od_get dims k = None \/ od_get dims k = Some None)) ->
  (forall j k, nth_error L j = Some k ->
     exists a, od_get vals k = Some (VArr a) /\ shape a <> [] /\ tsize a = list_max (shape a) /\
       0 < tsize a /\ od_get dims k = Some (Some (Z.of_nat j)) /\
       nth_error (shape t) j = Some (tsize a)) ->
  incl (od_keys dims) (od_keys vals) -> NoDup (od_keys dims) ->
  length (shape t) = length L ->
  Forall (fun ke => good_entry (snd ke) /\ key_of (snd ke) (fst ke)) (marg ++ cond) ->
  Forall (fun ke => good_entry (snd ke) /\ key_of (snd ke) (fst ke))
         (map (render vals L) (marg ++ cond)) ->
  Permutation (od_keys marg ++ od_keys cond) (od_keys vals) ->
  eval_pscale ps = Ok psc -> eval_pscale (spec_of psc) = Ok psc ->
  exists q, make_pd (margcond_str (od_vals marg) (od_vals cond)) vals (Some dims) (Some t) ps = Ok q /\
    valid_pd q L /\ p_keylist q = od_keys vals /\
    p_marg q = map (render vals L) marg /\ p_cond q = map (render vals L) cond /\
    p_prob q = Some t /\ p_pscale q = psc /\
    (forall k, variable q k = match od_get vals k with Some v => Some (var_of v) | None => None end).
Proof.
  intros ND NE RS NL IL HS HA ID NDd Lsh Gd Gr PM EP EI.
  destruct (@make_dist_ok R (margcond_str (od_vals marg) (od_vals cond)) vals dims L) as
    (d & Ed & Dn & Dk & Dsc & Dar & Dsh & Dnd & Dsing & Dis & Did & Dnod); auto.
  { intros j k Hj. destruct (HA j k Hj) as (a & E & Sa & Ma & _ & Da & _). exists a. auto. }
  assert (NM : NoDup (od_keys marg ++ od_keys cond)).
  { eapply Permutation_NoDup; [apply Permutation_sym|]; eauto. }
  apply nodup_app_iff in NM. destruct NM as (NM & NC & DJ).
  assert (SM : str_margcond (margcond_str (od_vals marg) (od_vals cond)) = Ok (marg, cond)).
  { apply Forall_app in Gd. destruct Gd as [G1 G2].
    destruct (good_entries_dict _ G1). destruct (good_entries_dict _ G2).
    apply name_round_trip_spec; auto. }
  assert (Kd : od_keys (d_vals d) = od_keys vals) by exact Dk.
  assert (ND' : NoDup (od_keys (d_vals d))) by (rewrite Kd; auto).
  assert (OV : override_names (combine (d_vals d) (d_aresing d)) (marg, cond)
     = Ok (map (render (d_vals d) L) marg, map (render (d_vals d) L) cond)).
  { rewrite Dsing. apply override_names_ok; auto.
    - intros k v Gv. destruct (in_dec string_dec k L) as [Hk|Hk].
      + apply In_nth_error in Hk as Hk'. destruct Hk' as (j & Hj).
        destruct (HA j k Hj) as (a & Ea & _).
        destruct (Dar j k a Hj Ea) as (a' & B1 & B2 & _). rewrite B1 in Gv. inversion Gv; subst.
        rewrite arr_not_singleton; [split; [discriminate|contradiction]|].
        rewrite B2. unfold axis_shape. rewrite set_nth_repeat by (apply nth_error_Some; congruence).
        destruct j; discriminate.
      + assert (Kv : In k (od_keys vals)) by (rewrite <- Kd; eapply od_get_some_key; eauto).
        apply od_key_get in Kv. destruct Kv as (w & Gw).
        destruct (Dsc k w Gw Hk) as [B _]. assert (v = w) by congruence. subst.
        destruct (HS k w Gw Hk). split; auto.
    - rewrite Kd. auto. }
  assert (RE : forall m, map (render (d_vals d) L) m = map (render vals L) m).
  { intros m. apply map_ext. intros [k e]. unfold render. cbn. f_equal.
    destruct (mem_str k L) eqn:ML; auto. apply mem_str_false in ML.
    destruct (od_get vals k) as [v|] eqn:Gv.
    - destruct (Dsc k v Gv ML) as [B _]. rewrite B. auto.
    - apply od_get_none in Gv. rewrite <- Kd in Gv. apply od_get_none in Gv. rewrite Gv. auto. }
  rewrite !RE in OV.
  unfold make_pd. rewrite SM. cbn [bind]. rewrite Ed. cbn [bind]. rewrite OV. cbn [bind].
  rewrite EP. cbn [bind].
  assert (SH : d_shape d = shape t).
  { apply nth_ext with (d := 0) (d' := 0); [congruence|]. intros j Hj. rewrite Dsh in Hj.
    destruct (nth_error L j) as [k|] eqn:Ek; [|apply nth_error_None in Ek; lia].
    destruct (HA j k Ek) as (a & Ea & _ & _ & _ & _ & Ht).
    destruct (Dar j k a Ek Ea) as (a' & _ & _ & _ & _ & B).
    rewrite (nth_error_nth _ _ _ B), (nth_error_nth _ _ _ Ht). reflexivity. }
  match goal with |- context [check_prob ?d' (Some t)] => set (d1 := d') end.
  assert (CK : check_prob d1 (Some t) = Ok tt).
  { unfold check_prob, d1. cbn [d_issing d_ndim d_shape]. rewrite Dis, Dnd, SH.
    assert (E0 : forallb (fun kv => issingleton (snd kv)) (d_vals d) = (ndim t =? 0)).
    { unfold ndim. rewrite Lsh. destruct L as [|k0 L0] eqn:EL.
      - cbn. apply forallb_forall. intros [k v] Hin. cbn.
        apply od_in_get in Hin; auto.
        assert (Kv : In k (od_keys vals)) by (rewrite <- Kd; eapply od_get_some_key; eauto).
        apply od_key_get in Kv. destruct Kv as (w & Gw).
        destruct (Dsc k w Gw (fun x => x)) as [B _]. assert (v = w) by congruence. subst v.
        destruct (HS k w Gw (fun x => x)). auto.
      - cbn [length Nat.eqb]. rewrite <- EL in *.
        assert (H0 : nth_error L 0 = Some k0) by (rewrite EL; reflexivity).
        destruct (HA 0 k0 H0) as (a & Ea & Sa & _).
        destruct (Dar 0 k0 a H0 Ea) as (a' & B1 & B2 & _).
        apply not_true_is_false. intros C. rewrite forallb_forall in C.
        apply od_get_in in B1. apply C in B1. cbn [snd] in B1.
        rewrite arr_not_singleton in B1; [discriminate|].
        rewrite B2. unfold axis_shape. rewrite EL. cbn. discriminate. }
    rewrite E0. unfold ndim. rewrite Lsh. destruct (length L =? 0) eqn:Z0; cbn; auto.
    rewrite Nat.eqb_refl. cbn. assert (Q : list_eqb Nat.eqb (shape t) (shape t) = true) by (apply list_eqb_nat; auto).
    rewrite Q. auto. }
  rewrite CK. cbn [bind].
  eexists. split; [reflexivity|].
  cbn [p_keylist p_d p_marg p_cond p_prob p_pscale].
  split; [|repeat split; auto].
  2:{ intros k. unfold variable, p_vals. cbn [p_d]. change (d_vals d1) with (d_vals d).
      destruct (od_get vals k) as [v|] eqn:Gv.
      - destruct (in_dec string_dec k L) as [Hk|Hk].
        + apply In_nth_error in Hk. destruct Hk as (j & Hj).
          destruct (HA j k Hj) as (a & Ea & Sa & _).
          destruct (Dar j k a Hj Ea) as (a' & B1 & B2 & B3 & _).
          rewrite B1. assert (v = VArr a) by congruence. subst v. cbn.
          rewrite B3. rewrite B2. unfold axis_shape.
          rewrite set_nth_repeat by (apply nth_error_Some; congruence).
          destruct (shape a); [contradiction|]. destruct j; reflexivity.
        + destruct (Dsc k v Gv Hk) as [B _]. rewrite B. reflexivity.
      - apply od_get_none in Gv. rewrite <- Kd in Gv. apply od_get_none in Gv. rewrite Gv. auto. }
  assert (MEMc : forall m, od_keys (map (render vals L) m) = od_keys m) by (intros; apply render_keys).
  constructor; unfold p_keylist, p_vals, p_dims, p_shape, p_name; cbn [p_d d1 d_name d_vals d_dims d_ndim d_shape d_aresing d_issing p_marg p_cond p_prob p_pscale d_keylist]; try change (d_keylist d1) with (od_keys (d_vals d)); auto.
  - rewrite Kd. intros C. destruct vals; [auto|discriminate].
  - rewrite Kd. exact RS.
  - rewrite Kd. auto.
  - intros k v Gv Hk.
    assert (Kv : In k (od_keys vals)) by (rewrite <- Kd; eapply od_get_some_key; eauto).
    apply od_key_get in Kv. destruct Kv as (w & Gw).
    destruct (Dsc k w Gw Hk) as [B1 B2]. assert (v = w) by congruence. subst v.
    destruct (HS k w Gw Hk). auto.
  - intros j k Hj. destruct (HA j k Hj) as (a & Ea & Sa & Ma & Pa & Da & Ta).
    destruct (Dar j k a Hj Ea) as (a' & B1 & B2 & B3 & B4 & B5).
    exists a', (tsize a). repeat split; auto. rewrite B2. unfold axis_shape.
    apply set_nth_repeat. apply nth_error_Some. congruence.
  - rewrite Kd. auto.
  - exists t. auto.
  - rewrite !MEMc. rewrite Kd. auto.
  - rewrite <- map_app. auto.
  - intros k v e Gv Hk. rewrite <- map_app. unfold render at 1.
    assert (Kv : In k (od_keys vals)) by (rewrite <- Kd; eapply od_get_some_key; eauto).
    apply od_key_get in Kv. destruct Kv as (w & Gw).
    destruct (Dsc k w Gw Hk) as [B1 B2]. assert (v = w) by congruence. subst v.
    assert (G := od_get_map (fun k e => if mem_str k L then e
           else match od_get vals k with
                | Some v => (k ++ "=" ++ fmt_value v)%string
                | None => e
                end) (marg ++ cond) k). cbn [fst snd] in G. rewrite G.
    apply mem_str_false in Hk. rewrite Hk, Gw. destruct (od_get (marg ++ cond) k); congruence.
Qed.

End MakeR.
