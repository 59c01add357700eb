(** Products of repetitions: counts are added. *)
From Coq Require Import String ZArith Reals Bool Arith Lia List.
From Verif Require Import Base OdLemmas Num Tensor TensorBcast TensorLemmas PScales Names Names_Proofs Distr PDModel PDUtils PD_Spec PD_Product_Spec PD_Product1 PD_Make PD_Sums PD_Valid.
Import ListNotations.

Section Counts.
Notation val := (odict (value R)).

Lemma od_keys_set_same (d : val) k v w : od_get d k = Some w -> od_keys (od_set d k v) = od_keys d.
Proof. intros H. apply od_keys_set_old. eapply od_get_some_key; eauto. Qed.

Lemma set_int_ok (v : value R) z : set_int v = Ok z -> v = VSet [SEint z].
Proof. destruct v as [| |[|[] []]| |]; cbn; intros H; inversion H; reflexivity. Qed.

Lemma add_counts_spec (v : val) keys : forall flags acc acc', NoDup keys ->
  add_counts flags keys v acc = Ok acc' ->
  od_keys acc' = od_keys acc /\
  forall k, (In (k, true) (combine keys flags) -> exists za zv, od_get acc k = Some (VSet [SEint za]) /\
               od_get v k = Some (VSet [SEint zv]) /\ od_get acc' k = Some (VSet [SEint (za + zv)])) /\
            (~ In (k, true) (combine keys flags) -> od_get acc' k = od_get acc k).
Proof.
  induction keys as [|k0 keys IH]; intros flags acc acc' ND H.
  - assert (acc' = acc) by (destruct flags; cbn in H; congruence). subst. split; [reflexivity|]. intros k. split; [intros []|reflexivity].
  - destruct flags as [|b flags]; [discriminate|]. cbn in H. inversion ND as [|? ? NI ND']; subst.
    assert (Nk : forall b, ~ In (k0, b) (combine keys flags)) by (intros b' C; apply NI; eapply in_combine_l; eauto).
    destruct b.
    + unfold od_getR in H. destruct (od_get acc k0) as [a|] eqn:Ea; cbn [bind] in H; [|discriminate].
      destruct (set_int a) as [za|] eqn:Sa; cbn [bind] in H; [|discriminate].
      destruct (od_get v k0) as [w|] eqn:Ew; cbn [bind] in H; [|discriminate].
      destruct (set_int w) as [zv|] eqn:Sw; cbn [bind] in H; [|discriminate].
      apply set_int_ok in Sa. apply set_int_ok in Sw. subst a w.
      destruct (IH _ _ _ ND' H) as [K G]. split; [rewrite K; eapply od_keys_set_same; eauto|].
      intros k. destruct (G k) as [G1 G2]. cbn [combine In].
      destruct (string_dec k k0) as [->|Ne].
      * split; [|intros C; exfalso; apply C; auto]. intros _. exists za, zv. repeat split; auto.
        rewrite (G2 (Nk true)), od_get_set_eq. reflexivity.
      * rewrite od_get_set_ne in G1, G2 by auto. split.
        -- intros [C|C]; [inversion C; congruence|auto].
        -- intros C. apply G2. auto.
    + destruct (IH _ _ _ ND' H) as [K G]. split; auto. intros k. destruct (G k) as [G1 G2]. cbn [combine In]. split.
      * intros [C|C]; [discriminate|auto].
      * intros C. apply G2. auto.
Qed.

Lemma flagged (v : val) k : NoDup (od_keys v) ->
  (In (k, true) (combine (od_keys v) (map (fun kv => isunitsetint (snd kv)) v)) <->
   exists z, od_get v k = Some (VSet [SEint z])).
Proof.
  induction v as [|[k0 x] v IH]; intros ND; cbn; [split; [intros []|intros [z Q]; discriminate]|].
  inversion ND; subst. destruct (String.eqb k k0) eqn:E.
  - apply String.eqb_eq in E. subst k0. split.
    + intros [C|C].
      * inversion C as [Q]. destruct x as [| |[|[] []]| |]; try discriminate. eauto.
      * exfalso. apply H1. eapply in_combine_l; eauto.
    + intros [z Q]. inversion Q; subst. left. reflexivity.
  - apply String.eqb_neq in E. rewrite <- IH by auto. split; [|auto].
    intros [C|C]; [inversion C; congruence|auto].
Qed.

Definition body ms (acc v : val) : result val :=
  let flags := map (fun kv : string * value R => isunitsetint (snd kv)) v in
  if negb (existsb (fun b => b) flags) then Ok (od_update acc v)
  else let! _ := assert_ (list_eqb Bool.eqb ms (firstn (length ms) flags)) in
       match acc with [] => Ok (od_update acc v) | _ => add_counts flags (od_keys acc) v acc end.

Lemma some_flag (v : val) k z : od_get v k = Some (VSet [SEint z]) ->
  existsb (fun b => b) (map (fun kv : string * value R => isunitsetint (snd kv)) v) = true.
Proof.
  intros H. apply existsb_exists. exists true. split; auto. apply in_map_iff. exists (k, VSet [SEint z]). split; auto.
  apply od_get_in; auto.
Qed.

Lemma fold_counts ms K kc (ND : NoDup K) : forall vals acc res,
  od_keys acc = K -> acc <> [] -> Forall (fun v => od_keys v = K /\ exists z, od_get v kc = Some (VSet [SEint z])) vals ->
  fold_res (body ms) vals acc = Ok res ->
  forall k,
    (forall za zs, od_get acc k = Some (VSet [SEint za]) ->
       Forall2 (fun v z => od_get v k = Some (VSet [SEint z])) vals zs ->
       od_get res k = Some (VSet [SEint (za + total_count zs)])) /\
    (Forall (fun v => ~ exists z, od_get v k = Some (VSet [SEint z])) vals -> od_get res k = od_get acc k).
Proof.
  induction vals as [|v vals IH]; intros acc res EK NE F H k; cbn in H.
  - inversion H; subst. split; auto. intros za zs E F2. inversion F2; subst. cbn. rewrite Z.add_0_r. exact E.
  - inversion F as [|? ? [Kv [zc Ec]] F']; subst.
    destruct (body ms acc v) as [acc'|] eqn:B; cbn [bind] in H; [|discriminate].
    unfold body in B. rewrite (some_flag v kc zc Ec) in B. cbn [negb] in B.
    destruct (assert_ _); cbn [bind] in B; [|discriminate].
    assert (B' : add_counts (map (fun kv : string * value R => isunitsetint (snd kv)) v) (od_keys acc) v acc = Ok acc')
      by (destruct acc; [congruence|exact B]).
    destruct (add_counts_spec v (od_keys acc) _ acc acc' ND B') as [K' G].
    rewrite <- Kv in G.
    assert (NE' : acc' <> []) by (intros ->; destruct acc; [congruence|discriminate]).
    assert (NDv : NoDup (od_keys v)) by (rewrite Kv; auto).
    destruct (IH acc' res K' NE' F' H k) as [I1 I2]. destruct (G k) as [G1 G2]. split.
    + intros za zs E F2. inversion F2 as [|? zv ? zs' E1 F2']; subst.
      destruct G1 as (za' & zv' & A1 & A2 & A3); [apply flagged; eauto|].
      assert (za' = za) by congruence. assert (zv' = zv) by congruence. subst.
      rewrite (I1 _ _ A3 F2'). replace (total_count (zv :: zs')) with (zv + total_count zs')%Z by reflexivity. rewrite Z.add_assoc. reflexivity.
    + intros C. inversion C; subst. rewrite I2 by auto. apply G2. rewrite flagged; auto.
Qed.

Lemma fast_vals_counts ms K kc v0 (vals : list val) res : NoDup K ->
  Forall (fun v => od_keys v = K /\ exists z, od_get v kc = Some (VSet [SEint z])) (v0 :: vals) ->
  fast_vals (Some ms) (v0 :: vals) = Ok res ->
  forall k,
    (forall zs, Forall2 (fun v z => od_get v k = Some (VSet [SEint z])) (v0 :: vals) zs ->
       od_get res k = Some (VSet [SEint (total_count zs)])) /\
    (Forall (fun v => ~ exists z, od_get v k = Some (VSet [SEint z])) (v0 :: vals) -> od_get res k = od_get v0 k).
Proof.
  intros ND F H k. change (fold_res (body ms) (v0 :: vals) [] = Ok res) in H.
  inversion F as [|? ? [Kv [zc Ec]] F']; subst. cbn [fold_res] in H.
  assert (B : forall a, body ms [] v0 = Ok a -> a = v0).
  { intros a. unfold body. destruct (negb _); [|destruct (assert_ _); cbn [bind]; [|discriminate]];
      intros Q; inversion Q; apply od_update_new; cbn; auto. }
  destruct (body ms [] v0) as [a|]; cbn [bind] in H; [|discriminate]. rewrite (B a eq_refl) in H.
  assert (NE : v0 <> []) by (intros ->; discriminate).
  destruct (fold_counts ms (od_keys v0) kc ND vals v0 res eq_refl NE F' H k) as [G1 G2]. split.
  - intros zs F2. inversion F2; subst. cbn. apply G1; auto.
  - intros C. inversion C; subst. auto.
Qed.

Lemma fast_vals_keys ms K kc v0 (vals : list val) res : NoDup K ->
  Forall (fun v => od_keys v = K /\ exists z, od_get v kc = Some (VSet [SEint z])) (v0 :: vals) ->
  fast_vals (Some ms) (v0 :: vals) = Ok res -> od_keys res = K.
Proof.
  intros ND F H. change (fold_res (body ms) (v0 :: vals) [] = Ok res) in H.
  inversion F as [|? ? [Kv [zc Ec]] F']; subst. cbn [fold_res] in H.
  assert (B : forall a, body ms [] v0 = Ok a -> a = v0).
  { intros a. unfold body. destruct (negb _); [|destruct (assert_ _); cbn [bind]; [|discriminate]];
      intros Q; inversion Q; apply od_update_new; cbn; auto. }
  destruct (body ms [] v0) as [a|]; cbn [bind] in H; [|discriminate]. rewrite (B a eq_refl) in H.
  assert (NE : v0 <> []) by (intros ->; discriminate). clear B F Ec.
  assert (G : forall vals acc, Forall (fun v => od_keys v = od_keys v0 /\ exists z, od_get v kc = Some (VSet [SEint z])) vals ->
     od_keys acc = od_keys v0 -> fold_res (body ms) vals acc = Ok res -> od_keys res = od_keys v0).
  { clear H F' vals. induction vals as [|v vals IH]; intros acc F' KA H; cbn in H; [inversion H; subst; exact KA|].
    inversion F' as [|? ? [Kv [zv Ev]] F'']; subst.
    destruct (body ms acc v) as [acc'|] eqn:B; cbn [bind] in H; [|discriminate].
    apply (IH acc' F''); auto. unfold body in B. rewrite (some_flag v kc zv Ev) in B. cbn [negb] in B.
    destruct (assert_ _); cbn [bind] in B; [|discriminate].
    assert (NA : acc <> []) by (intros ->; destruct v0; [congruence|discriminate]).
    assert (B' : add_counts (map (fun kv : string * value R => isunitsetint (snd kv)) v) (od_keys acc) v acc = Ok acc')
      by (destruct acc; [congruence|exact B]).
    assert (NDa : NoDup (od_keys acc)) by (rewrite KA; auto).
    destruct (add_counts_spec v (od_keys acc) _ acc acc' NDa B') as [K' _]. congruence. }
  apply (G vals v0); auto.
Qed.

(** Single values are kept by the constructor. *)
Lemma clean_get (vals vals' : val) k v : clean_vals vals = Ok vals' -> od_get vals k = Some v -> v <> VSet [SEnone] ->
  od_get vals' k = Some v.
Proof.
  unfold clean_vals. revert vals'. induction vals as [|[k0 x] vals IH]; intros vals' H E NV; [discriminate|].
  cbn [map_res fst snd] in H. destruct (mem_str k0 disallowed); cbn [bind] in H; [discriminate|].
  destruct (map_res _ vals) as [r|] eqn:Er.
  2: { destruct x as [| |[|[] []]| |]; cbn [bind] in H; discriminate. }
  specialize (IH r eq_refl).
  assert (exists x', vals' = (k0, x') :: r /\ (x <> VSet [SEnone] -> x' = x)) as (x' & -> & Q).
  { destruct x as [| |[|[] []]| |]; cbn [bind] in H; inversion H; eexists; (split; [reflexivity|]); congruence. }
  cbn in *. destruct (String.eqb k k0); auto. inversion E; subst. rewrite Q; auto.
Qed.

Lemma step_keeps ev (st st' : @dstate R) kv k : dims_step ev st kv = Ok st' ->
  fst kv <> k \/ issingleton (snd kv) = true -> od_get (s_vals st') k = od_get (s_vals st) k.
Proof.
  unfold dims_step. intros H C. destruct (issingleton (snd kv)) eqn:Q.
  - destruct ev; [inversion H; subst; reflexivity|].
    destruct (od_get (s_dims st) (fst kv)) as [[|]|]; inversion H; subst; reflexivity.
  - destruct C as [C|C]; [|discriminate]. destruct (snd kv); try discriminate.
    destruct (assert_ _); cbn [bind] in H; [|discriminate].
    match type of H with bind ?e _ = _ => destruct e as [[[dims shp] nd]|]; cbn [bind] in H; [|discriminate] end.
    destruct (od_get dims (fst kv)) as [[d|]|]; try discriminate.
    destruct (py_indexR (length shp) d); cbn [bind] in H; [|discriminate].
    destruct (py_indexR nd d); cbn [bind] in H; [|discriminate].
    match type of H with bind ?e _ = _ => destruct e; cbn [bind] in H; [|discriminate] end.
    inversion H; subst. cbn. apply od_get_set_ne. auto.
Qed.

Lemma loop_keeps ev k : forall l (st st' : @dstate R), fold_res (dims_step ev) l st = Ok st' ->
  (forall v, In (k, v) l -> issingleton v = true) -> od_get (s_vals st') k = od_get (s_vals st) k.
Proof.
  induction l as [|[k0 v] l IH]; intros st st' H C; cbn in H; [inversion H; reflexivity|].
  destruct (dims_step ev st (k0, v)) as [st1|] eqn:S; cbn [bind] in H; [|discriminate].
  rewrite (IH st1 st' H); [|intros w I; apply C; right; auto].
  eapply step_keeps; [exact S|]. cbn. destruct (string_dec k0 k) as [->|]; auto. right. apply C. left; auto.
Qed.

Lemma make_pd_keeps {F : Fmt R} name (vals : val) dims prob ps (r : pd R) k v :
  make_pd name vals dims prob ps = Ok r -> NoDup (od_keys vals) -> od_get vals k = Some v -> issingleton v = true -> v <> VSet [SEnone] ->
  od_get (p_vals r) k = Some v.
Proof.
  unfold make_pd. intros H ND E Sv NV.
  destruct (str_margcond name) as [[m0 c0]|]; cbn [bind] in H; [|discriminate].
  destruct (make_dist name vals dims) as [d|] eqn:D; cbn [bind] in H; [|discriminate].
  destruct (override_names _ _) as [[m c]|]; cbn [bind] in H; [|discriminate].
  destruct (eval_pscale ps); cbn [bind] in H; [|discriminate].
  destruct (check_prob _ _); cbn [bind] in H; [|discriminate].
  inversion H; subst. unfold p_vals. cbn.
  unfold make_dist in D. destruct vals as [|kv vals]; [discriminate|].
  destruct (clean_vals (kv :: vals)) as [v1|] eqn:C; cbn [bind] in D; [|discriminate].
  match type of D with bind ?e _ = _ => destruct e as [st|] eqn:L; cbn [bind] in D; [|discriminate] end.
  destruct (full_shape _); cbn [bind] in D; [|discriminate]. inversion D; subst. cbn.
  pose proof (clean_get _ _ k v C E NV) as G.
  rewrite (loop_keeps _ k _ _ _ L); [exact G|].
  intros w I. assert (NK : NoDup (od_keys v1)).
  { replace (od_keys v1) with (od_keys (kv :: vals)); auto. clear - C. unfold clean_vals in C. revert v1 C.
    induction (kv :: vals) as [|[k0 x] l IH]; intros v1 C; cbn [map_res fst snd] in C; [inversion C; reflexivity|].
    destruct (mem_str k0 disallowed); cbn [bind] in C; [discriminate|].
    destruct (map_res _ l) as [r|] eqn:Er; [|destruct x as [| |[|[] []]| |]; cbn [bind] in C; discriminate].
    specialize (IH r eq_refl).
    destruct x as [| |[|[] []]| |]; cbn [bind] in C; inversion C; cbn; f_equal; exact IH. }
  apply od_in_get in I; auto. congruence.
Qed.

(** The product of repetitions. *)
Lemma repeated_vals {F : Fmt R} args given (r : pd R) : overlapping args -> product args given = Ok (Some r) ->
  exists ms res name dims prob ps, fast_vals (Some ms) (map (fun a => p_vals a) args) = Ok res /\
    make_pd name res dims prob ps = Ok r.
Proof.
  intros (l1 & p & l2 & q & l3 & k & E & K1 & K2) H. unfold product in H. destruct args as [|a0 rest] eqn:EA; [discriminate|]. rewrite <- EA in *.
  destruct (product_pscale _ _) as [psc|]; cbn [bind] in H; [|discriminate].
  destruct (map_res (fun a => p_probR a) args) as [probs|]; cbn [bind] in H; [|discriminate].
  destruct (nodup_str (flat_map (fun a => od_keys (p_marg a)) args)) eqn:ND.
  - exfalso. apply nodup_str_iff in ND. rewrite E, flat_map_app in ND. cbn [flat_map] in ND.
    rewrite flat_map_app in ND. cbn [flat_map] in ND.
    apply nodup_app_iff in ND. destruct ND as (_ & ND & _). apply nodup_app_iff in ND. destruct ND as (_ & _ & ND).
    apply (ND k K1). apply in_or_app. right. apply in_or_app. left. exact K2.
  - destruct (dup_scan args None None None) as [[s|]|] eqn:DS; cbn [bind] in H; try discriminate.
    rewrite orb_true_r in H. cbn [andb] in H.
    destruct (fast_vals (Some s) _) as [res|] eqn:FV; cbn [bind] in H; [|discriminate].
    destruct (prod_rule _ _ _ _) as [[prob ps]|]; cbn [bind] in H; [|discriminate].
    match type of H with bind ?e _ = _ => destruct e as [r'|] eqn:MP; cbn [bind] in H; [|discriminate] end.
    inversion H; subst. repeat eexists; eauto.
Qed.

Lemma hold_vals args k zs : hold_counts args k zs ->
  Forall2 (fun v z => od_get v k = Some (VSet [SEint z])) (map (fun a => p_vals a) args) zs.
Proof. induction 1; constructor; auto. Qed.

Lemma hold_none (args : list (pd R)) k : (forall q, In q args -> ~ counted q k) ->
  Forall (fun v => ~ exists z, od_get v k = Some (VSet [SEint z])) (map (fun a => p_vals a) args).
Proof. intros H. apply Forall_forall. intros w Hw. apply in_map_iff in Hw. destruct Hw as (a & <- & Ha). apply H; auto. Qed.

Lemma product_counts {F : Fmt R} args given (r : pd R) K : overlapping args -> product args given = Ok (Some r) ->
  NoDup K -> (forall p, In p args -> od_keys (p_vals p) = K) ->
  forall k, In k K ->
    (forall zs, hold_counts args k zs -> od_get (p_vals r) k = Some (VSet [SEint (total_count zs)])) /\
    (forall p rest v, args = p :: rest -> od_get (p_vals p) k = Some v -> issingleton v = true -> v <> VSet [SEnone] ->
       (forall q, In q args -> ~ counted q k) -> od_get (p_vals r) k = Some v).
Proof.
  intros O H ND HK k Ik.
  assert (Rp : repetitions args).
  { destruct O as (l1 & p & l2 & q & l3 & k0 & E & K1 & K2). eapply product_repeated; eauto. }
  destruct Rp as (marg & cond & _ & _ & (kc & _ & Hc)).
  destruct (repeated_vals args given r O H) as (ms & res & name & dims & prob & ps & FV & MP).
  destruct args as [|a0 rest]; [destruct O as (l1 & ? & ? & ? & ? & ? & E & _); destruct l1; discriminate|].
  assert (Fa : Forall (fun v => od_keys v = K /\ exists z, od_get v kc = Some (VSet [SEint z])) (map (fun a => p_vals a) (a0 :: rest))).
  { apply Forall_forall. intros v Hv. apply in_map_iff in Hv. destruct Hv as (a & <- & Ha). split; [apply HK; auto|apply Hc; auto]. }
  pose proof (fast_vals_counts ms K kc _ _ res ND Fa FV k) as [G1 G2].
  assert (NR : NoDup (od_keys res)).
  { pose proof (fast_vals_keys ms K kc _ _ res ND Fa FV) as Q. rewrite Q. exact ND. }
  split.
  - intros zs Hz. eapply make_pd_keeps; eauto.
    + apply G1. exact (hold_vals (a0 :: rest) k zs Hz).
    + discriminate.
  - intros p rest' v Q E Sv NV NC. inversion Q; subst. eapply make_pd_keeps; eauto. rewrite G2; [exact E|].
    exact (hold_none (p :: rest') k NC).
Qed.

End Counts.
