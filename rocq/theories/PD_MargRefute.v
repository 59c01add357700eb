(** marginalise on distributions whose axes do not follow the key order. *)
From Coq Require Import String ZArith Reals Lra Bool Arith Lia Permutation List.
From Verif Require Import Base Num Tensor TensorBcast OdLemmas TensorLemmas RNumLemmas PScales
  PScales_Spec PScales_Proofs Names Names_Spec Names_Proofs Distr PDModel PD_Spec PD_Make PD_Sums
  PD_Valid PD_Marg PD_Marg2.
Import ListNotations.

Section Refute.
Context {F : Fmt R}.

Lemma eqb_neq_l (x y : string) : x <> y -> String.eqb x y = false.
Proof. intros H. apply String.eqb_neq. auto. Qed.

(** Position of y read for z and conversely. *)
Definition swapped (y z : string) (a : assignment) : assignment :=
  fun k => if String.eqb k y then a z else if String.eqb k z then a y else a k.

(** A lone variable whose dimension is -1 has no axis to lie on. *)
Lemma make_pd_off_axis (z : string) (c : tensor R) e t ps :
  tsize c = list_max (shape c) -> shape c <> [] -> ~ In z disallowed ->
  good_entry e /\ key_of e z ->
  make_pd (margcond_str (od_vals [(z, e)]) (od_vals [])) [(z, VArr c)]
          (Some [(z, Some (-1)%Z)]) (Some t) ps = Err IndexError.
Proof.
  intros TC SC RZ [GE KE]. unfold make_pd.
  assert (SM : str_margcond (margcond_str (od_vals [(z, e)]) (od_vals [])) = Ok ([(z, e)], [])).
  { apply name_round_trip_spec.
    - constructor; auto.
    - constructor.
    - split; [reflexivity|]. constructor; auto. 
    - split; constructor.
    - repeat constructor. auto.
    - constructor. }
  rewrite SM. cbn [bind]. unfold make_dist.
  rewrite clean_vals_ok.
  2:{ intros k [<-|[]]. exact RZ. }
  2:{ intros k v [Ek|[]]. inversion Ek; subst. right. eauto. }
  cbn [bind]. 
  unfold ndim_of_dims. cbn [fold_left snd]. change (Z.to_nat (Z.max (Z.of_nat 0) (-1 + 1))) with 0.
  cbn [repeat fold_res]. unfold dims_step. cbn [fst snd]. rewrite arr_not_singleton by auto.
  cbn zeta. rewrite (proj2 (Nat.eqb_eq _ _) TC). cbn [assert_ bind s_dims].
  unfold od_mem. cbn [od_get]. rewrite String.eqb_refl. cbn [assert_ bind od_get].
  rewrite String.eqb_refl. cbn [s_shape length]. reflexivity.
Qed.

(** Distributions p(y,u,v,z) with axes in the order u,y,z,v: removing u and v
    exchanges y and z if they have equally many values. *)
Lemma marginalise_interleaved p u v y z n :
  valid_pd p [u; y; z; v] -> fine_scale p -> ~ log_scaled p ->
  p_keylist p = [y; u; v; z] -> incl [u; v] (od_keys (p_marg p)) ->
  size_of p y = n -> size_of p z = n ->
  exists q, marginalise p [u; v] = Ok q /\ valid_pd q [z; y] /\ p_keylist q = [y; z] /\
    variable q y = variable p y /\ variable q z = variable p z /\
    forall a, a y < n -> a z < n -> prob_at q [z; y] a =
              sum_over (sized p [u; v]) (prob_at p [u; y; z; v]) (swapped y z a).
Proof.
  intros V FS NLg KL IM Sy Sz.
  pose proof (vp_axes _ _ V) as ND.
  assert (uy : u <> y) by (inversion ND as [|? ? N1 N2]; subst; cbn in N1; intuition congruence).
  assert (uz : u <> z) by (inversion ND as [|? ? N1 N2]; subst; cbn in N1; intuition congruence).
  assert (uv : u <> v) by (inversion ND as [|? ? N1 N2]; subst; cbn in N1; intuition congruence).
  inversion ND as [|? ? _ N2]; subst. inversion N2 as [|? ? N3 N4]; subst.
  assert (yz : y <> z) by (cbn in N3; intuition congruence).
  assert (yv : y <> v) by (cbn in N3; intuition congruence).
  inversion N4 as [|? ? N5 _]; subst. assert (zv : z <> v) by (cbn in N5; intuition congruence).
  pose proof (eqb_neq_l _ _ uy) as B1. pose proof (eqb_neq_l _ _ uz) as B2.
  pose proof (eqb_neq_l _ _ uv) as B3. pose proof (eqb_neq_l _ _ yz) as B4.
  pose proof (eqb_neq_l _ _ yv) as B5. pose proof (eqb_neq_l _ _ zv) as B6.
  pose proof (eqb_neq_l _ _ (not_eq_sym uy)) as B7. pose proof (eqb_neq_l _ _ (not_eq_sym uz)) as B8.
  pose proof (eqb_neq_l _ _ (not_eq_sym uv)) as B9. pose proof (eqb_neq_l _ _ (not_eq_sym yz)) as B10.
  pose proof (eqb_neq_l _ _ (not_eq_sym yv)) as B11. pose proof (eqb_neq_l _ _ (not_eq_sym zv)) as B12.
  assert (WL : without [u; v] [u; y; z; v] = [y; z]).
  { unfold without. cbn. rewrite !String.eqb_refl, B7, B5, B8, B6, B9. reflexivity. }
  assert (RL : restrict [u; v] [u; y; z; v] = [u; v]).
  { unfold restrict. cbn. rewrite !String.eqb_refl, B7, B5, B8, B6, B9. reflexivity. }
  assert (WK : without [u; v] (p_keylist p) = [y; z]).
  { rewrite KL. unfold without. cbn. rewrite !String.eqb_refl, B7, B5, B8, B6, B9. reflexivity. }
  destruct (marginalise_gen p _ V FS [u; v] [z; y]) as (q & E & Vq & K & M & C & S & Var & P).
  - auto.
  - intros k [<-|[<-|[]]]; cbn; auto.
  - repeat constructor; cbn; intuition congruence.
  - intros k. rewrite WL. cbn. tauto.
  - intros [|[|j]] k Hj; cbn in Hj; inversion Hj; subst; try (destruct j; discriminate).
    + unfold shifted. rewrite KL. cbn. rewrite ?String.eqb_refl, ?B1, ?B2, ?B3, ?B4, ?B5, ?B6, ?B7, ?B8, ?B9, ?B10, ?B11, ?B12.
      cbn. rewrite ?String.eqb_refl, ?B1, ?B2, ?B3, ?B4, ?B5, ?B6, ?B7, ?B8, ?B9, ?B10, ?B11, ?B12. cbn.
      reflexivity.
    + unfold shifted. rewrite KL. cbn. rewrite ?String.eqb_refl, ?B1, ?B2, ?B3, ?B4, ?B5, ?B6, ?B7, ?B8, ?B9, ?B10, ?B11, ?B12.
      cbn. reflexivity.
  - rewrite WL. cbn. congruence.
  - rewrite WK. discriminate.
  - rewrite WL in P. rewrite RL in P. rewrite WK in K.
    exists q. split; [auto|]. split; [auto|]. split; [auto|].
    split; [apply Var; rewrite K; cbn; auto|]. split; [apply Var; rewrite K; cbn; auto|].
    intros a Hy Hz. apply P.
    + cbn. unfold swapped. rewrite !String.eqb_refl, B10. reflexivity.
    + intros k [<-|[<-|[]]]; unfold swapped; rewrite ?String.eqb_refl, ?B10; congruence.
    + contradiction.
Qed.

(** A joint distribution whose two axes are not in key order loses its other
    variable: marginalise raises IndexError. *)
Lemma marginalise_transposed_raises p x y :
  valid_pd p [y; x] -> fine_scale p -> p_keylist p = [x; y] ->
  od_keys (p_marg p) = [x; y] ->
  marginalise p [x] = Err IndexError.
Proof.
  intros V FS KL KM.
  pose proof (vp_keys _ _ V) as ND. rewrite KL in ND.
  assert (xy : x <> y) by (inversion ND as [|? ? N1 N2]; subst; cbn in N1; intuition congruence).
  assert (Bxy := eqb_neq_l _ _ xy).
  assert (Byx : String.eqb y x = false) by (apply eqb_neq_l; auto).
  assert (IK : incl [x] [y; x]) by (intros k [<-|[]]; cbn; auto).
  destruct (vp_prob_get p _ V) as (t & Pt & Rt & St).
  destruct (marginalise_loop p _ V [x] IK) as (st & E & Hm & Hv & Ha & Hd).
  destruct (to_unit p _ V FS t) as (t1 & E1 & S1 & G1).
  assert (Rk : restrict [x] (p_keylist p) = [x]).
  { rewrite KL. unfold restrict. cbn. rewrite String.eqb_refl, Byx. reflexivity. }
  destruct (sum_axes_ok p _ V t1 [x]) as (s & Es & Ss & Gs); auto.
  { congruence. } { repeat constructor. auto. }
  destruct (from_unit p _ V FS s) as (s1 & E2 & S2 & G2).
  destruct (vp_axis p _ V y) as (ay & Gy & Shy & Ty & Py & _); [cbn; auto|].
  destruct (vp_tsize p _ V y ay) as (_ & Ny & My & _); [cbn; auto|auto|].
  assert (Hvals : m_vals st = [(y, VArr ay)]).
  { rewrite Hv. unfold p_keylist, d_keylist in KL. unfold p_vals in *. destruct (d_vals (p_d p)) as [|[k1 v1] [|[k2 v2] [|]]]; cbn in KL; try discriminate.
    inversion KL; subst. cbn. rewrite String.eqb_refl, Byx. cbn. cbn in Gy. rewrite Byx, String.eqb_refl in Gy. congruence. }
  assert (Hmarg : exists e, m_marg st = [(y, e)] /\ In (y, e) (p_marg p)).
  { rewrite Hm. destruct (p_marg p) as [|[k1 e1] [|[k2 e2] [|]]]; cbn in KM; try discriminate.
    inversion KM; subst. cbn. rewrite String.eqb_refl, Byx. cbn. exists e2. auto. }
  destruct Hmarg as (e & Hmarg & Hin).
  assert (Kc : p_cond p = []).
  { destruct (vp_marg_cond p _ V) as (NM & NC & DJ). destruct (p_cond p) as [|[k e'] l] eqn:Ec; auto. exfalso.
    assert (Hk : In k (p_keylist p)) by (apply (vp_key_iff p _ V); right; rewrite Ec; cbn; auto).
    rewrite KL, <- KM in Hk. apply (DJ k Hk). cbn; auto. }
  assert (Hdims : m_dims st = [(y, Some (-1)%Z)]).
  { rewrite Hd. unfold kept_axes. rewrite KL. cbn. rewrite ?String.eqb_refl, Byx, Bxy. cbn.
    unfold shifted. rewrite KL. cbn. rewrite ?String.eqb_refl, ?Bxy. cbn.
    rewrite ?String.eqb_refl. cbn. reflexivity. }
  unfold marginalise, keys_marginal. cbn [forallb].
  assert (Mx : od_mem (p_marg p) x = true) by (apply od_mem_iff; rewrite KM; cbn; auto).
  rewrite Mx. cbn [andb assert_ bind]. rewrite E. cbn [bind]. rewrite Rt. cbn [bind].
  rewrite E1. cbn [bind]. rewrite Ha, Rk. rewrite Es. cbn [bind]. rewrite E2. cbn [bind].
  rewrite Hmarg, Kc, Hvals, Hdims.
  assert (Gd : good_entry e /\ key_of e y).
  { pose proof (vp_entries _ _ V) as VE. rewrite Forall_forall in VE. apply (VE (y, e)). apply in_or_app. auto. }
  apply make_pd_off_axis; auto. apply (vp_reserved _ _ V). rewrite KL. cbn. auto.
Qed.

(** Variables sharing an axis: a distribution p(x,y,z) with x and y along axis 0
    and z along axis 1 cannot be marginalised over x and y. *)
Lemma marginalise_shared_raises (p : pd R) (x y z : string) (a b c : tensor R) t :
  x <> y -> x <> z -> y <> z ->
  p_vals p = [(x, VArr a); (y, VArr b); (z, VArr c)] ->
  p_dims p = [(x, Some 0%Z); (y, Some 0%Z); (z, Some 1%Z)] ->
  d_aresing (p_d p) = [false; false; false] ->
  od_keys (p_marg p) = [x; y; z] -> p_pscale p = Lin 1%R ->
  p_prob p = Some t -> ndim t = 2 ->
  tsize c = list_max (shape c) -> shape c <> [] ->
  ~ In z disallowed -> Forall (fun ke => good_entry (snd ke) /\ key_of (snd ke) (fst ke)) (p_marg p) ->
  p_cond p = [] ->
  marginalise p [x; y] = Err IndexError.
Proof.
  intros xy xz yz PV PDm AS KM PS PP NT TC SC RZ GE PC.
  assert (Bxy := eqb_neq_l _ _ xy). assert (Bxz := eqb_neq_l _ _ xz). assert (Byz := eqb_neq_l _ _ yz).
  assert (Byx : String.eqb y x = false) by (apply eqb_neq_l; auto).
  assert (Bzx : String.eqb z x = false) by (apply eqb_neq_l; auto).
  assert (Bzy : String.eqb z y = false) by (apply eqb_neq_l; auto).
  destruct (p_marg p) as [|[k1 e1] [|[k2 e2] [|[k3 e3] [|]]]] eqn:EM; cbn in KM; try discriminate.
  inversion KM; subst k1 k2 k3. clear KM.
  unfold marginalise, keys_marginal, p_items. rewrite PV, AS, PC, EM. cbn [combine].
  unfold od_mem. cbn [forallb od_get]. rewrite !String.eqb_refl, Byx. cbn [andb assert_ bind].
  cbn [fold_res]. unfold marginalise_step at 1. cbn [mem_str existsb]. rewrite String.eqb_refl.
  cbn [orb negb assert_ bind]. rewrite PDm. unfold od_getR at 1. cbn [od_get]. rewrite String.eqb_refl. cbn [bind].
  unfold marginalise_step at 1. cbn [mem_str existsb]. rewrite Byx, String.eqb_refl.
  cbn [orb negb assert_ bind]. rewrite PDm. unfold od_getR at 1. cbn [od_get]. rewrite Byx, String.eqb_refl. cbn [bind].
  unfold marginalise_step at 1. cbn [mem_str existsb]. rewrite Bzx, Bzy.
  cbn [orb negb assert_ bind]. rewrite PDm. unfold od_getR at 1. cbn [od_get].
  rewrite Bzx, Bzy, String.eqb_refl. cbn [bind m_marg m_vals m_dims m_delta m_axes od_set od_del].
  rewrite String.eqb_refl. cbn [od_del]. rewrite String.eqb_refl. cbn [od_del].
  unfold p_probR. rewrite PP. cbn [bind]. rewrite PS. cbn [spec_of].
  assert (RS : forall u : tensor R, rescale u (PSFloat 1%R) one_ps = Ok u).
  { intros u. unfold rescale, one_ps. cbn [eval_pscale].
    assert (H : n_eqb 1%R n1 = true) by (apply Reqb_iff; reflexivity).
    assert (H' : n_eqb (n1 : R) n1 = true) by (apply Reqb_iff; reflexivity).
    rewrite H, H'. cbn [bind is_log Bool.eqb pscale_eqb andb]. rewrite H'. reflexivity. }
  assert (RS' : forall u : tensor R, rescale u one_ps (PSFloat 1%R) = Ok u).
  { intros u. unfold rescale, one_ps. cbn [eval_pscale].
    assert (H : n_eqb 1%R n1 = true) by (apply Reqb_iff; reflexivity).
    assert (H' : n_eqb (n1 : R) n1 = true) by (apply Reqb_iff; reflexivity).
    rewrite H, H'. cbn [bind is_log Bool.eqb pscale_eqb andb]. rewrite H'. reflexivity. }
  rewrite RS. cbn [bind].
  assert (TS : exists s, tsum_axes t (set_addZ (set_addZ [] 0%Z) 0%Z) = Ok s).
  { unfold set_addZ, Zmem. cbn [existsb]. rewrite ?Z.eqb_refl. cbn [orb app existsb].
    rewrite ?Z.eqb_refl. cbn [orb].
    unfold tsum_axes, reduce. rewrite NT. cbn. eexists. reflexivity. }
  destruct TS as (s & ->). cbn [bind]. rewrite RS'. cbn [bind].
  change (1 - (0 + 1 + 1))%Z with (-1)%Z. apply make_pd_off_axis; auto.
  inversion GE as [|? ? _ GE1]; subst. inversion GE1 as [|? ? _ GE2]; subst.
  inversion GE2 as [|? ? G3 _]; subst. exact G3.
Qed.

End Refute.
