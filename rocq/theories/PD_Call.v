(** Lemmas about slicing. *)
From Coq Require Import Ascii String ZArith Reals Lra Bool Arith Lia Permutation List.
From Verif Require Import Base Num Tensor TensorBcast OdLemmas TensorLemmas RNumLemmas PScales
  PScales_Spec PScales_Proofs Names Names_Spec Names_Proofs Distr PDModel PD_Spec PD_Make PD_Sums
  PD_Valid PD_Marg PD_Simple_Spec PD_Rekey PD_Call_Spec.
Import ListNotations.
Local Open Scope nat_scope.

Definition upd_dict {A} (done : string -> bool) (f : string -> A) (d : odict A) : odict A :=
  map (fun kv => (fst kv, if done (fst kv) then f (fst kv) else snd kv)) d.

Lemma upd_dict_keys {A} done (f : string -> A) d : od_keys (upd_dict done f d) = od_keys d.
Proof. unfold od_keys, upd_dict. rewrite map_map. reflexivity. Qed.

Lemma upd_dict_none {A} (f : string -> A) d : upd_dict (fun _ => false) f d = d.
Proof. unfold upd_dict. rewrite <- (map_id d) at 2. apply map_ext. intros [k v]. reflexivity. Qed.

Lemma upd_dict_ext {A} done done' (f f' : string -> A) d : (forall k, In k (od_keys d) -> done k = done' k /\ f k = f' k) ->
  upd_dict done f d = upd_dict done' f' d.
Proof.
  intros H. apply map_ext_in. intros [k v] I. cbn. destruct (H k) as [-> ->]; [apply (in_map fst) in I; exact I|reflexivity].
Qed.

Lemma upd_dict_get {A} done (f : string -> A) d k : od_get (upd_dict done f d) k =
  match od_get d k with Some v => Some (if done k then f k else v) | None => None end.
Proof.
  induction d as [|[k' v] d IH]; [reflexivity|]. cbn. destruct (String.eqb_spec k k'); [subst; reflexivity|exact IH].
Qed.

Lemma od_set_upd {A} done (f : string -> A) d k : NoDup (od_keys d) -> In k (od_keys d) ->
  od_set (upd_dict done f d) k (f k) = upd_dict (fun x => done x || String.eqb x k) f d.
Proof.
  intros N I. induction d as [|[k' v] d IH]; [destruct I|]. inversion N as [|? ? N1 N2]; subst.
  cbn [upd_dict map fst snd od_set]. destruct (String.eqb_spec k k').
  - subst. rewrite String.eqb_refl, orb_true_r. f_equal. apply map_ext_in. intros [k2 v2] H2. cbn.
    destruct (String.eqb_spec k2 k'); [|rewrite orb_false_r; reflexivity].
    subst. apply (in_map fst) in H2. exfalso. apply N1. exact H2.
  - rewrite (String.eqb_sym k' k). destruct (String.eqb_spec k k'); [contradiction|]. rewrite orb_false_r. f_equal.
    apply IH; [exact N2|]. destruct I as [E|I]; [cbn in E; congruence|exact I].
Qed.

Lemma set_nth_map_ix {A} (f g : string -> A) (G : list string) k : NoDup G -> In k G -> (forall k', k' <> k -> f k' = g k') ->
  set_nth (pos k G) (g k) (map f G) = map g G.
Proof.
  induction G as [|h G IH]; intros ND I E; [destruct I|]; inversion ND as [|? ? N1 N2]; subst. cbn [pos].
  rewrite (String.eqb_sym h k). 
  destruct (String.eqb_spec k h).
  - subst. cbn. f_equal. apply map_ext_in. intros y Hy. apply E. intros ->. contradiction.
  - cbn. destruct I as [->|I]; [congruence|]. rewrite IH by assumption. f_equal. apply E. congruence.
Qed.

Lemma filter_seq_one (f : nat -> bool) n i : i < n -> f i = true -> (forall j, j < n -> f j = true -> j = i) ->
  filter f (seq 0 n) = [i].
Proof.
  intros Hi Fi U. assert (G : forall m s, s <= i < s + m -> s + m <= n -> filter f (seq s m) = [i]).
  { assert (Z : forall m s, (i < s \/ s + m <= i) -> s + m <= n -> filter f (seq s m) = []).
    { induction m as [|m IH]; intros s H Hn; cbn; [reflexivity|]. destruct (f s) eqn:E; [apply U in E; lia|]. apply IH; lia. }
    induction m as [|m IH]; intros s H Hn; [lia|]. cbn. destruct (Nat.eq_dec s i).
    - subst. rewrite Fi, Z by lia. reflexivity.
    - destruct (f s) eqn:E; [apply U in E; lia|]. apply IH; lia. }
  apply G; lia.
Qed.

Lemma n_eqb_R (x y : R) : n_eqb x y = true <-> x = y.
Proof. apply Reqb_iff. Qed.

Lemma matches_one (a : tensor R) x i : only_at (to_list a) x i -> matches a x = [i].
Proof.
  intros (H1 & H2 & H3). unfold matches. rewrite to_list_length in H1. apply filter_seq_one; [exact H1| |].
  - apply n_eqb_R. exact H2.
  - intros j Hj E. apply n_eqb_R in E. apply H3; [rewrite to_list_length; exact Hj|exact E].
Qed.

Section Gen.
Context {F : Fmt R}.
Variable p : pd R.
Variable L : list string.
Hypothesis V : valid_pd p L.
Variable values : odict R.
Variable at_ : assignment.
Hypothesis LOC : locates p values at_.
Hypothesis VN : incl (od_keys values) (p_keylist p).
Let keys := od_keys values.
Let kl := restrict keys L.

(** The value requested for k. *)
Definition asked (k : string) : R := match od_get values k with Some x => x | None => 0%R end.

Definition newname (k : string) : string := (k ++ "=" ++ fmt (asked k))%string.
Definition newdim (k : string) : option Z := if mem_str k kl then None else shifted p L kl k.

Lemma names_kl_app pre k v (s : bool) : restrict kl (names (pre ++ [(k, v : value R, s)])) =
  if mem_str k kl then restrict kl (names pre) ++ [k] else restrict kl (names pre).
Proof.
  rewrite names_app. unfold restrict. rewrite filter_app. cbn. destruct (mem_str k kl); [reflexivity|apply app_nil_r].
Qed.

Lemma mem_snoc x l k : mem_str x (l ++ [k]) = mem_str x l || String.eqb x k.
Proof. unfold mem_str. rewrite existsb_app. cbn. rewrite orb_false_r. reflexivity. Qed.

Lemma call_loop :
  exists st, fold_res (call_step p values false) (p_items p)
      (mkKS (p_marg p) (p_cond p) (p_dims p) (p_vals p) (repeat IxFull (p_ndim p)) 0%Z) = Ok st /\
    k_marg st = upd_dict (fun k => mem_str k kl) newname (p_marg p) /\
    k_cond st = upd_dict (fun k => mem_str k kl) newname (p_cond p) /\
    k_vals st = upd_dict (fun k => mem_str k kl) (fun k => VNum (asked k)) (p_vals p) /\
    k_dims st = upd_dict (fun k => mem_str k L) newdim (p_dims p) /\
    k_slices st = map (fun k => if mem_str k kl then IxInt (at_ k) else IxFull) L.
Proof.
  destruct (vp_marg_cond p L V) as (NM & NC & DJ).
  assert (PN : p_ndim p = length L).
  { unfold p_ndim. rewrite (vp_ndim _ _ V). reflexivity. }
  destruct (@fold_res_ok _ _ (call_step p values false) (fun pre st =>
    k_marg st = upd_dict (fun k => mem_str k (restrict kl (names pre))) newname (p_marg p) /\
    k_cond st = upd_dict (fun k => mem_str k (restrict kl (names pre))) newname (p_cond p) /\
    k_vals st = upd_dict (fun k => mem_str k (restrict kl (names pre))) (fun k => VNum (asked k)) (p_vals p) /\
    k_dims st = upd_dict (fun k => mem_str k (restrict L (names pre))) newdim (p_dims p) /\
    k_slices st = map (fun k => if mem_str k (restrict kl (names pre)) then IxInt (at_ k) else IxFull) L /\
    k_delta st = Z.of_nat (length (restrict kl (names pre))))
    (p_items p) (mkKS (p_marg p) (p_cond p) (p_dims p) (p_vals p) (repeat IxFull (p_ndim p)) 0%Z))
    as (st & E & H1 & H2 & H3 & H4 & H5 & H6).
  { cbn [names map restrict filter mem_str existsb k_marg k_cond k_vals k_dims k_slices k_delta length].
    rewrite !upd_dict_none. repeat split; auto. rewrite PN. clear. induction L; cbn; congruence. }
  { intros pre [[k v] s] post st E (H1 & H2 & H3 & H4 & H5 & H6).
    destruct (items_split p L V _ _ _ _ _ E) as (G & -> & Kpre & KL & Kk).
    assert (Kr : forall ks, mem_str k (restrict ks (names pre)) = false).
    { intros ks. apply mem_str_false. intros C; apply in_restrict in C; tauto. }
    unfold call_step. destruct (mem_str k L) eqn:ML; cbn [negb].
    - apply mem_str_iff in ML as IL. rewrite (vp_dim p L V k Kk), ML. cbn [bind].
      assert (Kd : In k (od_keys (p_dims p))).
      { destruct (vp_axis p L V k IL) as (a & _ & _ & _ & _ & _ & D). eapply od_get_some_key; eauto. }
      assert (RL : restrict L (names (pre ++ [(k, v, false)])) = restrict L (names pre) ++ [k]).
      { rewrite names_app. unfold restrict. rewrite filter_app. cbn. rewrite ML. reflexivity. }
      destruct (od_get values k) as [x|] eqn:Gx.
      + assert (Kl : In k kl) by (apply in_restrict; split; [exact IL|eapply od_get_some_key; eauto]).
        apply mem_str_iff in Kl as MKL.
        destruct (vp_axis p L V k IL) as (a & Ga & Sa & Ta & _). assert (v = VArr a) by congruence. subst v.
        rewrite (matches_one a x (at_ k)).
        2:{ apply (LOC k x); [exact Gx|]. unfold variable. rewrite G. cbn. rewrite Sa. destruct (pos k L); reflexivity. }
        rewrite PN, py_indexR_nat by (apply pos_lt; exact IL). cbn [bind].
        assert (As : asked k = x) by (unfold asked; rewrite Gx; reflexivity).
        assert (HV : od_set (k_vals st) k (VNum x) = upd_dict (fun k0 => mem_str k0 (restrict kl (names pre) ++ [k])) (fun k0 => VNum (asked k0)) (p_vals p)).
        { rewrite H3, <- As. rewrite (od_set_upd _ (fun k0 => VNum (asked k0))) by (apply (vp_keys _ _ V) || exact Kk).
          apply upd_dict_ext. intros y _. rewrite mem_snoc. auto. }
        assert (HD : od_set (k_dims st) k None = upd_dict (fun k0 => mem_str k0 (restrict L (names pre) ++ [k])) newdim (p_dims p)).
        { rewrite H4. replace (@None Z) with (newdim k) by (unfold newdim; rewrite MKL; reflexivity).
          rewrite od_set_upd by (apply (vp_dims _ _ V) || exact Kd). apply upd_dict_ext. intros y _. rewrite mem_snoc. auto. }
        assert (HS : set_nth (pos k L) (IxInt (at_ k)) (k_slices st) =
            map (fun k0 => if mem_str k0 (restrict kl (names pre) ++ [k]) then IxInt (at_ k0) else IxFull) L).
        { rewrite H5. rewrite <- (set_nth_map_ix (fun k0 => if mem_str k0 (restrict kl (names pre)) then IxInt (at_ k0) else IxFull)
            (fun k0 => if mem_str k0 (restrict kl (names pre) ++ [k]) then IxInt (at_ k0) else IxFull) L k (vp_axes _ _ V) IL).
          - cbn beta. rewrite mem_snoc, String.eqb_refl, orb_true_r. reflexivity.
          - intros k' Nk. rewrite mem_snoc. apply String.eqb_neq in Nk. rewrite Nk, orb_false_r. reflexivity. }
        cbn zeta. cbn [k_marg k_cond k_vals k_dims k_slices k_delta].
        rewrite names_kl_app, MKL, RL.
        assert (MM : od_mem (k_marg st) k = od_mem (p_marg p) k).
        { apply eq_true_iff_eq. rewrite !od_mem_iff, H1, upd_dict_keys. reflexivity. }
        assert (CC : od_mem (k_cond st) k = od_mem (p_cond p) k).
        { apply eq_true_iff_eq. rewrite !od_mem_iff, H2, upd_dict_keys. reflexivity. }
        assert (UN : forall m : odict string, ~ In k (od_keys m) ->
           upd_dict (fun k0 => mem_str k0 (restrict kl (names pre))) newname m = upd_dict (fun k0 => mem_str k0 (restrict kl (names pre) ++ [k])) newname m).
        { intros m Nm. apply upd_dict_ext. intros y Hy. rewrite mem_snoc. destruct (String.eqb_spec y k); [subst; contradiction|].
          rewrite orb_false_r. auto. }
        assert (US : forall m : odict string, NoDup (od_keys m) -> In k (od_keys m) ->
           od_set (upd_dict (fun k0 => mem_str k0 (restrict kl (names pre))) newname m) k (k ++ "=" ++ fmt x)%string =
           upd_dict (fun k0 => mem_str k0 (restrict kl (names pre) ++ [k])) newname m).
        { intros m Nm Im. replace (k ++ "=" ++ fmt x)%string with (newname k) by (unfold newname; rewrite As; reflexivity).
          rewrite od_set_upd by assumption. apply upd_dict_ext. intros y _. rewrite mem_snoc. auto. }
        rewrite MM, CC. apply (vp_key_iff p L V) in Kk as [Km|Kc].
        * apply od_mem_iff in Km as Mm. rewrite Mm. eexists. split; [reflexivity|].
          cbn [k_marg k_cond k_vals k_dims k_slices k_delta].
          split; [rewrite H1; apply US; assumption|]. split; [rewrite H2; apply UN; intros C; exact (DJ k Km C)|].
          split; [exact HV|]. split; [exact HD|]. split; [exact HS|]. rewrite H6, app_length. cbn. lia.
        * assert (Nm : ~ In k (od_keys (p_marg p))) by (intros C; exact (DJ k C Kc)).
          assert (Mm : od_mem (p_marg p) k = false) by (apply not_true_is_false; rewrite od_mem_iff; exact Nm). rewrite Mm.
          apply od_mem_iff in Kc as Mc. rewrite Mc. eexists. split; [reflexivity|].
          cbn [k_marg k_cond k_vals k_dims k_slices k_delta].
          split; [rewrite H1; apply UN, Nm|]. split; [rewrite H2; apply US; assumption|].
          split; [exact HV|]. split; [exact HD|]. split; [exact HS|]. rewrite H6, app_length. cbn. lia.
      + assert (Kl : ~ In k kl).
        { intros C. apply in_restrict in C. destruct C as [_ C]. destruct (od_key_get values k C) as (y & Ey). congruence. }
        apply mem_str_false in Kl as MKL. rewrite names_kl_app, MKL, RL. eexists. split; [reflexivity|].
        cbn [k_marg k_cond k_vals k_dims k_slices k_delta]. repeat (split; [assumption|]). split; [|split; assumption].
        rewrite H4. replace (Some (Z.of_nat (pos k L) - k_delta st)%Z) with (newdim k).
        * rewrite od_set_upd by (apply (vp_dims _ _ V) || exact Kd). apply upd_dict_ext. intros y _. rewrite mem_snoc. auto.
        * unfold newdim. rewrite MKL. unfold shifted. rewrite H6. rewrite KL, before_app by exact Kpre. reflexivity.
    - assert (MKL : mem_str k kl = false).
      { apply mem_str_false. intros C. apply in_restrict in C. apply mem_str_false in ML. tauto. }
      rewrite names_kl_app, MKL. eexists. split; [reflexivity|]. repeat (split; [assumption|]). split; [|split; assumption].
      rewrite H4. rewrite names_app. unfold restrict at 2. rewrite filter_app. cbn. rewrite ML, app_nil_r. reflexivity. }
  exists st. split; [exact E|].
  assert (MK : forall k, mem_str k (restrict kl (names (p_items p))) = mem_str k kl).
  { intros k. rewrite (names_items p L V). apply eq_true_iff_eq. rewrite !mem_str_iff, in_restrict. split; [tauto|].
    intros I. split; [|exact I]. apply in_restrict in I. apply (vp_incl _ _ V). tauto. }
  assert (ML : forall k, mem_str k (restrict L (names (p_items p))) = mem_str k L).
  { intros k. rewrite (names_items p L V). apply eq_true_iff_eq. rewrite !mem_str_iff, in_restrict. split; [tauto|].
    intros I. split; [|exact I]. apply (vp_incl _ _ V). tauto. }
  rewrite H1, H2, H3, H4, H5.
  repeat split; try (apply upd_dict_ext; intros y _; auto). apply map_ext. intros y. rewrite MK. reflexivity.
Qed.

Lemma basic_ok (sz : string -> nat) l :
  basic_shape (map (fun k => if mem_str k kl then IxInt (at_ k) else IxFull) l) (map sz l) = map sz (without kl l) /\
  forall a, basic_idx (map (fun k => if mem_str k kl then IxInt (at_ k) else IxFull) l) (map a (without kl l)) = map (placed kl at_ a) l.
Proof.
  induction l as [|k l [IH1 IH2]]; [split; reflexivity|]. cbn [map without filter]. unfold placed at 1.
  destruct (mem_str k kl); cbn [basic_shape basic_idx negb map]; (split; [|intros a]); f_equal; auto; try apply IH2; exact IH1.
Qed.

Lemma call_gen :
  aligned p L kl ->
  (forall k, In k kl -> simple_key k /\ good_entry (newname k)) ->
  exists q, call p values false = Ok q /\ valid_pd q (without kl L) /\ p_keylist q = p_keylist p /\
    od_keys (p_marg q) = od_keys (p_marg p) /\ od_keys (p_cond q) = od_keys (p_cond p) /\ p_pscale q = p_pscale p /\
    (forall k, In k kl -> variable q k = Some (Scal (VNum (asked k)))) /\
    (forall k, ~ In k kl -> variable q k = variable p k) /\
    forall a, prob_at q (without kl L) a = prob_at p L (placed kl at_ a).
Proof.
  intros AL GE. unfold call. fold keys.
  assert (SB : subset_str keys (p_keylist p) = true) by (apply subset_str_iff; exact VN). rewrite SB. cbn [negb].
  destruct call_loop as (st & E & Hm & Hc & Hv & Hd & Hs). rewrite E. cbn [bind].
  destruct (vp_prob_get p L V) as (t & Pt & Rt & St). rewrite Rt. cbn [bind].
  unfold np_index. rewrite Hs.
  assert (NA : existsb is_arr (map (fun k => if mem_str k kl then IxInt (at_ k) else IxFull) L) = false).
  { clearbody kl. clear. induction L as [|k l IH]; [reflexivity|]. cbn. rewrite IH. destruct (mem_str k kl); reflexivity. }
  rewrite NA. cbn [bind]. rewrite St. destruct (basic_ok (size_of p) L) as [BS BI]. rewrite BS.
  destruct (vp_marg_cond p L V) as (NM & NC & DJ).
  assert (NE : forall k, In k (p_keylist p) -> ~ In k (without kl L) -> In k kl \/ ~ In k L).
  { intros k _ H. rewrite in_without in H. destruct (in_dec string_dec k kl); [auto|right; tauto]. }
  assert (EN : forall ke, In ke (p_marg p ++ p_cond p) -> good_entry (snd ke) /\ key_of (snd ke) (fst ke)).
  { intros ke I. pose proof (vp_entries _ _ V) as X. rewrite Forall_forall in X. apply X, I. }
  assert (NN : forall k, In k kl -> good_entry (newname k) /\ key_of (newname k) k).
  { intros k K. destruct (GE k K) as [S1 S2]. unfold newname in *. apply good_join; [exact S1|]. eapply good_tail; exact S2. }
  destruct (make_pd_ok (k_vals st) (k_dims st) (without kl L) (k_marg st) (k_cond st)
     (mkT (map (size_of p) (without kl L)) (fun idx => get t (basic_idx (map (fun k => if mem_str k kl then IxInt (at_ k) else IxFull) L) idx)))
     (spec_of (p_pscale p)) (p_pscale p)) as (q & Eq & Vq & Kq & Mq & Cq & Pq & Sq & Wq).
  - rewrite Hv, upd_dict_keys. apply V.
  - rewrite Hv. intros C. apply (f_equal od_keys) in C. rewrite upd_dict_keys in C. apply (vp_some _ _ V). exact C.
  - rewrite Hv, upd_dict_keys. apply V.
  - apply filter_nodup, (vp_axes _ _ V).
  - rewrite Hv, upd_dict_keys. intros k K. apply in_without in K. apply (vp_incl _ _ V). tauto.
  - intros k v G NL. rewrite Hv, upd_dict_get in G. destruct (od_get (p_vals p) k) as [w|] eqn:Gw; [|discriminate].
    assert (Kk : In k (p_keylist p)) by (eapply od_get_some_key; eauto).
    destruct (mem_str k kl) eqn:M.
    + inversion G; subst v. split; [reflexivity|]. right. rewrite Hd, upd_dict_get. apply mem_str_iff in M as I.
      apply in_restrict in I as [IL _]. destruct (vp_axis p L V k IL) as (a & _ & _ & _ & _ & _ & D). rewrite D.
      apply mem_str_iff in IL. rewrite IL. unfold newdim. rewrite M. reflexivity.
    + inversion G; subst v. apply mem_str_false in M. destruct (NE k Kk NL) as [C|C]; [contradiction|].
      destruct (vp_scalar _ _ V k w Gw C) as [B1 B2]. split; [exact B1|]. right. rewrite Hd, upd_dict_get, B2.
      apply mem_str_false in C. rewrite C. reflexivity.
  - intros j k J. assert (K : In k (without kl L)) by (eapply nth_error_In; eauto). apply in_without in K as [KL KN].
    destruct (vp_axis p L V k KL) as (a & Ga & Sa & Ta & _ & _ & D). destruct (vp_tsize p L V k a KL Ga) as (T1 & T2 & T3 & T4).
    exists a. split; [rewrite Hv, upd_dict_get, Ga; apply mem_str_false in KN; rewrite KN; reflexivity|].
    repeat (split; [assumption|]). split.
    + rewrite Hd, upd_dict_get, D. apply mem_str_iff in KL as M. rewrite M. unfold newdim. apply mem_str_false in KN as MN. rewrite MN.
      f_equal. apply aligned_shifted; assumption.
    + cbn [shape]. rewrite nth_error_map, J. cbn. congruence.
  - rewrite Hd, Hv, !upd_dict_keys. apply V.
  - rewrite Hd, upd_dict_keys. apply V.
  - cbn [shape]. apply map_length.
  - rewrite Hm, Hc. apply Forall_forall. intros ke I. unfold upd_dict in I. rewrite <- map_app in I. apply in_map_iff in I. destruct I as ([k e] & <- & I). cbn [fst snd].
    destruct (mem_str k kl) eqn:M; [apply NN, mem_str_iff, M|apply (EN _ I)].
  - apply Forall_forall. intros ke I. apply in_map_iff in I. destruct I as (ke' & <- & I). rewrite Hm, Hc in I. unfold upd_dict in I. rewrite <- map_app in I.
    apply in_map_iff in I. destruct I as ([k e] & <- & I). unfold render. cbn [fst snd].
    destruct (mem_str k (without kl L)) eqn:MW.
    + apply mem_str_iff, in_without in MW as [_ MW]. apply mem_str_false in MW. rewrite MW. apply (EN _ I).
    + rewrite Hv, upd_dict_get. apply mem_str_false in MW.
      assert (Kk : In k (p_keylist p)).
      { apply (vp_key_iff p L V). apply in_app_or in I. destruct I as [I|I]; [left|right]; apply (in_map fst) in I; exact I. }
      destruct (od_key_get (p_vals p) k Kk) as (w & Gw). rewrite Gw.
      destruct (mem_str k kl) eqn:M; [apply NN, mem_str_iff, M|]. apply mem_str_false in M.
      destruct (NE k Kk MW) as [C|C]; [contradiction|].
      assert (Ge : od_get (p_marg p ++ p_cond p) k = Some e).
      { apply od_in_get; [|exact I]. unfold od_keys. rewrite map_app. apply nodup_app_iff. auto. }
      rewrite <- (vp_rendered _ _ V k w e Gw C Ge). apply (EN _ I).
  - rewrite Hm, Hc, Hv, !upd_dict_keys. apply V.
  - apply V.
  - apply V.
  - exists q. split; [exact Eq|]. split; [exact Vq|]. split; [rewrite Kq, Hv; apply upd_dict_keys|].
    split; [rewrite Mq, render_keys, Hm; apply upd_dict_keys|]. split; [rewrite Cq, render_keys, Hc; apply upd_dict_keys|].
    split; [exact Sq|]. split; [|split].
    + intros k K. rewrite Wq, Hv, upd_dict_get. apply mem_str_iff in K as M. rewrite M.
      apply in_restrict in K as [KL _]. apply (vp_incl _ _ V) in KL. destruct (od_key_get (p_vals p) k KL) as (w & Gw). rewrite Gw. reflexivity.
    + intros k K. rewrite Wq, Hv, upd_dict_get. apply mem_str_false in K. rewrite K. unfold variable. destruct (od_get (p_vals p) k); reflexivity.
    + intros a. unfold prob_at. rewrite Pq, Pt, Sq. cbn [get]. rewrite BI. reflexivity.
Qed.
End Gen.
