(** PD.prod (pd.py 332-370). *)
From Coq Require Import Ascii String ZArith Reals Lra Bool Arith Lia Permutation List.
From Coq Require Import DecimalString.
From Verif Require Import Base Num Tensor TensorBcast OdLemmas TensorLemmas RNumLemmas PScales
  PScales_Spec PScales_Proofs PScales_Prod Names Names_Spec Names_Proofs Distr PDModel PD_Spec PD_Make PD_Sums
  PD_Valid PD_Marg PD_Div PD_Simple_Spec PD_Rekey PD_Expect PD_Prod_Spec.
Import ListNotations.
Local Open Scope nat_scope.

(** *** printing counts *)

Definition digit_char (c : ascii) : Prop := In c ["0"; "1"; "2"; "3"; "4"; "5"; "6"; "7"; "8"; "9"; "-"]%char.

Lemma uint_digits d c : occurs c (NilEmpty.string_of_uint d) -> digit_char c.
Proof.
  unfold occurs, digit_char. induction d; cbn; [tauto|..]; intros [<-|H]; cbn; auto 12; apply IHd, H.
Qed.

Lemma fmt_Z_digits z c : occurs c (fmt_Z z) -> digit_char c.
Proof.
  unfold fmt_Z. intros H. 
  assert (U : forall d, occurs c (NilZero.string_of_uint d) -> digit_char c).
  { intros d. unfold NilZero.string_of_uint. destruct d; intros X; try (apply (uint_digits _ _ X)).
    cbn in X. destruct X as [<-|[]]. left. reflexivity. }
  destruct (Z.to_int z) as [d|d]; cbn [NilZero.string_of_int] in H; [apply (U _ H)|].
  cbn in H. destruct H as [<-|H]; [unfold digit_char; cbn; auto 12|apply (U _ H)].
Qed.

Lemma counted_entry k z : simple_key k ->
  good_entry (k ++ "=" ++ "{" ++ fmt_Z z ++ "}")%string /\ key_of (k ++ "=" ++ "{" ++ fmt_Z z ++ "}")%string k.
Proof.
  intros S. apply good_join; [exact S|].
  assert (N : forall c, ~ digit_char c -> c <> "{"%char -> c <> "}"%char -> c <> "x"%char -> c <> "="%char ->
              ~ occurs c ("x" ++ "=" ++ "{" ++ fmt_Z z ++ "}")%string).
  { intros c D C1 C2 C3 C4 H. rewrite !occurs_app in H.
    destruct H as [[H|[]]|[[H|[]]|[[H|[]]|[H|[H|[]]]]]]; try congruence. apply D, (fmt_Z_digits _ _ H). }
  split; [discriminate|].
  repeat split; apply N; try discriminate; unfold digit_char; cbn; intuition discriminate.
Qed.

Lemma bare_entry k : simple_key k -> good_entry (k ++ "={}")%string /\ key_of (k ++ "={}")%string k.
Proof.
  intros S. change "={}"%string with ("=" ++ "{}")%string. apply good_join; [exact S|].
  split; [discriminate|]. repeat split; intros H; cbn in H; unfold occurs in H; cbn in H; intuition discriminate.
Qed.

Lemma od_set_old {A} (m : odict A) k w : NoDup (od_keys m) -> In k (od_keys m) ->
  od_set m k w = map (fun ke => if String.eqb (fst ke) k then (k, w) else ke) m.
Proof.
  intros N I. induction m as [|[k' e] m IH]; [destruct I|]. cbn in N, I. inversion N as [|? ? N1 N2]; subst.
  cbn [od_set map fst]. rewrite (String.eqb_sym k k'). destruct (String.eqb_spec k' k) as [->|Nk].
  - f_equal. symmetry. rewrite <- (map_id m) at 2. apply map_ext_in. intros [k2 e2] H2. cbn [fst].
    destruct (String.eqb_spec k2 k); [|reflexivity]. subst. exfalso. apply N1. apply (in_map fst) in H2. exact H2.
  - f_equal. apply IH; [exact N2|]. destruct I; [contradiction|assumption].
Qed.

(** *** products over positions *)

Lemma prod_n_scal n c f : prod_n n (fun i => (c * f i)%R) = (c ^ n * prod_n n f)%R.
Proof. induction n as [|n IH]; cbn [prod_n pow]; [ring|]. rewrite IH. ring. Qed.

Lemma prod_n_pow n c m f : prod_n n (fun i => (c ^ m * f i)%R) = (c ^ (n * m) * prod_n n f)%R.
Proof. rewrite prod_n_scal, <- pow_mult. f_equal. f_equal. lia. Qed.

Lemma prod_over_scal ks c f a : prod_over ks (fun b => (c * f b)%R) a = (c ^ prod_list (map snd ks) * prod_over ks f a)%R.
Proof.
  revert a. induction ks as [|[k n] ks IH]; intros a.
  - cbn. ring.
  - cbn [prod_over map snd]. rewrite (prod_n_ext _ _ (fun i => (c ^ prod_list (map snd ks) * prod_over ks f (upd a k i))%R)) by (intros; apply IH).
    rewrite prod_n_pow. reflexivity.
Qed.

Lemma exp_sum_n n f : exp (sum_n n f) = prod_n n (fun i => exp (f i)).
Proof. induction n as [|n IH]; cbn; [apply exp_0|]. rewrite exp_plus, IH. reflexivity. Qed.

Lemma exp_sum_over ks f a : exp (sum_over ks f a) = prod_over ks (fun b => exp (f b)) a.
Proof.
  revert a. induction ks as [|[k n] ks IH]; intros a; cbn; [reflexivity|].
  rewrite exp_sum_n. apply prod_n_ext. auto.
Qed.

Lemma exp_mult_INR x n : exp (x * INR n) = (exp x ^ n)%R.
Proof. induction n as [|n IH]; [cbn; rewrite Rmult_0_r; apply exp_0|]. rewrite S_INR, Rmult_plus_distr_l, exp_plus, IH, Rmult_1_r. cbn. ring. Qed.

Section Prod.
Context {F : Fmt R}.
Variables (p : pd R) (L : list string).
Hypothesis V : valid_pd p L.

Definition counted (keys : list string) (ke : string * string) : string * string :=
  if mem_str (fst ke) keys then (fst ke, (fst ke ++ "={}")%string) else ke.

Definition counted_value (keys : list string) (kv : string * value R) : string * value R :=
  if mem_str (fst kv) keys then (fst kv, VSet [SEint (Z.of_nat (size_of p (fst kv)))]) else kv.

Lemma prod_loop keys : incl keys L -> incl keys (od_keys (p_marg p)) ->
  exists st, fold_res (prod_step p keys) (p_items p) (mkMS (p_marg p) [] [] 0%Z []) = Ok st /\
    m_marg st = map (counted keys) (p_marg p) /\
    m_vals st = map (counted_value keys) (p_vals p) /\
    m_axes st = map (fun k => Z.of_nat (pos k L)) (restrict keys (p_keylist p)) /\
    m_dims st = map (fun k => (k, shifted p L keys k)) (kept_axes L keys (p_keylist p)).
Proof.
  intros IK IM.
  destruct (@fold_res_ok _ _ (prod_step p keys) (fun pre st =>
    m_marg st = map (counted (restrict keys (names pre))) (p_marg p) /\
    m_vals st = map (counted_value keys) (map fst pre) /\
    m_delta st = Z.of_nat (length (restrict keys (names pre))) /\
    m_axes st = map (fun k => Z.of_nat (pos k L)) (restrict keys (names pre)) /\
    m_dims st = map (fun k => (k, shifted p L keys k)) (kept_axes L keys (names pre)))
    (p_items p) (mkMS (p_marg p) [] [] 0%Z [])) as (st & E & Hm & Hv & Hd & Ha & Hdi).
  { cbn. repeat split; auto. symmetry. rewrite <- (map_id (p_marg p)) at 2. apply map_ext. intros [k e]. reflexivity. }
  { intros pre [[k v] s] post st E (Hm & Hv & Hd & Ha & Hdi).
    destruct (items_split p L V _ _ _ _ _ E) as (G & -> & Kpre & KL & Kk).
    assert (Kv : od_keys (m_vals st) = names pre).
    { rewrite Hv. unfold od_keys, names. rewrite !map_map. apply map_ext. intros [[k' v'] s']. unfold counted_value. cbn [fst].
      destruct (mem_str k' keys); reflexivity. }
    assert (Nv : ~ In k (od_keys (m_vals st))) by (rewrite Kv; exact Kpre).
    unfold prod_step. destruct (mem_str k keys) eqn:Mk.
    - assert (KLk : In k L) by (apply IK, mem_str_iff; auto).
      destruct (vp_axis p L V k KLk) as (a & Ga & _). assert (v = VArr a) by congruence. subst v.
      destruct (vp_tsize p L V k a KLk G) as (Ts & _).
      rewrite (proj2 (mem_str_iff k L) KLk). cbn [negb assert_ bind].
      rewrite (vp_dim p L V k Kk), (proj2 (mem_str_iff k L) KLk). cbn [bind].
      assert (Zm : Zmem (Z.of_nat (pos k L)) (m_axes st) = false).
      { rewrite Ha. apply not_true_is_false. intros C. unfold Zmem in C. apply existsb_exists in C.
        destruct C as (x & Hx & Ex). apply Z.eqb_eq in Ex. subst x. apply in_map_iff in Hx.
        destruct Hx as (k' & Ek' & Hk'). apply Nat2Z.inj in Ek'.
        apply in_restrict in Hk'. destruct Hk' as [Hk1 Hk2].
        apply pos_inj in Ek'; auto. subst. auto. }
      rewrite Zm. eexists. split; [reflexivity|]. cbn [m_marg m_vals m_dims m_delta m_axes].
      assert (R1 : restrict keys (names (pre ++ [(k, VArr a, false)])) = restrict keys (names pre) ++ [k]).
      { rewrite names_app. unfold restrict. rewrite filter_app. cbn. rewrite Mk. auto. }
      rewrite R1. repeat split.
      + rewrite Hm. rewrite od_set_old.
        * rewrite map_map. apply map_ext. intros [k' e]. unfold counted. cbn [fst]. unfold mem_str. rewrite existsb_app. cbn [existsb].
          rewrite orb_false_r. destruct (existsb (String.eqb k') (restrict keys (names pre))); cbn [fst orb].
          -- destruct (String.eqb_spec k' k); [subst; reflexivity|reflexivity].
          -- destruct (String.eqb_spec k' k); [subst; reflexivity|reflexivity].
        * unfold od_keys. rewrite map_map. erewrite map_ext; [apply (vp_marg_cond p L V)|]. intros [k' e]. unfold counted. cbn [fst].
          destruct (mem_str k' _); reflexivity.
        * unfold od_keys. rewrite map_map. erewrite map_ext; [apply IM, mem_str_iff, Mk|]. intros [k' e]. unfold counted. cbn [fst].
          destruct (mem_str k' _); reflexivity.
      + rewrite od_set_new by exact Nv. rewrite Hv, !map_app. cbn [map]. f_equal. unfold counted_value. cbn [fst]. rewrite Mk, Ts. reflexivity.
      + rewrite Hd, app_length. cbn. lia.
      + unfold set_addZ. rewrite Zm, Ha, map_app. auto.
      + rewrite Hdi. f_equal. rewrite names_app. unfold kept_axes. rewrite filter_app. cbn.
        rewrite Mk. rewrite andb_false_r, app_nil_r. auto.
    - assert (R1 : forall s, restrict keys (names (pre ++ [(k, v, s)])) = restrict keys (names pre)).
      { intros s. rewrite names_app. unfold restrict. rewrite filter_app. cbn. rewrite Mk, app_nil_r. auto. }
      destruct (mem_str k L) eqn:ML; cbn [negb].
      + rewrite (vp_dim p L V k Kk), ML. cbn [bind].
        eexists. split; [reflexivity|]. cbn [m_marg m_vals m_dims m_delta m_axes]. rewrite R1.
        repeat split; auto.
        * rewrite od_set_new by auto. rewrite Hv, !map_app. cbn [map]. f_equal. unfold counted_value. cbn [fst]. rewrite Mk. auto.
        * assert (Nd : ~ In k (od_keys (m_dims st))).
          { rewrite Hdi. unfold od_keys. rewrite map_map. cbn. rewrite map_id. intros C.
            apply filter_In in C. tauto. }
          rewrite od_set_new by auto. rewrite Hdi, names_app. unfold kept_axes.
          rewrite filter_app. cbn. rewrite ML, Mk. cbn. rewrite map_app. cbn. f_equal.
          unfold shifted. rewrite KL, before_app by auto. rewrite Hd. auto.
      + cbn [bind]. eexists. split; [reflexivity|]. cbn [m_marg m_vals m_dims m_delta m_axes]. rewrite R1.
        repeat split; auto.
        * rewrite od_set_new by auto. rewrite Hv, !map_app. cbn [map]. f_equal. unfold counted_value. cbn [fst]. rewrite Mk. auto.
        * rewrite Hdi. f_equal. rewrite names_app. unfold kept_axes. rewrite filter_app. cbn. rewrite ML.
          cbn. rewrite app_nil_r. auto. }
  exists st. split; auto. rewrite (names_items p L V) in *. repeat split; auto.
  - rewrite Hm. apply map_ext. intros [k e]. unfold counted. cbn [fst].
    replace (mem_str k (restrict keys (p_keylist p))) with (mem_str k keys); [reflexivity|].
    apply eq_true_iff_eq. rewrite !mem_str_iff, in_restrict. split; [|tauto]. intros Hk. split; auto.
    apply (vp_incl _ _ V). auto.
  - rewrite Hv, (vp_items p L V), !map_map. reflexivity.
Qed.

Lemma prod_gen keys : incl keys (od_keys (p_marg p)) -> incl keys L -> aligned p L keys -> (forall k, In k keys -> simple_key k) ->
  exists q t s psc, pd_prod p keys = Ok q /\ valid_pd q (without keys L) /\
    p_keylist q = p_keylist p /\ od_keys (p_marg q) = od_keys (p_marg p) /\ p_cond q = p_cond p /\
    (forall k, In k (p_keylist p) -> variable q k =
       if mem_str k keys then Some (Scal (VSet [SEint (Z.of_nat (size_of p k))])) else variable p k) /\
    p_prob p = Some t /\ p_prob q = Some s /\
    eval_pscale (spec_of (prod_scale (p_pscale p) (repetitions p L keys))) = Ok psc /\ p_pscale q = psc /\
    forall a, get s (map a (without keys L)) =
      if is_log (p_pscale p) then sum_over (sized p (restrict keys L)) (fun b => get t (map b L)) a
      else prod_over (sized p (restrict keys L)) (fun b => get t (map b L)) a.
Proof.
  intros IM IK AL SK.
  destruct (vp_prob_get p L V) as (t & Pt & Rt & St).
  destruct (prod_loop keys IK IM) as (st & E & Hm & Hv & Ha & Hd).
  assert (NR : NoDup (restrict keys (p_keylist p))) by (apply filter_nodup, (vp_keys _ _ V)).
  assert (IR : incl (restrict keys (p_keylist p)) L).
  { intros k Hk. apply in_restrict in Hk. apply IK. tauto. }
  assert (W : without (restrict keys (p_keylist p)) L = without keys L).
  { unfold without. apply filter_ext_in. intros k Hk. f_equal. apply eq_true_iff_eq.
    rewrite !mem_str_iff, in_restrict. split; [tauto|]. split; auto. apply (vp_incl _ _ V). auto. }
  assert (Rr : restrict (restrict keys (p_keylist p)) L = restrict keys L).
  { unfold restrict at 1 3. apply filter_ext_in. intros k Hk. apply eq_true_iff_eq.
    rewrite !mem_str_iff, in_restrict. split; [tauto|]. split; auto. apply (vp_incl _ _ V). auto. }
  assert (RED : exists s, (if is_log (p_pscale p) then reduce n_add n0 t (m_axes st) else reduce n_mul n1 t (m_axes st)) = Ok s /\
     shape s = map (size_of p) (without keys L) /\
     forall a, get s (map a (without keys L)) =
      if is_log (p_pscale p) then sum_over (sized p (restrict keys L)) (fun b => get t (map b L)) a
      else prod_over (sized p (restrict keys L)) (fun b => get t (map b L)) a).
  { rewrite Ha. destruct (is_log (p_pscale p)).
    - destruct (sum_axes_ok p L V t (restrict keys (p_keylist p))) as (s & Es & Ss & Gs); auto. rewrite W, ?Rr in *. eauto.
    - destruct (prod_axes_ok p L V t (restrict keys (p_keylist p))) as (s & Es & Ss & Gs); auto. rewrite W, ?Rr in *. eauto. }
  destruct RED as (s & Es & Ss & Gs).
  assert (AX : map_res (fun d => py_indexR (length (p_shape p)) d) (m_axes st) = Ok (map (fun k => pos k L) (restrict keys (p_keylist p)))).
  { rewrite Ha. assert (X : forall l, incl l L -> map_res (fun d => py_indexR (length (p_shape p)) d) (map (fun k => Z.of_nat (pos k L)) l) = Ok (map (fun k => pos k L) l)).
    { induction l as [|k l IH]; intros I; [reflexivity|]. cbn [map map_res].
      assert (Pk : pos k L < length L) by (apply pos_lt, I; left; reflexivity).
      unfold py_indexR at 1, py_index. rewrite (vp_shape _ _ V).
      replace (0 <=? Z.of_nat (pos k L))%Z with true by (symmetry; apply Z.leb_le; lia).
      rewrite Nat2Z.id. 
      match goal with |- context [if ?c then _ else _] => replace c with true by (symmetry; rewrite ?andb_true_l; first [apply Nat.ltb_lt; lia | apply Z.ltb_lt; lia]) end.
      cbn [bind]. rewrite (vp_shape _ _ V) in IH. rewrite IH by (intros x Hx; apply I; right; exact Hx). reflexivity. }
    apply X, IR. }
  assert (SC : prod_list (map (fun d => nth d (p_shape p) 0) (map (fun k => pos k L) (restrict keys (p_keylist p)))) = repetitions p L keys).
  { unfold repetitions. rewrite map_map. rewrite (map_ext_in _ (size_of p)).
    - apply prod_list_perm, Permutation_map, restrict_keylist_perm; auto.
    - intros k Hk. apply IR in Hk. destruct (vp_axis p L V k Hk) as (a & _ & _ & _ & _ & Nt & _). apply (nth_error_nth _ _ _ Nt). }
  destruct (eval_valid (spec_of (prod_scale (p_pscale p) (repetitions p L keys)))) as (psc & Ep).
  { destruct (prod_scale _ _); exact I. }
  destruct (vp_marg_cond p L V) as (NM & NC & DJ).
  assert (Kv : od_keys (m_vals st) = p_keylist p).
  { rewrite Hv. unfold od_keys. rewrite map_map. change (p_keylist p) with (map fst (p_vals p)). apply map_ext. intros [k v].
    unfold counted_value. cbn [fst]. destruct (mem_str k keys); reflexivity. }
  assert (Gv : forall k, od_get (m_vals st) k = if mem_str k keys then Some (VSet [SEint (Z.of_nat (size_of p k))]) else od_get (p_vals p) k).
  { intros k. rewrite Hv. assert (Kp : mem_str k keys = true -> In k (od_keys (p_vals p))).
    { intros M. apply mem_str_iff in M. change (In k (p_keylist p)). apply (vp_incl _ _ V), IK, M. }
    revert Kp. generalize (p_vals p) as l. induction l as [|[k' v] l IH]; intros Kp; cbn [map od_get].
    - destruct (mem_str k keys) eqn:M; [|reflexivity]. destruct (Kp eq_refl).
    - unfold counted_value at 1. cbn [fst]. destruct (mem_str k' keys) eqn:Mk'; cbn [od_get].
      + destruct (String.eqb_spec k k') as [->|N].
        * rewrite Mk'. reflexivity.
        * apply IH. intros M. specialize (Kp M). cbn in Kp. destruct Kp as [->|]; [contradiction|assumption].
      + destruct (String.eqb_spec k k') as [->|N]; [rewrite Mk'; reflexivity|].
        apply IH. intros M. specialize (Kp M). cbn in Kp. destruct Kp as [->|]; [contradiction|assumption]. }
  assert (Kd : od_keys (m_dims st) = kept_axes L keys (p_keylist p)).
  { rewrite Hd. unfold od_keys. rewrite map_map. cbn. apply map_id. }
  assert (Km : od_keys (m_marg st) = od_keys (p_marg p)).
  { rewrite Hm. unfold od_keys. rewrite map_map. apply map_ext. intros [k e]. unfold counted. cbn [fst]. destruct (mem_str k keys); reflexivity. }
  pose proof (vp_entries _ _ V) as VE. rewrite Forall_forall in VE.
  assert (EN : forall k e, In (k, e) (m_marg st ++ p_cond p) -> In k (p_keylist p) /\
     (In k keys /\ e = (k ++ "={}")%string \/ ~ In k keys /\ In (k, e) (p_marg p ++ p_cond p))).
  { intros k e I. apply in_app_or in I. destruct I as [I|I].
    - rewrite Hm in I. apply in_map_iff in I. destruct I as ([k' e'] & X & I). unfold counted in X. cbn [fst] in X.
      assert (Ik : In k' (od_keys (p_marg p))) by (apply (in_map fst) in I; exact I).
      destruct (mem_str k' keys) eqn:M; injection X as <- <-.
      + split; [apply (vp_key_iff p L V); auto|]. left. apply mem_str_iff in M. auto.
      + split; [apply (vp_key_iff p L V); auto|]. right. apply mem_str_false in M. split; [exact M|apply in_or_app; auto].
    - assert (Ik : In k (od_keys (p_cond p))) by (apply (in_map fst) in I; exact I).
      split; [apply (vp_key_iff p L V); auto|]. right. split; [|apply in_or_app; auto].
      intros C. apply IM in C. exact (DJ k C Ik). }
  assert (RE : forall k e, In (k, e) (p_marg p ++ p_cond p) -> ~ In k keys -> render (m_vals st) (without keys L) (k, e) = (k, e)).
  { intros k e I NK. unfold render. cbn [fst snd]. destruct (mem_str k (without keys L)) eqn:M; [reflexivity|].
    rewrite Gv. pose proof (proj2 (mem_str_false k keys) NK) as Mk. rewrite Mk.
    destruct (od_get (p_vals p) k) as [v|] eqn:G; [|reflexivity]. f_equal.
    symmetry. apply (vp_rendered _ _ V k v e G).
    - intros C. apply mem_str_false in M. apply M, in_without. auto.
    - apply od_in_get; [|exact I]. unfold od_keys. rewrite map_app. eapply Permutation_NoDup; [apply Permutation_sym, (vp_names _ _ V)|apply (vp_keys _ _ V)]. }
  destruct (make_pd_ok (m_vals st) (m_dims st) (without keys L) (m_marg st) (p_cond p) s
     (spec_of (prod_scale (p_pscale p) (repetitions p L keys))) psc) as (q & Eq & Vq & Kq & Mq & Cq & Pq & Sq & Varq).
  - rewrite Kv. apply (vp_keys _ _ V).
  - intros C. rewrite C in Kv. apply (vp_some _ _ V). symmetry. exact Kv.
  - rewrite Kv. intros k Hk. apply (vp_reserved _ _ V k Hk).
  - apply filter_nodup, (vp_axes _ _ V).
  - rewrite Kv. intros k Hk. apply in_without in Hk. apply (vp_incl _ _ V). tauto.
  - intros k v G NL. rewrite Gv in G. split.
    + destruct (mem_str k keys) eqn:M; [injection G as <-; reflexivity|].
      apply (vp_sing p L V k v G). intros C. apply NL, in_without. apply mem_str_false in M. auto.
    + left. apply od_get_none. rewrite Kd. intros C. apply filter_In in C. destruct C as [_ C].
      apply andb_true_iff in C. destruct C as [C1 C2]. apply NL, in_without. apply mem_str_iff in C1. apply negb_true_iff, mem_str_false in C2. auto.
  - intros j k Hj. assert (Hk : In k (without keys L)) by (eapply nth_error_In; eauto).
    apply in_without in Hk as Hk'. destruct Hk' as [Hk1 Hk2].
    destruct (vp_axis p L V k Hk1) as (a & Ga & _). destruct (vp_tsize p L V k a Hk1 Ga) as (T1 & T2 & T3 & T4).
    exists a. rewrite Gv, (proj2 (mem_str_false k keys) Hk2). do 4 (split; [assumption|]). split.
    + apply od_in_get. { rewrite Kd. apply filter_nodup, (vp_keys _ _ V). }
      rewrite Hd. apply in_map_iff. exists k. split.
      * f_equal. apply aligned_shifted; auto.
      * apply filter_In. split; [apply (vp_incl _ _ V); auto|].
        apply andb_true_iff. split; [apply mem_str_iff; auto|]. apply negb_true_iff, mem_str_false. auto.
    + rewrite Ss, nth_error_map, Hj, T1. reflexivity.
  - rewrite Kd, Kv. intros k Hk. apply filter_In in Hk. tauto.
  - rewrite Kd. apply filter_nodup, (vp_keys _ _ V).
  - rewrite Ss, map_length. reflexivity.
  - apply Forall_forall. intros [k e] I. cbn [fst snd]. destruct (EN k e I) as (Kk & [[K ->]|[K I']]).
    + apply bare_entry, SK, K.
    + apply (VE _ I').
  - apply Forall_forall. intros ke I. apply in_map_iff in I. destruct I as ([k e] & <- & I). destruct (EN k e I) as (Kk & [[K ->]|[K I']]).
    + unfold render. cbn [fst snd]. rewrite (proj2 (mem_str_false k (without keys L))) by (rewrite in_without; tauto).
      rewrite Gv, (proj2 (mem_str_iff k keys) K). cbn [fmt_value]. apply counted_entry, SK, K.
    + rewrite RE by assumption. apply (VE _ I').
  - rewrite Km, Kv. apply (vp_names _ _ V).
  - exact Ep.
  - apply (eval_idem _ _ Ep).
  - exists q, t, s, psc. split.
    { unfold pd_prod, keys_marginal.
      assert (KM : forallb (fun k => od_mem (p_marg p) k) keys = true).
      { apply forallb_forall. intros k Hk. apply od_mem_iff. auto. }
      rewrite KM. cbn [assert_ bind]. rewrite E. cbn [bind]. rewrite AX. cbn [bind]. rewrite SC, Rt. cbn [bind]. rewrite Es. cbn [bind]. exact Eq. }
    split; [exact Vq|]. split; [congruence|]. split.
    { rewrite Mq, render_keys. exact Km. }
    split.
    { rewrite Cq. rewrite <- (map_id (p_cond p)) at 2. apply map_ext_in. intros [k e] I. apply RE; [apply in_or_app; auto|].
      intros C. apply IM in C. apply (DJ k C). apply (in_map fst) in I. exact I. }
    split.
    { intros k Kk. rewrite Varq, Gv. destruct (mem_str k keys); [reflexivity|]. unfold variable. reflexivity. }
    auto 10.
Qed.
End Prod.
