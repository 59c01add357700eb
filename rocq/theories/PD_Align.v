(** Bringing the factors of a product to common axes. *)
From Coq Require Import String ZArith Reals Lra Bool Arith Lia Permutation List.
From Verif Require Import Base Num Tensor TensorBcast OdLemmas TensorLemmas RNumLemmas PScales PScales_Spec
  PScales_Proofs PScales_Prod Names Names_Spec Distr PDModel PDUtils PD_Spec PD_Make PD_Sums PD_Valid PD_Marg.
Import ListNotations.

(** *** Shapes over a list of axes, with size one for those not in a set *)
Section Mask.
Variable sz : string -> nat.

Definition mask (A L : list string) : list nat := map (fun k => if mem_str k A then sz k else 1) L.
Definition midx (A : list string) (a : string -> nat) (L : list string) : list nat :=
  map (fun k => if mem_str k A then a k else 0) L.

Lemma mask_length A L : length (mask A L) = length L.
Proof. apply map_length. Qed.

Lemma mask_ext A B L : (forall k, In k L -> (In k A <-> In k B)) -> mask A L = mask B L.
Proof.
  intros H. apply map_ext_in. intros k Hk. replace (mem_str k A) with (mem_str k B); auto.
  apply eq_true_iff_eq. rewrite !mem_str_iff. symmetry. auto.
Qed.

Lemma mask_all A L : incl L A -> mask A L = map sz L.
Proof.
  intros H. apply map_ext_in. intros k Hk. apply H in Hk. apply mem_str_iff in Hk. rewrite Hk. reflexivity.
Qed.

Lemma mask_none L : mask [] L = repeat 1 (length L).
Proof. unfold mask. induction L as [|k L IH]; cbn; [reflexivity|]. f_equal. exact IH. Qed.

Lemma sqs_mask A L : sqs (mask A L) = sqs (map sz (filter (fun k => mem_str k A) L)).
Proof.
  unfold mask, sqs. induction L as [|k L IH]; cbn; auto.
  destruct (mem_str k A) eqn:M; cbn; [|auto]. destruct (negb (sz k =? 1)); congruence.
Qed.

Lemma sqz_mask A a L : sqz (mask A L) (midx A a L) =
  sqz (map sz (filter (fun k => mem_str k A) L)) (map a (filter (fun k => mem_str k A) L)).
Proof.
  unfold mask, midx. induction L as [|k L IH]; cbn; auto.
  destruct (mem_str k A) eqn:M; cbn; [|auto]. destruct (sz k =? 1); congruence.
Qed.

Lemma prod_mask A L : prod_list (mask A L) = prod_list (map sz (filter (fun k => mem_str k A) L)).
Proof. rewrite <- prod_list_sqs, sqs_mask, prod_list_sqs. reflexivity. Qed.

Lemma midx_in_range A a L : (forall k, In k L -> In k A -> a k < sz k) -> in_range (mask A L) (midx A a L).
Proof.
  intros H. unfold in_range, mask, midx. induction L as [|k L IH]; cbn; constructor.
  - destruct (mem_str k A) eqn:M; [|lia]. apply H; [cbn; auto|]. apply mem_str_iff; auto.
  - apply IH. intros k' I. apply H. cbn. auto.
Qed.

Lemma bcast_mask A a L : (forall k, In k L -> a k < sz k) -> bcast_idx (mask A L) (map a L) = midx A a L.
Proof.
  intros H. unfold bcast_idx. rewrite mask_length, map_length, Nat.sub_diag. cbn [skipn].
  unfold mask, midx. induction L as [|k L IH]; cbn; auto. f_equal.
  - destruct (mem_str k A); [|reflexivity]. destruct (Nat.eqb_spec (sz k) 1); auto.
    specialize (H k (or_introl eq_refl)). lia.
  - apply IH. intros k' I. apply H. cbn. auto.
Qed.

(** *** Broadcasting them *)
Lemma merge_mask A B L : merge_shape (mask A L) (mask B L) = Ok (mask (A ++ B) L).
Proof.
  unfold mask. induction L as [|k L IH]; cbn; auto. rewrite IH. cbn [bind].
  assert (E : mem_str k (A ++ B) = mem_str k A || mem_str k B).
  { apply eq_true_iff_eq. rewrite orb_true_iff, !mem_str_iff, in_app_iff. tauto. }
  rewrite E. destruct (mem_str k A), (mem_str k B); cbn [orb].
  - rewrite Nat.eqb_refl. reflexivity.
  - destruct (Nat.eqb_spec (sz k) 1); cbn; congruence.
  - destruct (Nat.eqb_spec 1 (sz k)); cbn; congruence.
  - reflexivity.
Qed.

Lemma bcast_nil_l s : bcast_shape [] s = Ok s.
Proof.
  unfold bcast_shape, pad_shape. cbn [length]. rewrite Nat.max_0_l, Nat.sub_0_r, Nat.sub_diag, app_nil_r. cbn [repeat app].
  induction s as [|d s IH]; cbn [length repeat merge_shape]; auto. rewrite IH. cbn [bind].
  destruct (Nat.eqb_spec 1 d); [congruence|reflexivity].
Qed.

Lemma bcast_nil_r s : bcast_shape s [] = Ok s.
Proof.
  unfold bcast_shape, pad_shape. cbn [length]. rewrite Nat.max_0_r, Nat.sub_0_r, Nat.sub_diag, app_nil_r. cbn [repeat app].
  induction s as [|d s IH]; cbn [length repeat merge_shape]; auto. rewrite IH. cbn [bind].
  destruct (Nat.eqb_spec d 1); [|reflexivity]. subst. cbn. reflexivity.
Qed.

(** The shape of a factor with columns A: no axes if there are none. *)
Definition fshape (L A : list string) : list nat := match A with [] => [] | _ => mask A L end.

Lemma bcast_fshape L A B : bcast_shape (fshape L A) (fshape L B) = Ok (fshape L (A ++ B)).
Proof.
  destruct A as [|a A]; [apply bcast_nil_l|]. destruct B as [|b B].
  - rewrite app_nil_r. apply bcast_nil_r.
  - cbn [fshape app]. unfold bcast_shape. rewrite !mask_length, Nat.max_id. unfold pad_shape.
    rewrite !mask_length, Nat.sub_diag. apply (merge_mask (a :: A) (b :: B)).
Qed.

Lemma fold_fshape L (ls : list (list string)) A :
  fold_res bcast_shape (map (fshape L) ls) (fshape L A) = Ok (fshape L (A ++ concat ls)).
Proof.
  revert A. induction ls as [|B ls IH]; intros A; cbn [map fold_res concat].
  - rewrite app_nil_r. reflexivity.
  - rewrite bcast_fshape. cbn [bind]. rewrite IH, app_assoc. reflexivity.
Qed.

Lemma bcast_all_fshape L (ls : list (list string)) :
  ls <> [] -> bcast_all (map (fshape L) ls) = Ok (fshape L (concat ls)).
Proof.
  intros NE. destruct ls as [|A [|B ls]]; [congruence| |].
  - cbn. rewrite app_nil_r. reflexivity.
  - change (bcast_all (map (fshape L) (A :: B :: ls)))
      with (fold_res bcast_shape (map (fshape L) (B :: ls)) (fshape L A)).
    rewrite fold_fshape. reflexivity.
Qed.

Lemma fshape_all L A : L <> [] -> incl L A -> fshape L A = map sz L.
Proof.
  intros NE I. destruct A as [|a A]; [|apply (mask_all (a :: A)); auto].
  destruct L as [|k L]; [congruence|]. destruct (I k); cbn; auto.
Qed.

Lemma set_nth_mask A L k : In k L -> NoDup L ->
  set_nth (pos k L) (nth (pos k L) (map sz L) 1) (mask A L) = mask (A ++ [k]) L.
Proof.
  intros I N. assert (E : nth (pos k L) (map sz L) 1 = sz k).
  { apply nth_error_nth. rewrite nth_error_map, pos_nth; auto. }
  rewrite E. clear E. induction N as [|x L Hx N IH]; [destruct I|]. cbn [pos mask map].
  assert (Ex : forall y, mem_str y (A ++ [k]) = mem_str y A || String.eqb y k).
  { intros y. apply eq_true_iff_eq. rewrite orb_true_iff, !mem_str_iff, in_app_iff, String.eqb_eq. cbn. intuition. }
  destruct (String.eqb_spec x k) as [->|Ne].
  - cbn [set_nth]. rewrite Ex, String.eqb_refl, orb_true_r. f_equal.
    apply map_ext_in. intros y Hy. rewrite Ex. destruct (String.eqb_spec y k); [subst; contradiction|].
    rewrite orb_false_r. reflexivity.
  - cbn [set_nth]. destruct I as [<-|I]; [congruence|]. rewrite Ex.
    destruct (String.eqb_spec x k); [congruence|]. rewrite orb_false_r. f_equal. apply (IH I).
Qed.

End Mask.

Lemma nodup_map_in {A B} (f : A -> B) (l : list A) :
  (forall x y, In x l -> In y l -> f x = f y -> x = y) -> NoDup l -> NoDup (map f l).
Proof.
  intros H N. induction N as [|x l Hx N IH]; cbn; constructor.
  - intros I. apply in_map_iff in I. destruct I as (y & E & Hy). apply H in E; cbn; auto. subst. contradiction.
  - apply IH. intros a b Ha Hb. apply H; cbn; auto.
Qed.

Lemma nth_error_ext {A} (l m : list A) : (forall j, nth_error l j = nth_error m j) -> l = m.
Proof.
  revert m. induction l as [|x l IH]; intros [|y m] H; auto.
  - specialize (H 0). discriminate.
  - specialize (H 0). discriminate.
  - pose proof (H 0) as H0. cbn in H0. injection H0 as ->. f_equal. apply IH. intros j. apply (H (S j)).
Qed.

Lemma nth_firstn_lt {A} (l : list A) n j d : j < n -> nth j (firstn n l) d = nth j l d.
Proof.
  revert l j. induction n as [|n IH]; intros [|x l] [|j] H; cbn; auto; try lia. apply IH. lia.
Qed.

Lemma filter_none {A} (f : A -> bool) l : (forall x, In x l -> f x = false) -> filter f l = [].
Proof.
  induction l as [|x l IH]; cbn; intros H; auto. rewrite (H x) by auto. apply IH. auto.
Qed.

Lemma filter_one k (l : list string) : NoDup l -> In k l -> filter (fun y => mem_str y [k]) l = [k].
Proof.
  intros N I. induction N as [|x l Hx N IH]; [destruct I|]. cbn [filter].
  destruct (mem_str x [k]) eqn:M.
  - apply mem_str_iff in M. destruct M as [<-|[]]. f_equal. apply filter_none. intros y Hy.
    apply mem_str_false. intros [<-|[]]. contradiction.
  - apply mem_str_false in M. destruct I as [<-|I]; [exfalso; apply M; cbn; auto|auto].
Qed.

(** *** Adding trailing axes *)
Lemma expand_to_spec (k : nat) (t : tensor R) :
  shape (expand_to k t) = shape t ++ repeat 1 k /\
  forall idx, length idx = length (shape t) + k -> get (expand_to k t) idx = get t (firstn (length (shape t)) idx).
Proof.
  revert t. induction k as [|k IH]; intros t; cbn [expand_to repeat].
  - rewrite app_nil_r. split; [reflexivity|]. intros idx Hl. rewrite firstn_all2 by lia. reflexivity.
  - destruct (IH (expand_last t)) as [S G]. cbn [expand_last shape] in S. split.
    + rewrite S, <- app_assoc. reflexivity.
    + intros idx Hl. rewrite G; cbn [expand_last shape get]; rewrite app_length; cbn [length]; [|lia].
      assert (E : removelast (firstn (length (shape t) + 1) idx) = firstn (length (shape t)) idx).
      { rewrite Nat.add_1_r. rewrite removelast_firstn; auto. lia. }
      rewrite E. reflexivity.
Qed.

(** *** The axes of a factor *)
Lemma zd_set_new (d : list (Z * Z)) k v : ~ In k (map fst d) -> zd_set d k v = d ++ [(k, v)].
Proof.
  induction d as [|[k' v'] d IH]; cbn; intros H; auto.
  destruct (Z.eqb_spec k k'); [subst; tauto|]. rewrite IH by tauto. reflexivity.
Qed.

Section Align.
Context {F : Fmt R}.
Variable sz : string -> nat.
Variables Ls L : list string.
Variable p : pd R.
Variable t : tensor R.
Variable pdims : odict Z.
Hypothesis V : valid_pd p L.
Hypothesis NE : L <> [].
Hypothesis IL : incl L Ls.
Hypothesis NL : NoDup Ls.
Hypothesis SP : forall k, In k Ls -> 0 < sz k.
Hypothesis Sh : shape t = map sz L.
Hypothesis PD : forall k, In k L -> od_get pdims k = Some (Z.of_nat (pos k Ls)).

Let f (k : string) : Z * Z := (Z.of_nat (pos k L), Z.of_nat (pos k Ls)).
Let D := filter (fun k => mem_str k L) (od_keys (p_dims p)).

Lemma D_iff k : In k D <-> In k L.
Proof.
  unfold D. rewrite filter_In, mem_str_iff. split; [tauto|]. intros H. split; auto.
  destruct (vp_axis p L V k H) as (a & _ & _ & _ & _ & _ & G). eapply od_get_some_key; eauto.
Qed.

Lemma D_nodup : NoDup D.
Proof. apply filter_nodup. apply (vp_dims _ _ V). Qed.

Lemma D_length : length D = length L.
Proof.
  apply Permutation_length, NoDup_Permutation; [apply D_nodup|apply (vp_axes _ _ V)|]. apply D_iff.
Qed.

Lemma axis_map_ok : axis_map (p_dims p) pdims = Ok (map f D).
Proof.
  unfold axis_map. destruct (vp_dims _ _ V) as [Ik ND].
  destruct (@fold_res_ok (string * option Z) (list (Z * Z))
    (fun acc kd => match snd kd with None => Ok acc | Some d => let! nd := od_getR pdims (fst kd) in Ok (zd_set acc d nd) end)
    (fun pre acc => acc = map f (filter (fun k => mem_str k L) (od_keys pre))) (p_dims p) []) as (s & E & Hs).
  - reflexivity.
  - intros pre [k d] post s1 Ep Hs. subst s1. cbn [snd fst].
    assert (Gd : od_get (p_dims p) k = Some d).
    { apply od_in_get; auto. rewrite Ep. apply in_or_app. right. cbn. auto. }
    assert (Hk : In k (p_keylist p)).
    { apply Ik. eapply od_get_some_key; eauto. }
    pose proof (vp_dim p L V k Hk) as VD. unfold od_getR in VD. rewrite Gd in VD. injection VD as VD.
    unfold od_keys. rewrite map_app, filter_app. cbn [map fst filter]. rewrite VD.
    destruct (mem_str k L) eqn:M.
    + apply mem_str_iff in M. rewrite (proj2 (od_getR_ok _ _ _) (PD k M)). cbn [bind].
      eexists. split; [reflexivity|]. rewrite zd_set_new; [rewrite map_app; reflexivity|].
      intros H. rewrite map_map in H. cbn [f fst] in H. apply in_map_iff in H. destruct H as (k' & E & Hf).
      apply filter_In in Hf. destruct Hf as [Hf M']. apply mem_str_iff in M'.
      apply Nat2Z.inj in E. apply pos_inj in E; auto. subst k'.
      rewrite Ep in ND. unfold od_keys in ND. rewrite map_app in ND. cbn [map fst] in ND.
      apply NoDup_remove_2 in ND. apply ND. apply in_or_app. left. exact Hf.
    + eexists. split; [reflexivity|]. rewrite app_nil_r. reflexivity.
  - rewrite E, Hs. reflexivity.
Qed.

Lemma rsh_ok (ks A : list string) : incl ks Ls ->
  fold_res (fun rsh d => let! j := py_indexR (length Ls) d in Ok (set_nth j (nth j (map sz Ls) 1) rsh))
    (map (fun k => Z.of_nat (pos k Ls)) ks) (mask sz A Ls) = Ok (mask sz (A ++ ks) Ls).
Proof.
  revert A. induction ks as [|k ks IH]; intros A I; cbn [map fold_res].
  - rewrite app_nil_r. reflexivity.
  - rewrite py_indexR_nat by (apply pos_lt, I; cbn; auto). cbn [bind].
    rewrite set_nth_mask by (auto; apply I; cbn; auto). rewrite IH by (intros y Hy; apply I; cbn; auto).
    rewrite <- app_assoc. reflexivity.
Qed.

Lemma Zmaximum_nat (l : list nat) : l <> [] -> Zmaximum (map Z.of_nat l) = Z.of_nat (list_max l).
Proof.
  intros H. destruct l as [|x l]; [congruence|]. cbn [map Zmaximum]. clear H.
  change (list_max (x :: l)) with (Nat.max x (list_max l)).
  revert x. induction l as [|y l IH]; intros x; cbn [map fold_left].
  - change (list_max []) with 0. rewrite Nat.max_0_r. reflexivity.
  - rewrite <- Nat2Z.inj_max, IH. change (list_max (y :: l)) with (Nat.max y (list_max l)). f_equal. lia.
Qed.

(** Reading the reshaped array when axes of size one are squeezed. *)
Lemma squeeze_get (u : tensor R) (M : list string) :
  filter (fun k => mem_str k L) M = filter (fun k => mem_str k L) Ls ->
  shape u = mask sz L M ->
  exists t', reshape (mask sz L Ls) u = Ok t' /\ shape t' = mask sz L Ls /\
    forall a, (forall k, In k Ls -> a k < sz k) -> incl M Ls -> get t' (midx L a Ls) = get u (midx L a M).
Proof.
  intros E Su. destruct (reshape_ok (mask sz L Ls) u) as (t' & Er & St & _).
  { unfold tsize. rewrite Su, !prod_mask, E. reflexivity. }
  exists t'. split; [exact Er|]. split; [exact St|]. intros a Ha IM.
  apply (@reshape_get R (mask sz L Ls) u); auto.
  - apply midx_in_range. auto.
  - rewrite Su. apply midx_in_range. auto.
  - rewrite Su, !sqs_mask, E. reflexivity.
  - rewrite Su, !sqz_mask, E. reflexivity.
Qed.

Lemma filter_self (l : list string) : filter (fun k => mem_str k l) l = l.
Proof.
  assert (H : forall m, incl m l -> filter (fun k => mem_str k l) m = m).
  { induction m as [|k m IH]; cbn; intros I; auto. assert (mem_str k l = true) as -> by (apply mem_str_iff, I; cbn; auto).
    f_equal. apply IH. intros y Hy. apply I. cbn. auto. }
  apply H, incl_refl.
Qed.

Lemma midx_self a l : midx l a l = map a l.
Proof.
  apply map_ext_in. intros k Hk. apply mem_str_iff in Hk. rewrite Hk. reflexivity.
Qed.

Lemma align_ok : exists t', align_prob (length Ls) pdims (map sz Ls) p t = Ok t' /\ shape t' = mask sz L Ls /\
  forall a, (forall k, In k Ls -> a k < sz k) -> get t' (bcast_idx (mask sz L Ls) (map a Ls)) = get t (map a L).
Proof.
  assert (N0 : ndim t =? 0 = false).
  { unfold ndim. rewrite Sh, map_length. destruct L; [congruence|reflexivity]. }
  unfold align_prob. rewrite N0, axis_map_ok. cbn [bind].
  assert (En : map snd (map f D) = map (fun k => Z.of_nat (pos k Ls)) D) by (rewrite map_map; reflexivity).
  assert (Eo : map fst (map f D) = map (fun k => Z.of_nat (pos k L)) D) by (rewrite map_map; reflexivity).
  rewrite En, Eo. clear En Eo.
  assert (ID : incl D Ls) by (intros k Hk; apply IL, D_iff; auto).
  assert (Er : fold_res (fun rsh d => let! j := py_indexR (length Ls) d in Ok (set_nth j (nth j (map sz Ls) 1) rsh))
    (map (fun k => Z.of_nat (pos k Ls)) D) (repeat 1 (length Ls)) = Ok (mask sz L Ls)).
  { rewrite <- (mask_none sz), rsh_ok by auto. f_equal. apply mask_ext. intros k _. apply D_iff. }
  assert (Fin : forall (u : tensor R) (M : list string),
    filter (fun k => mem_str k L) M = filter (fun k => mem_str k L) Ls -> incl M Ls -> shape u = mask sz L M ->
    (forall a, (forall k, In k Ls -> a k < sz k) -> get u (midx L a M) = get t (map a L)) ->
    exists t', (let! rsh := fold_res (fun rsh d => let! j := py_indexR (length Ls) d in Ok (set_nth j (nth j (map sz Ls) 1) rsh))
      (map (fun k => Z.of_nat (pos k Ls)) D) (repeat 1 (length Ls)) in reshape rsh u) = Ok t' /\ shape t' = mask sz L Ls /\
    forall a, (forall k, In k Ls -> a k < sz k) -> get t' (bcast_idx (mask sz L Ls) (map a Ls)) = get t (map a L)).
  { intros u M EM IM Su Gu. rewrite Er. cbn [bind].
    destruct (squeeze_get u M EM Su) as (t' & E & St & G). exists t'. split; [exact E|]. split; [exact St|].
    intros a Ha. rewrite bcast_mask by auto. rewrite G by auto. apply Gu, Ha. }
  rewrite map_length, D_length.
  destruct ((1 <? length L) && negb (list_eqb Z.eqb (map (fun k => Z.of_nat (pos k L)) D) (map (fun k => Z.of_nat (pos k Ls)) D))) eqn:C;
    cbn [bind].
  - (* axes move *)
    clear C.
    set (mv := map (fun k => pos k Ls) D).
    assert (Emv : map (fun k => Z.of_nat (pos k Ls)) D = map Z.of_nat mv) by (unfold mv; rewrite map_map; reflexivity).
    set (od := map (fun k => pos k L) D).
    assert (Eod : map (fun k => Z.of_nat (pos k L)) D = map Z.of_nat od) by (unfold od; rewrite map_map; reflexivity).
    set (m := S (list_max mv)).
    assert (ND : mv <> []).
    { unfold mv. intros E. apply map_eq_nil in E. pose proof D_length as DL. rewrite E in DL. destruct L; [congruence|discriminate]. }
    assert (Em : Z.to_nat (Zmaximum (map (fun k => Z.of_nat (pos k Ls)) D) + 1) = m).
    { rewrite Emv, Zmaximum_nat by auto. unfold m. lia. }
    rewrite Em.
    assert (Bm : forall k, In k L -> pos k Ls < m).
    { intros k Hk. unfold m. apply Nat.lt_succ_r. pose proof (proj1 (list_max_le mv (list_max mv)) (le_n _)) as Fm.
      rewrite Forall_forall in Fm. apply Fm. unfold mv. apply in_map_iff. exists k. split; auto. apply D_iff. auto. }
    assert (Nmv : NoDup mv).
    { unfold mv. apply nodup_map_in; [|apply D_nodup]. intros x y Hx Hy E. apply (pos_inj x y Ls); auto. }
    assert (Nod : NoDup od).
    { unfold od. apply nodup_map_in; [|apply D_nodup]. intros x y Hx Hy E. apply D_iff in Hx, Hy. apply (pos_inj x y L); auto. }
    assert (Bmv : forall x, In x mv -> x < m).
    { intros x Hx. unfold mv in Hx. apply in_map_iff in Hx. destruct Hx as (k & <- & Hk). apply Bm, D_iff; auto. }
    assert (mL : length L <= m).
    { rewrite <- D_length. replace (length D) with (length mv) by (unfold mv; apply map_length).
      rewrite <- (seq_length m 0). apply NoDup_incl_length; auto. intros x Hx. apply in_seq. specialize (Bmv x Hx). lia. }
    assert (Bod : forall x, In x od -> x < m).
    { intros x Hx. unfold od in Hx. apply in_map_iff in Hx. destruct Hx as (k & <- & Hk). apply D_iff in Hk.
      apply pos_lt in Hk. lia. }
    assert (mLs : m <= length Ls).
    { unfold m. assert (list_max mv < length Ls); [|lia]. apply list_max_lt; auto. apply Forall_forall. intros x Hx.
      unfold mv in Hx. apply in_map_iff in Hx. destruct Hx as (k & <- & Hk). apply pos_lt, ID, Hk. }
    destruct (expand_to_spec (m - ndim t) t) as [Se Ge].
    assert (Lt : length (shape t) = length L) by (rewrite Sh; apply map_length).
    unfold ndim in Se, Ge. rewrite Lt in Se, Ge. unfold ndim at 1. rewrite Lt.
    set (te := expand_to (m - length L) t) in *.
    assert (Le : length (shape te) = m) by (rewrite Se, app_length, repeat_length; lia).
    unfold moveaxis, ndim. rewrite Le, Emv, Eod.
    rewrite !norm_axes_nat by auto. cbn [bind].
    assert (Ll : length od = length mv) by (unfold od, mv; rewrite !map_length; reflexivity).
    rewrite Ll, Nat.eqb_refl. cbn [bind]. rewrite <- Emv.
    destruct (@moveaxis_order_spec m od mv) as [Po Io]; auto.
    set (order := moveaxis_order m od mv) in *.
    assert (Lo : length order = m) by (rewrite (Permutation_length Po); apply seq_length).
    assert (Ok1 : forall k, In k L -> nth_error order (pos k Ls) = Some (pos k L)).
    { intros k Hk. apply D_iff in Hk. destruct (In_nth_error _ _ Hk) as [i Hi].
      apply (Io i); unfold od, mv; rewrite nth_error_map, Hi; reflexivity. }
    assert (No : NoDup order) by (eapply Permutation_NoDup; [apply Permutation_sym; exact Po|apply seq_NoDup]).
    assert (Lf : length (firstn m Ls) = m) by (rewrite firstn_length; lia).
    assert (Nf : forall b k, b < m -> nth_error Ls b = Some k -> nth_error (firstn m Ls) b = Some k).
    { intros b k Hb Hk. rewrite <- (firstn_skipn m Ls) in Hk. rewrite nth_error_app1 in Hk; auto. lia. }
    assert (Other : forall b k a, nth_error Ls b = Some k -> ~ In k L -> nth_error order b = Some a -> length L <= a < m).
    { intros b k a Hb Hk Ho.
      assert (Ha : a < m). { apply nth_error_In in Ho. apply (Permutation_in _ Po) in Ho. apply in_seq in Ho. lia. }
      split; auto. destruct (le_lt_dec (length L) a); auto. exfalso.
      destruct (nth_error L a) as [k'|] eqn:Ek'; [|apply nth_error_None in Ek'; lia].
      assert (Hk' : In k' L) by (eapply nth_error_In; eauto). pose proof (Ok1 k' Hk') as O'.
      rewrite (nth_pos k' L a (vp_axes _ _ V) Ek') in O'.
      assert (b = pos k' Ls).
      { apply (@nth_error_inj nat order b (pos k' Ls) a); auto. }
      subst b. rewrite pos_nth in Hb by auto. injection Hb as <-. contradiction. }
    apply (Fin (transpose order te) (firstn m Ls)).
    + (* no column beyond m *)
      rewrite <- (firstn_skipn m Ls) at 2. rewrite filter_app.
      assert (E : filter (fun k => mem_str k L) (skipn m Ls) = []).
      { destruct (filter (fun k => mem_str k L) (skipn m Ls)) as [|k r] eqn:E; auto. exfalso.
        assert (Hk : In k (filter (fun k => mem_str k L) (skipn m Ls))) by (rewrite E; cbn; auto).
        apply filter_In in Hk. destruct Hk as [Hs Hm]. apply mem_str_iff in Hm. specialize (Bm k Hm).
        pose proof (pos_nth _ _ (IL _ Hm)) as Hp.
        pose proof NL as NL'. rewrite <- (firstn_skipn m Ls) in NL'. apply nodup_app_iff in NL'. destruct NL' as (_ & _ & Dj).
        apply (Dj k); auto. eapply nth_error_In. apply Nf; eauto. }
      rewrite E, app_nil_r. reflexivity.
    + intros k Hk. rewrite <- (firstn_skipn m Ls). apply in_or_app. auto.
    + (* shape *)
      apply nth_ext_nat; [rewrite transpose_shape_length, mask_length; lia|].
      rewrite transpose_shape_length, Lo. intros b Hb.
      destruct (nth_error order b) as [a|] eqn:Eo; [|apply nth_error_None in Eo; lia].
      rewrite (@transpose_shape_nth R _ _ _ _ Eo). destruct (nth_error Ls b) as [k|] eqn:Ek; [|apply nth_error_None in Ek; lia].
      unfold mask. rewrite (@nth_error_nth nat (map (fun k => if mem_str k L then sz k else 1) (firstn m Ls)) b (if mem_str k L then sz k else 1) 0) by (rewrite nth_error_map, (Nf b k); auto).
      destruct (mem_str k L) eqn:M.
      * apply mem_str_iff in M. pose proof (Ok1 k M) as O'. rewrite (nth_pos k Ls b NL Ek) in O'.
        rewrite Eo in O'. injection O' as ->. apply nth_error_nth. rewrite Se, nth_error_app1; [|rewrite Lt; apply pos_lt; auto].
        rewrite Sh, nth_error_map, pos_nth; auto.
      * apply mem_str_false in M. destruct (Other b k a Ek M Eo) as [B1 B2]. apply nth_error_nth.
        rewrite Se, nth_error_app2 by lia. rewrite nth_error_repeat; auto. lia.
    + (* elements *)
      intros a Ha.
      assert (Rng : in_range (shape (transpose order te)) (midx L a (firstn m Ls))).
      { apply in_range_of_nth.
        - rewrite transpose_shape_length. unfold midx. rewrite map_length. lia.
        - rewrite transpose_shape_length, Lo. intros b Hb.
          destruct (nth_error order b) as [x|] eqn:Eo; [|apply nth_error_None in Eo; lia].
          rewrite (@transpose_shape_nth R _ _ _ _ Eo). destruct (nth_error Ls b) as [k|] eqn:Ek; [|apply nth_error_None in Ek; lia].
          unfold midx. rewrite (@nth_error_nth nat (map (fun k => if mem_str k L then a k else 0) (firstn m Ls)) b (if mem_str k L then a k else 0) 0) by (rewrite nth_error_map, (Nf b k); auto).
          destruct (mem_str k L) eqn:M.
          + apply mem_str_iff in M. pose proof (Ok1 k M) as O'. rewrite (nth_pos k Ls b NL Ek) in O'.
            rewrite Eo in O'. injection O' as ->.
            rewrite (nth_error_nth _ _ 0 (x := sz k)); [apply Ha, IL, M|].
            rewrite Se, nth_error_app1; [|rewrite Lt; apply pos_lt; auto]. rewrite Sh, nth_error_map, pos_nth; auto.
          + apply mem_str_false in M. destruct (Other b k x Ek M Eo) as [B1 B2].
            rewrite (nth_error_nth _ _ 0 (x := 1)); [lia|]. rewrite Se, nth_error_app2 by lia. rewrite nth_error_repeat; auto. lia. }
      destruct (@transpose_spec R order te (midx L a (firstn m Ls))) as (idx' & R' & G' & Q'); auto.
      { rewrite Le. exact Po. }
      rewrite G', Ge by (apply in_range_length in R'; lia).
      apply in_range_length in R'. apply (f_equal (get t)). apply nth_ext_nat.
      * rewrite firstn_length, map_length. lia.
      * intros j Hj. rewrite firstn_length in Hj.
        destruct (nth_error L j) as [k|] eqn:Ek; [|apply nth_error_None in Ek; lia].
        assert (Hk : In k L) by (eapply nth_error_In; eauto).
        rewrite (nth_error_nth (map a L) j 0 (x := a k)) by (rewrite nth_error_map, Ek; reflexivity).
        pose proof (Ok1 k Hk) as O'. rewrite (nth_pos k L j (vp_axes _ _ V) Ek) in O'.
        rewrite nth_firstn_lt by lia. rewrite (Q' _ _ O').
        apply nth_error_nth. unfold midx. rewrite nth_error_map, (Nf (pos k Ls) k); auto; [|apply pos_nth, IL; auto].
        cbn [option_map]. rewrite (proj2 (mem_str_iff k L) Hk). reflexivity.
  - (* no move *)
    assert (EL : filter (fun k => mem_str k L) Ls = L).
    { apply andb_false_iff in C. destruct C as [C|C].
      - apply Nat.ltb_ge in C. destruct L as [|k [|]] eqn:EL; cbn in C; try lia; [congruence|].
        assert (Hk : In k Ls) by (apply IL; cbn; auto). apply filter_one; auto.
      - apply negb_false_iff in C. apply list_eqb_Z in C.
        assert (P : forall k, In k L -> pos k L = pos k Ls).
        { intros k Hk. apply D_iff in Hk. clear - C Hk. induction D as [|x l IH]; [destruct Hk|].
          cbn in C. injection C as C1 C2. destruct Hk as [<-|Hk]; [lia|auto]. }
        assert (Fl : firstn (length L) Ls = L).
        { apply nth_error_ext. intros j. destruct (lt_dec j (length L)) as [Hj|Hj].
          - destruct (nth_error L j) as [k|] eqn:Ek; [|apply nth_error_None in Ek; lia].
            assert (Hk : In k L) by (eapply nth_error_In; eauto).
            pose proof (nth_pos k L j (vp_axes _ _ V) Ek) as E. rewrite P in E by auto.
            pose proof (pos_nth _ _ (IL _ Hk)) as Hp. rewrite E in Hp.
            rewrite <- (firstn_skipn (length L) Ls) in Hp. rewrite nth_error_app1 in Hp; auto.
            rewrite firstn_length. assert (Hl : j < length Ls) by (apply nth_error_Some; rewrite firstn_skipn in Hp; congruence). lia.
          - rewrite (proj2 (nth_error_None L j)) by lia. apply nth_error_None. rewrite firstn_length. lia. }
        rewrite <- (firstn_skipn (length L) Ls), filter_app, Fl, filter_self.
        assert (E : filter (fun k => mem_str k L) (skipn (length L) Ls) = []).
        { destruct (filter (fun k => mem_str k L) (skipn (length L) Ls)) as [|k r] eqn:E; auto. exfalso.
          assert (Hk : In k (filter (fun k => mem_str k L) (skipn (length L) Ls))) by (rewrite E; cbn; auto).
          apply filter_In in Hk. destruct Hk as [Hs Hm]. apply mem_str_iff in Hm.
          pose proof NL as NL'. rewrite <- (firstn_skipn (length L) Ls) in NL'. apply nodup_app_iff in NL'. destruct NL' as (_ & _ & Dj).
          rewrite Fl in Dj. apply (Dj k); auto. }
        rewrite E, app_nil_r. reflexivity. }
    apply (Fin t L).
    + rewrite EL. apply filter_self.
    + exact IL.
    + rewrite Sh. symmetry. apply mask_all, incl_refl.
    + intros a Ha. rewrite midx_self. reflexivity.
Qed.
End Align.
