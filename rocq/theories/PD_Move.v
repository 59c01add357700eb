(** Arrays over named axes: moving the axes, sums that keep their axes, totals
    and division by such sums. *)
From Coq Require Import String ZArith Reals Lra Bool Arith Lia Permutation List.
From Verif Require Import Base Num Tensor TensorBcast OdLemmas TensorLemmas RNumLemmas PScales PScales_Spec
  PScales_Proofs PScales_Prod Names Names_Spec Distr PDModel PDUtils PD_Spec PD_Make PD_Sums PD_Valid PD_Marg PD_Align.
Import ListNotations.

Section Move.
Variable sz : string -> nat.
Variables L L' D : list string.
Hypothesis NL : NoDup L.
Hypothesis NL' : NoDup L'.
Hypothesis ND : NoDup D.
Hypothesis LL : forall k, In k L' <-> In k L.
Hypothesis DL : forall k, In k D <-> In k L.

Lemma move_lengths : length D = length L /\ length L' = length L.
Proof.
  split; apply Permutation_length, NoDup_Permutation; auto.
Qed.

Lemma move_all (t : tensor R) : shape t = map sz L ->
  exists u, moveaxis t (map (fun k => Z.of_nat (pos k L)) D) (map (fun k => Z.of_nat (pos k L')) D) = Ok u /\
    shape u = map sz L' /\
    forall a, (forall k, In k L -> a k < sz k) -> get u (map a L') = get t (map a L).
Proof.
  intros Sh. destruct move_lengths as [LD LL'].
  assert (Nt : ndim t = length L) by (unfold ndim; rewrite Sh; apply map_length).
  unfold moveaxis. rewrite Nt. rewrite norm_axes_pos by (auto; intros k Hk; apply DL; auto). cbn [bind].
  rewrite <- LL'. rewrite norm_axes_pos by (auto; intros k Hk; apply LL, DL; auto). cbn [bind].
  rewrite !map_length, Nat.eqb_refl.
  set (od := map (fun k => pos k L) D). set (mv := map (fun k => pos k L') D).
  eexists. split; [reflexivity|].
  rewrite LL'. set (m := length L).
  destruct (@moveaxis_order_spec m od mv) as [Po Io].
  { unfold od. apply nodup_map_in; auto. intros x y Hx Hy E. apply DL in Hx, Hy. apply (pos_inj x y L); auto. }
  { unfold mv. apply nodup_map_in; auto. intros x y Hx Hy E. apply DL, LL in Hx. apply DL, LL in Hy. apply (pos_inj x y L'); auto. }
  { unfold od, mv. rewrite !map_length. auto. }
  { intros x Hx. apply in_map_iff in Hx. destruct Hx as (k & <- & Hk). apply DL in Hk. apply pos_lt; auto. }
  { intros x Hx. apply in_map_iff in Hx. destruct Hx as (k & <- & Hk). apply DL, LL, pos_lt in Hk. unfold m. lia. }
  set (order := moveaxis_order m od mv) in *.
  assert (Lo : length order = m) by (rewrite (Permutation_length Po); apply seq_length).
  assert (Ok1 : forall k, In k L -> nth_error order (pos k L') = Some (pos k L)).
  { intros k Hk. apply DL in Hk. destruct (In_nth_error _ _ Hk) as [i Hi].
    apply (Io i); unfold od, mv; rewrite nth_error_map, Hi; reflexivity. }
  assert (Shu : shape (transpose order t) = map sz L').
  { apply nth_ext_nat; [rewrite transpose_shape_length, map_length; unfold m in *; lia|].
    rewrite transpose_shape_length, Lo. intros b Hb.
    destruct (nth_error L' b) as [k|] eqn:Ek; [|apply nth_error_None in Ek; unfold m in *; lia].
    assert (Hk : In k L) by (apply LL; eapply nth_error_In; eauto).
    pose proof (Ok1 k Hk) as O'. rewrite (nth_pos k L' b NL' Ek) in O'.
    rewrite (@transpose_shape_nth R _ _ _ _ O'). rewrite Sh.
    rewrite (nth_error_nth (map sz L) (pos k L) 0 (x := sz k)) by (rewrite nth_error_map, pos_nth; auto).
    symmetry. apply nth_error_nth. rewrite nth_error_map, Ek. reflexivity. }
  split; [exact Shu|].
  intros a Ha.
  destruct (@transpose_spec R order t (map a L')) as (idx' & R' & G' & Q').
  { rewrite Sh, map_length. exact Po. }
  { rewrite Shu. clear - Ha LL. assert (H : forall k, In k L' -> a k < sz k) by (intros; apply Ha, LL; auto).
    clear - H. induction L' as [|k l IH]; cbn; constructor; [apply H; cbn; auto|apply IH; intros; apply H; cbn; auto]. }
  rewrite G'. apply (f_equal (get t)). apply in_range_length in R'. rewrite Sh, map_length in R'.
  apply nth_ext_nat; [rewrite map_length; auto|]. intros j Hj.
  destruct (nth_error L j) as [k|] eqn:Ek; [|apply nth_error_None in Ek; lia].
  assert (Hk : In k L) by (eapply nth_error_In; eauto).
  pose proof (Ok1 k Hk) as O'. rewrite (nth_pos k L j NL Ek) in O'. rewrite (Q' _ _ O').
  rewrite (nth_error_nth (map a L) j 0 (x := a k)) by (rewrite nth_error_map, Ek; reflexivity).
  apply nth_error_nth. rewrite nth_error_map, pos_nth; [reflexivity|]. apply LL; auto.
Qed.
End Move.

(** *** Sums keeping their axes *)
Section Keep.
Variable sz : string -> nat.
Variable L : list string.
Hypothesis NL : NoDup L.

Definition sizes (ks : list string) : list (string * nat) := map (fun k => (k, sz k)) ks.

Lemma combine_sizes l : combine l (map sz l) = sizes l.
Proof. induction l as [|k l IH]; cbn; [reflexivity|]. unfold sizes in *. cbn. f_equal. exact IH. Qed.

Lemma sum_keep_ok (t : tensor R) ks :
  shape t = map sz L -> NoDup ks -> incl ks L ->
  exists s, tsum_keep t (map (fun k => Z.of_nat (pos k L)) ks) = Ok s /\
    shape s = map (fun k => if mem_str k ks then 1 else sz k) L /\
    forall a, get s (map (fun k => if mem_str k ks then 0 else a k) L) =
              sum_over (sizes (restrict ks L)) (fun b => get t (map b L)) a.
Proof.
  intros S N I. unfold tsum_keep, reduce_keep. unfold ndim. rewrite S, map_length.
  rewrite norm_axes_pos by auto. cbn [bind]. rewrite mask_of_pos; auto.
  eexists. split; [reflexivity|]. cbn [shape get]. split.
  - clear. induction L as [|k l IH]; cbn; [reflexivity|]. f_equal. exact IH.
  - intros a. change n_add with Rplus. change (n0 : R) with 0%R.
    rewrite unmasked_map.
    assert (E : map (fun k => if mem_str k ks then 0 else a k) (filter (fun x => negb (mem_str x ks)) L) =
                map a (unmasked (map (fun k => mem_str k ks) L) L)).
    { rewrite <- (map_id L) at 3. rewrite unmasked_map, map_id. apply map_ext_in. intros k Hk.
      apply filter_In in Hk. destruct Hk as [_ Hk]. apply negb_true_iff in Hk. rewrite Hk. reflexivity. }
    rewrite E, reduce_at_sum; auto; [|rewrite map_length; auto|rewrite map_length; auto].
    rewrite combine_sizes. unfold sizes at 1. rewrite masked_map. reflexivity.
Qed.

Lemma sum_all_ok (t : tensor R) : shape t = map sz L ->
  tsum_all t = sum_over (sizes L) (fun b => get t (map b L)) (fun _ => 0).
Proof.
  intros S. unfold tsum_all, reduce_all, ndim. rewrite S, map_length.
  change n_add with Rplus. change (n0 : R) with 0%R.
  assert (E : repeat true (length L) = map (fun _ => true) L) by (clear; induction L; cbn; congruence).
  rewrite E.
  assert (U : unmasked (map (fun _ => true) L) L = []).
  { clear. induction L; cbn; auto. }
  pose proof (reduce_at_sum L (map sz L) (map (fun _ => true) L) (get t) (fun _ => 0) NL) as H.
  rewrite U in H. cbn [map] in H. rewrite H; [|apply map_length|apply map_length].
  f_equal. rewrite combine_sizes. unfold sizes. rewrite masked_map. f_equal.
  clear. induction L; cbn; congruence.
Qed.

Lemma in_range_sz a : (forall k, In k L -> a k < sz k) -> in_range (map sz L) (map a L).
Proof.
  clear NL. intros H. unfold in_range. induction L as [|k l IH]; cbn; constructor; [apply H; cbn; auto|].
  apply IH. intros x Hx. apply H. cbn. auto.
Qed.

(** Division by a sum that kept its axes. *)
Lemma div_keep (t s : tensor R) ks :
  shape t = map sz L ->
  shape s = map (fun k => if mem_str k ks then 1 else sz k) L ->
  exists r, div_prob t s None PSNone = Ok r /\ shape r = map sz L /\
    forall a, (forall k, In k L -> a k < sz k) ->
      get r (map a L) = (get t (map a L) / Rmax npz (get s (map (fun k => if mem_str k ks then 0%nat else a k) L)))%R.
Proof.
  intros St Ss.
  assert (B : bcast_shape (shape t) (shape s) = Ok (map sz L)).
  { rewrite St, Ss. unfold bcast_shape. rewrite !map_length, Nat.max_id. unfold pad_shape.
    rewrite !map_length, Nat.sub_diag. cbn [repeat app]. clear.
    induction L as [|k l IH]; [reflexivity|]. cbn [map merge_shape].
    rewrite IH. cbn [bind]. destruct (mem_str k ks).
    - destruct (Nat.eqb_spec (sz k) 1) as [->|]; cbn; auto.
    - rewrite Nat.eqb_refl. reflexivity. }
  destruct (div_prob_linear_total t s _ B) as (r & E & Sr & G). exists r. split; [exact E|]. split; [exact Sr|].
  intros a Ha. destruct (G (map a L)) as [G1 _]; [apply in_range_sz; auto|]. rewrite G1.
  f_equal; [f_equal; apply bcast_idx_id; rewrite St; apply in_range_sz; auto|].
  f_equal. f_equal. f_equal. rewrite Ss. unfold bcast_idx. rewrite !map_length, Nat.sub_diag. cbn [skipn].
  clear - Ha. induction L as [|k l IH]; cbn; auto.
  rewrite IH by (intros; apply Ha; cbn; auto). f_equal.
  destruct (mem_str k ks); cbn; auto. destruct (Nat.eqb_spec (sz k) 1); auto. specialize (Ha k (or_introl eq_refl)). lia.
Qed.

(** Division by a number. *)
Lemma div_scalar (t : tensor R) c : shape t = map sz L ->
  exists r, div_prob t (tscalar c) None PSNone = Ok r /\ shape r = map sz L /\
    forall a, (forall k, In k L -> a k < sz k) -> get r (map a L) = (get t (map a L) / Rmax npz c)%R.
Proof.
  intros St.
  assert (B : bcast_shape (shape t) (shape (tscalar c)) = Ok (map sz L)).
  { rewrite St. apply bcast_nil_r. }
  destruct (div_prob_linear_total t (tscalar c) _ B) as (r & E & Sr & G). exists r. split; [exact E|]. split; [exact Sr|].
  intros a Ha. destruct (G (map a L)) as [G1 _]; [apply in_range_sz; auto|]. rewrite G1.
  f_equal. f_equal. apply bcast_idx_id. rewrite St. apply in_range_sz; auto.
Qed.
End Keep.
