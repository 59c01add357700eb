(** Proofs about slicing a frequency table by values, and uniform grids. *)
From Coq Require Import String ZArith Reals Lra Lia Bool Arith List.
From Verif Require Import Base Num Tensor RNumLemmas OdLemmas TensorLemmas TensorBcast Likelihoods Lik_Spec Lik_Proofs.
Import ListNotations.

Lemma set_nth_len {A} n (x : A) l : length (set_nth n x l) = length l.
Proof. revert n. induction l as [|y l IH]; intros [|n]; cbn; auto. Qed.

Lemma prod_ones n : prod_list (repeat 1 n) = 1.
Proof. induction n as [|n IH]; cbn; auto. rewrite Nat.add_0_r. auto. Qed.

Lemma prod_axis m i : i < m -> prod_list (set_nth i 2 (repeat 1 m)) = 2.
Proof.
  revert i. induction m as [|m IH]; intros [|i] H; try lia; cbn [repeat set_nth].
  - change (2 * prod_list (repeat 1 m) = 2). rewrite prod_ones. lia.
  - change (1 * prod_list (set_nth i 2 (repeat 1 m)) = 2). rewrite IH by lia. lia.
Qed.

Lemma unravel_axis m i k : i < m -> k < 2 -> nth i (unravel (set_nth i 2 (repeat 1 m)) k) 0 = k.
Proof.
  revert i k. induction m as [|m IH]; intros [|i] k H K; try lia; cbn [repeat set_nth unravel nth].
  - rewrite prod_ones. apply Nat.div_1_r.
  - rewrite prod_axis by lia. rewrite Nat.mod_small by lia. apply IH; lia.
Qed.

Lemma both_list m i : i < m -> to_list (both m i) = [false; true].
Proof.
  intros H. unfold to_list, tsize. cbn [shape both]. rewrite prod_axis by auto.
  cbn [seq map get both]. rewrite !unravel_axis by auto. reflexivity.
Qed.

Section Loop.
Variable c m : nat.
Variable vals : odict (sval bool).
Variable vd sd : odict (option nat).
Variable spec : odict (sval bool).

Fixpoint looks (rest : list string) (req : list (option bool)) (j r : nat) : Prop :=
  match rest, req with
  | k :: rest', o :: req' =>
      od_get vd k = Some (Some j) /\ od_get vals k = Some (SArray (both c j)) /\
      match o with
      | Some b => od_get sd k = Some None /\ od_get spec k = Some (SScalar b) /\ looks rest' req' (S j) r
      | None => od_get sd k = Some (Some r) /\ od_get spec k = Some (SArray (both m r)) /\
                looks rest' req' (S j) (S r)
      end
  | [], [] => True
  | _, _ => False
  end.

Definition sel_of (o : option bool) : sel :=
  match o with None => SelAll | Some b => SelOne (b2n b) end.

Lemma set_nth_app {A} (l : list A) x y r : set_nth (length l) x (l ++ y :: r) = l ++ x :: r.
Proof. induction l as [|z l IH]; cbn; auto. f_equal. auto. Qed.

Lemma slice_loop : forall rest req j r pre,
  looks rest req j r -> length pre = j -> j + length rest = c -> r + asked req = m ->
  fold_res (slice_step Bool.eqb vals vd sd spec) rest
    (Some (pre ++ repeat SelAll (length rest), repeat 2 r ++ repeat 1 (m - r)))
  = Ok (Some (pre ++ map sel_of req, repeat 2 m)).
Proof.
  induction rest as [|k rest IH]; intros [|o req] j r pre LK LP CJ RM; cbn in LK; try contradiction.
  - cbn. unfold asked in RM. cbn in RM. rewrite Nat.add_0_r in RM. subst r.
    rewrite Nat.sub_diag. cbn. rewrite !app_nil_r. reflexivity.
  - destruct LK as (V1 & V2 & LK). cbn [fold_res length repeat].
    assert (J : j < c) by (cbn in CJ; lia).
    unfold slice_step at 1. unfold od_getR. rewrite V1, V2.
    destruct o as [b|].
    + destruct LK as (S1 & S2 & LK). rewrite S1, S2. cbn [bind sval_list]. rewrite both_list by auto.
      assert (MP : match_pos Bool.eqb b [false; true] 0 = [b2n b]) by (destruct b; reflexivity).
      rewrite MP. unfold set_nthR. rewrite (proj2 (Nat.ltb_lt j _)).
      2:{ rewrite app_length. cbn. lia. }
      cbn [bind]. rewrite <- LP at 1. rewrite set_nth_app.
      specialize (IH req (S j) r (pre ++ [SelOne (b2n b)])). rewrite <- !app_assoc in IH. cbn [app] in IH.
      apply IH; auto.
      * rewrite app_length. cbn. lia.
      * cbn in CJ. lia.
    + destruct LK as (S1 & S2 & LK). unfold asked in RM. cbn in RM. fold (asked req) in RM.
      rewrite S1, S2. cbn [bind sval_list]. rewrite !both_list by lia.
      change (all_equal Bool.eqb [false; true] [false; true]) with true. cbn iota.
      unfold set_nthR. rewrite (proj2 (Nat.ltb_lt r _)).
      2:{ rewrite app_length, !repeat_length. lia. }
      cbn [bind]. unfold tsize. cbn [shape both]. rewrite prod_axis by auto.
      replace (m - r) with (S (m - S r)) by lia. cbn [repeat].
      rewrite <- (repeat_length 2 r) at 1. rewrite set_nth_app.
      replace (repeat 2 r ++ 2 :: repeat 1 (m - S r)) with (repeat 2 (S r) ++ repeat 1 (m - S r)).
      2:{ cbn [repeat]. rewrite repeat_cons, <- app_assoc. reflexivity. }
      specialize (IH req (S j) (S r) (pre ++ [SelAll])). rewrite <- !app_assoc in IH. cbn [app] in IH.
      apply IH; auto.
      * rewrite app_length. cbn. lia.
      * cbn in CJ. lia.
      * unfold asked in *. lia.
Qed.

Lemma looks_intro labels : forall req j r,
  length req = length labels ->
  NoDup (od_keys vd) -> NoDup (od_keys vals) -> NoDup (od_keys sd) -> NoDup (od_keys spec) ->
  incl (label_dims labels j) vd ->
  incl (map (fun li : string * nat => (fst li, SArray (both c (snd li)))) (combine labels (seq j (length labels)))) vals ->
  incl (req_dims labels req r) sd -> incl (req_spec labels req m r) spec ->
  looks labels req j r.
Proof.
  induction labels as [|l ls IH]; intros [|o req] j r L N1 N2 N3 N4 I1 I2 I3 I4; try discriminate; cbn; auto.
  cbn in L, I1, I2. apply incl_cons_inv in I1, I2. destruct I1 as [A1 I1], I2 as [A2 I2].
  split; [apply od_in_get; auto|]. split; [apply od_in_get; auto|].
  destruct o as [b|]; cbn in I3, I4; apply incl_cons_inv in I3, I4; destruct I3 as [A3 I3], I4 as [A4 I4];
    (split; [apply od_in_get; auto|]; split; [apply od_in_get; auto|]); apply IH; auto.
Qed.

End Loop.

Lemma label_dims_keys labels j : od_keys (label_dims labels j) = labels.
Proof. revert j. induction labels as [|l ls IH]; intros j; cbn; auto. f_equal. apply IH. Qed.

Lemma label_vals_keys labels cols : od_keys (label_vals labels cols) = labels.
Proof.
  unfold label_vals, od_keys. rewrite map_map. cbn. generalize 0.
  induction labels as [|l ls IH]; intros j; cbn; auto. f_equal. apply IH.
Qed.

Lemma req_spec_keys labels : forall req m r, length req = length labels -> od_keys (req_spec labels req m r) = labels.
Proof.
  induction labels as [|l ls IH]; intros [|[b|] req] m r L; try discriminate; cbn; auto; f_equal; apply IH; auto.
Qed.

Lemma req_dims_keys labels : forall req r, length req = length labels -> od_keys (req_dims labels req r) = labels.
Proof.
  induction labels as [|l ls IH]; intros [|[b|] req] r L; try discriminate; cbn; auto; f_equal; apply IH; auto.
Qed.

Lemma od_of_list_nodup {A} (d : odict A) : NoDup (od_keys d) -> od_of_list d = d.
Proof. intros H. unfold od_of_list. rewrite od_update_new; auto. Qed.

Lemma seteq_refl l : seteq_str l l = true.
Proof. apply seteq_str_iff. split; apply incl_refl. Qed.

Lemma vals_ndim_labels labels : labels <> [] -> vals_ndim (label_dims labels 0) = length labels - 1.
Proof.
  intros NE. unfold vals_ndim.
  assert (G : forall ls j n, ls <> [] -> n <= j ->
    fold_left (fun n (kd : string * option nat) => match snd kd with Some d => Nat.max n d | None => n end)
      (label_dims ls j) n = j + length ls - 1).
  { clear. induction ls as [|l ls IH]; intros j n NE LE; [congruence|]. cbn [label_dims fold_left snd length].
    destruct ls as [|l' ls'].
    - cbn. lia.
    - rewrite IH; [cbn [length]; lia|discriminate|lia]. }
  rewrite G; auto.
Qed.

Lemma spec_ndim_req spec m : forall labels req r n,
  length req = length labels -> NoDup (od_keys spec) -> incl (req_spec labels req m r) spec ->
  (n = 0 /\ r = 0 \/ n = m) -> r + asked req = m ->
  fold_res (fun n (kd : string * option nat) =>
    let n1 := match snd kd with Some d => Nat.max n d | None => n end in
    let! s := od_getR spec (fst kd) in
    match s, snd kd with
    | SScalar _, _ => Ok n1
    | SArray t, Some d => Ok (Nat.max (ndim t) d)
    | SArray _, None => Err TypeError
    end) (req_dims labels req r) n = Ok m.
Proof.
  induction labels as [|l ls IH]; intros [|o req] r n L ND I HN RM; try discriminate.
  - cbn. f_equal. unfold asked in RM. cbn in RM. lia.
  - cbn in L. destruct o as [b|]; cbn in I; apply incl_cons_inv in I; destruct I as [A I];
      cbn [req_dims fold_res fst snd]; unfold od_getR; rewrite (od_in_get _ _ _ ND A); cbn [bind].
    + apply IH; auto.
    + unfold asked in RM. cbn in RM. fold (asked req) in RM.
      unfold ndim. cbn [shape both]. rewrite set_nth_len, repeat_length.
      replace (Nat.max m r) with m by lia. apply IH; auto. lia.
Qed.

Lemma increasing_labels labels : forall j, increasing (some_dims (label_dims labels j)) = true.
Proof.
  induction labels as [|l ls IH]; intros j; cbn; auto. destruct ls as [|l' ls']; cbn; auto.
  apply andb_true_iff. split; [apply Nat.leb_refl|]. apply (IH (S j)).
Qed.

Lemma increasing_req labels : forall req r,
  increasing (some_dims (req_dims labels req r)) = true /\
  (forall x l, some_dims (req_dims labels req r) = x :: l -> r <= x).
Proof.
  induction labels as [|k ls IH]; intros [|o req] r; cbn; try (split; [auto|discriminate]).
  destruct o as [b|]; cbn; [apply IH|].
  destruct (IH req (S r)) as [A B]. split.
  - change (flat_map _ (req_dims ls req (S r))) with (some_dims (req_dims ls req (S r))).
    destruct (some_dims (req_dims ls req (S r))) as [|x l] eqn:E; auto.
    apply andb_true_iff. split; auto. apply Nat.ltb_lt. specialize (B x l eq_refl). lia.
  - intros x l E. inversion E; subst. auto.
Qed.

(** The request as a position. *)
Fixpoint fillpos (req : list (option bool)) (idx : list nat) : list nat :=
  match req with
  | [] => []
  | Some b :: req' => 0 :: fillpos req' idx
  | None :: req' => hd 0 idx :: fillpos req' (tl idx)
  end.

Lemma sel_fill req : forall idx, in_range (repeat 2 (asked req)) idx ->
  let sh := sel_shape (repeat 2 (length req)) (map sel_of req) in
  in_range sh (fillpos req idx) /\ sqs (repeat 2 (asked req)) = sqs sh /\
  sqz (repeat 2 (asked req)) idx = sqz sh (fillpos req idx) /\
  sel_idx (map sel_of req) (fillpos req idx) = position (fill req idx).
Proof.
  induction req as [|o req IH]; intros idx H.
  - cbn in *. inversion H; subst. repeat split. constructor.
  - destruct o as [b|].
    + change (asked (Some b :: req)) with (asked req) in *.
      destruct (IH idx H) as (A & B & C & D). cbn. split; [constructor; auto|].
      split; auto. split; auto. rewrite D. destruct b; reflexivity.
    + change (asked (None :: req)) with (S (asked req)) in *. cbn [repeat] in *.
      inversion H as [|i n idx' sh' Hi H']; subst.
      destruct (IH idx' H') as (A & B & C & D). cbn. split; [constructor; auto|].
      split; [f_equal; auto|]. split; [f_equal; auto|].
      rewrite D. f_equal. destruct i as [|[|i]]; auto. lia.
Qed.

Lemma sel_ok req : sel_in_range (repeat 2 (length req)) (map sel_of req) = true.
Proof.
  induction req as [|[b|] req IH]; cbn; auto. rewrite IH. destruct b; reflexivity.
Qed.

Lemma sel_prod req : prod_list (sel_shape (repeat 2 (length req)) (map sel_of req)) = prod_list (repeat 2 (asked req)).
Proof.
  induction req as [|[b|] req IH]; [reflexivity| |].
  - change (1 * prod_list (sel_shape (repeat 2 (length req)) (map sel_of req)) = prod_list (repeat 2 (asked req))).
    rewrite IH. lia.
  - change (2 * prod_list (sel_shape (repeat 2 (length req)) (map sel_of req)) = 2 * prod_list (repeat 2 (asked req))).
    rewrite IH. reflexivity.
Qed.

Local Open Scope R_scope.

(** The likelihood function reads the table where the request says. *)
Lemma likelihood_reads labels rows base req :
  labels <> [] -> NoDup labels -> length req = length labels ->
  exists t, bool_perm_fun (T := R) labels rows base (req_spec labels req (asked req) 0) (req_dims labels req 0) = Ok t /\
    shape t = repeat 2%nat (asked req) /\
    forall idx, in_range (shape t) idx ->
      get t idx = INR (occurrences rows (fill req idx)) / INR (length rows).
Proof.
  intros NE ND L. unfold bool_perm_fun, slice_by_keyvals.
  rewrite !od_of_list_nodup by (rewrite ?label_dims_keys, ?label_vals_keys; auto).
  rewrite label_dims_keys, label_vals_keys, req_spec_keys, req_dims_keys, seteq_refl by auto. cbn [assert_ bind].
  set (m := asked req). set (spec := req_spec labels req m 0).
  assert (KS : od_keys spec = labels) by (apply req_spec_keys; auto).
  assert (SN : spec_ndim spec (req_dims labels req 0) = Ok m).
  { apply spec_ndim_req; auto; [rewrite KS; auto|apply incl_refl]. }
  rewrite SN. cbn [bind]. rewrite increasing_labels, (proj1 (increasing_req labels req 0)). cbn [assert_ bind].
  rewrite (vals_ndim_labels labels NE).
  assert (LL : (S (length labels - 1) = length labels)%nat) by (destruct labels; [congruence|cbn; lia]).
  rewrite LL. set (vals := label_vals labels (length labels)).
  assert (LK : looks (length labels) m vals (label_dims labels 0) (req_dims labels req 0) spec labels req 0 0).
  { apply looks_intro; auto; rewrite ?label_dims_keys, ?KS, ?req_dims_keys; auto; try apply incl_refl.
    unfold vals. rewrite label_vals_keys. auto. }
  pose proof (slice_loop _ _ _ _ _ _ labels req 0 0 [] LK eq_refl eq_refl eq_refl) as SL.
  cbn [app repeat] in SL. rewrite Nat.sub_0_r in SL. rewrite SL. cbn [bind].
  unfold select. cbn [shape rel_freq perm_counts tmap].
  rewrite <- L. rewrite sel_ok. cbn [bind].
  set (u := mkT _ _).
  destruct (reshape_ok (repeat 2%nat m) u) as (t & Et & St & _).
  { unfold tsize, u. cbn [shape]. symmetry. apply sel_prod. }
  exists t. split; auto. split; auto. intros idx Hi. rewrite St in Hi.
  destruct (sel_fill req idx Hi) as (A & B & C & D).
  rewrite (reshape_get _ Et Hi (idx' := fillpos req idx)); auto.
  unfold u. cbn [get]. rewrite D.
  apply freq_value.
Qed.

(** ** Uniform grids *)

(** The i-th of the points that cut [a,b] in m equal parts. *)
Definition cut (a b : R) (m i : nat) : R := a + (b - a) / INR m * INR i.

Lemma linspace_cut a b n : (2 <= n)%nat -> linspace (T := R) a b n = map (cut a b (n - 1)) (seq 0 n).
Proof.
  intros H. destruct n as [|[|m]]; try lia. unfold linspace. apply map_ext. intros i.
  unfold cut. rewrite !INR_IZR_INZ. replace (S (S m) - 1)%nat with (S m) by lia. reflexivity.
Qed.

Lemma tl_map_seq {A} (f : nat -> A) s n : tl (map f (seq s n)) = map f (seq (S s) (n - 1)).
Proof. destruct n; cbn; auto. rewrite Nat.sub_0_r. reflexivity. Qed.

Lemma removelast_map_seq {A} (f : nat -> A) s n : removelast (map f (seq s n)) = map f (seq s (n - 1)).
Proof.
  destruct n as [|n]; auto. rewrite seq_S, map_app. cbn [map]. rewrite removelast_last.
  rewrite Nat.sub_succ, Nat.sub_0_r. reflexivity.
Qed.

Definition b1 (b : bool) : nat := if b then 1%nat else 0%nat.

Lemma uniform_grid a b p ex0 ex1 us :
  (Pos.to_nat p + b1 ex0 + b1 ex1 >= 2)%nat ->
  uniform (T := R) a b (Some (Zpos p)) ex0 ex1 us =
  UArray (map (fun i => cut a b (Pos.to_nat p + b1 ex0 + b1 ex1 - 1) (i + b1 ex0)) (seq 0 (Pos.to_nat p))).
Proof.
  intros H. pose proof (Pos2Nat.is_pos p) as P. unfold uniform. set (n := Pos.to_nat p) in *. f_equal.
  assert (SH : forall (f : nat -> R), map f (seq 1 n) = map (fun i => f (i + 1)%nat) (seq 0 n)).
  { intros f. rewrite <- seq_shift, map_map. apply map_ext. intros i. f_equal. lia. }
  destruct ex0, ex1; cbn [b1] in *.
  - rewrite linspace_cut, tl_map_seq, removelast_map_seq by lia.
    replace (n + 2 - 1 - 1)%nat with n by lia. rewrite SH.
    apply map_ext. intros i. f_equal; lia.
  - rewrite linspace_cut, tl_map_seq by lia. replace (n + 1 - 1)%nat with n by lia. rewrite SH.
    apply map_ext. intros i. f_equal; lia.
  - rewrite linspace_cut, removelast_map_seq by lia. replace (n + 1 - 1)%nat with n by lia.
    apply map_ext. intros i. f_equal; lia.
  - replace (n =? 1)%nat with false by (symmetry; apply Nat.eqb_neq; lia).
    rewrite linspace_cut by lia. apply map_ext. intros i. f_equal; lia.
Qed.

Lemma uniform_one a b us :
  uniform (T := R) a b (Some 1%Z) false false us = UArray [(a + b) / 2].
Proof.
  unfold uniform. change (Pos.to_nat 1 =? 1)%nat with true. cbn iota.
  rewrite linspace_cut by lia. cbn. unfold cut. cbn. f_equal. f_equal. lra.
Qed.

Lemma uniform_points a b n ex0 ex1 us : a < b -> (0 < n)%Z ->
  (n = 1%Z -> ex0 = true \/ ex1 = true) ->
  exists l h, uniform (T := R) a b (Some n) ex0 ex1 us = UArray l /\ 0 < h /\ Z.of_nat (length l) = n /\
    (forall i, (i < length l)%nat -> nth i l 0 = (if ex0 then a + h else a) + INR i * h) /\
    last l 0 = if ex1 then b - h else b.
Proof.
  intros L P X. destruct n as [|p|p]; try lia.
  pose proof (Pos2Nat.is_pos p) as PP.
  assert (G : (Pos.to_nat p + b1 ex0 + b1 ex1 >= 2)%nat).
  { destruct (Pos.eq_dec p 1) as [-> | NE].
    - destruct (X eq_refl) as [-> | ->]; cbn; lia.
    - lia. }
  rewrite uniform_grid by auto. set (m := (Pos.to_nat p + b1 ex0 + b1 ex1 - 1)%nat).
  assert (M : 0 < INR m) by (apply lt_0_INR; lia).
  eexists. exists ((b - a) / INR m). split; [reflexivity|].
  split; [apply Rdiv_lt_0_compat; lra|]. rewrite map_length, seq_length. split; [lia|].
  assert (N : forall i, (i < Pos.to_nat p)%nat ->
    nth i (map (fun i => cut a b m (i + b1 ex0)) (seq 0 (Pos.to_nat p))) 0 = cut a b m (i + b1 ex0)).
  { intros i Hi. rewrite (nth_indep _ 0 (cut a b m (0 + b1 ex0))) by (rewrite map_length, seq_length; auto).
    rewrite (map_nth (fun i => cut a b m (i + b1 ex0))). rewrite seq_nth by auto. reflexivity. }
  split.
  - intros i Hi. rewrite N by auto. unfold cut. rewrite plus_INR. destruct ex0; cbn; lra.
  - replace (Pos.to_nat p) with (S (Pos.to_nat p - 1)) by lia.
    rewrite seq_S, map_app. cbn [map]. rewrite last_last. unfold cut.
    assert (E : (0 + (Pos.to_nat p - 1) + b1 ex0 = m - b1 ex1)%nat) by (unfold m; lia).
    rewrite E, minus_INR by (unfold m; destruct ex1; cbn in *; lia).
    destruct ex1; cbn; field; lra.
Qed.

Lemma cut_between a b m i : a < b -> (0 < m)%nat ->
  cut a b m 0 = a /\ cut a b m m = b /\ (cut a b m (S i) - cut a b m i = (b - a) / INR m).
Proof.
  intros L M. unfold cut. assert (INR m <> 0) by (apply not_0_INR; lia).
  split; [cbn; lra|]. split; [field; auto|]. rewrite S_INR. field. auto.
Qed.

Lemma uniform_random a b n ex0 ex1 us :
  a < b -> (forall i, 0 <= us i < 1) -> (match n with Some z => z <= 0 | None => True end)%Z ->
  match uniform (T := R) a b n ex0 ex1 us with
  | UScalar x => (n = None \/ n = Some 0%Z) /\ a <= x < b
  | UArray l => (exists z, n = Some z /\ z < 0 /\ Z.of_nat (length l) = - z)%Z /\ Forall (fun x => a <= x < b) l
  end.
Proof.
  intros L U N.
  assert (D : forall i, a <= draw a b (us i) < b).
  { intros i. specialize (U i). unfold draw. cbn. split.
    - assert (0 <= (b - a) * us i) by (apply Rmult_le_pos; lra). lra.
    - assert ((b - a) * us i < (b - a) * 1) by (apply Rmult_lt_compat_l; lra). lra. }
  destruct n as [[|p|p]|]; cbn [uniform]; auto; try lia.
  split.
  - exists (Zneg p). repeat split; try lia. rewrite map_length, seq_length. lia.
  - apply Forall_forall. intros x H. apply in_map_iff in H. destruct H as (i & <- & _). auto.
Qed.

(** ** Requests with axes in another order *)

Lemma step_both vals vd sd spec (k : string) c j m r sl resh :
  od_get vd k = Some (Some j) -> od_get vals k = Some (SArray (both c j)) -> (j < c)%nat ->
  od_get sd k = Some (Some r) -> od_get spec k = Some (SArray (both m r)) -> (r < m)%nat -> (r < length resh)%nat ->
  slice_step Bool.eqb vals vd sd spec (Some (sl, resh)) k = Ok (Some (sl, set_nth r 2%nat resh)).
Proof.
  intros V1 V2 J S1 S2 RM RL. unfold slice_step, od_getR. rewrite V1, V2, S1, S2. cbn [bind sval_list].
  rewrite !both_list by auto. change (all_equal Bool.eqb [false; true] [false; true]) with true. cbn iota.
  unfold set_nthR. rewrite (proj2 (Nat.ltb_lt r _) RL). cbn [bind]. unfold tsize. cbn [shape both].
  rewrite prod_axis by auto. reflexivity.
Qed.

Lemma likelihood_swapped a b rows base : a <> b ->
  let spec := [(a, SArray (both 2 1)); (b, SArray (both 2 0))] in
  let dims := [(b, Some 0%nat); (a, Some 1%nat)] in
  exists t, bool_perm_fun (T := R) [a; b] rows base spec dims = Ok t /\ shape t = [2; 2]%nat /\
    forall i j, (i < 2)%nat -> (j < 2)%nat -> get t [i; j] = get (rel_freq (T := R) 2 rows base) [i; j].
Proof.
  intros NE spec dims.
  assert (E1 : String.eqb a b = false) by (apply String.eqb_neq; auto).
  assert (E2 : String.eqb b a = false) by (apply String.eqb_neq; auto).
  assert (ND : NoDup [a; b]) by (constructor; [intros [H|[]]; auto|constructor; [intros []|constructor]]).
  unfold bool_perm_fun, slice_by_keyvals.
  rewrite !od_of_list_nodup by (rewrite ?label_dims_keys, ?label_vals_keys; auto).
  rewrite label_dims_keys, label_vals_keys.
  change (od_keys spec) with [a; b]. change (od_keys dims) with [b; a].
  assert (SQ : seteq_str [a; b] [b; a] = true).
  { apply seteq_str_iff. split; intros x Hx; cbn in *; tauto. }
  rewrite seteq_refl, SQ. cbn [assert_ bind].
  change (vals_ndim (label_dims [a; b] 0)) with 1%nat.
  assert (SN : spec_ndim spec dims = Ok 2%nat).
  { unfold spec_ndim, dims, spec, od_getR. cbn [fold_res fst snd od_get]. rewrite E1, E2, !String.eqb_refl. reflexivity. }
  rewrite SN. cbn [bind some_dims label_dims dims flat_map app snd increasing Nat.ltb Nat.leb andb assert_].
  change (od_keys spec) with [a; b]. cbn [fold_res repeat].
  rewrite (step_both _ _ _ _ a 2 0 2 1);
    [|cbn; rewrite ?E1, ?E2, ?String.eqb_refl; auto..].
  cbn [bind set_nth].
  rewrite (step_both _ _ _ _ b 2 1 2 0);
    [|cbn; rewrite ?E1, ?E2, ?String.eqb_refl; auto..].
  cbn [bind set_nth]. unfold select. cbn [shape rel_freq perm_counts tmap repeat length sel_in_range bind].
  set (u := mkT _ _).
  destruct (reshape_ok [2; 2]%nat u) as (t & Et & St & _); [reflexivity|].
  exists t. split; auto. split; auto. intros i j Hi Hj.
  rewrite (reshape_get _ Et (idx := [i; j]) (idx' := [i; j])); auto; (constructor; [lia|constructor; [lia|constructor]]).
Qed.

(** So the answer is right exactly if the frequencies are symmetric. *)
Lemma likelihood_swapped_iff a b rows base : a <> b -> rows <> [] ->
  let spec := [(a, SArray (both 2 1)); (b, SArray (both 2 0))] in
  let dims := [(b, Some 0%nat); (a, Some 1%nat)] in
  exists t, bool_perm_fun (T := R) [a; b] rows base spec dims = Ok t /\ shape t = [2; 2]%nat /\
    ((forall vb va : bool, get t (position [vb; va]) = INR (occurrences rows [va; vb]) / INR (length rows)) <->
     occurrences rows [true; false] = occurrences rows [false; true]).
Proof.
  intros NE NR spec dims. destruct (likelihood_swapped a b rows base NE) as (t & E & S & G).
  exists t. split; auto. split; auto.
  assert (G' : forall x y, get t (position [x; y]) = INR (occurrences rows [x; y]) / INR (length rows)).
  { intros x y. rewrite <- (freq_value 2 rows base). apply G; [destruct x|destruct y]; lia. }
  assert (L : INR (length rows) <> 0) by (apply not_0_INR; destruct rows; [congruence|discriminate]).
  split.
  - intros H. specialize (H true false). rewrite G' in H. unfold Rdiv in H.
    apply Rmult_eq_reg_r in H; [|apply Rinv_neq_0_compat; auto]. apply INR_eq. auto.
  - intros H vb va. rewrite G'. destruct vb, va; auto; rewrite H; auto.
Qed.

(** Without dimensions there is no answer. *)
Lemma slice_needs_dims {V P} veqb (p0 : P) (spec vals : odict (sval V)) prob vd sd :
  vd = None \/ sd = None -> exists e, slice_by_keyvals veqb p0 spec vals prob vd sd = Err e.
Proof.
  intros H. unfold slice_by_keyvals. destruct (seteq_str (od_keys spec) (od_keys vals)); cbn; [|eauto].
  destruct sd, vd; eauto. destruct H; discriminate.
Qed.

Lemma digits_least n : (0 <= n)%Z -> (1 <= digits n)%nat /\
  forall bits, bits_value bits = n -> bits <> [] -> (digits n <= length bits)%nat.
Proof.
  intros H. split.
  - destruct n as [|p|p]; cbn; try lia. destruct p; cbn; lia.
  - intros bits V NE. destruct (Z.eq_dec n 0) as [-> | NZ].
    + destruct bits; [congruence|cbn; lia].
    + destruct (digits_minimal n ltac:(lia)) as [A _]. pose proof (bits_value_bounds bits) as B. rewrite V in B.
      destruct (le_lt_dec (digits n) (length bits)) as [?|LT]; auto. exfalso.
      assert (2 ^ Z.of_nat (length bits) <= 2 ^ Z.of_nat (digits n - 1))%Z by (apply Z.pow_le_mono_r; lia). lia.
Qed.
