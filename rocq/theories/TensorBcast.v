(** Facts about broadcasting. *)
From Coq Require Import ZArith Bool Arith Lia List.
From Verif Require Import Base Tensor.
Import ListNotations.
Set Implicit Arguments.

(** A shape that can be read at the indices of a larger one. *)
Definition fits (sh s : list nat) : Prop :=
  length sh <= length s /\
  Forall2 (fun d e => d <> 1 -> e = d) sh (skipn (length s - length sh) s).

Lemma Forall2_length {A B} (P : A -> B -> Prop) l m : Forall2 P l m -> length l = length m.
Proof. induction 1; cbn; auto. Qed.

Lemma fits_refl s : fits s s.
Proof.
  split; auto. rewrite Nat.sub_diag. cbn. induction s; constructor; auto.
Qed.

Lemma skipn_skipn' {A} n m (l : list A) : skipn n (skipn m l) = skipn (m + n) l.
Proof.
  revert l. induction m; intros l; cbn; auto.
  destruct l; [destruct n; reflexivity|]. apply IHm.
Qed.

Lemma Forall2_skipn {A B} (P : A -> B -> Prop) n l m :
  Forall2 P l m -> Forall2 P (skipn n l) (skipn n m).
Proof.
  intros H. revert n. induction H; intros [|n]; cbn; auto.
Qed.

Lemma fits_trans a b c : fits a b -> fits b c -> fits a c.
Proof.
  intros [L1 F1] [L2 F2]. split; [lia|].
  assert (F3 : Forall2 (fun d e => d <> 1 -> e = d)
                 (skipn (length b - length a) b)
                 (skipn (length c - length a) c)).
  { replace (length c - length a) with
      ((length c - length b) + (length b - length a)) by lia.
    rewrite <- skipn_skipn'. apply Forall2_skipn. exact F2. }
  revert F1 F3. generalize (skipn (length b - length a) b) (skipn (length c - length a) c).
  clear. intros m n H. revert n. induction H; intros n F; inversion F; subst; constructor; auto.
  intros E. rewrite <- H by auto. apply H3. rewrite H; auto.
Qed.

Lemma zip_with_length {A B C} (f : A -> B -> C) l m :
  length (zip_with f l m) = Nat.min (length l) (length m).
Proof. revert m. induction l; intros [|b m]; cbn; auto. Qed.

Lemma skipn_zip_with {A B C} (f : A -> B -> C) n l m :
  skipn n (zip_with f l m) = zip_with f (skipn n l) (skipn n m).
Proof.
  revert l m. induction n; intros [|a l] [|b m]; cbn; auto.
  destruct (skipn n l); reflexivity.
Qed.

Lemma bcast_idx_length sh idx :
  length sh <= length idx -> length (bcast_idx sh idx) = length sh.
Proof.
  intros H. unfold bcast_idx. rewrite zip_with_length, skipn_length. lia.
Qed.

Lemma bcast_idx_compose p s idx :
  fits p s -> length s <= length idx ->
  bcast_idx p (bcast_idx s idx) = bcast_idx p idx.
Proof.
  intros [L F] Li. unfold bcast_idx at 1. rewrite bcast_idx_length by auto.
  unfold bcast_idx. rewrite skipn_zip_with, skipn_skipn'.
  replace (length idx - length s + (length s - length p)) with (length idx - length p) by lia.
  assert (Lk : length (skipn (length idx - length p) idx) = length p)
    by (rewrite skipn_length; lia).
  revert F Lk. generalize (skipn (length s - length p) s) (skipn (length idx - length p) idx).
  clear. intros m n H. revert n. induction H; intros n Lk; destruct n; cbn in *; auto;
    try discriminate.
  f_equal.
  - destruct (Nat.eqb_spec x 1); auto.
    rewrite H by auto. destruct (Nat.eqb_spec x 1); congruence.
  - apply IHForall2. lia.
Qed.

Lemma bcast_idx_id s idx : in_range s idx -> bcast_idx s idx = idx.
Proof.
  unfold in_range, bcast_idx. intros H.
  pose proof (Forall2_length H) as L. rewrite L, Nat.sub_diag. cbn [skipn].
  clear L. induction H; cbn; auto. f_equal; auto.
  destruct (Nat.eqb_spec y 1); lia.
Qed.

Lemma in_range_length s idx : in_range s idx -> length idx = length s.
Proof. unfold in_range. intros H. apply Forall2_length in H. auto. Qed.

(** Reading a fitting array at an in-range index stays in range. *)
Lemma bcast_idx_in_range p s idx :
  fits p s -> in_range s idx -> Forall (fun d => d <> 0) s -> in_range p (bcast_idx p idx).
Proof.
  intros [L F] H NZ. unfold bcast_idx, in_range.
  rewrite (in_range_length H).
  pose proof (Forall2_skipn (length s - length p) H) as H2.
  revert F H2. generalize (skipn (length s - length p) s) (skipn (length s - length p) idx).
  clear. intros m n F. revert n. induction F; intros n H2; inversion H2; subst; cbn; constructor; auto.
  destruct (Nat.eqb_spec x 1); [lia|]. rewrite <- H by auto. auto.
Qed.

Lemma merge_fits a b s :
  length a = length b -> merge_shape a b = Ok s ->
  Forall2 (fun d e => d <> 1 -> e = d) a s /\ Forall2 (fun d e => d <> 1 -> e = d) b s.
Proof.
  revert b s. induction a as [|x a IH]; intros [|y b] s L M; cbn in *; try discriminate.
  - inversion M; auto.
  - destruct (merge_shape a b) as [r|e] eqn:E; cbn in M; [|discriminate].
    destruct (IH b r ltac:(lia) E) as [F1 F2].
    destruct (Nat.eqb_spec x y).
    + inversion M; subst. split; constructor; auto.
    + destruct (Nat.eqb_spec x 1).
      * inversion M; subst. split; constructor; auto. contradiction.
      * destruct (Nat.eqb_spec y 1); [|discriminate].
        inversion M; subst. split; constructor; auto. contradiction.
Qed.

Lemma pad_shape_length n sh : length sh <= n -> length (pad_shape n sh) = n.
Proof. intros H. unfold pad_shape. rewrite app_length, repeat_length. lia. Qed.

Lemma pad_shape_skipn n sh : length sh <= n -> skipn (n - length sh) (pad_shape n sh) = sh.
Proof.
  intros H. unfold pad_shape. rewrite skipn_app, repeat_length, Nat.sub_diag.
  rewrite skipn_all2; [reflexivity|]. rewrite repeat_length. lia.
Qed.

Lemma merge_length a b s : length a = length b -> merge_shape a b = Ok s -> length s = length a.
Proof.
  intros L M. destruct (merge_fits _ _ L M) as [F _]. apply Forall2_length in F. auto.
Qed.

Lemma bcast_fits s1 s2 s :
  bcast_shape s1 s2 = Ok s ->
  length s = Nat.max (length s1) (length s2) /\ fits s1 s /\ fits s2 s.
Proof.
  unfold bcast_shape. set (n := Nat.max (length s1) (length s2)). intros M.
  assert (L1 : length (pad_shape n s1) = n) by (apply pad_shape_length; lia).
  assert (L2 : length (pad_shape n s2) = n) by (apply pad_shape_length; lia).
  assert (L : length s = n) by (rewrite (@merge_length (pad_shape n s1) (pad_shape n s2) s); congruence).
  destruct (@merge_fits (pad_shape n s1) (pad_shape n s2) s ltac:(congruence) M) as [F1 F2].
  split; [auto|]. split; split; try lia.
  - apply (Forall2_skipn (n - length s1)) in F1. rewrite pad_shape_skipn in F1 by lia.
    rewrite L. auto.
  - apply (Forall2_skipn (n - length s2)) in F2. rewrite pad_shape_skipn in F2 by lia.
    rewrite L. auto.
Qed.

Lemma bcast_same s : bcast_shape s s = Ok s.
Proof.
  unfold bcast_shape, pad_shape. rewrite Nat.max_id, Nat.sub_diag. cbn.
  induction s as [|d s IH]; cbn; auto. rewrite IH. cbn. rewrite Nat.eqb_refl. reflexivity.
Qed.

(** tbin reads both operands at broadcast indices. *)
Lemma tbin_ok {A B C} (f : A -> B -> C) t u s :
  bcast_shape (shape t) (shape u) = Ok s ->
  exists r, tbin f t u = Ok r /\ shape r = s /\
    forall idx, get r idx = f (get t (bcast_idx (shape t) idx)) (get u (bcast_idx (shape u) idx)).
Proof.
  intros H. unfold tbin. rewrite H. cbn. eexists. split; [reflexivity|]. cbn. auto.
Qed.

Lemma tbin_inv {A B C} (f : A -> B -> C) t u r :
  tbin f t u = Ok r ->
  bcast_shape (shape t) (shape u) = Ok (shape r) /\
    forall idx, get r idx = f (get t (bcast_idx (shape t) idx)) (get u (bcast_idx (shape u) idx)).
Proof.
  unfold tbin. destruct (bcast_shape (shape t) (shape u)) as [s|e]; cbn; [|discriminate].
  intros H. inversion H. cbn. auto.
Qed.

(** A left fold of broadcasting operations. *)
Lemma tbin_fold {A} (op : A -> A -> A) (l : list (tensor A)) acc s :
  fold_res bcast_shape (map shape l) (shape acc) = Ok s ->
  exists r, fold_res (fun a x => tbin op a x) l acc = Ok r /\ shape r = s /\
    fits (shape acc) s /\
    forall idx, length idx = length s ->
      get r (bcast_idx s idx) =
      fold_left (fun a x => op a (get x (bcast_idx (shape x) idx))) l
                (get acc (bcast_idx (shape acc) idx)).
Proof.
  revert acc. induction l as [|x l IH]; intros acc H; cbn in *.
  - inversion H; subst. exists acc. split; [auto|]. split; [auto|].
    split; [apply fits_refl|auto].
  - destruct (bcast_shape (shape acc) (shape x)) as [s1|e] eqn:E; cbn in H; [|discriminate].
    destruct (tbin_ok op acc x E) as (a1 & E1 & S1 & G1).
    rewrite E1. cbn. rewrite <- S1 in H. destruct (IH a1 H) as (r & Er & Sr & Fr & Gr).
    exists r. split; [auto|]. split; [auto|].
    destruct (bcast_fits _ _ E) as (L1 & Fa & Fx). rewrite <- S1 in Fa, Fx, L1.
    split; [eapply fits_trans; eauto|].
    intros idx Li. rewrite Gr by auto. rewrite G1.
    rewrite !bcast_idx_compose; auto; destruct Fr; lia.
Qed.
