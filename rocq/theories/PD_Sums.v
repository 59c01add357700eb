(** Sums over assignments, and the reductions of arrays. *)
From Coq Require Import String ZArith Reals Lra Bool Arith Lia Permutation List.
From Verif Require Import Base Num Tensor TensorBcast OdLemmas TensorLemmas PScales Names Names_Spec
  Distr PDModel PD_Spec PD_Make.
Import ListNotations.
Local Open Scope R_scope.

Lemma sum_n_ext n f g : (forall i, (i < n)%nat -> f i = g i) -> sum_n n f = sum_n n g.
Proof.
  induction n; cbn; intros H; auto. rewrite IHn by (intros; apply H; lia). rewrite H by lia. auto.
Qed.

Lemma prod_n_ext n f g : (forall i, (i < n)%nat -> f i = g i) -> prod_n n f = prod_n n g.
Proof.
  induction n; cbn; intros H; auto. rewrite IHn by (intros; apply H; lia). rewrite H by lia. auto.
Qed.

Lemma sum_n_plus n f g : sum_n n (fun i => f i + g i) = sum_n n f + sum_n n g.
Proof. induction n; cbn; [lra|]. rewrite IHn. lra. Qed.

Lemma sum_n_scal n c f : sum_n n (fun i => c * f i) = c * sum_n n f.
Proof. induction n; cbn; [lra|]. rewrite IHn. lra. Qed.

Lemma sum_n_zero n : sum_n n (fun _ => 0) = 0.
Proof. induction n; cbn; lra. Qed.

Lemma sum_n_nonneg n f : (forall i, (i < n)%nat -> 0 <= f i) -> 0 <= sum_n n f.
Proof.
  induction n; cbn; intros H; [lra|].
  assert (0 <= sum_n n f) by (apply IHn; intros; apply H; lia).
  assert (0 <= f n) by (apply H; lia). lra.
Qed.

Lemma sum_n_exchange n m f :
  sum_n n (fun i => sum_n m (fun j => f i j)) = sum_n m (fun j => sum_n n (fun i => f i j)).
Proof.
  induction n; cbn.
  - rewrite sum_n_zero. auto.
  - rewrite IHn, sum_n_plus. auto.
Qed.

Lemma upd_same a k i : upd a k i k = i.
Proof. unfold upd. rewrite String.eqb_refl. auto. Qed.

Lemma upd_other a k i x : x <> k -> upd a k i x = a x.
Proof. unfold upd. intros H. destruct (String.eqb_spec x k); congruence. Qed.

(** Related summands over related assignments. *)
Lemma sum_over_rel (Rl : assignment -> assignment -> Prop) ks f g :
  (forall b b' k i n, In (k, n) ks -> (i < n)%nat -> Rl b b' -> Rl (upd b k i) (upd b' k i)) ->
  (forall b b', Rl b b' -> f b = g b') ->
  forall a a', Rl a a' -> sum_over ks f a = sum_over ks g a'.
Proof.
  intros HU HE. induction ks as [|[k n] ks IH]; intros a a' H; cbn; auto.
  apply sum_n_ext. intros i Hi. apply IH.
  - intros. apply (HU _ _ _ _ n0); cbn; auto.
  - apply (HU _ _ _ _ n); cbn; auto.
Qed.

Lemma prod_over_rel (Rl : assignment -> assignment -> Prop) ks f g :
  (forall b b' k i n, In (k, n) ks -> (i < n)%nat -> Rl b b' -> Rl (upd b k i) (upd b' k i)) ->
  (forall b b', Rl b b' -> f b = g b') ->
  forall a a', Rl a a' -> prod_over ks f a = prod_over ks g a'.
Proof.
  intros HU HE. induction ks as [|[k n] ks IH]; intros a a' H; cbn; auto.
  apply prod_n_ext. intros i Hi. apply IH.
  - intros. apply (HU _ _ _ _ n0); cbn; auto.
  - apply (HU _ _ _ _ n); cbn; auto.
Qed.

Lemma sum_over_ext ks f g a : (forall b, f b = g b) -> sum_over ks f a = sum_over ks g a.
Proof.
  intros H. apply (sum_over_rel eq); auto; intros; subst; auto.
Qed.

Lemma sum_over_app ks ks' f a :
  sum_over (ks ++ ks') f a = sum_over ks (sum_over ks' f) a.
Proof.
  revert a. induction ks as [|[k n] ks IH]; intros a; cbn; auto. apply sum_n_ext. auto.
Qed.

(** Summands that do not look at the variables. *)
Definition ignores (ks : list string) (f : assignment -> R) : Prop :=
  forall b b', (forall x, ~ In x ks -> b x = b' x) -> f b = f b'.

Definition reads (ks : list string) (f : assignment -> R) : Prop :=
  forall b b', (forall x, In x ks -> b x = b' x) -> f b = f b'.

Lemma sum_over_reads ks l f :
  reads l f -> reads (filter (fun k => negb (mem_str k (map fst ks))) l) (sum_over ks f).
Proof.
  intros H. revert l f H. induction ks as [|[k n] ks IH]; intros l f H b b' E.
  - cbn in *. apply H. intros x Hx. apply E. apply filter_In. auto.
  - cbn. apply sum_n_ext. intros i Hi. apply (IH l f H). intros x Hx.
    apply filter_In in Hx. destruct Hx as [Hx1 Hx2].
    destruct (string_dec x k) as [->|N].
    + rewrite !upd_same. auto.
    + rewrite !upd_other by auto. apply E. apply filter_In. split; auto.
      apply negb_true_iff, mem_str_false. apply negb_true_iff, mem_str_false in Hx2.
      cbn. intuition congruence.
Qed.

Lemma upd_comm_ext a k i k' j : k <> k' ->
  forall x, upd (upd a k i) k' j x = upd (upd a k' j) k i x.
Proof.
  intros H x. unfold upd. destruct (String.eqb_spec x k'), (String.eqb_spec x k); congruence.
Qed.

(** Only the values of an assignment matter. *)
Definition extensional (f : assignment -> R) : Prop :=
  forall b b', (forall x, b x = b' x) -> f b = f b'.

Lemma reads_extensional ks f : reads ks f -> extensional f.
Proof. intros H b b' E. apply H. auto. Qed.

Lemma sum_over_extensional ks f : extensional f -> extensional (sum_over ks f).
Proof.
  intros H b b' E.
  apply (sum_over_rel (fun b b' => forall x, b x = b' x)); auto.
  intros. unfold upd. destruct (String.eqb x k); auto.
Qed.

Lemma sum_over_perm ks ks' f a :
  extensional f -> NoDup (map fst ks) -> Permutation ks ks' -> sum_over ks f a = sum_over ks' f a.
Proof.
  intros HE ND P. revert a ND. induction P as [|[k n] l l' P IH|[k n] [k' n'] l|l1 l2 l3 P1 IH1 P2 IH2]; intros a ND; auto.
  - cbn. apply sum_n_ext. intros. apply IH. inversion ND; auto.
  - cbn. rewrite sum_n_exchange. apply sum_n_ext. intros i Hi. apply sum_n_ext. intros j Hj.
    apply sum_over_extensional; auto. intros x. apply upd_comm_ext.
    inversion ND as [|? ? N1 N2]; subst. cbn in N1. intuition congruence.
  - rewrite IH1 by auto. apply IH2. eapply Permutation_NoDup; [apply Permutation_map; eauto|auto].
Qed.

Lemma sum_over_scal ks c f a : sum_over ks (fun b => c * f b) a = c * sum_over ks f a.
Proof.
  revert a. induction ks as [|[k n] ks IH]; intros a; cbn; auto.
  rewrite <- sum_n_scal. apply sum_n_ext. auto.
Qed.

(** A factor that ignores the summed variables comes out. *)
Lemma sum_over_factor ks c f a :
  ignores (map fst ks) c -> sum_over ks (fun b => c b * f b) a = c a * sum_over ks f a.
Proof.
  revert a. induction ks as [|[k n] ks IH]; intros a H; cbn; auto.
  rewrite <- sum_n_scal. apply sum_n_ext. intros i _. rewrite IH.
  - f_equal. apply H. intros x Hx. apply upd_other. intros C; apply Hx; cbn; auto.
  - intros b b' E. apply H. intros x Hx. apply E. cbn in Hx. tauto.
Qed.

(** Sums agree when the summands agree at all positions in range. *)
Lemma sum_over_in_range ks f g a :
  NoDup (map fst ks) ->
  (forall b, (forall k n, In (k, n) ks -> (b k < n)%nat) ->
             (forall x, ~ In x (map fst ks) -> b x = a x) -> f b = g b) ->
  sum_over ks f a = sum_over ks g a.
Proof.
  revert a. induction ks as [|[k n] ks IH]; intros a ND H; cbn.
  - apply H; [intros ? ? []|auto].
  - inversion ND as [|? ? N1 N2]; subst. apply sum_n_ext. intros i Hi. apply IH; auto.
    intros b Hb Hx. apply H.
    + intros k' n' [E|Hin]; auto. inversion E; subst. rewrite Hx by auto. rewrite upd_same. auto.
    + intros x Hnx. cbn in Hnx. rewrite Hx by tauto. apply upd_other. intuition congruence.
Qed.

Lemma prod_over_in_range ks f g a :
  NoDup (map fst ks) ->
  (forall b, (forall k n, In (k, n) ks -> (b k < n)%nat) ->
             (forall x, ~ In x (map fst ks) -> b x = a x) -> f b = g b) ->
  prod_over ks f a = prod_over ks g a.
Proof.
  revert a. induction ks as [|[k n] ks IH]; intros a ND H; cbn.
  - apply H; [intros ? ? []|auto].
  - inversion ND as [|? ? N1 N2]; subst. apply prod_n_ext. intros i Hi. apply IH; auto.
    intros b Hb Hx. apply H.
    + intros k' n' [E|Hin]; auto. inversion E; subst. rewrite Hx by auto. rewrite upd_same. auto.
    + intros x Hnx. cbn in Hnx. rewrite Hx by tauto. apply upd_other. intuition congruence.
Qed.

(** *** reductions of arrays *)

(** Entries whose mask is true. *)
Fixpoint masked {A} (mask : list bool) (l : list A) : list A :=
  match mask, l with
  | true :: m', x :: l' => x :: masked m' l'
  | false :: m', _ :: l' => masked m' l'
  | _, _ => []
  end.

Lemma masked_in {A} mask (l : list A) x : In x (masked mask l) -> In x l.
Proof.
  revert l. induction mask as [|[] mask IH]; intros [|y l]; cbn; try tauto.
  - intros [->|H]; auto.
  - auto.
Qed.

Lemma big_sum n f : big Rplus 0 n f = sum_n n f.
Proof. induction n; cbn; congruence. Qed.

Lemma big_prod n f : big Rmult 1 n f = prod_n n f.
Proof. induction n; cbn; congruence. Qed.

Lemma reduce_at_ext {A} op (e : A) sh mask f g idx :
  (forall r, f r = g r) -> reduce_at op e sh mask f idx = reduce_at op e sh mask g idx.
Proof.
  revert mask f g idx. induction sh as [|n sh IH]; intros [|[] mask] f g idx H; cbn; auto.
  assert (B : forall m, big op e m (fun i => reduce_at op e sh mask (fun r => f (i :: r)) idx)
                      = big op e m (fun i => reduce_at op e sh mask (fun r => g (i :: r)) idx)).
  { induction m; cbn; auto. rewrite IHm. f_equal. apply IH. auto. }
  apply B.
Qed.

Lemma reduce_at_sum L : forall sh mask f a,
  NoDup L -> length sh = length L -> length mask = length L ->
  reduce_at Rplus 0 sh mask f (map a (unmasked mask L)) =
  sum_over (masked mask (combine L sh)) (fun b => f (map b L)) a.
Proof.
  induction L as [|k L IH]; intros [|n sh] [|b mask] f a ND Ls Lm; try discriminate; auto.
  inversion ND as [|? ? N1 N2]; subst. cbn in Ls, Lm.
  assert (Kn : forall x m, In (x, m) (masked mask (combine L sh)) -> x <> k).
  { intros x m Hin C. subst. apply masked_in in Hin. apply in_combine_l in Hin. auto. }
  destruct b; cbn.
  - rewrite big_sum. apply sum_n_ext. intros i Hi. rewrite IH by auto.
    apply (sum_over_rel (fun b b' => b' k = i /\ forall x, x <> k -> b' x = b x)).
    + intros b b' x j m Hin _ [H1 H2]. pose proof (Kn _ _ Hin). split.
      * rewrite upd_other; auto.
      * intros y Hy. unfold upd. destruct (String.eqb y x); auto.
    + intros b b' [H1 H2]. rewrite H1. f_equal. f_equal. apply map_ext_in. intros x Hx. symmetry. apply H2.
      intros C; subst; auto.
    + split; [apply upd_same|]. intros x Hx. apply upd_other. auto.
  - rewrite IH by auto.
    apply (sum_over_rel (fun b b' => b = b' /\ b k = a k)).
    + intros b b' x j m Hin _ [-> H2]. split; auto. rewrite upd_other; auto.
      intros C. symmetry in C. revert C. eapply Kn; eauto.
    + intros b b' [-> H2]. rewrite H2. auto.
    + auto.
Qed.

Lemma reduce_at_prod L : forall sh mask f a,
  NoDup L -> length sh = length L -> length mask = length L ->
  reduce_at Rmult 1 sh mask f (map a (unmasked mask L)) =
  prod_over (masked mask (combine L sh)) (fun b => f (map b L)) a.
Proof.
  induction L as [|k L IH]; intros [|n sh] [|b mask] f a ND Ls Lm; try discriminate; auto.
  inversion ND as [|? ? N1 N2]; subst. cbn in Ls, Lm.
  assert (Kn : forall x m, In (x, m) (masked mask (combine L sh)) -> x <> k).
  { intros x m Hin C. subst. apply masked_in in Hin. apply in_combine_l in Hin. auto. }
  destruct b; cbn.
  - rewrite big_prod. apply prod_n_ext. intros i Hi. rewrite IH by auto.
    apply (prod_over_rel (fun b b' => b' k = i /\ forall x, x <> k -> b' x = b x)).
    + intros b b' x j m Hin _ [H1 H2]. pose proof (Kn _ _ Hin). split.
      * rewrite upd_other; auto.
      * intros y Hy. unfold upd. destruct (String.eqb y x); auto.
    + intros b b' [H1 H2]. rewrite H1. f_equal. f_equal. apply map_ext_in. intros x Hx. symmetry. apply H2.
      intros C; subst; auto.
    + split; [apply upd_same|]. intros x Hx. apply upd_other. auto.
  - rewrite IH by auto.
    apply (prod_over_rel (fun b b' => b = b' /\ b k = a k)).
    + intros b b' x j m Hin _ [-> H2]. split; auto. rewrite upd_other; auto.
      intros C. symmetry in C. revert C. eapply Kn; eauto.
    + intros b b' [-> H2]. rewrite H2. auto.
    + auto.
Qed.

(** Masks given by a test on the names of the axes. *)
Lemma unmasked_map {A B} (f : A -> bool) (l : list A) (g : A -> B) :
  unmasked (map f l) (map g l) = map g (filter (fun x => negb (f x)) l).
Proof. induction l; cbn; auto. destruct (f a); cbn; congruence. Qed.

Lemma masked_map {A B} (f : A -> bool) (l : list A) (g : A -> B) :
  masked (map f l) (map g l) = map g (filter f l).
Proof. induction l; cbn; auto. destruct (f a); cbn; congruence. Qed.

(** *** positions in lists of names *)

Fixpoint pos (k : string) (l : list string) : nat :=
  match l with
  | [] => 0
  | x :: l' => if String.eqb x k then 0%nat else S (pos k l')
  end.

Lemma pos_nth k l : In k l -> nth_error l (pos k l) = Some k.
Proof.
  induction l as [|x l IH]; cbn; [tauto|]. intros H.
  destruct (String.eqb_spec x k); cbn; [congruence|]. apply IH. destruct H; congruence || auto.
Qed.

Lemma pos_lt k l : In k l -> (pos k l < length l)%nat.
Proof. intros H. apply nth_error_Some. rewrite pos_nth; auto. discriminate. Qed.

Lemma nth_pos k l j : NoDup l -> nth_error l j = Some k -> pos k l = j.
Proof.
  intros N H. apply (@nth_error_inj _ l (pos k l) j k N); auto. apply pos_nth. eapply nth_error_In; eauto.
Qed.

Lemma pos_inj k k' l : In k l -> In k' l -> pos k l = pos k' l -> k = k'.
Proof. intros H H' E. apply pos_nth in H. apply pos_nth in H'. congruence. Qed.

Lemma pos_app k l m : pos k (l ++ m) = if mem_str k l then pos k l else (length l + pos k m)%nat.
Proof.
  induction l as [|x l IH]; cbn; auto. rewrite (String.eqb_sym k x).
  destruct (String.eqb_spec x k); cbn; auto. rewrite IH. fold (mem_str k l). destruct (mem_str k l); auto.
Qed.

(** The mask of the axes of the listed keys. *)
Lemma mask_of_pos L ks :
  NoDup L -> incl ks L ->
  mask_of (length L) (map (fun k => pos k L) ks) = map (fun k => mem_str k ks) L.
Proof.
  intros N I. unfold mask_of.
  apply nth_ext with (d := false) (d' := false); rewrite !map_length, seq_length; auto.
  intros j Hj.
  destruct (nth_error L j) as [k|] eqn:Ek; [|apply nth_error_None in Ek; lia].
  rewrite (nth_error_nth (map (fun k => mem_str k ks) L) j false (x := mem_str k ks)).
  2:{ rewrite nth_error_map, Ek. auto. }
  rewrite (nth_error_nth _ j false (x := existsb (Nat.eqb j) (map (fun k => pos k L) ks))).
  2:{ rewrite nth_error_map. rewrite (nth_error_nth' _ 0%nat) by (rewrite seq_length; auto).
      rewrite seq_nth by auto. auto. }
  apply eq_true_iff_eq. rewrite mem_str_iff, existsb_exists. split.
  - intros (x & Hx & E). apply Nat.eqb_eq in E. subst x. apply in_map_iff in Hx.
    destruct Hx as (k' & E & Hk'). apply nth_pos in Ek as Ek'; auto.
    assert (k = k'); [|subst; auto]. apply (pos_inj k k' L); auto. eapply nth_error_In; eauto. congruence.
  - intros Hk. exists (pos k L). split; [apply in_map_iff; eauto|]. apply Nat.eqb_eq. symmetry. apply nth_pos; auto.
Qed.
