(** Facts about linear positions, reshaping and axis permutation. *)
From Coq Require Import ZArith Bool Arith Lia Permutation List.
From Verif Require Import Base Tensor TensorBcast OdLemmas.
Import ListNotations.
Set Implicit Arguments.

(** *** ravel and unravel *)

Lemma ravel_lt sh idx : in_range sh idx -> ravel sh idx < prod_list sh.
Proof.
  unfold in_range. induction 1 as [|i n idx sh Hi H IH]; cbn; [lia|].
  change (fold_right Nat.mul 1 sh) with (prod_list sh).
  apply Nat.lt_le_trans with (i * prod_list sh + prod_list sh); [lia|].
  replace (i * prod_list sh + prod_list sh) with (S i * prod_list sh) by (cbn; lia).
  apply Nat.mul_le_mono_r. lia.
Qed.

Lemma in_range_prod sh idx : in_range sh idx -> 0 < prod_list sh.
Proof. intros H. apply ravel_lt in H. lia. Qed.

Lemma unravel_ravel sh idx : in_range sh idx -> unravel sh (ravel sh idx) = idx.
Proof.
  unfold in_range. induction 1 as [|i n idx sh Hi H IH]; cbn; auto.
  pose proof (ravel_lt H) as L. pose proof (in_range_prod H) as P.
  rewrite Nat.div_add_l by lia. rewrite Nat.div_small by auto. rewrite Nat.add_0_r.
  rewrite Nat.add_comm, Nat.mod_add by lia. rewrite Nat.mod_small by auto.
  rewrite IH. reflexivity.
Qed.

Lemma unravel_in_range sh k : k < prod_list sh -> in_range sh (unravel sh k).
Proof.
  revert k. induction sh as [|n sh IH]; intros k H; cbn in *; [constructor|].
  change (fold_right Nat.mul 1 sh) with (prod_list sh) in H.
  constructor.
  - apply Nat.div_lt_upper_bound; lia.
  - apply IH. apply Nat.mod_upper_bound. lia.
Qed.

Lemma ravel_unravel sh k : k < prod_list sh -> ravel sh (unravel sh k) = k.
Proof.
  revert k. induction sh as [|n sh IH]; intros k H; cbn in *; [lia|].
  change (fold_right Nat.mul 1 sh) with (prod_list sh) in H.
  rewrite IH by (apply Nat.mod_upper_bound; lia).
  rewrite (Nat.div_mod k (prod_list sh)) at 3 by lia. lia.
Qed.

Lemma ravel_inj sh i j : in_range sh i -> in_range sh j -> ravel sh i = ravel sh j -> i = j.
Proof.
  intros Hi Hj E. rewrite <- (unravel_ravel Hi), <- (unravel_ravel Hj), E. reflexivity.
Qed.

(** *** raveled contents *)

Lemma to_list_length {A} (t : tensor A) : length (to_list t) = tsize t.
Proof. unfold to_list. rewrite map_length, seq_length. reflexivity. Qed.

Lemma to_list_nth {A} (t : tensor A) k d :
  k < tsize t -> nth k (to_list t) d = get t (unravel (shape t) k).
Proof.
  intros H. unfold to_list.
  rewrite (nth_indep _ _ (get t (unravel (shape t) (nth k (seq 0 (tsize t)) 0)))).
  2: { rewrite map_length, seq_length. auto. }
  rewrite map_nth with (d := nth k (seq 0 (tsize t)) 0).
  rewrite seq_nth by auto. reflexivity.
Qed.

Lemma to_list_get {A} (t : tensor A) idx d :
  in_range (shape t) idx -> nth (ravel (shape t) idx) (to_list t) d = get t idx.
Proof.
  intros H. rewrite to_list_nth by (apply ravel_lt; auto). rewrite unravel_ravel; auto.
Qed.

Lemma to_list_ext {A} (t u : tensor A) :
  tsize t = tsize u ->
  (forall k, k < tsize t -> get t (unravel (shape t) k) = get u (unravel (shape u) k)) ->
  to_list t = to_list u.
Proof.
  intros S H. unfold to_list. rewrite <- S. apply map_ext_in. intros k Hk.
  apply in_seq in Hk. apply H. lia.
Qed.

Lemma teq_to_list {A} (t u : tensor A) : teq t u -> to_list t = to_list u.
Proof.
  intros [S G]. unfold tsize in *. apply to_list_ext; unfold tsize; [congruence|].
  intros k Hk. rewrite <- S. apply G. apply unravel_in_range; auto.
Qed.

Lemma to_list_teq {A} (t u : tensor A) : shape t = shape u -> to_list t = to_list u -> teq t u.
Proof.
  intros S E. split; auto. intros idx H.
  rewrite <- (to_list_get t (get t idx) H) at 1. rewrite E, S.
  apply to_list_get. rewrite <- S. auto.
Qed.

Lemma teq_refl {A} (t : tensor A) : teq t t.
Proof. split; auto. Qed.
Lemma teq_sym {A} (t u : tensor A) : teq t u -> teq u t.
Proof. intros [S G]. split; auto. intros idx H. symmetry. apply G. rewrite S. auto. Qed.
Lemma teq_trans {A} (t u v : tensor A) : teq t u -> teq u v -> teq t v.
Proof.
  intros [S G] [S' G']. split; [congruence|]. intros idx H. rewrite G by auto.
  apply G'. rewrite <- S. auto.
Qed.

Lemma reshape_ok {A} sh (t : tensor A) :
  prod_list sh = tsize t -> exists u, reshape sh t = Ok u /\ shape u = sh /\ to_list u = to_list t.
Proof.
  intros E. unfold reshape. rewrite E, Nat.eqb_refl. eexists. split; [reflexivity|].
  split; [reflexivity|]. apply to_list_ext; cbn [shape get]; unfold tsize in *; cbn [shape]; auto.
  intros k Hk. rewrite ravel_unravel by auto. reflexivity.
Qed.

Lemma reshape_inv {A} sh (t u : tensor A) :
  reshape sh t = Ok u -> prod_list sh = tsize t /\ shape u = sh /\ to_list u = to_list t.
Proof.
  intros H. assert (E : prod_list sh = tsize t).
  { unfold reshape in H. destruct (Nat.eqb_spec (prod_list sh) (tsize t)); [auto|discriminate]. }
  destruct (reshape_ok sh t E) as (u' & E' & S & L). rewrite H in E'. inversion E'; subst. auto.
Qed.

(** *** axes of size one do not matter for linear positions *)

Fixpoint sqz (sh idx : list nat) : list nat :=
  match sh, idx with
  | n :: sh', i :: idx' => if n =? 1 then sqz sh' idx' else i :: sqz sh' idx'
  | _, _ => []
  end.

Definition sqs (sh : list nat) : list nat := filter (fun n => negb (n =? 1)) sh.

Lemma prod_list_sqs sh : prod_list (sqs sh) = prod_list sh.
Proof.
  unfold sqs. induction sh as [|n sh IH]; cbn; auto.
  destruct (Nat.eqb_spec n 1); cbn; change (fold_right Nat.mul 1) with prod_list; rewrite IH; lia.
Qed.

Lemma ravel_sqz sh idx : in_range sh idx -> ravel sh idx = ravel (sqs sh) (sqz sh idx).
Proof.
  unfold in_range, sqs. induction 1 as [|i n idx sh Hi H IH]; cbn; auto.
  destruct (Nat.eqb_spec n 1); cbn.
  - assert (i = 0) by lia. subst. cbn. apply IH.
  - rewrite IH. f_equal. f_equal. fold (sqs sh). symmetry. apply prod_list_sqs.
Qed.

(** Reading a reshaped array at a position with the same squeezed coordinates. *)
Lemma reshape_get {A} sh (t u : tensor A) idx idx' :
  reshape sh t = Ok u -> in_range sh idx -> in_range (shape t) idx' ->
  sqs sh = sqs (shape t) -> sqz sh idx = sqz (shape t) idx' ->
  get u idx = get t idx'.
Proof.
  intros H Hi Hi' S E.
  unfold reshape in H. destruct (Nat.eqb_spec (prod_list sh) (tsize t)); [|discriminate].
  inversion H; subst; cbn [get].
  rewrite (ravel_sqz Hi), S, E, <- (ravel_sqz Hi'), unravel_ravel; auto.
Qed.

(** *** index lists *)

Lemma in_range_nth sh idx i : in_range sh idx -> i < length sh -> nth i idx 0 < nth i sh 0.
Proof.
  unfold in_range. intros H. revert i. induction H; intros [|i] L; cbn in *; try lia.
  apply IHForall2. lia.
Qed.

Lemma in_range_of_nth sh idx :
  length idx = length sh -> (forall i, i < length sh -> nth i idx 0 < nth i sh 0) -> in_range sh idx.
Proof.
  revert idx. induction sh as [|n sh IH]; intros [|i idx] L H; cbn in *; try discriminate.
  - constructor.
  - constructor; [apply (H 0); lia|]. apply IH; [lia|]. intros j Hj. apply (H (S j)). lia.
Qed.

Lemma nth_ext_nat (l m : list nat) :
  length l = length m -> (forall i, i < length l -> nth i l 0 = nth i m 0) -> l = m.
Proof. intros. eapply nth_ext; eauto. Qed.

(** *** sorted(zip()) *)

Lemma insert_pair_perm p l : Permutation (insert_pair p l) (p :: l).
Proof.
  induction l as [|q l IH]; cbn; auto. destruct (fst p <=? fst q); auto.
  rewrite IH. apply perm_swap.
Qed.

Lemma sort_pairs_perm l : Permutation (sort_pairs l) l.
Proof. induction l; cbn; auto. rewrite insert_pair_perm. constructor. auto. Qed.

(** Strictly increasing first components, all at least m. *)
Fixpoint incr_from (m : nat) (l : list (nat * nat)) : Prop :=
  match l with
  | [] => True
  | p :: l' => m <= fst p /\ incr_from (S (fst p)) l'
  end.

Lemma incr_from_weaken m m' l : m' <= m -> incr_from m l -> incr_from m' l.
Proof. destruct l; cbn; auto. intros H [H1 H2]. split; auto. lia. Qed.

Lemma insert_pair_incr m p l :
  incr_from m l -> m <= fst p -> ~ In (fst p) (map fst l) -> incr_from m (insert_pair p l).
Proof.
  revert m. induction l as [|q l IH]; intros m H L N; cbn in *; auto.
  destruct H as [H1 H2]. destruct (Nat.leb_spec (fst p) (fst q)); cbn.
  - repeat split; auto. assert (fst q <> fst p) by tauto. lia.
  - split; auto.
Qed.

Lemma sort_pairs_incr l : NoDup (map fst l) -> incr_from 0 (sort_pairs l).
Proof.
  induction l as [|p l IH]; cbn; auto. inversion 1; subst.
  apply insert_pair_incr; [auto|apply Nat.le_0_l|].
  intros Hin. apply H2. eapply Permutation_in; [|exact Hin].
  apply Permutation_map. apply sort_pairs_perm.
Qed.

Lemma insert_nth_perm {A} n (x : A) l : Permutation (insert_nth n x l) (x :: l).
Proof.
  unfold insert_nth. rewrite <- (firstn_skipn n l) at 3.
  symmetry. apply Permutation_middle.
Qed.

Lemma insert_nth_length {A} n (x : A) l : length (insert_nth n x l) = S (length l).
Proof. rewrite (Permutation_length (insert_nth_perm n x l)). reflexivity. Qed.

Lemma nth_error_insert_eq {A} n (x : A) l :
  n <= length l -> nth_error (insert_nth n x l) n = Some x.
Proof.
  intros H. unfold insert_nth. rewrite nth_error_app2; rewrite firstn_length; [|lia].
  replace (n - Nat.min n (length l)) with 0 by lia. reflexivity.
Qed.

Lemma nth_error_insert_lt {A} n (x : A) l i :
  i < n -> n <= length l -> nth_error (insert_nth n x l) i = nth_error l i.
Proof.
  intros H L. unfold insert_nth. rewrite nth_error_app1 by (rewrite firstn_length; lia).
  revert i n H L. induction l as [|a l IH]; intros i [|n] H L; cbn in *; try lia.
  destruct i; cbn; auto. apply IH; lia.
Qed.

Lemma incr_from_bound m l n :
  incr_from m l -> Forall (fun p => fst p < n) l -> l <> [] -> m + length l <= n.
Proof.
  revert m. induction l as [|p l IH]; intros m H F NE; [contradiction|].
  cbn in *. destruct H as [H1 H2]. inversion F; subst. destruct l as [|q l].
  - cbn. lia.
  - specialize (IH _ H2 H4). cbn [length] in *. assert (q :: l <> []) by discriminate.
    specialize (IH H). lia.
Qed.

Lemma insert_all n P l :
  incr_from 0 P -> Forall (fun p => fst p < n) P -> length l + length P = n ->
  let r := fold_left (fun order p => insert_nth (fst p) (snd p) order) P l in
  Permutation r (map snd P ++ l) /\
  (forall i, (forall p, In p P -> i < fst p) -> nth_error r i = nth_error l i) /\
  (forall p, In p P -> nth_error r (fst p) = Some (snd p)).
Proof.
  cbn zeta. assert (G : forall m, incr_from m P -> Forall (fun p => fst p < n) P ->
    length l + length P = n ->
    let r := fold_left (fun order p => insert_nth (fst p) (snd p) order) P l in
    Permutation r (map snd P ++ l) /\
    (forall i, (forall p, In p P -> i < fst p) -> nth_error r i = nth_error l i) /\
    (forall p, In p P -> nth_error r (fst p) = Some (snd p))); [|eauto].
  cbn zeta. revert l. induction P as [|[f s] P IH]; intros l m H F L; cbn.
  - repeat split; auto. intros p [].
  - pose proof F as F0. cbn in H, L. destruct H as [H1 H2]. inversion F; subst.
    cbn [fst snd] in *.
    assert (B : f <= length l).
    { assert (incr_from m ((f, s) :: P)) by (cbn; auto).
      assert (incr_from f ((f, s) :: P)) by (cbn; auto).
      apply incr_from_bound with (n := length l + S (length P)) in H0;
        [cbn in H0; lia|auto|discriminate]. }
    destruct (IH (insert_nth f s l) (S f)) as (P1 & P2 & P3); auto.
    { rewrite insert_nth_length. lia. }
    assert (Low : forall m' l' p, incr_from m' l' -> In p l' -> m' <= fst p).
    { clear. intros m' l'. revert m'. induction l' as [|q l' IH]; intros m' p H Hp; [destruct Hp|].
      cbn in *. destruct H as [A1 A2]. destruct Hp as [->|Hp]; auto.
      apply (IH (S (fst q)) p) in A2; [lia|auto]. }
    repeat split.
    + rewrite P1. rewrite insert_nth_perm. symmetry. apply Permutation_middle.
    + intros i Hi. rewrite P2.
      * apply nth_error_insert_lt; auto. apply (Hi (f, s)); auto.
      * intros p Hp. apply Hi; auto.
    + intros p [<-|Hp]; cbn; auto. rewrite P2.
      * apply nth_error_insert_eq; auto.
      * intros q Hq. apply (Low (S f) P q); auto.
Qed.

(** *** moveaxis *)

Lemma filter_length_perm {A} (f : A -> bool) l :
  length (filter f l) + length (filter (fun x => negb (f x)) l) = length l.
Proof. induction l; cbn; auto. destruct (f a); cbn; lia. Qed.

Lemma filter_perm_in (s : list nat) n :
  NoDup s -> (forall x, In x s -> x < n) ->
  Permutation (s ++ filter (fun d => negb (existsb (Nat.eqb d) s)) (seq 0 n)) (seq 0 n).
Proof.
  intros N H. apply NoDup_Permutation.
  - apply nodup_app_iff. repeat split; auto.
    + apply filter_nodup, seq_NoDup.
    + intros x Hx Hf. apply filter_In in Hf. destruct Hf as [_ Hf].
      apply negb_true_iff in Hf. assert (existsb (Nat.eqb x) s = true); [|congruence].
      apply existsb_exists. exists x. split; auto. apply Nat.eqb_refl.
  - apply seq_NoDup.
  - intros x. rewrite in_app_iff, filter_In, in_seq. split.
    + intros [Hx|[Hx _]]; auto. apply H in Hx. lia.
    + intros Hx. destruct (existsb (Nat.eqb x) s) eqn:E.
      * apply existsb_exists in E. destruct E as (y & Hy & E). apply Nat.eqb_eq in E. subst. auto.
      * right. auto.
Qed.

Lemma moveaxis_order_spec n s d :
  NoDup s -> NoDup d -> length s = length d ->
  (forall x, In x s -> x < n) -> (forall x, In x d -> x < n) ->
  Permutation (moveaxis_order n s d) (seq 0 n) /\
  (forall i a b, nth_error s i = Some a -> nth_error d i = Some b ->
     nth_error (moveaxis_order n s d) b = Some a).
Proof.
  intros Ns Nd L Hs Hd. unfold moveaxis_order.
  assert (Mf : map fst (combine d s) = d).
  { clear -L. revert s L. induction d as [|x d IH]; intros [|y s] L; cbn in *; try discriminate; auto.
    f_equal. apply IH. lia. }
  assert (Ms : map snd (combine d s) = s).
  { clear -L. revert s L. induction d as [|x d IH]; intros [|y s] L; cbn in *; try discriminate; auto.
    f_equal. apply IH. lia. }
  assert (PP := sort_pairs_perm (combine d s)).
  destruct (@insert_all n (sort_pairs (combine d s))
             (filter (fun d => negb (existsb (Nat.eqb d) s)) (seq 0 n))) as (P1 & P2 & P3).
  - apply sort_pairs_incr. rewrite Mf. auto.
  - apply Forall_forall. intros p Hp. apply Hd. rewrite <- Mf. apply in_map.
    eapply Permutation_in; eauto.
  - rewrite (Permutation_length PP), combine_length, L, Nat.min_id.
    pose proof (Permutation_length (filter_perm_in Ns Hs)) as LL.
    rewrite app_length, seq_length in LL. lia.
  - split.
    + rewrite P1. rewrite PP, Ms. apply filter_perm_in; auto.
    + intros i a b Ha Hb. specialize (P3 (b, a)). cbn in P3. apply P3.
      eapply Permutation_in; [symmetry; exact PP|].
      clear -Ha Hb. revert i s Ha Hb. induction d as [|x d IH]; intros [|i] [|y s] Ha Hb;
        cbn in *; try discriminate.
      * inversion Ha; inversion Hb; subst; auto.
      * right. eapply IH; eauto.
Qed.

Lemma index_of_spec l i x :
  NoDup l -> nth_error l i = Some x -> index_of x l = i.
Proof.
  intros N. revert i. induction N as [|y l Hy N IH]; intros [|i] H; cbn in *; try discriminate.
  - inversion H; subst. rewrite Nat.eqb_refl. auto.
  - destruct (Nat.eqb_spec y x).
    + subst. exfalso. apply Hy. eapply nth_error_In; eauto.
    + f_equal. apply IH; auto.
Qed.

Lemma index_of_nth_error l x : In x l -> nth_error l (index_of x l) = Some x.
Proof.
  induction l as [|y l IH]; cbn; [tauto|]. destruct (Nat.eqb_spec y x); [subst; auto|].
  intros [|]; [congruence|]. cbn. auto.
Qed.

Lemma transpose_shape_length {A} order (t : tensor A) : length (shape (transpose order t)) = length order.
Proof. cbn. apply map_length. Qed.

Lemma transpose_shape_nth {A} order (t : tensor A) a b :
  nth_error order b = Some a -> nth b (shape (transpose order t)) 0 = nth a (shape t) 0.
Proof.
  intros E. assert (Lb : b < length order) by (apply nth_error_Some; congruence).
  cbn. rewrite (nth_indep _ 0 (nth (nth b order 0) (shape t) 0)) by (rewrite map_length; auto).
  rewrite (map_nth (fun d => nth d (shape t) 0)).
  erewrite (nth_error_nth order) by exact E. reflexivity.
Qed.

(** What a transposed array holds: source axis a is read at the position given
    for the axis b with order[b] = a. *)
Lemma transpose_spec {A} order (t : tensor A) idx :
  Permutation order (seq 0 (length (shape t))) ->
  in_range (shape (transpose order t)) idx ->
  exists idx', in_range (shape t) idx' /\ get (transpose order t) idx = get t idx' /\
    forall a b, nth_error order b = Some a -> nth a idx' 0 = nth b idx 0.
Proof.
  intros P R.
  assert (N : NoDup order) by (eapply Permutation_NoDup; [symmetry; exact P|apply seq_NoDup]).
  exists (map (fun d => nth (index_of d order) idx 0) (seq 0 (length (shape t)))).
  assert (Q : forall a b, nth_error order b = Some a ->
     nth a (map (fun d => nth (index_of d order) idx 0) (seq 0 (length (shape t)))) 0 = nth b idx 0).
  { intros a b H.
    assert (La : a < length (shape t)).
    { apply nth_error_In in H. eapply Permutation_in in H; [|exact P]. apply in_seq in H. lia. }
    rewrite (nth_indep _ 0 (nth (index_of (nth a (seq 0 (length (shape t))) 0) order) idx 0))
      by (rewrite map_length, seq_length; auto).
    rewrite (map_nth (fun d => nth (index_of d order) idx 0)).
    rewrite seq_nth by auto. cbn. rewrite (index_of_spec b N H). reflexivity. }
  split; [|split; auto].
  apply in_range_of_nth.
  - rewrite map_length, seq_length. auto.
  - intros a La.
    assert (Ha : In a order).
    { eapply Permutation_in; [symmetry; exact P|]. apply in_seq. lia. }
    pose proof (index_of_nth_error _ _ Ha) as E. rewrite (Q _ _ E).
    pose proof (@in_range_nth _ _ (index_of a order) R) as HH.
    assert (Lb : index_of a order < length order) by (apply nth_error_Some; congruence).
    rewrite transpose_shape_length in HH. specialize (HH Lb).
    rewrite (@transpose_shape_nth _ order t _ _ E) in HH. exact HH.
Qed.

(** *** normalised axes *)

Lemma nodup_nat_iff l : nodup_nat l = true <-> NoDup l.
Proof.
  induction l as [|k l IH]; cbn.
  - split; auto. constructor.
  - rewrite andb_true_iff, negb_true_iff, IH.
    assert (E : existsb (Nat.eqb k) l = false <-> ~ In k l).
    { split.
      - intros H Hin. assert (existsb (Nat.eqb k) l = true); [|congruence].
        apply existsb_exists. exists k. split; auto. apply Nat.eqb_refl.
      - intros H. destruct (existsb (Nat.eqb k) l) eqn:E; auto. apply existsb_exists in E.
        destruct E as (y & Hy & E). apply Nat.eqb_eq in E. subst. contradiction. }
    rewrite E. split; [intros []; constructor; auto|]. inversion 1; auto.
Qed.

Lemma norm_axes_nat n l :
  NoDup l -> (forall x, In x l -> x < n) -> norm_axes n (map Z.of_nat l) = Ok l.
Proof.
  intros N H. unfold norm_axes.
  assert (E : map_res (norm_axis n) (map Z.of_nat l) = Ok l).
  { clear N. induction l as [|x l IH]; cbn; auto.
    unfold norm_axis at 1. rewrite py_index_nat by (apply H; cbn; auto). cbn.
    rewrite IH by (intros; apply H; cbn; auto). reflexivity. }
  rewrite E. cbn. apply nodup_nat_iff in N. rewrite N. reflexivity.
Qed.

Lemma norm_axes_inv n l m :
  norm_axes n l = Ok m -> Forall (fun d => 0 <= d)%Z l ->
  l = map Z.of_nat m /\ NoDup m /\ (forall x, In x m -> x < n).
Proof.
  unfold norm_axes. intros H F. bok H l' E.
  destruct (nodup_nat l') eqn:N; [|discriminate]. inversion H; subst l'.
  apply nodup_nat_iff in N. apply map_res_ok in E.
  assert (Q : l = map Z.of_nat m /\ forall x, In x m -> x < n).
  { clear N H. induction E as [|d x l m Hd E IH]; cbn; [tauto|].
    inversion F; subst. destruct IH as [-> IH]; auto.
    unfold norm_axis in Hd. destruct (py_index n d) eqn:P; [|discriminate].
    inversion Hd; subst. pose proof (py_index_nonneg _ H1 P). subst.
    split; auto. intros y [<-|Hy]; auto. eapply py_index_lt; eauto. }
  tauto.
Qed.
