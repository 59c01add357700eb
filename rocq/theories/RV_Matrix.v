(** Proofs about random variables: transition matrices and steps. *)
From Coq Require Import String Ascii ZArith Reals Bool Arith List Lia Lra Sorted Permutation.
From Verif Require Import Base Num Tensor PScales PScales_Spec PScales_Proofs RNumLemmas PD_Spec Distr PDModel
  Likelihoods VariableModel Var_Spec Var_Proofs RVModel RV_Spec RV_Proofs.
Import ListNotations.
Local Open Scope R_scope.

(** ** Sorting *)

Fixpoint ins_val (a : pyval R) (l : list (pyval R)) : list (pyval R) :=
  match l with
  | [] => [a]
  | b :: l' => if Rlt_dec (num a) (num b) then a :: l else b :: ins_val a l'
  end.

Lemma ins_atom_val a l : ins_atom (T := R) (AV a) (map AV l) = map AV (ins_val a l).
Proof.
  induction l as [|b l IH]; cbn [map ins_atom ins_val]; auto.
  assert (E : atom_ltb (T := R) (AV a) (AV b) = if Rlt_dec (num a) (num b) then true else false).
  { unfold atom_ltb. cbn [atom_leb]. destruct (v_leb b a) eqn:V.
    - apply v_leb_iff in V. destruct (Rlt_dec (num a) (num b)); auto. lra.
    - apply v_leb_false in V. destruct (Rlt_dec (num a) (num b)); auto. lra. }
  rewrite E. destruct (Rlt_dec (num a) (num b)); cbn [map]; auto. rewrite IH. auto.
Qed.

Lemma unav (l : list (pyval R)) :
  flat_map (fun a => match a with AV v => [v] | AOO _ => [] end) (map AV l) = l.
Proof. induction l as [|a l IH]; auto. cbn [map flat_map app]. rewrite IH. auto. Qed.

Lemma sort_vals_eq l : sort_vals (T := R) l = fold_left (fun acc a => ins_val a acc) l [].
Proof.
  unfold sort_vals, sort_atoms.
  assert (G : forall l acc, fold_left (fun acc a => ins_atom a acc) (map AV l) (map AV acc) =
                            map (@AV R) (fold_left (fun acc a => ins_val a acc) l acc)).
  { clear. induction l as [|a l IH]; intros acc; cbn [map fold_left]; auto. rewrite ins_atom_val. apply IH. }
  pose proof (G l []) as Q. change (map AV []) with (@nil (atom R)) in Q. rewrite Q.
  apply unav.
Qed.

Lemma ins_val_perm a l : Permutation (ins_val a l) (a :: l).
Proof.
  induction l as [|b l IH]; cbn; auto. destruct (Rlt_dec (num a) (num b)); auto.
  rewrite IH. apply perm_swap.
Qed.

Lemma ins_val_sorted a l : StronglySorted (fun x y => num x <= num y) l ->
  StronglySorted (fun x y => num x <= num y) (ins_val a l).
Proof.
  induction 1 as [|b l S IH F]; cbn.
  - repeat constructor.
  - destruct (Rlt_dec (num a) (num b)) as [L|L].
    + constructor; [constructor; auto|]. constructor; [lra|]. eapply Forall_impl; [|exact F]. cbn. intros; lra.
    + constructor; auto. eapply Permutation_Forall; [symmetry; apply ins_val_perm|].
      constructor; auto. lra.
Qed.

Lemma sort_vals_sorted l : Permutation (sort_vals (T := R) l) l /\
  StronglySorted (fun x y => num x <= num y) (sort_vals (T := R) l).
Proof.
  rewrite sort_vals_eq.
  assert (G : forall l acc, StronglySorted (fun x y => num x <= num y) acc ->
     Permutation (fold_left (fun acc a => ins_val a acc) l acc) (l ++ acc) /\
     StronglySorted (fun x y => num x <= num y) (fold_left (fun acc a => ins_val a acc) l acc)).
  { clear. induction l as [|a l IH]; intros acc S; cbn [fold_left app].
    - auto.
    - destruct (IH (ins_val a acc)) as [P Q]; [apply ins_val_sorted; auto|]. split; auto.
      rewrite P. rewrite (ins_val_perm a acc). rewrite Permutation_middle. auto. }
  destruct (G l []) as [P Q]; [constructor|]. rewrite app_nil_r in P. auto.
Qed.

Lemma sorted_unique (vs ws : list (pyval R)) : Permutation vs ws -> increasing vs ->
  StronglySorted (fun x y => num x <= num y) ws -> ws = vs.
Proof.
  intros P I. revert ws P. induction I as [|a vs I IH F]; intros ws P S.
  - apply Permutation_nil in P. auto.
  - destruct ws as [|b ws]; [symmetry in P; apply Permutation_nil in P; discriminate|].
    inversion S as [|? ? Sw Fw]; subst.
    assert (a = b).
    { assert (Ib : In b (a :: vs)) by (eapply Permutation_in; [symmetry; exact P|left; auto]).
      assert (Ia : In a (b :: ws)) by (eapply Permutation_in; [exact P|left; auto]).
      destruct Ib as [<- | Ib]; auto. destruct Ia as [<- | Ia]; auto. exfalso.
      rewrite Forall_forall in F, Fw. specialize (F b Ib). specialize (Fw a Ia). cbn in *. lra. }
    subst b. f_equal. apply IH; auto. eapply Permutation_cons_inv; eauto.
Qed.

Lemma sort_vals_is vset vs : Permutation vs vset -> increasing vs -> sort_vals (T := R) vset = vs.
Proof.
  intros P I. destruct (sort_vals_sorted vset) as [Q S]. apply sorted_unique; auto.
  rewrite P. symmetry. exact Q.
Qed.

Lemma increasing_index vs j x : increasing vs -> nth_error vs j = Some x -> forall y, num y = num x ->
  val_index (T := R) vs y = Ok j.
Proof.
  intros I. revert j. induction I as [|a vs I IH F]; intros [|j] H y Hy; try discriminate; cbn in H.
  - injection H as ->. cbn [val_index]. unfold v_eqb. rewrite (as_num_num x), (as_num_num y).
    rewrite (proj2 (Reqb_iff _ _)); auto.
  - cbn [val_index]. unfold v_eqb. rewrite (as_num_num a), (as_num_num y).
    rewrite (proj2 (Reqb_false_iff _ _)).
    + rewrite (IH j H y Hy). reflexivity.
    + rewrite Forall_forall in F. specialize (F x (nth_error_In _ _ H)). intros E. rewrite Hy in E. rewrite E in F. exact (Rlt_irrefl _ F).
Qed.

(** ** Cumulative sums *)

Lemma cumsums_nth l : forall acc k, (k < length l)%nat ->
  nth k (cumsums (T := R) acc l) 0 = acc + sum_n (S k) (fun i => nth i l 0).
Proof.
  induction l as [|x l IH]; intros acc k H; [cbn in H; lia|].
  destruct k as [|k]; cbn [cumsums nth].
  - cbn. ring.
  - rewrite IH by (cbn in H; lia). cbn [n_add RNum].
    assert (G : forall k, sum_n (S k) (fun i => nth i (x :: l) 0) = x + sum_n k (fun i => nth i l 0)).
    { clear. induction k as [|k IH]; [cbn; ring|]. cbn [sum_n] in *. rewrite IH. cbn [nth]. ring. }
    change (acc + x + sum_n (S k) (fun i => nth i l 0) = acc + sum_n (S (S k)) (fun i => nth i (x :: l) 0)). rewrite (G (S k)). ring.
Qed.

Lemma cumsums_len l : forall acc, length (cumsums (T := R) acc l) = length l.
Proof. induction l; intros; cbn; auto. Qed.

Lemma column_len m n j : length (column (T := R) m n j) = n.
Proof. unfold column. rewrite map_length, seq_length. auto. Qed.

Lemma column_nth m n j i : (i < n)%nat -> nth i (column (T := R) m n j) 0 = get m [i; j].
Proof.
  intros H. unfold column. rewrite nth_indep with (d' := get m [0%nat; j]) by (rewrite map_length, seq_length; auto).
  rewrite (map_nth (fun i => get m [i; j])). rewrite seq_nth by auto. auto.
Qed.

Lemma sum_n_ext n f g : (forall i, (i < n)%nat -> f i = g i) -> sum_n n f = sum_n n g.
Proof. induction n; intros H; cbn; auto. rewrite IHn by (intros; apply H; lia). rewrite H by lia. auto. Qed.

Lemma cmf_nth m n j k : (k < n)%nat -> nth k (cumsums (T := R) n0 (column m n j)) 0 = cumulative m j (S k).
Proof.
  intros H. rewrite cumsums_nth by (rewrite column_len; auto). rewrite n0_R, Rplus_0_l. unfold cumulative.
  apply sum_n_ext. intros i Hi. apply column_nth. lia.
Qed.

Lemma nondecr_nth (l : list R) : (forall k, (S k < length l)%nat -> nth k l 0 <= nth (S k) l 0) -> nondecr l = true.
Proof.
  induction l as [|x [|y l] IH]; intros H; auto.
  change (n_leb x y && nondecr (y :: l) = true). rewrite andb_true_iff. split.
  - apply Rleb_iff. apply (H 0%nat). cbn. lia.
  - apply IH. intros k Hk. apply (H (S k)). cbn in *. lia.
Qed.

(** The number of elements at most u of a non-decreasing list. *)
Lemma count_upto (l : list R) u i : (forall k k', (k <= k' < length l)%nat -> nth k l 0 <= nth k' l 0) ->
  (i <= length l)%nat -> (forall k, (k < i)%nat -> nth k l 0 <= u) ->
  (forall k, (i <= k < length l)%nat -> u < nth k l 0) ->
  count (fun b => n_leb b u) l = i.
Proof.
  revert i. induction l as [|x l IH]; intros i M Li A B; [cbn in *; lia|].
  unfold count in *. cbn [filter].
  destruct i as [|i].
  - rewrite (proj2 (Rleb_false_iff x u)) by (apply (B 0%nat); cbn; lia).
    apply IH.
    + intros k k' Hk. apply (M (S k) (S k')). cbn. lia.
    + lia.
    + intros; lia.
    + intros k Hk. apply (B (S k)). cbn. lia.
  - rewrite (proj2 (Rleb_iff x u)) by (apply (A 0%nat); lia). cbn [length]. f_equal. apply IH.
    + intros k k' Hk. apply (M (S k) (S k')). cbn. lia.
    + cbn in Li. lia.
    + intros k Hk. apply (A (S k)). lia.
    + intros k Hk. apply (B (S k)). cbn. lia.
Qed.

Lemma cumulative_mono m j n k k' : (forall i, (i < n)%nat -> 0 <= get m [i; j]) -> (k <= k' <= n)%nat ->
  cumulative m j k <= cumulative m j k'.
Proof.
  intros P [L1 L2]. induction k' as [|k' IH]; [assert (k = 0)%nat by lia; subst; lra|].
  destruct (Nat.eq_dec k (S k')) as [->|NE]; [lra|].
  specialize (IH ltac:(lia) ltac:(lia)). unfold cumulative in *. cbn [sum_n]. specialize (P k' ltac:(lia)). lra.
Qed.

(** Some state is chosen, and the state is determined by the interval u lies in. *)
Lemma pick_exists m j n u : (0 < n)%nat -> 0 <= u -> exists i, (i < n)%nat /\ cumulative m j i <= u /\
  (u < cumulative m j (S i) \/ (i = n - 1)%nat).
Proof.
  intros Pn Pu.
  assert (G : forall k, (k <= n)%nat -> (exists i, (i < k)%nat /\ cumulative m j i <= u < cumulative m j (S i)) \/
                        cumulative m j k <= u).
  { induction k as [|k IH]; intros Lk; [right; cbn; auto|].
    destruct (IH ltac:(lia)) as [(i & Hi & H)|H].
    - left. exists i. split; [lia|auto].
    - destruct (Rlt_dec u (cumulative m j (S k))) as [L|L]; [|right; lra].
      left. exists k. split; [lia|auto]. }
  destruct (G (n - 1)%nat ltac:(lia)) as [(i & Hi & H1 & H2)|H].
  - exists i. split; [lia|]. auto.
  - exists (n - 1)%nat. split; [lia|]. auto.
Qed.

Lemma digitize_cmf m j n u i : (forall k, (k < n)%nat -> 0 <= get m [k; j]) -> (i < n)%nat ->
  cumulative m j i <= u -> (u < cumulative m j (S i) \/ (i = n - 1)%nat) ->
  exists d, digitize (cumsums n0 (column m n j)) u = Ok d /\ Nat.max 0 (Nat.min (n - 1) d) = i.
Proof.
  intros P Li A B. unfold digitize.
  set (l := cumsums n0 (column m n j)).
  assert (Ll : length l = n) by (unfold l; rewrite cumsums_len, column_len; auto).
  assert (NT : forall k, (k < n)%nat -> nth k l 0 = cumulative m j (S k)) by (intros; apply cmf_nth; auto).
  rewrite nondecr_nth.
  2:{ intros k Hk. rewrite Ll in Hk. rewrite !NT by lia. apply cumulative_mono with n; [auto|lia]. }
  eexists. split; [reflexivity|].
  assert (MM : forall k k', (k <= k' < length l)%nat -> nth k l 0 <= nth k' l 0).
  { intros k k' Hk. rewrite Ll in Hk. rewrite !NT by lia. apply cumulative_mono with n; [auto|lia]. }
  assert (AA : forall k, (k < i)%nat -> nth k l 0 <= u).
  { intros k Hk. rewrite NT by lia. apply Rle_trans with (cumulative m j i); auto.
    apply cumulative_mono with n; [auto|lia]. }
  destruct B as [B|B].
  - rewrite count_upto with (i := i); auto.
    + lia.
    + lia.
    + intros k Hk. rewrite NT by lia. eapply Rlt_le_trans; [exact B|]. apply cumulative_mono with n; [auto|lia].
  - destruct (Rlt_dec u (cumulative m j (S i))) as [Q|Q].
    + rewrite count_upto with (i := i); auto; try lia.
      intros k Hk. rewrite NT by lia. assert (k = i) by lia. subst k. auto.
    + rewrite count_upto with (i := n); auto; try lia.
      intros k Hk. destruct (Nat.eq_dec k i) as [-> | NE]; [rewrite NT by lia; lra|]. apply AA. lia.
Qed.

(** C42 *)
Lemma sample_exact m n vset vs j x px u : shape m = [n; n] ->
  Permutation vs vset -> increasing vs -> length vset = n ->
  nth_error vs j = Some x -> num px = num x ->
  (forall k, (k < n)%nat -> 0 <= get m [k; j]) -> 0 <= u ->
  exists i y, matrix_cond_sample (tscalar px) (UInt 0) m vset u = Ok (y, j, i) /\ nth_error vs i = Some y /\
    (forall k, (k < n)%nat -> cumulative m j k <= u -> (u < cumulative m j (S k) \/ (k = n - 1)%nat) -> k = i) /\
    (i < n)%nat /\ cumulative m j i <= u /\ (u < cumulative m j (S i) \/ (i = n - 1)%nat).
Proof.
  intros Sm P I L J Px Pos Pu.
  assert (Pn : (0 < n)%nat).
  { assert (j < length vs)%nat by (apply nth_error_Some; congruence).
    rewrite (Permutation_length P), L in H. lia. }
  unfold matrix_cond_sample. cbn [tscalar shape get].
  unfold is_square. rewrite Sm, Nat.eqb_refl. cbn [assert_ bind nth].
  rewrite L, Nat.eqb_refl. cbn [assert_ bind].
  rewrite (sort_vals_is _ _ P I). rewrite (increasing_index vs j x I J px Px). cbn [bind].
  assert (U : forall k, (k < n)%nat -> cumulative m j k <= u -> (u < cumulative m j (S k) \/ (k = n - 1)%nat) ->
     exists y, (let! i := digitize (cumsums n0 (column m n j)) u in
                let! x := getR vs (Nat.max 0 (Nat.min (n - 1) i)) in
                Ok (x, j, Nat.max 0 (Nat.min (n - 1) i))) = Ok (y, j, k) /\ nth_error vs k = Some y).
  { intros k Lk A B. destruct (digitize_cmf m j n u k Pos Lk A B) as (d & -> & E). cbn [bind]. rewrite E.
    unfold getR. destruct (nth_error vs k) as [y|] eqn:N.
    - exists y. auto.
    - apply nth_error_None in N. rewrite (Permutation_length P), L in N. lia. }
  destruct (pick_exists m j n u Pn Pu) as (i & Li & A & B).
  destruct (U i Li A B) as (y & E & N). exists i, y. split; [exact E|]. split; auto. split; auto.
  intros k Lk A' B'. destruct (U k Lk A' B') as (y' & E' & _). rewrite E in E'.
  injection E'; intros; congruence.
Qed.

(** With a column that sums to one and u below one, state k is chosen exactly when
    u lies in the k-th interval, whose length is the entry of the matrix. *)
Lemma sample_interval m n vset vs j x px u k : shape m = [n; n] ->
  Permutation vs vset -> increasing vs -> length vset = n ->
  nth_error vs j = Some x -> num px = num x ->
  (forall k, (k < n)%nat -> 0 <= get m [k; j]) -> cumulative m j n = 1 -> 0 <= u < 1 -> (k < n)%nat ->
  ((exists y, matrix_cond_sample (tscalar px) (UInt 0) m vset u = Ok (y, j, k) /\ nth_error vs k = Some y) <->
   cumulative m j k <= u < cumulative m j k + get m [k; j]).
Proof.
  intros Sm P I L J Px Pos One [U0 U1] Lk.
  destruct (sample_exact m n vset vs j x px u Sm P I L J Px Pos U0) as (i & y & E & N & Un & Li & A & B).
  assert (B' : u < cumulative m j (S i)).
  { destruct B as [B|B]; auto. subst i. replace (S (n - 1)) with n by lia. lra. }
  assert (SC : forall q, cumulative m j (S q) = cumulative m j q + get m [q; j]) by reflexivity.
  split.
  - intros (y' & E' & _). rewrite E in E'. injection E' as _ <-. rewrite <- SC. auto.
  - intros [C D]. rewrite <- SC in D. assert (k = i) by (apply Un; auto). subst k. exists y. auto.
Qed.

Lemma sample_other_sets m vset pred u (q : unit_in R) : q <> UInt 0 ->
  forall out, matrix_cond_sample pred q m vset u <> Ok out.
Proof.
  intros NQ out H. unfold matrix_cond_sample in H. destruct (shape pred); [|discriminate].
  destruct (is_square m); [|discriminate]. cbn [assert_ bind] in H.
  destruct (length vset =? nth 0 (shape m) 0)%nat; [|discriminate]. cbn [assert_ bind] in H.
  destruct (val_index (sort_vals vset) (get pred [])); [|discriminate]. cbn [bind] in H.
  destruct (digitize _ u); [|discriminate]. cbn [bind] in H.
  destruct q as [[|?|?]|?]; try discriminate. congruence.
Qed.
