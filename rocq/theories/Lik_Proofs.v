(** Proofs about likelihoods.py, slice_by_keyvals and uniform. *)
From Coq Require Import String ZArith Reals Lra Lia Bool Arith List.
From Verif Require Import Base Num Tensor RNumLemmas OdLemmas TensorLemmas Likelihoods Lik_Spec.
Import ListNotations.

(** ** Binary codes *)

Lemma bits_value_app l m : bits_value (l ++ m) = (bits_value l * 2 ^ Z.of_nat (length m) + bits_value m)%Z.
Proof.
  unfold bits_value. rewrite fold_left_app. set (a := fold_left _ l 0%Z).
  assert (G : forall m a, fold_left (fun acc (b : bool) => (2 * acc + (if b then 1 else 0))%Z) m a =
    (a * 2 ^ Z.of_nat (length m) + fold_left (fun acc (b : bool) => (2 * acc + (if b then 1 else 0))%Z) m 0)%Z).
  { clear. induction m as [|b m IH]; intros a.
    - cbn. lia.
    - cbn [fold_left length]. rewrite IH, (IH (2 * 0 + _)%Z). rewrite Nat2Z.inj_succ, Z.pow_succ_r by lia. lia. }
  apply G.
Qed.

Lemma bits_value_cons b l : bits_value (b :: l) = (b2z b * 2 ^ Z.of_nat (length l) + bits_value l)%Z.
Proof. change (b :: l) with ([b] ++ l). rewrite bits_value_app. destruct b; reflexivity. Qed.

Lemma bits_value_bounds l : (0 <= bits_value l < 2 ^ Z.of_nat (length l))%Z.
Proof.
  induction l as [|b l IH].
  - cbn. lia.
  - rewrite bits_value_cons. cbn [length]. rewrite Nat2Z.inj_succ, Z.pow_succ_r by lia.
    destruct b; cbn [b2z]; lia.
Qed.

Lemma bits_value_zeros n l : bits_value (repeat false n ++ l) = bits_value l.
Proof.
  induction n as [|n IH]; auto.
Qed.

Lemma pos_bits_app p : forall acc, pos_bits p acc = pos_bits p [] ++ acc.
Proof.
  induction p as [p IH|p IH|]; intros acc; cbn; auto.
  - rewrite IH, (IH [true]), <- app_assoc. auto.
  - rewrite IH, (IH [false]), <- app_assoc. auto.
Qed.

Lemma pos_bits_value p : bits_value (pos_bits p []) = Zpos p.
Proof.
  induction p as [p IH|p IH|]; cbn [pos_bits]; auto.
  - rewrite pos_bits_app, bits_value_app, IH. cbn. lia.
  - rewrite pos_bits_app, bits_value_app, IH. cbn. lia.
Qed.

Lemma pos_bits_length p : length (pos_bits p []) = Pos.size_nat p.
Proof.
  induction p as [p IH|p IH|]; cbn [pos_bits Pos.size_nat]; auto;
    rewrite pos_bits_app, app_length, IH; cbn; lia.
Qed.

Lemma size_nat_mono p q : (p <= q)%positive -> Pos.size_nat p <= Pos.size_nat q.
Proof.
  intros H. destruct (Nat.le_gt_cases (Pos.size_nat p) (Pos.size_nat q)) as [|G]; auto. exfalso.
  pose proof (bits_value_bounds (pos_bits q [])) as B. rewrite pos_bits_value, pos_bits_length in B.
  (* p has leading one *)
  assert (L : (2 ^ Z.of_nat (Pos.size_nat p - 1) <= Zpos p)%Z).
  { clear. induction p as [p IH|p IH|]; cbn [Pos.size_nat]; try (cbn; lia);
      (assert (S1 : 1 <= Pos.size_nat p) by (destruct p; cbn; lia);
       replace (S (Pos.size_nat p) - 1) with (S (Pos.size_nat p - 1)) by lia;
       rewrite Nat2Z.inj_succ, Z.pow_succ_r by lia; lia). }
  assert (2 ^ Z.of_nat (Pos.size_nat q) <= 2 ^ Z.of_nat (Pos.size_nat p - 1))%Z by (apply Z.pow_le_mono_r; lia).
  lia.
Qed.

(** The number of digits of a number without leading zeros; zero has one. *)
Definition digits (n : Z) : nat := match n with Zpos p => Pos.size_nat p | _ => 1 end.

Lemma int_to_bin1_ok n w : (0 <= n)%Z ->
  exists bits, int_to_bin1 n w = Ok bits /\ length bits = Nat.max w (digits n) /\
    bits_value bits = n.
Proof.
  intros H. destruct n as [|p|p]; [| |lia]; cbn [int_to_bin1].
  - eexists. split; [reflexivity|]. split.
    + rewrite app_length, repeat_length. cbn. lia.
    + rewrite bits_value_zeros. reflexivity.
  - eexists. split; [reflexivity|]. split.
    + rewrite app_length, repeat_length, pos_bits_length. cbn [digits]. lia.
    + rewrite bits_value_zeros, pos_bits_value. reflexivity.
Qed.

Lemma digits_minimal n : (0 < n)%Z -> (2 ^ Z.of_nat (digits n - 1) <= n < 2 ^ Z.of_nat (digits n))%Z.
Proof.
  intros H. destruct n as [|p|p]; try lia. cbn [digits]. split.
  - clear. induction p as [p IH|p IH|]; cbn [Pos.size_nat]; try (cbn; lia);
      (assert (S1 : 1 <= Pos.size_nat p) by (destruct p; cbn; lia);
       replace (S (Pos.size_nat p) - 1) with (S (Pos.size_nat p - 1)) by lia;
       rewrite Nat2Z.inj_succ, Z.pow_succ_r by lia; lia).
  - rewrite <- pos_bits_length, <- pos_bits_value at 1. apply bits_value_bounds.
Qed.

Lemma wrap64_small z : (- 2 ^ 63 <= z < 2 ^ 63)%Z -> wrap64 z = z.
Proof. intros H. unfold wrap64. rewrite Z.mod_small; lia. Qed.

Lemma wrap64_range z : (- 2 ^ 63 <= wrap64 z < 2 ^ 63)%Z.
Proof.
  unfold wrap64. pose proof (Z.mod_pos_bound (z + 2 ^ 63) (2 ^ 64) ltac:(lia)). lia.
Qed.

Lemma wrap64_cong a b : (a mod 2 ^ 64 = b mod 2 ^ 64)%Z -> wrap64 a = wrap64 b.
Proof.
  intros H. unfold wrap64. f_equal.
  rewrite (Z.add_mod a), (Z.add_mod b), H by lia. reflexivity.
Qed.

Lemma wrap64_mod a : (wrap64 a mod 2 ^ 64 = a mod 2 ^ 64)%Z.
Proof.
  unfold wrap64. rewrite Zminus_mod, Z.mod_mod by lia. rewrite <- Zminus_mod. f_equal. lia.
Qed.

Lemma shl1_mod k : (shl1 k mod 2 ^ 64 = 2 ^ Z.of_nat k mod 2 ^ 64)%Z.
Proof.
  unfold shl1. destruct (Nat.ltb_spec k 64).
  - apply wrap64_mod.
  - symmetry. replace (Z.of_nat k) with (Z.of_nat (k - 64) + 64)%Z by lia.
    rewrite Z.pow_add_r by lia. rewrite Z.mod_mul by lia. reflexivity.
Qed.

Lemma dot_mod bits :
  (fold_right Z.add 0 (zip_with (fun b k => b2z b * shl1 k) bits (rev (seq 0 (length bits)))) mod 2 ^ 64
   = bits_value bits mod 2 ^ 64)%Z.
Proof.
  induction bits as [|b bits IH].
  - reflexivity.
  - cbn [length]. rewrite seq_S, rev_app_distr. cbn [rev app zip_with fold_right].
    rewrite bits_value_cons. rewrite Z.add_mod, IH, <- Z.add_mod by lia.
    rewrite Z.add_mod, Z.mul_mod, shl1_mod, <- Z.mul_mod, <- Z.add_mod by lia. reflexivity.
Qed.

Lemma bin_to_int1_wrap bits : bin_to_int1 bits = wrap64 (bits_value bits).
Proof. apply wrap64_cong, dot_mod. Qed.

Lemma bin_to_int1_value bits : (bits_value bits < 2 ^ 63)%Z -> bin_to_int1 bits = bits_value bits.
Proof.
  intros H. rewrite bin_to_int1_wrap. apply wrap64_small. pose proof (bits_value_bounds bits). lia.
Qed.

Lemma code_round_trip n w : (0 <= n)%Z ->
  exists bits, int_to_bin1 n w = Ok bits /\ length bits = Nat.max w (digits n) /\
    bits_value bits = n /\ (bin_to_int1 bits = n <-> n < 2 ^ 63)%Z.
Proof.
  intros H. destruct (int_to_bin1_ok n w H) as (bits & E & L & V). exists bits.
  split; auto. split; auto. split; auto. split; intros K.
  - pose proof (wrap64_range (bits_value bits)). rewrite <- bin_to_int1_wrap in H0. lia.
  - rewrite <- V. apply bin_to_int1_value. lia.
Qed.

Lemma fold_max_ge zs : forall z, (z <= fold_left Z.max zs z)%Z /\ Forall (fun x => x <= fold_left Z.max zs z)%Z zs.
Proof.
  induction zs as [|x zs IH]; intros z; cbn.
  - split; [lia|constructor].
  - destruct (IH (Z.max z x)) as [A B]. split; [lia|]. constructor; auto. lia.
Qed.

Lemma digits_mono a b : (0 <= a <= b)%Z -> digits a <= digits b.
Proof.
  intros H. destruct a as [|p|p], b as [|q|q]; cbn [digits]; try lia.
  - destruct q; cbn; lia.
  - apply size_nat_mono. lia.
Qed.

Lemma map_res_forall {A B} (f : A -> result B) (Q : A -> B -> Prop) l :
  Forall (fun a => exists b, f a = Ok b /\ Q a b) l -> exists bs, map_res f l = Ok bs /\ Forall2 Q l bs.
Proof.
  induction 1 as [|a l (b & E & Hq) H (bs & E' & IH)]; cbn.
  - exists []. auto.
  - rewrite E. cbn. rewrite E'. cbn. eexists. split; [reflexivity|]. constructor; auto.
Qed.

Lemma code_array nums w : nums <> [] -> Forall (fun n => 0 <= n)%Z nums ->
  exists rows width, int_to_bin nums w = Ok rows /\ w <= width /\
    Forall2 (fun n bits => length bits = width /\ bits_value bits = n) nums rows /\
    (Forall (fun n => n < 2 ^ 63)%Z nums -> bin_to_int rows = Ok nums).
Proof.
  intros NE H. destruct nums as [|z zs]; [congruence|]. cbn [int_to_bin].
  set (mx := fold_left Z.max zs z). destruct (fold_max_ge zs z) as [M1 M2]. fold mx in M1, M2.
  assert (Z0 : (0 <= z)%Z) by (inversion H; auto).
  assert (RL : repr_len mx = digits mx).
  { assert (0 <= mx)%Z by lia. destruct mx as [|p|p]; cbn; auto; [apply pos_bits_length|lia]. }
  rewrite RL. set (width := Nat.max w (digits mx)).
  assert (MX : Forall (fun x => x <= mx)%Z (z :: zs)) by (constructor; auto).
  destruct (map_res_forall (fun n => int_to_bin1 n width) (fun n bits => length bits = width /\ bits_value bits = n) (z :: zs)) as (rows & E & F2).
  { rewrite Forall_forall in *. intros x Hx. destruct (int_to_bin1_ok x width (H x Hx)) as (bits & E & L & V).
    exists bits. split; auto. split; auto. rewrite L. unfold width.
    assert (digits x <= digits mx) by (apply digits_mono; split; [apply (H x Hx)|apply (MX x Hx)]). lia. }
  exists rows, width. split; auto. split; [unfold width; lia|]. split; auto.
  intros SM. destruct rows as [|r rows]; [inversion F2|]. unfold bin_to_int. f_equal.
  clear - F2 SM. revert SM. induction F2 as [|n bits ns rs [_ V] F2 IH]; intros SM; auto.
  inversion SM; subst. cbn. f_equal; auto. apply bin_to_int1_value. auto.
Qed.

(** ** Counting *)

Lemma position_inj a b : position a = position b -> a = b.
Proof.
  revert b. induction a as [|x a IH]; intros [|y b] H; try discriminate; auto.
  cbn in H. injection H as H1 H2. rewrite (IH _ H2). destruct x, y; try discriminate; auto.
Qed.

Lemma count_rows_occ rows c : count_rows rows (position c) = occurrences rows c.
Proof.
  unfold count_rows, occurrences.
  assert (G : forall f : list nat -> nat,
    fold_left (fun (counts : list nat -> nat) row => let i := map b2n row in
       fun idx => if list_eqb Nat.eqb idx i then S (counts idx) else counts idx) rows f (position c)
    = f (position c) + count_occ (list_eq_dec bool_dec) rows c).
  { induction rows as [|row rows IH]; intros f; cbn [fold_left count_occ]; [lia|].
    rewrite IH. change (map b2n row) with (position row).
    destruct (list_eq_dec bool_dec row c) as [->|N].
    - rewrite (proj2 (list_eqb_nat (position c) (position c)) eq_refl). lia.
    - destruct (list_eqb Nat.eqb (position c) (position row)) eqn:E; [|lia].
      apply list_eqb_nat, position_inj in E. congruence. }
  rewrite G. reflexivity.
Qed.

Lemma all_bools_spec n c : In c (all_bools n) <-> length c = n.
Proof.
  revert c. induction n as [|n IH]; intros c; cbn.
  - split; [intros [<-|[]]; auto|]. destruct c; cbn; auto; discriminate.
  - rewrite in_app_iff, !in_map_iff. split.
    + intros [(x & <- & H)|(x & <- & H)]; cbn; f_equal; apply IH; auto.
    + destruct c as [|[] c]; cbn; [discriminate| |]; intros H; injection H as H; apply IH in H; eauto.
Qed.

Lemma all_bools_nodup n : NoDup (all_bools n).
Proof.
  induction n as [|n IH]; cbn.
  - constructor; auto. constructor.
  - assert (INJ : forall b, NoDup (map (cons b) (all_bools n))).
    { intros b. apply FinFun.Injective_map_NoDup; auto. intros x y E. congruence. }
    revert INJ. clear IH. intros INJ.
    assert (D : forall x, In x (map (cons false) (all_bools n)) -> ~ In x (map (cons true) (all_bools n))).
    { intros x H1 H2. apply in_map_iff in H1, H2. destruct H1 as (a & <- & _), H2 as (b & E & _). discriminate. }
    pose proof (INJ false) as N1. pose proof (INJ true) as N2.
    revert D N1 N2. generalize (map (cons false) (all_bools n)) (map (cons true) (all_bools n)).
    clear. intros l m D N1 N2. induction l as [|x l IH]; cbn; auto. inversion N1; subst. constructor.
    + rewrite in_app_iff. intros [H|H]; auto. apply (D x); auto. left. auto.
    + apply IH; auto. intros y Hy. apply D. right. auto.
Qed.

Local Open Scope R_scope.

Lemma Rsum_over_cons {A} (f : A -> R) x l : Rsum_over f (x :: l) = f x + Rsum_over f l.
Proof. reflexivity. Qed.

Lemma Rsum_over_ext {A} (f g : A -> R) l : (forall x, In x l -> f x = g x) -> Rsum_over f l = Rsum_over g l.
Proof.
  unfold Rsum_over. induction l as [|x l IH]; intros H; cbn; auto. rewrite (H x), IH; auto; intros; try apply H; cbn; auto.
Qed.

Lemma Rsum_over_plus {A} (f g : A -> R) l :
  Rsum_over (fun x => f x + g x) l = Rsum_over f l + Rsum_over g l.
Proof. unfold Rsum_over. induction l as [|x l IH]; cbn; [lra|]. rewrite IH. lra. Qed.

Lemma Rsum_over_scal {A} (f : A -> R) c l :
  Rsum_over (fun x => f x / c) l = Rsum_over f l / c.
Proof. unfold Rsum_over, Rdiv. induction l as [|x l IH]; cbn; [lra|]. rewrite IH. lra. Qed.

Lemma Rsum_indicator {A} (dec : forall x y : A, {x = y} + {x <> y}) l a :
  NoDup l -> In a l -> Rsum_over (fun x => if dec a x then 1 else 0) l = 1.
Proof.
  induction l as [|x l IH]; intros ND HI; [destruct HI|]. inversion ND; subst. rewrite Rsum_over_cons.
  destruct HI as [->|HI].
  - destruct (dec a a) as [_|]; [|congruence].
    rewrite (Rsum_over_ext _ (fun _ => 0)).
    + assert (Z : Rsum_over (fun _ : A => 0) l = 0) by (clear; induction l as [|y l IH]; [reflexivity|rewrite Rsum_over_cons, IH; lra]). rewrite Z. lra.
    + intros y Hy. destruct (dec a y); auto. subst. contradiction.
  - destruct (dec a x); [subst; contradiction|]. rewrite IH; auto. lra.
Qed.

Lemma count_total cols rows : Forall (fun r => length r = cols) rows ->
  Rsum_over (fun c => INR (occurrences rows c)) (all_bools cols) = INR (length rows).
Proof.
  induction 1 as [|row rows HL H IH].
  - induction (all_bools cols) as [|x l IHl]; auto. rewrite Rsum_over_cons, IHl. cbn. lra.
  - rewrite (Rsum_over_ext _ (fun c => (if list_eq_dec bool_dec row c then 1 else 0) + INR (occurrences rows c))).
    + rewrite Rsum_over_plus, IH, Rsum_indicator.
      * cbn [length]. rewrite S_INR. lra.
      * apply all_bools_nodup.
      * apply all_bools_spec. auto.
    + intros c _. unfold occurrences. cbn [count_occ].
      destruct (list_eq_dec bool_dec row c); [rewrite S_INR|]; lra.
Qed.

Lemma freq_value cols rows base c :
  get (rel_freq (T := R) cols rows base) (position c) = INR (occurrences rows c) / INR (length rows).
Proof. cbn. rewrite count_rows_occ, !INR_IZR_INZ. reflexivity. Qed.

Lemma freq_total cols rows base : Forall (fun r => length r = cols) rows -> rows <> [] ->
  Rsum_over (fun c => get (rel_freq (T := R) cols rows base) (position c)) (all_bools cols) = 1.
Proof.
  intros H NE.
  rewrite (Rsum_over_ext _ (fun c => INR (occurrences rows c) / INR (length rows))) by (intros; apply freq_value).
  rewrite Rsum_over_scal, count_total by auto. field.
  apply not_0_INR. destruct rows; [congruence|discriminate].
Qed.

Lemma smoothing_ineffective cols rows (base : Z) c :
  rows <> [] -> (0 < base)%Z ->
  let count := INR (occurrences rows c) in
  let n := INR (length rows) in
  let f := get (rel_freq (T := R) cols rows base) (position c) in
  f = count / n /\ f <> (count + IZR base) / n /\
  (f = (count + IZR base) / (n + IZR base * 2 ^ cols) <-> count * 2 ^ cols = n).
Proof.
  intros NE B count n f. unfold f. rewrite freq_value. fold count n. split; auto.
  assert (L : 0 < n) by (apply lt_0_INR; destruct rows; [congruence|cbn; lia]).
  assert (PB : 0 < IZR base) by (apply (IZR_lt 0); auto).
  assert (P2 : 0 < 2 ^ cols) by (apply pow_lt; lra).
  assert (D : 0 < n + IZR base * 2 ^ cols) by (pose proof (Rmult_lt_0_compat _ _ PB P2); lra).
  split.
  - intros E. apply Rmult_eq_reg_r in E; [lra|]. apply Rinv_neq_0_compat. lra.
  - split; intros E.
    + apply (f_equal (fun x => x * n * (n + IZR base * 2 ^ cols))) in E.
      field_simplify in E; try lra.
      assert (E2 : IZR base * (count * 2 ^ cols) = IZR base * n) by lra.
      apply Rmult_eq_reg_l in E2; lra.
    + apply (Rmult_eq_reg_r (n * (n + IZR base * 2 ^ cols))); [|apply Rgt_not_eq, Rmult_lt_0_compat; lra].
      field_simplify; try lra. rewrite <- E. ring.
Qed.
