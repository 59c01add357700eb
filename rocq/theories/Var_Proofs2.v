(** Proofs about evaluation and perturbation of variables. *)
From Coq Require Import String ZArith Reals Lra Lia Bool Arith List Permutation.
From Verif Require Import Base Num RNumLemmas Likelihoods Lik_Proofs Lik_Slice VariableModel Var_Spec Var_Proofs.
Import ListNotations.

(** ** Evaluation of discrete variables *)

Section Count.
Variable A : Type.
Variable dec : forall a b : A, {a = b} + {a <> b}.

Definition turns (len j n : nat) : nat := n / len + (if j <? n mod len then 1 else 0).

Lemma turns_S len j n : j < len ->
  turns len j (S n) = turns len j n + (if n mod len =? j then 1 else 0).
Proof.
  intros H. unfold turns. assert (NZ : len <> 0) by lia.
  pose proof (Nat.div_mod n len NZ) as E. pose proof (Nat.mod_upper_bound n len NZ) as B.
  destruct (Nat.eq_dec (n mod len) (len - 1)) as [L|L].
  - assert (D : S n / len = n / len + 1) by (symmetry; apply (Nat.div_unique (S n) len (n / len + 1) 0); [lia|rewrite E at 1; rewrite L; rewrite Nat.mul_add_distr_l; lia]).
    assert (M : S n mod len = 0) by (symmetry; apply (Nat.mod_unique (S n) len (n / len + 1) 0); [lia|rewrite E at 1; rewrite L; rewrite Nat.mul_add_distr_l; lia]).
    rewrite D, M. change (j <? 0) with false. cbn iota.
    destruct (Nat.eqb_spec (n mod len) j), (Nat.ltb_spec j (n mod len)); lia.
  - assert (D : S n / len = n / len) by (symmetry; apply (Nat.div_unique (S n) len (n / len) (S (n mod len))); lia).
    assert (M : S n mod len = S (n mod len)) by (symmetry; apply (Nat.mod_unique (S n) len (n / len) (S (n mod len))); lia).
    rewrite D, M.
    destruct (Nat.eqb_spec (n mod len) j), (Nat.ltb_spec j (n mod len)), (Nat.ltb_spec j (S (n mod len))); lia.
Qed.

Lemma count_cycle (vals : list A) j v n : NoDup vals -> nth_error vals j = Some v ->
  count_occ dec (map (fun i => nth (i mod length vals) vals v) (seq 0 n)) v = turns (length vals) j n.
Proof.
  intros ND J. assert (JL : j < length vals) by (apply nth_error_Some; congruence).
  induction n as [|n IH].
  - cbn. unfold turns. rewrite Nat.div_0_l, Nat.mod_0_l by lia. reflexivity.
  - rewrite seq_S, map_app, count_occ_app, IH, turns_S by auto. f_equal. cbn.
    assert (NL : n mod length vals < length vals) by (apply Nat.mod_upper_bound; lia).
    assert (JN : nth j vals v = v) by (apply nth_error_nth; auto).
    destruct (Nat.eqb_spec (n mod length vals) j) as [E|E].
    + rewrite E, JN. destruct (dec v v); congruence.
    + destruct (dec (nth (n mod length vals) vals v) v) as [E'|]; auto.
      exfalso. apply E. rewrite <- JN in E' at 2.
      apply (proj1 (NoDup_nth vals v) ND); auto.
Qed.

Lemma turns_close len j k n : len <> 0 -> turns len j n <= S (turns len k n).
Proof. intros H. unfold turns. destruct (j <? n mod len), (k <? n mod len); lia. Qed.

End Count.

Lemma vset_vals_bare (vals : list (pyval R)) : vset_vals (map (fun v => Bare (AV v)) vals) = vals.
Proof. induction vals as [|v vals IH]; cbn; auto. f_equal. auto. Qed.

Lemma map_res_cycle {A} (vals : list A) d idxs : vals <> [] ->
  map_res (fun i => getR vals (i mod length vals)) idxs = Ok (map (fun i => nth (i mod length vals) vals d) idxs).
Proof.
  intros NE. assert (L : length vals <> 0) by (destruct vals; cbn; congruence).
  induction idxs as [|i idxs IH]; cbn [map_res map]; auto. unfold getR at 1.
  rewrite (nth_error_nth' vals d) by (apply Nat.mod_upper_bound; auto). cbn [bind].
  rewrite IH. reflexivity.
Qed.

Definition indices (n : Z) (p : list nat) : list nat :=
  match n with Zneg _ => p | _ => seq 0 (Z.to_nat n) end.

Lemma evaluate_cycle t vals u n r d : t <> VFloat -> vals <> [] -> (t = VBool -> length vals = 2) -> n <> 0%Z ->
  evaluate (discrete t vals) u (VSet n) r =
  Ok (OArray (map (fun i => nth (i mod length vals) vals d) (indices n (r_perm r)))).
Proof.
  intros NF NE BL NZ. cbn [evaluate discrete vs_vset vs_vtype].
  assert (G : forall len, len = length vals ->
    eval_discrete (map (fun v => Bare (AV v)) vals) len n r =
    Ok (OArray (map (fun i => nth (i mod length vals) vals d) (indices n (r_perm r))))).
  { intros len ->. unfold eval_discrete. rewrite vset_vals_bare.
    destruct n as [|p|p]; [congruence| |]; rewrite (map_res_cycle vals d) by auto; cbn [bind indices]; auto. }
  destruct t; try congruence.
  - apply G. symmetry. auto.
  - apply G. apply map_length.
Qed.

Lemma indices_perm n p : n <> 0%Z -> (forall q, n = Zneg q -> shuffle (Pos.to_nat q) p) ->
  Permutation (indices n p) (seq 0 (Z.abs_nat n)).
Proof.
  intros NZ H. destruct n as [|q|q]; [congruence| |]; cbn.
  - auto.
  - apply (H q eq_refl).
Qed.

Lemma evaluate_even t vals u n r : t <> VFloat -> NoDup vals -> vals <> [] -> (t = VBool -> length vals = 2) ->
  n <> 0%Z -> (forall q, n = Zneg q -> shuffle (Pos.to_nat q) (r_perm r)) ->
  exists out, evaluate (discrete t vals) u (VSet n) r = Ok (OArray out) /\
    length out = Z.abs_nat n /\
    (forall v, In v out -> In v vals) /\
    (forall v w, In v vals -> In w vals -> count_occ pyval_dec out v <= S (count_occ pyval_dec out w)) /\
    ((0 < n)%Z -> forall i, i < length out -> nth_error out i = nth_error vals (i mod length vals)).
Proof.
  intros NF ND NE BL NZ SH.
  assert (L : length vals <> 0) by (destruct vals; cbn; congruence).
  destruct vals as [|d0 vals'] eqn:EV; [congruence|]. rewrite <- EV in *. clear EV.
  pose proof (indices_perm n (r_perm r) NZ SH) as P.
  eexists. split; [apply (evaluate_cycle t vals u n r d0); auto|].
  split; [rewrite map_length, (Permutation_length P); apply seq_length|]. split.
  - intros v Hv. apply in_map_iff in Hv. destruct Hv as (i & <- & _). apply nth_In. apply Nat.mod_upper_bound. auto.
  - split.
    + assert (C : forall v, In v vals -> exists j, nth_error vals j = Some v /\
        count_occ pyval_dec (map (fun i => nth (i mod length vals) vals d0) (indices n (r_perm r))) v
        = turns (length vals) j (Z.abs_nat n)).
      { intros v Hv. destruct (In_nth_error _ _ Hv) as [j J]. exists j. split; auto.
        rewrite <- (count_cycle _ pyval_dec vals j v (Z.abs_nat n) ND J).
        transitivity (count_occ pyval_dec (map (fun i => nth (i mod length vals) vals v) (indices n (r_perm r))) v).
        - f_equal. apply map_ext_in. intros i _. apply nth_indep. apply Nat.mod_upper_bound. auto.
        - apply (Permutation_count_occ pyval_dec). apply Permutation_map. exact P. }
      intros v w Hv Hw. destruct (C v Hv) as (j & _ & ->). destruct (C w Hw) as (k & _ & ->).
      apply turns_close. auto.
    + intros PN i Hi. rewrite map_length in Hi. destruct n as [|q|q]; try lia. cbn [indices] in *.
      rewrite seq_length in Hi. rewrite nth_error_map, (nth_error_nth' (seq 0 _) 0) by (rewrite seq_length; auto).
      rewrite seq_nth by auto. cbn [option_map Nat.add]. symmetry. apply nth_error_nth'.
      apply Nat.mod_upper_bound. auto.
Qed.

Lemma evaluate_zero t vals u r : t <> VFloat -> r_int r < length vals ->
  exists v, evaluate (discrete t vals) u (VSet 0) r = Ok (OScalar v) /\ In v vals.
Proof.
  intros NF H. destruct (nth_error vals (r_int r)) as [v|] eqn:E; [|apply nth_error_None in E; lia].
  exists v. split; [|eapply nth_error_In; eauto].
  cbn [evaluate discrete vs_vset vs_vtype]. destruct t; try congruence;
    unfold eval_discrete; rewrite vset_vals_bare; unfold getR; rewrite E; reflexivity.
Qed.

Lemma evaluate_all t vals u r : t <> VFloat -> evaluate (discrete t vals) u VNone r = Ok (OArray vals).
Proof.
  intros NF. cbn [evaluate discrete vs_vset vs_vtype]. destruct t; try congruence; rewrite vset_vals_bare; reflexivity.
Qed.

(** A bool variable of one value cannot be asked for two. *)
Lemma evaluate_single_bool v u n r : (2 <= n)%Z ->
  evaluate (discrete VBool [v]) u (VSet n) r = Err IndexError.
Proof.
  intros H. cbn [evaluate discrete vs_vset vs_vtype]. unfold eval_discrete. rewrite vset_vals_bare.
  destruct n as [|p|p]; try lia.
  replace (Pos.to_nat p) with (S (S (Pos.to_nat p - 2))) by lia. cbn [seq map_res].
  reflexivity.
Qed.

Local Open Scope R_scope.

(** ** Evaluation of float variables *)

Lemma cut_ends a b m : (0 < m)%nat -> cut a b m 0 = a /\ cut a b m m = b.
Proof. intros M. unfold cut. assert (INR m <> 0) by (apply not_0_INR; lia). split; [cbn; lra|field; auto]. Qed.

Definition strictly_between (a b x : R) : Prop := Rmin a b < x < Rmax a b.

Lemma cut_inner a b m i : a <> b -> (0 < i < m)%nat -> strictly_between a b (cut a b m i).
Proof.
  intros NE [I1 I2]. unfold strictly_between, cut.
  assert (P1 : 0 < INR i) by (apply lt_0_INR; auto).
  assert (P2 : INR i < INR m) by (apply lt_INR; auto).
  set (t := INR i / INR m).
  assert (T1 : 0 < t < 1).
  { unfold t. split; [apply Rdiv_lt_0_compat; lra|]. apply (Rmult_lt_reg_r (INR m)); [lra|]. field_simplify; lra. }
  replace (a + (b - a) / INR m * INR i) with (a + (b - a) * t) by (unfold t; field; lra).
  unfold Rmin, Rmax. destruct (Rle_dec a b); split; nra.
Qed.

Lemma uniform_within a b p ex0 ex1 us x : a <> b ->
  match uniform (T := R) a b (Some (Zpos p)) ex0 ex1 us with UScalar y => y = x | UArray l => In x l end ->
  strictly_between a b x \/ (x = a /\ ex0 = false) \/ (x = b /\ ex1 = false).
Proof.
  intros NE H. pose proof (Pos2Nat.is_pos p) as PP.
  destruct (le_lt_dec 2 (Pos.to_nat p + b1 ex0 + b1 ex1)) as [G|G].
  - rewrite uniform_grid in H by lia. apply in_map_iff in H. destruct H as (i & <- & Hi). apply in_seq in Hi.
    set (m := (Pos.to_nat p + b1 ex0 + b1 ex1 - 1)%nat) in *.
    destruct (cut_ends a b m ltac:(lia)) as [C0 C1].
    destruct (Nat.eq_dec (i + b1 ex0) 0) as [Z0|NZ].
    + right. left. rewrite Z0. split; auto. destruct ex0; cbn in Z0; [lia|auto].
    + destruct (Nat.eq_dec (i + b1 ex0) m) as [ZM|NM].
      * right. right. rewrite ZM. split; auto. destruct ex1; auto. unfold m in ZM. cbn in ZM. lia.
      * left. apply cut_inner; auto. unfold m in *. destruct ex0, ex1; cbn in *; lia.
  - assert (p = 1%positive) by lia. subst p. assert (ex0 = false) by (destruct ex0; auto; cbn in G; lia).
    assert (ex1 = false) by (destruct ex1; auto; cbn in G; lia). subst.
    rewrite uniform_one in H. cbn in H. destruct H as [<- | []]. left.
    unfold strictly_between, Rmin, Rmax. destruct (Rle_dec a b); lra.
Qed.

(** A float variable seen through a transformation: its images are numbers a, b,
    every number strictly between them goes back strictly between the limits, and
    the image of a limit that is not excluded goes back to it. *)
Definition good_ufun (u : option (ufun R)) (e0 e1 : elem R) (a b : R) : Prop :=
  let inv := match u with Some u => u_inv u | None => fun x => x end in
  (exists va vb, u_image u (atom_of e0) = AV va /\ u_image u (atom_of e1) = AV vb /\ num va = a /\ num vb = b) /\
  a <> b /\
  (forall x, strictly_between a b x -> over (Tup (atom_of e0)) (inv x) /\ under (Tup (atom_of e1)) (inv x)) /\
  (is_tup e0 = false -> over e0 (inv a) /\ under e1 (inv a)) /\
  (is_tup e1 = false -> over e0 (inv b) /\ under e1 (inv b)).

Lemma over_weak e x : over (Tup (atom_of e)) x -> over e x.
Proof. destruct e as [[v|b]|[v|b]]; cbn; auto. lra. Qed.

Lemma under_weak e x : under (Tup (atom_of e)) x -> under e x.
Proof. destruct e as [[v|b]|[v|b]]; cbn; auto. lra. Qed.

Lemma evaluate_grid_inside u e0 e1 a b n r : good_ufun u e0 e1 a b -> (0 < n)%Z ->
  exists out, evaluate (interval e0 e1) u (VSet n) r = Ok (OArray out) /\ Z.of_nat (length out) = n /\
    forall v, In v out -> inside (interval e0 e1) v = Some true.
Proof.
  intros ((va & vb & U0 & U1 & Na & Nb) & NE & IN & L0 & L1) P. destruct n as [|p|p]; try lia.
  cbn [evaluate interval vs_vset vs_vtype]. rewrite U0, U1.
  set (inv := match u with Some u => u_inv u | None => fun x => x end) in *.
  assert (EL : exists l, uniform (as_num va) (as_num vb) (Some (Z.pos p)) (is_tup e0) (is_tup e1) (r_unif r) = UArray l /\
                         length l = Pos.to_nat p).
  { destruct (le_lt_dec 2 (Pos.to_nat p + b1 (is_tup e0) + b1 (is_tup e1))) as [G|G].
    - rewrite uniform_grid by lia. eexists. split; [reflexivity|]. rewrite map_length, seq_length. auto.
    - pose proof (Pos2Nat.is_pos p). assert (p = 1%positive) by lia. subst p.
      destruct (is_tup e0); [cbn in G; lia|]. destruct (is_tup e1); [cbn in G; lia|].
      rewrite uniform_one. eexists. split; reflexivity. }
  destruct EL as (l & EL & LL). rewrite EL. cbn [out_map].
  eexists. split; [reflexivity|]. rewrite map_length, LL. split; [lia|].
  intros v Hv. apply in_map_iff in Hv. destruct Hv as (x & <- & Hx).
  apply inside_interval_iff. cbn [num].
  pose proof (uniform_within (as_num va) (as_num vb) p (is_tup e0) (is_tup e1) (r_unif r) x) as W.
  rewrite EL in W. rewrite <- (as_num_num va) in Na. rewrite <- (as_num_num vb) in Nb. rewrite Na, Nb in W. destruct (W NE Hx) as [S|[[-> E] | [-> E]]]; auto.
  destruct (IN x S) as [A B]. split; [apply over_weak|apply under_weak]; auto.
Qed.

(** Drawn values: inside unless the number drawn is the excluded lower limit. *)
Lemma evaluate_draw e0 e1 L U n r :
  atom_of e0 = AV L -> atom_of e1 = AV U -> num L < num U -> (n <= 0)%Z -> (forall i, 0 <= r_unif r i < 1) ->
  exists o, evaluate (interval e0 e1) None (VSet n) r = Ok o /\
    length (answer o) = Nat.max 1 (Z.abs_nat n) /\
    forall i, (i < length (answer o))%nat -> exists x, nth_error (answer o) i = Some (PF x) /\
      num L <= x < num U /\
      (inside (interval e0 e1) (PF x) = Some true <-> is_tup e0 = false \/ 0 < r_unif r i).
Proof.
  intros E0 E1 LU N RU. cbn [evaluate interval vs_vset vs_vtype]. rewrite E0, E1. cbn [u_image].
  set (f := fun i => draw (num L) (num U) (r_unif r i)).
  assert (PT : forall i, num L <= f i < num U /\
      (inside (interval e0 e1) (PF (f i)) = Some true <-> is_tup e0 = false \/ 0 < r_unif r i)).
  { intros i. specialize (RU i). unfold f, draw. cbn [n_add n_mul n_sub RNum].
    assert (B : num L <= num L + (num U - num L) * r_unif r i < num U) by (split; nra).
    split; auto. rewrite inside_interval_iff. cbn [num].
    assert (UN : under e1 (num L + (num U - num L) * r_unif r i)).
    { destruct e1 as [?|?]; cbn in E1; subst; cbn; lra. }
    destruct e0 as [?|?]; cbn in E0; subst; cbn [over is_tup].
    - split; [left; auto|]. intros _. split; auto. lra.
    - split; [intros [O _]; right; nra|]. intros [X|X]; [discriminate|]. split; auto. nra. }
  assert (SC : exists o, Ok (out_map (fun x => x) (uniform (as_num L) (as_num U) (Some n) (is_tup e0) (is_tup e1) (r_unif r))) = Ok o /\
     answer o = map (fun i => PF (f i)) (seq 0 (Nat.max 1 (Z.abs_nat n)))).
  { rewrite !as_num_num. destruct n as [|p|p]; [|lia|].
    - eexists. split; [reflexivity|]. reflexivity.
    - eexists. split; [reflexivity|]. cbn [uniform out_map answer Z.abs_nat].
      pose proof (Pos2Nat.is_pos p). rewrite Nat.max_r by lia. rewrite map_map. reflexivity. }
  destruct SC as (o & -> & A). exists o. split; auto. rewrite A, map_length, seq_length. split; auto.
  intros i Hi. exists (f i). split; [|apply PT].
  rewrite nth_error_map, (nth_error_nth' (seq 0 _) 0%nat) by (rewrite seq_length; auto).
  rewrite seq_nth by auto. reflexivity.
Qed.
