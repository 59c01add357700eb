(** Positions in a scan, and what is drawn from them. *)
From Coq Require Import String Ascii ZArith Reals Lra Bool Arith Lia Permutation List.
From Verif Require Import Base Num Tensor OdLemmas RNumLemmas PScales PScales_Spec PScales_Proofs Names Distr PDModel PD_Spec
  VariableModel RVModel RV_Spec FieldModel Field_Spec RFModel RF_Spec SDModel SD_Spec SPModel SP_Spec SP_Proofs SP_Scores
  ChainModel Chain_Spec Chain_Proofs Chain_Run Chain_Thm GibbsModel Gibbs_Spec Gibbs_Run.
Import ListNotations.

(** *** Slices *)
Lemma py_slice_nat {A} (l : list A) a b : py_slice l (Z.of_nat a) (Z.of_nat b) = firstn (b - a) (skipn a l).
Proof.
  unfold py_slice. rewrite !(proj2 (Z.ltb_ge _ _)) by lia.
  destruct (Nat.le_gt_cases (length l) a) as [L|L].
  - rewrite !skipn_all2 by lia. rewrite !firstn_nil. reflexivity.
  - replace (Z.to_nat (Z.min (Z.of_nat (length l)) (Z.max 0 (Z.of_nat a)))) with a by lia.
    destruct (Nat.le_gt_cases b (length l)) as [M|M].
    + f_equal. lia.
    + rewrite !firstn_all2; rewrite ?skipn_length; try lia. reflexivity.
Qed.

Lemma map_nth_seq {A} (l : list A) d c : forall a, a + c <= length l -> map (fun i => nth i l d) (seq a c) = firstn c (skipn a l).
Proof.
  induction l as [|x l IH]; intros a L.
  - cbn in L. assert (a = 0 /\ c = 0) as [-> ->] by lia. reflexivity.
  - destruct a as [|a].
    + destruct c as [|c]; [reflexivity|]. cbn [seq map skipn firstn nth]. f_equal. rewrite <- seq_shift, map_map. cbn [nth].
      clear -L. cbn in L.
      revert l L. induction c as [|c IH]; intros l L; [reflexivity|]. destruct l as [|y l]; [cbn in L; lia|].
      cbn [seq map firstn nth]. f_equal. rewrite <- seq_shift, map_map. apply IH. cbn in L. lia.
    + cbn [skipn]. rewrite <- IH by (cbn in L; lia). rewrite <- seq_shift, map_map. reflexivity.
Qed.

(** *** Blocks *)
Lemma blocks_bound n t : 0 < t -> 0 < n -> 0 < blocks n t /\ (blocks n t - 1) * t < n /\ n <= blocks n t * t.
Proof.
  intros T N. unfold blocks. set (q := (n + t - 1) / t).
  pose proof (Nat.div_mod (n + t - 1) t ltac:(lia)) as D. pose proof (Nat.mod_upper_bound (n + t - 1) t ltac:(lia)) as M. fold q in D.
  assert (q <> 0) by (intros E; rewrite E in D; lia). split; [lia|]. destruct q as [|q']; [lia|]. replace (S q' - 1) with q' by lia. nia.
Qed.

Lemma filter_seq (P : nat -> bool) c : forall a, (forall i, a <= i < a + c -> P i = true) -> filter P (seq a c) = seq a c.
Proof. induction c as [|c IH]; intros a H; [reflexivity|]. cbn. rewrite H by lia. f_equal. apply IH. intros i B. apply H. lia. Qed.
Lemma filter_none (P : nat -> bool) c : forall a, (forall i, a <= i < a + c -> P i = false) -> filter P (seq a c) = [].
Proof. induction c as [|c IH]; intros a H; [reflexivity|]. cbn. rewrite H by lia. apply IH. intros i B. apply H. lia. Qed.

Lemma block_seq n t j : 0 < t -> 0 < n -> let a := (j mod blocks n t) * t in block n t j = seq a (Nat.min t (n - a)) /\ a < n.
Proof.
  intros T N a. destruct (blocks_bound n t T N) as (B0 & B1 & B2). unfold block.
  pose proof (Nat.mod_upper_bound j (blocks n t) ltac:(lia)) as J. set (m := j mod blocks n t) in *.
  assert (A : a < n) by (unfold a; nia). split; [|exact A].
  replace (seq 0 n) with (seq 0 a ++ seq a (Nat.min t (n - a)) ++ seq (a + Nat.min t (n - a)) (n - (a + Nat.min t (n - a))))%list.
  2: { rewrite <- seq_app, <- (seq_app a _ 0). f_equal. lia. }
  rewrite !filter_app, (filter_none _ a), (filter_seq _ (Nat.min t (n - a)) a), (filter_none _ _ (a + Nat.min t (n - a))), app_nil_r; [reflexivity| | |].
  - intros i Bi. apply Nat.eqb_neq. assert (a + t <= i) by lia. unfold a in *.
    assert (S m <= i / t); [|lia]. apply Nat.div_le_lower_bound; lia.
  - intros i Bi. apply Nat.eqb_eq. symmetry. apply (Nat.div_unique i t m (i - a)); unfold a in *; lia.
  - intros i Bi. apply Nat.eqb_neq. assert (i / t < m); [|lia]. apply Nat.div_lt_upper_bound; unfold a in *; lia.
Qed.

(** Each variable is in exactly one of as many consecutive blocks as there are. *)
Lemma block_once n t k i : 0 < t -> i < n -> length (filter (fun j => existsb (Nat.eqb i) (block n t j)) (seq k (blocks n t))) = 1.
Proof.
  intros T L. assert (N : 0 < n) by lia. destruct (blocks_bound n t T N) as (B0 & B1 & B2). set (B := blocks n t) in *.
  assert (ID : i / t < B) by (apply Nat.div_lt_upper_bound; lia).
  assert (E : forall j, existsb (Nat.eqb i) (block n t j) = Nat.eqb (i / t) (j mod B)).
  { intros j. unfold block. fold B. destruct (Nat.eqb (i / t) (j mod B)) eqn:EQ.
    - apply existsb_exists. exists i. split; [|apply Nat.eqb_refl]. apply filter_In. split; [apply in_seq; lia|exact EQ].
    - apply not_true_is_false. intros H. apply existsb_exists in H. destruct H as (x & I1 & I2). apply Nat.eqb_eq in I2. subst x.
      apply filter_In in I1. rewrite EQ in I1. destruct I1. discriminate. }
  erewrite filter_ext by exact E. clear E. set (d := i / t) in *. clearbody d. clear -ID B0.
  assert (Q : forall c a, c <= B - (a mod B) -> length (filter (fun j => Nat.eqb d (j mod B)) (seq a c)) = if (a mod B <=? d) && (d <? a mod B + c) then 1 else 0).
  { induction c as [|c IH]; intros a Lc.
    - cbn [seq filter length]. destruct (Nat.leb_spec (a mod B) d); [|reflexivity]. destruct (Nat.ltb_spec d (a mod B + 0)); [lia|reflexivity].
    - cbn [seq filter]. destruct c as [|c].
      + cbn [seq filter]. destruct (Nat.eqb_spec d (a mod B)) as [Ed|Nd]; cbn [length].
        * rewrite (proj2 (Nat.leb_le _ _)), (proj2 (Nat.ltb_lt _ _)) by lia. reflexivity.
        * destruct (Nat.leb_spec (a mod B) d); [|reflexivity]. destruct (Nat.ltb_spec d (a mod B + 1)); [lia|reflexivity].
      + assert (SM : (S a) mod B = S (a mod B)).
        { symmetry. apply (Nat.mod_unique (S a) B (a / B)); [lia|]. pose proof (Nat.div_mod a B ltac:(lia)). lia. }
        specialize (IH (S a)). rewrite SM in IH. specialize (IH ltac:(lia)). destruct (Nat.eqb_spec d (a mod B)) as [Ed|Nd]; cbn [length]; rewrite IH.
        * destruct (Nat.leb_spec (S (a mod B)) d); [lia|]. destruct (Nat.leb_spec (a mod B) d); [|lia]. destruct (Nat.ltb_spec d (a mod B + S (S c))); [reflexivity|lia].
        * destruct (Nat.leb_spec (a mod B) d) as [X|X]; destruct (Nat.leb_spec (S (a mod B)) d) as [Y|Y]; try lia; [|reflexivity].
          cbn [andb]. f_equal. destruct (Nat.ltb_spec d (S (a mod B) + S c)), (Nat.ltb_spec d (a mod B + S (S c))); try reflexivity; lia. }
  pose proof (Nat.mod_upper_bound k B ltac:(lia)) as KB. set (m := k mod B) in *.
  replace (seq k B) with (seq k (B - m) ++ seq (k + (B - m)) m)%list by (rewrite <- seq_app; f_equal; lia).
  rewrite filter_app, app_length, Q by (fold m; lia). fold m.
  assert (Z : (k + (B - m)) mod B = 0).
  { symmetry. apply (Nat.mod_unique _ B (S (k / B))); [lia|]. pose proof (Nat.div_mod k B ltac:(lia)). fold m in H. nia. }
  rewrite Q by (rewrite Z; lia). rewrite Z. cbn [Nat.leb andb]. rewrite Nat.add_0_l.
  destruct (Nat.leb_spec m d); destruct (Nat.ltb_spec d (m + (B - m))); destruct (Nat.ltb_spec d m); cbn; lia.
Qed.

(** *** Positions *)
Definition pnum (pos : option Z) : Z := match pos with None => 0%Z | Some m => m end.
Definition pos_at (n : nat) (ts : option nat) (k : nat) (pos : option Z) : Prop :=
  match ts with None => True | Some t => pnum pos = Z.of_nat ((k mod blocks n t) * t) end.

Lemma window_scan keys ts k pos : not_negative ts -> 0 < length keys -> pos_at (length keys) (at_a_time ts) k pos ->
  exists pos', window keys ts pos = (map (fun i => nth i keys EmptyString) (scan (length keys) (at_a_time ts) k), pos') /\
    pos_at (length keys) (at_a_time ts) (S k) pos'.
Proof.
  intros NN N P.
  assert (AL : map (fun i => nth i keys EmptyString) (seq 0 (length keys)) = keys) by (rewrite map_nth_seq by lia; apply firstn_all).
  destruct ts as [t|]; [|exists pos; cbn [window at_a_time scan]; rewrite AL; split; [reflexivity|exact I]].
  specialize (NN t eq_refl). destruct t as [|p|p]; [exists pos; cbn [window at_a_time scan]; rewrite AL; split; [reflexivity|exact I]| |lia].
  cbn [at_a_time pos_at scan] in *. set (n := length keys) in *. set (t := Z.to_nat (Z.pos p)) in *.
  assert (ET : Z.pos p = Z.of_nat t) by (unfold t; lia). assert (T : 0 < t) by lia. rewrite ET.
  destruct (blocks_bound n t T N) as (B0 & B1 & B2). destruct (block_seq n t k T N) as [EB A]. set (a := (k mod blocks n t) * t) in *.
  unfold window. rewrite (proj2 (Z.eqb_neq _ _)) by lia. fold (pnum pos). rewrite P. fold n.
  rewrite <- Nat2Z.inj_add, py_slice_nat. replace (a + t - a) with t by lia.
  assert (EK : firstn t (skipn a keys) = map (fun i => nth i keys EmptyString) (block n t k)).
  { rewrite EB, map_nth_seq by (fold n; lia). destruct (Nat.le_gt_cases t (n - a)).
    - rewrite Nat.min_l by lia. reflexivity.
    - rewrite Nat.min_r by lia. rewrite !firstn_all2; rewrite ?skipn_length; fold n; try lia. reflexivity. }
  rewrite EK. eexists. split; [reflexivity|]. cbn [pnum].
  pose proof (Nat.mod_upper_bound k (blocks n t) ltac:(lia)) as KB. set (m := k mod blocks n t) in *.
  destruct (Nat.eq_dec (S m) (blocks n t)) as [E|E].
  - assert (Z : S k mod blocks n t = 0).
    { symmetry. apply (Nat.mod_unique _ (blocks n t) (S (k / blocks n t))); [lia|]. pose proof (Nat.div_mod k (blocks n t) ltac:(lia)) as D. fold m in D. nia. }
    rewrite Z. assert (n <= a + t) by (unfold a; rewrite <- E in B2; lia). rewrite (proj2 (Z.geb_le _ _)) by lia. reflexivity.
  - assert (Z : S k mod blocks n t = S m).
    { symmetry. apply (Nat.mod_unique _ (blocks n t) (k / blocks n t)); [lia|]. pose proof (Nat.div_mod k (blocks n t) ltac:(lia)) as D. fold m in D. lia. }
    rewrite Z. assert (a + t < n) by (unfold a; nia). destruct (Z.geb_spec (Z.of_nat (a + t)) (Z.of_nat n)); [lia|]. f_equal. unfold a. lia.
Qed.

Lemma scan_bound n ts k i : not_negative ts -> In i (scan n (at_a_time ts) k) -> i < n.
Proof.
  intros NN. unfold scan. destruct (at_a_time ts); [unfold block; rewrite filter_In|]; rewrite in_seq; lia.
Qed.

(** Negative tsteps. *)
Definition neg_at (t : Z) (k : nat) (pos : option Z) : Prop := pnum pos = (Z.of_nat k * t)%Z.

Lemma window_negative keys t k pos : (t < 0)%Z -> neg_at t k pos ->
  exists pos', window keys (Some t) pos = (map (fun i => nth i keys EmptyString) (first_only (length keys) t k), pos') /\ neg_at t (S k) pos'.
Proof.
  intros T P. unfold window. rewrite (proj2 (Z.eqb_neq _ _)) by lia. fold (pnum pos). rewrite P.
  assert (G : (Z.of_nat k * t + t <? 0)%Z = true) by (apply Z.ltb_lt; nia).
  assert (LT : (Z.of_nat k * t + t >= Z.of_nat (length keys))%Z -> False) by nia.
  destruct (Z.geb_spec (Z.of_nat k * t + t) (Z.of_nat (length keys))) as [X|X]; [exfalso; apply LT; lia|].
  exists (Some (Z.of_nat k * t + t)%Z). split; [|unfold neg_at; cbn [pnum]; lia]. f_equal. unfold py_slice. rewrite G.
  destruct k as [|k].
  - cbn [Z.of_nat Z.mul Z.ltb Z.compare first_only]. rewrite map_nth_seq by lia. cbn [skipn]. rewrite Z.max_id.
    replace (Z.to_nat (Z.min (Z.of_nat (length keys)) 0)) with 0 by lia. cbn [skipn]. f_equal. lia.
  - rewrite (proj2 (Z.ltb_lt (Z.of_nat (S k) * t) 0)) by nia. cbn [first_only map].
    replace (Z.to_nat (Z.min (Z.of_nat (length keys)) (Z.max 0 (Z.of_nat (S k) * t + t + Z.of_nat (length keys))) -
                       Z.min (Z.of_nat (length keys)) (Z.max 0 (Z.of_nat (S k) * t + Z.of_nat (length keys))))) with 0 by lia. reflexivity.
Qed.

(** *** Draws *)
Lemma put_length i y x : length (put i y x) = length x.
Proof. revert i. induction x as [|z x IH]; intros [|i]; cbn; auto. Qed.

Lemma put_nth i y x j d : nth j (put i y x) d = if (j =? i) && (i <? length x) then y else nth j x d.
Proof.
  revert i j. induction x as [|z x IH]; intros [|i] [|j]; cbn [put nth]; try reflexivity.
  - cbn. destruct (j =? i); reflexivity.
  - rewrite IH. reflexivity.
Qed.

Lemma od_set_put (names : list string) : NoDup names -> forall x i k y, length x = length names -> nth_error names i = Some k ->
  od_set (combine names (map (@PF R) x)) k (PF y) = combine names (map PF (put i y x)).
Proof.
  induction names as [|a names IH]; intros ND x i k y L I; [destruct i; discriminate|].
  destruct x as [|z x]; [discriminate|]. inversion ND as [|a' l' NI ND']; subst. destruct i as [|i].
  - injection I as <-. cbn [map combine put od_set]. unfold od_set. cbn [od_set]. rewrite String.eqb_refl. reflexivity.
  - cbn in I. cbn [map combine put]. cbn [od_set]. destruct (String.eqb_spec k a) as [->|N]; [exfalso; apply NI; eapply nth_error_In; exact I|].
    f_equal. apply IH; auto.
Qed.

Lemma drawn_length c u ks : forall x, length (drawn_in_turn c u ks x) = length x.
Proof. induction ks as [|i ks IH]; intros x; [reflexivity|]. cbn. rewrite IH. apply put_length. Qed.

Lemma fold_draws names c f (r : grnd R) : NoDup names -> draws names c f -> forall ks x, length x = length names -> (forall i, In i ks -> i < length names) ->
  fold_res (fun (vals : odict (pyval R)) k => let! y := f vals k (gr_draw r k) in Ok (od_set vals k y)) (map (fun i => nth i names EmptyString) ks) (combine names (map PF x))
  = Ok (combine names (map PF (drawn_in_turn c (fun i => gr_draw r (nth i names EmptyString)) ks x))).
Proof.
  intros ND D. induction ks as [|i ks IH]; intros x L B; [reflexivity|]. cbn [map fold_res drawn_in_turn].
  assert (I : nth_error names i = Some (nth i names EmptyString)) by (apply nth_error_nth', B; left; reflexivity).
  rewrite (D x i _ _ L I). cbn [bind]. rewrite (od_set_put names ND x i _ _ L I). apply IH; [rewrite put_length; exact L|intros j J; apply B; right; exact J].
Qed.

Lemma drawn_keeps c u ks j : ~ In j ks -> forall x d, nth j (drawn_in_turn c u ks x) d = nth j x d.
Proof.
  induction ks as [|i ks IH]; intros NI x d; [reflexivity|]. cbn. rewrite IH by (intros C; apply NI; right; exact C).
  rewrite put_nth. destruct (Nat.eqb_spec j i) as [->|N]; [exfalso; apply NI; left; reflexivity|reflexivity].
Qed.
