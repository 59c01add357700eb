(** Lemmas about quantiles. *)
From Coq Require Import Ascii String ZArith Reals Lra Bool Arith Lia Permutation List.
From Verif Require Import Base Num Tensor TensorBcast OdLemmas TensorLemmas RNumLemmas PScales
  PScales_Spec PScales_Proofs PScales_Prod Names Names_Spec Names_Proofs Distr PDModel PDUtils PD_Spec PD_Make PD_Sums
  PD_Valid PD_Marg PD_Remarg_Spec PD_Remarg PD_ExpectThm PDQuantile PD_Quantile_Spec.
Import ListNotations.
Local Open Scope R_scope.

(** *** cells *)

Lemma number_prod sz (L : list string) : number (map (fun k => (k, sz k)) L) = prod_list (map sz L).
Proof. induction L as [|k L IH]; [reflexivity|]. cbn [map number]. rewrite IH. reflexivity. Qed.

Lemma nth_cell_unravel sz (L : list string) : NoDup L -> forall r,
  map (nth_cell (map (fun k => (k, sz k)) L) r) L = unravel (map sz L) r.
Proof.
  induction L as [|k L IH]; intros ND r; [reflexivity|]. inversion ND as [|? ? N1 N2]; subst.
  cbn [map nth_cell unravel]. rewrite upd_same. rewrite (number_prod sz L). f_equal. rewrite <- (IH N2).
  apply map_ext_in. intros x X. apply upd_other. intros C. subst x. contradiction.
Qed.

Lemma cumsum_from_nth (s : R) l i : (i < length l)%nat -> nth i (cumsum_from s l) 0 = s + sum_n (S i) (fun j => nth j l 0).
Proof.
  revert s i. induction l as [|x l IH]; intros s i H; [cbn in H; lia|]. destruct i as [|i].
  - cbn. lra.
  - cbn [cumsum_from nth]. rewrite IH by (cbn in H; lia). rn.
    assert (E : forall n, sum_n (S n) (fun j => nth j (x :: l) 0) = x + sum_n n (fun j => nth j l 0)).
    { induction n as [|n IHn]; [cbn; lra|]. cbn [sum_n] in *. cbn [nth] in *. rewrite IHn. lra. }
    transitivity (s + (x + sum_n (S i) (fun j => nth j l 0))); [cbn [sum_n]; lra|]. f_equal. symmetry. apply (E (S i)).
Qed.

Lemma cumsum_from_length (s : R) l : length (cumsum_from s l) = length l.
Proof. revert s. induction l as [|x l IH]; intros s; cbn; [reflexivity|rewrite IH; reflexivity]. Qed.

Lemma cumsum_length (l : list R) : length (cumsum l) = length l.
Proof. destruct l as [|x l]; cbn; [reflexivity|]. rewrite cumsum_from_length. reflexivity. Qed.

Lemma cumsum_nth (l : list R) i : (i < length l)%nat -> nth i (cumsum l) 0 = sum_n (S i) (fun j => nth j l 0).
Proof.
  intros H. assert (E : cumsum l = cumsum_from 0 l).
  { destruct l as [|x l]; cbn; [reflexivity|]. rn. replace (0 + x) with x by lra. reflexivity. }
  rewrite E, cumsum_from_nth by exact H. lra.
Qed.

Lemma last_nth (l : list R) : last l 0 = nth (length l - 1) l 0.
Proof.
  induction l as [|x [|y l] IH]; [reflexivity|reflexivity|]. change (last (x :: y :: l) 0) with (last (y :: l) 0).
  rewrite IH. cbn [length]. replace (S (S (length l)) - 1)%nat with (S (S (length l) - 1)) by lia. reflexivity.
Qed.

Lemma of_list_to_list (l : list R) : to_list (of_list 0 l) = l.
Proof.
  apply nth_ext with (d := 0) (d' := 0).
  - rewrite to_list_length. cbn. lia.
  - intros i H. rewrite to_list_length in H. rewrite to_list_nth by exact H. cbn in *.
    f_equal. pose proof (Nat.div_1_r i) as D. cbn in D. exact D.
Qed.

(** *** sorted columns *)

Lemma flags_nth (l : list R) : length (ge_flags l) = (length l - 1)%nat /\
  forall i, (S i < length l)%nat -> nth i (ge_flags l) true = n_leb (nth i l 0) (nth (S i) l 0).
Proof.
  induction l as [|x [|y l] [IH1 IH2]]; [split; [reflexivity|cbn; lia]|split; [reflexivity|cbn; lia]|].
  change (ge_flags (x :: y :: l)) with (n_leb x y :: ge_flags (y :: l)). split.
  - cbn [length] in *. rewrite IH1. lia.
  - intros [|i] H; [reflexivity|]. cbn [nth]. apply IH2. cbn [length] in *. lia.
Qed.

Lemma ismonotonic_iff (a : tensor R) : shape a <> [] -> (ismonotonic (VArr a) = true <-> sorted_column (to_list a)).
Proof.
  intros NE. unfold ismonotonic. rewrite arr_not_singleton by exact NE. cbn [raveled_value].
  destruct (flags_nth (to_list a)) as [Ln Nt]. set (l := to_list a) in *. unfold sorted_column.
  destruct (ge_flags l) as [|b fl] eqn:E.
  { cbn in Ln. split; [discriminate|]. intros [H _]. lia. }
  assert (N : forall i, (S i < length l)%nat -> nth i (b :: fl) true = n_leb (nth i l 0) (nth (S i) l 0)) by exact Nt.
  rewrite forallb_forall. cbn [length] in Ln.
  assert (AL : (forall x, In x fl -> Bool.eqb b x = true) <-> forall i, (S i < length l)%nat -> nth i (b :: fl) true = b).
  { split.
    - intros H [|i] Hi; [reflexivity|]. cbn [nth]. symmetry. apply eqb_prop, H, nth_In. lia.
    - intros H x X. destruct (In_nth _ _ true X) as (i & Hi & <-). specialize (H (S i) ltac:(lia)). cbn [nth] in H. rewrite H.
      destruct b; reflexivity. }
  rewrite AL. split.
  - intros H. split; [lia|]. destruct b.
    + left. apply nondecr_iff. clear -H N. revert H N. generalize (true :: fl) as f. intros f H N.
      assert (G : forall i, (S i < length l)%nat -> nth i l 0 <= nth (S i) l 0).
      { intros i Hi. apply Rleb_iff. rewrite <- (H i Hi). symmetry. apply (N i Hi). }
      apply nondecr_iff. intros i j. induction j as [|j IH]; intros Hij; [lia|].
      destruct (Nat.eq_dec i j) as [->|NE]; [apply G; lia|]. apply Rle_trans with (nth j l 0); [apply IH; lia|apply G; lia].
    + right. assert (G : forall i, (S i < length l)%nat -> nth (S i) l 0 < nth i l 0).
      { intros i Hi. specialize (H i Hi). rewrite (N i Hi) in H. apply Rleb_false_iff in H. exact H. }
      intros i j. induction j as [|j IH]; intros Hij; [lia|].
      destruct (Nat.eq_dec i j) as [->|NE']; [apply G; lia|]. apply Rlt_trans with (nth j l 0); [apply G; lia|apply IH; lia].
  - intros [H1 [H|H]] i Hi.
    + rewrite (N i Hi). specialize (N 0%nat H1). cbn [nth] in N. rewrite N.
      transitivity true; [|symmetry]; apply Rleb_iff; apply H; lia.
    + rewrite (N i Hi). specialize (N 0%nat H1). cbn [nth] in N. rewrite N.
      transitivity false; [|symmetry]; apply Rleb_false_iff; apply H; lia.
Qed.

(** *** the following cell *)

Lemma number_app ks k n : number (ks ++ [(k, n)]) = (number ks * n)%nat.
Proof. induction ks as [|[k' n'] ks IH]; cbn [number app]; [lia|]. rewrite IH. lia. Qed.

Lemma nth_cell_last ks k n r : ~ In k (map fst ks) -> (r < number (ks ++ [(k, n)]))%nat ->
  nth_cell (ks ++ [(k, n)]) r k = (r mod n)%nat.
Proof.
  revert r. induction ks as [|[k' n'] ks IH]; intros r NI H.
  - cbn in *. rewrite upd_same. rewrite Nat.mod_small by lia. pose proof (Nat.div_1_r r) as D. cbn in D. exact D.
  - cbn [app nth_cell]. cbn [map fst] in NI. rewrite upd_other by (intros C; apply NI; left; symmetry; exact C).
    cbn [app number] in H. assert (Z : (number (ks ++ [(k, n)]) <> 0)%nat) by (intros C; rewrite C in H; lia).
    rewrite IH; [|intros C; apply NI; right; exact C|apply Nat.mod_upper_bound, Z].
    rewrite number_app in *. assert (n <> 0)%nat by (intros C; subst n; lia). assert (number ks <> 0)%nat by (intros C; rewrite C in Z; lia).
    rewrite Nat.mul_comm, Nat.mod_mul_r by lia. rewrite Nat.mul_comm, Nat.mod_add, Nat.mod_mod by lia. reflexivity.
Qed.

Lemma nth_cell_next ks k n r : ~ In k (map fst ks) -> (r < number (ks ++ [(k, n)]))%nat ->
  (S (nth_cell (ks ++ [(k, n)]) r k) < n)%nat ->
  (S r < number (ks ++ [(k, n)]))%nat /\
  forall x, nth_cell (ks ++ [(k, n)]) (S r) x = upd (nth_cell (ks ++ [(k, n)]) r) k (S (nth_cell (ks ++ [(k, n)]) r k)) x.
Proof.
  revert r. induction ks as [|[k' n'] ks IH]; intros r NI H SN.
  - cbn in *. rewrite upd_same in *. pose proof (Nat.div_1_r r) as D. pose proof (Nat.div_1_r (S r)) as D'. 
    change (r / 1)%nat with (fst (Nat.divmod r 0 0 0)) in D. change (S r / 1)%nat with (fst (Nat.divmod (S r) 0 0 0)) in D'.
    cbn in *. rewrite D in SN |- *. split; [lia|]. intros x. unfold upd. destruct (String.eqb x k); [exact D'|reflexivity].
  - cbn [app nth_cell number] in *. cbn [map fst] in NI. assert (KK : k <> k') by (intros C; apply NI; left; symmetry; exact C).
    assert (NI' : ~ In k (map fst ks)) by (intros C; apply NI; right; exact C).
    rewrite upd_other in SN |- * by exact KK. set (m := number (ks ++ [(k, n)])) in *.
    assert (Z : (m <> 0)%nat) by (intros C; rewrite C in H; lia).
    pose proof (Nat.mod_upper_bound r m Z) as UB. destruct (IH _ NI' UB SN) as [A B].
    pose proof (Nat.div_mod r m Z) as DM.
    assert (Q : (S r / m = r / m)%nat) by (symmetry; apply (Nat.div_unique (S r) m (r / m) (S (r mod m))); lia).
    assert (Mo : (S r mod m = S (r mod m))%nat) by (symmetry; apply (Nat.mod_unique (S r) m (r / m) (S (r mod m))); lia).
    split.
    + assert (r / m < n')%nat by (apply Nat.div_lt_upper_bound; lia). assert (m * S (r / m) <= m * n')%nat by (apply Nat.mul_le_mono_l; lia). lia.
    + intros x. rewrite Q, Mo. unfold upd at 1 2. destruct (String.eqb_spec x k') as [->|NE].
      * destruct (String.eqb_spec k' k) as [C|_]; [congruence|]. unfold upd. rewrite String.eqb_refl. reflexivity.
      * rewrite B. unfold upd. destruct (String.eqb_spec x k) as [->|]; [reflexivity|].
        destruct (String.eqb_spec x k') as [->|]; [congruence|reflexivity].
Qed.

Lemma quantile_cell_unique {F : Fmt R} (p : pd R) (L : list string) q r r' :
  (forall i, (i < cells p L)%nat -> 0 <= mass p L i) -> quantile_cell p L q r -> quantile_cell p L q r' -> r = r'.
Proof.
  intros PN (A1 & A2 & A3) (B1 & B2 & B3). destruct (Nat.lt_trichotomy r r') as [H|[H|H]]; [|exact H|].
  - specialize (A3 r' ltac:(lia)). destruct B2 as [B2|B2]; [lia|lra].
  - specialize (B3 r ltac:(lia)). destruct A2 as [A2|A2]; [lia|lra].
Qed.

Section Main.
Context {F : Fmt R}.
Variables (p : pd R) (L : list string).
Hypothesis V : valid_pd p L.
Hypothesis FS : fine_scale p.
Hypothesis NE : L <> [].
Hypothesis PN : forall b, in_bounds p L b -> 0 <= prob_at p L b.
Hypothesis LR : log_scaled p -> forall b, in_bounds p L b -> prob_at p L b <= npi.
Hypothesis TP : npz <= total p L.

Lemma sized_map ks : sized p ks = map (fun k => (k, size_of p k)) ks.
Proof. reflexivity. Qed.

Lemma cells_prod : cells p L = prod_list (map (size_of p) L).
Proof. apply (number_prod (size_of p) L). Qed.

Lemma cell_unravel r : map (cell p L r) L = unravel (map (size_of p) L) r.
Proof. apply (nth_cell_unravel (size_of p) L (vp_axes _ _ V)). Qed.

Lemma cell_in r : (r < cells p L)%nat -> in_bounds p L (cell p L r).
Proof.
  intros H k K. rewrite cells_prod in H. apply unravel_in_range in H. rewrite <- cell_unravel in H.
  apply pos_nth in K. set (j := pos k L) in *.
  pose proof (PD_Remarg.in_range_nth _ _ H j (size_of p k)) as A. rewrite nth_error_map, K in A. specialize (A eq_refl).
  rewrite (nth_indep _ 0%nat (cell p L r k)) in A by (rewrite map_length; apply nth_error_Some; congruence).
  rewrite map_nth in A. rewrite (nth_error_nth _ _ _ K) in A. exact A.
Qed.

Lemma mass_pos i : (i < cells p L)%nat -> 0 <= mass p L i.
Proof. intros H. apply PN, cell_in, H. Qed.

Lemma total_mass : total p L = sum_n (cells p L) (mass p L).
Proof.
  destruct (vp_prob_get p L V) as (t & E & _ & S).
  unfold total. rewrite (sum_over_in_range _ _ (fun b => (fun idx => denote (spec_of (p_pscale p)) (get t idx)) (map b L))).
  - unfold sized. rewrite (flat_sum (size_of p) (fun idx => denote (spec_of (p_pscale p)) (get t idx)) L (vp_axes _ _ V)).
    rewrite cells_prod. apply sum_n_ext. intros i _. unfold mass, prob_at. rewrite E, cell_unravel. reflexivity.
  - unfold sized. rewrite map_map. cbn [fst]. rewrite map_id. apply (vp_axes _ _ V).
  - intros b _ _. unfold prob_at. rewrite E. reflexivity.
Qed.

Lemma cells_pos : (0 < cells p L)%nat.
Proof.
  destruct (cells p L) as [|n] eqn:E; [|lia]. pose proof total_mass as H. rewrite E in H. cbn in H. pose proof npz_pos. lra.
Qed.

Lemma mass_to_le i j : (i <= j < cells p L)%nat -> mass_to p L i <= mass_to p L j.
Proof.
  induction j as [|j IH]; intros H; [replace i with 0%nat by lia; lra|].
  destruct (Nat.eq_dec i (S j)) as [->|N]; [lra|]. apply Rle_trans with (mass_to p L j); [apply IH; lia|].
  unfold mass_to. cbn [sum_n]. pose proof (mass_pos (S j) ltac:(lia)). lra.
Qed.

Lemma mass_to_total : mass_to p L (cells p L - 1) = total p L.
Proof. rewrite total_mass. unfold mass_to. pose proof cells_pos. replace (S (cells p L - 1)) with (cells p L) by lia. reflexivity. Qed.

(** The probabilities the code works with. *)
Lemma quantile_front : exists t rav cump,
  p_probR p = Ok t /\ rescale (traveled t) (spec_of (p_pscale p)) one_ps = Ok rav /\
  (length (to_list rav) = cells p L) /\ (forall i, (i < cells p L)%nat -> nth i (to_list rav) 0 = mass p L i) /\
  div_prob (of_list 0 (cumsum (to_list rav))) (tscalar (last (cumsum (to_list rav)) 0)) None PSNone = Ok cump /\
  (length (to_list cump) = cells p L) /\ (forall i, (i < cells p L)%nat -> nth i (to_list cump) 0 = mass_to p L i / total p L).
Proof.
  destruct (vp_prob_get p L V) as (t & E & E' & St).
  destruct (to_unit p L V FS (traveled t)) as (rav & R1 & R2 & R3). cbn [shape traveled] in R2.
  assert (Tt : tsize t = cells p L) by (unfold tsize; rewrite St; symmetry; apply cells_prod).
  assert (Lr : length (to_list rav) = cells p L).
  { rewrite to_list_length. unfold tsize. rewrite R2. cbn [prod_list fold_right]. lia. }
  assert (Nr : forall i, (i < cells p L)%nat -> nth i (to_list rav) 0 = mass p L i).
  { intros i Hi. rewrite to_list_nth by (unfold tsize; rewrite R2; cbn [prod_list fold_right]; lia). rewrite R2.
    assert (U : unravel [tsize t] i = [i]). { cbn [unravel]. f_equal. change (prod_list []) with 1%nat. apply Nat.div_1_r. }
    rewrite U. assert (M : denote (spec_of (p_pscale p)) (get (traveled t) [i]) = mass p L i).
    { unfold mass, prob_at. rewrite E. cbn [traveled get hd]. rewrite St, cell_unravel. reflexivity. }
    rewrite R3.
    - exact M.
    - intros LS. rewrite M. apply LR; [exact LS|]. apply cell_in, Hi. }
  set (cum := cumsum (to_list rav)).
  assert (Lc : length cum = cells p L) by (unfold cum; rewrite cumsum_length; exact Lr).
  assert (Nc : forall i, (i < cells p L)%nat -> nth i cum 0 = mass_to p L i).
  { intros i Hi. unfold cum. rewrite cumsum_nth by lia. apply sum_n_ext. intros j Hj. apply Nr. lia. }
  pose proof cells_pos as CP. pose proof npz_pos as ZP.
  assert (LT : last cum 0 = total p L) by (rewrite last_nth, Lc, Nc by lia; apply mass_to_total).
  assert (B : bcast_shape (shape (of_list 0 cum)) (shape (@tscalar R (last cum 0))) = Ok [length cum]).
  { cbn [of_list shape tscalar]. unfold bcast_shape, pad_shape. cbn -[Nat.eqb].
    destruct (length cum =? 1)%nat eqn:Z; [apply Nat.eqb_eq in Z; rewrite Z; reflexivity|reflexivity]. }
  destruct (div_prob_linear_total _ _ _ B) as (cump & D1 & D2 & D3).
  exists t, rav, cump. split; [exact E'|]. split; [exact R1|]. split; [exact Lr|]. split; [exact Nr|]. split; [exact D1|].
  assert (Tc : tsize cump = cells p L) by (unfold tsize; rewrite D2; cbn [prod_list fold_right]; lia).
  split; [rewrite to_list_length; exact Tc|].
  intros i Hi. rewrite to_list_nth by lia. rewrite D2.
  assert (U : unravel [length cum] i = [i]). { cbn [unravel]. f_equal. change (prod_list []) with 1%nat. apply Nat.div_1_r. }
  rewrite U. destruct (D3 [i]) as [G _]; [constructor; [lia|constructor]|]. rewrite G.
  rewrite bcast_idx_id by (constructor; [cbn; lia|constructor]). cbn [tscalar get of_list hd]. rewrite LT.
  rewrite Rmax_right by exact TP. f_equal. apply Nc, Hi.
Qed.

Lemma last_axis_pos k : In k L -> (last_axis L k <-> S (pos k L) = length L).
Proof.
  intros K. split.
  - intros (L' & E). rewrite E, pos_app, app_length. cbn [length pos]. rewrite String.eqb_refl.
    destruct (mem_str k L') eqn:M; [|lia]. apply mem_str_iff in M. exfalso.
    pose proof (vp_axes _ _ V) as ND. rewrite E in ND. apply nodup_app_iff in ND. destruct ND as (_ & _ & ND).
    apply (ND k M). left. reflexivity.
  - intros H. exists (firstn (pos k L) L). pose proof (pos_nth k L K) as N.
    assert (G : forall (l : list string) i, nth_error l i = Some k -> S i = length l -> l = (firstn i l ++ [k])%list).
    { induction l as [|x l IH]; intros [|i] E1 E2; try discriminate; cbn in *.
      - destruct l; [congruence|discriminate].
      - f_equal. apply IH; [exact E1|lia]. }
    apply G; assumption.
Qed.

Lemma sized_last k L' : L = (L' ++ [k])%list -> sized p L = (sized p L' ++ [(k, size_of p k)])%list /\ ~ In k (map fst (sized p L')).
Proof.
  intros E. rewrite E at 1. unfold sized. rewrite map_app. split; [reflexivity|]. rewrite map_map. cbn [fst]. rewrite map_id.
  pose proof (vp_axes _ _ V) as ND. rewrite E in ND. apply nodup_app_iff in ND. destruct ND as (_ & _ & ND).
  intros C. apply (ND k C). left. reflexivity.
Qed.

Lemma next_cell k r : last_axis L k -> (r < cells p L)%nat -> (S (cell p L r k) < size_of p k)%nat ->
  (S r < cells p L)%nat /\ forall x, cell p L (S r) x = upd (cell p L r) k (S (cell p L r k)) x.
Proof.
  intros (L' & E) H SN. destruct (sized_last k L' E) as [Z NI]. unfold cells, cell in *. rewrite Z in *.
  apply nth_cell_next; assumption.
Qed.

(** The column of variable k. *)
Lemma column_of k v : In k L -> od_get (p_vals p) k = Some v -> exists a, v = VArr a /\ shape a <> [] /\
  variable p k = Some (Col (to_list a)) /\ length (to_list a) = size_of p k.
Proof.
  intros K G. destruct (vp_axis p L V k K) as (a & G' & Sh & Ts & _). exists a. assert (v = VArr a) by congruence. subst v.
  split; [reflexivity|]. assert (N : shape a <> []) by (rewrite Sh; destruct (pos k L); discriminate).
  split; [exact N|]. unfold variable. rewrite G. cbn [var_of]. destruct (shape a); [congruence|].
  split; [reflexivity|]. rewrite to_list_length. exact Ts.
Qed.

Lemma value_is q r k v (ravprob cumprob : list R) : 0 < q -> In k L -> od_get (p_vals p) k = Some v ->
  (forall i, (i < cells p L)%nat -> nth i ravprob 0 = mass p L i) ->
  (forall i, (i < cells p L)%nat -> nth i cumprob 0 = mass_to p L i / total p L) ->
  quantile_cell p L q r ->
  exists l x, variable p k = Some (Col l) /\
    quantile_value p ravprob cumprob q r (unravel (p_shape p) r) k v = Ok x /\
    (sorted_column l -> exists y, x = VNum y /\ quantile_is p L q r k l y) /\
    (~ sorted_column l -> x = VSet [SEint (Z.of_nat (length l))]).
Proof.
  intros Q0 K G Nr Nc QC. destruct (column_of k v K G) as (a & -> & SA & Vk & La).
  exists (to_list a). unfold quantile_value. pose proof (ismonotonic_iff a SA) as MI.
  destruct (ismonotonic (VArr a)) eqn:M; cbn [negb].
  2:{ eexists. split; [exact Vk|]. split; [reflexivity|]. split; [intros C; apply MI in C; discriminate|]. intros _. reflexivity. }
  assert (SC : sorted_column (to_list a)) by (apply MI; reflexivity). clear MI.
  assert (KL : In k (p_keylist p)) by (apply (vp_incl _ _ V), K).
  rewrite (vp_dim p L V k KL). apply mem_str_iff in K as KM. rewrite KM. cbn [bind raveled_value].
  pose proof QC as (Q1 & Q2 & Q3). rewrite (vp_shape_sizes p L V). pose proof (pos_lt k L K) as PL.
  unfold py_indexR, py_index.
  assert (U : length (unravel (map (size_of p) L) r) = length L) by (rewrite <- cell_unravel, map_length; reflexivity).
  rewrite U. replace (0 <=? Z.of_nat (pos k L))%Z with true by (symmetry; apply Z.leb_le; lia).
  replace (Z.of_nat (pos k L) <? Z.of_nat (length L))%Z with true by (symmetry; apply Z.ltb_lt; lia).
  cbn [bind]. rewrite Nat2Z.id.
  assert (CU : nth (pos k L) (unravel (map (size_of p) L) r) 0%nat = cell p L r k).
  { rewrite <- cell_unravel. rewrite (nth_indep _ 0%nat (cell p L r k)) by (rewrite map_length; exact PL).
    rewrite map_nth. f_equal. apply nth_error_nth. apply pos_nth, K. }
  rewrite CU. pose proof (cell_in r Q1 k K) as CB. rewrite La. rewrite Nat.min_l by lia.
  assert (PN' : p_ndim p = length L) by (unfold p_ndim; rewrite (vp_ndim _ _ V); reflexivity). rewrite PN'.
  set (i := cell p L r k) in *.
  destruct ((Z.of_nat (pos k L) <? Z.of_nat (length L) - 1)%Z || (i =? size_of p k - 1)) eqn:B.
  - eexists. split; [exact Vk|]. split; [reflexivity|]. split; [|contradiction]. intros _. eexists. split; [reflexivity|].
    unfold quantile_is. fold i. split; [intros _; reflexivity|]. intros LA HS. exfalso.
    apply (last_axis_pos k K) in LA. apply orb_true_iff in B. destruct B as [B|B]; [apply Z.ltb_lt in B; lia|apply Nat.eqb_eq in B; lia].
  - apply orb_false_iff in B. destruct B as [B1 B2]. apply Z.ltb_ge in B1. apply Nat.eqb_neq in B2.
    assert (LA : last_axis L k) by (apply (last_axis_pos k K); lia).
    destruct (next_cell k r LA Q1) as [SR _]; [fold i; lia|].
    rn. rewrite n_abs_R, n_min_R. rewrite (Nr r Q1), (Nr (S r) SR), (Nc r Q1), (Nc (S r) SR).
    pose proof npz_pos as ZP. assert (TT : 0 < total p L) by lra.
    destruct (n_ltb (Rabs (mass p L (S r) - mass p L r)) (Rmin q (1 - q))) eqn:D.
    + apply n_ltb_R in D. eexists. split; [exact Vk|]. split; [reflexivity|]. split; [|contradiction]. intros _.
      eexists. split; [reflexivity|]. unfold quantile_is. fold i. split; [intros [C|C]; [contradiction|lia]|].
      intros _ HS. split; [|intros C; lra]. intros _. unfold interp2.
      pose proof (Q3 (S r) ltac:(lia)) as QS.
      assert (I1 : q < mass_to p L r / total p L <-> q * total p L < mass_to p L r).
      { split; intros H.
        - apply Rmult_lt_compat_r with (r := total p L) in H; [|exact TT]. unfold Rdiv in H. rewrite Rmult_assoc, Rinv_l in H by lra. lra.
        - apply Rmult_lt_reg_r with (total p L); [exact TT|]. unfold Rdiv. rewrite Rmult_assoc, Rinv_l by lra. lra. }
      destruct (n_ltb q (mass_to p L r / total p L)) eqn:A.
      { apply n_ltb_R in A. apply I1 in A. split; [intros _; reflexivity|intros C; lra]. }
      assert (A' : ~ q < mass_to p L r / total p L) by (intros C; apply n_ltb_R in C; congruence).
      assert (A2 : mass_to p L r <= q * total p L) by (apply Rnot_lt_le; intros C; apply A', I1, C).
      split; [intros C; lra|]. intros _.
      assert (MS : mass_to p L (S r) = mass_to p L r + mass p L (S r)) by reflexivity.
      destruct (n_leb (mass_to p L (S r) / total p L) q) eqn:A3.
      { exfalso. change (Rleb (mass_to p L (S r) / total p L) q = true) in A3. apply Rleb_iff in A3.
        apply Rmult_le_compat_r with (r := total p L) in A3; [|lra]. unfold Rdiv in A3. rewrite Rmult_assoc, Rinv_l in A3 by lra. lra. }
      rn. rewrite MS in *. field. lra.
    + assert (D' : Rmin q (1 - q) <= Rabs (mass p L (S r) - mass p L r)).
      { apply Rnot_lt_le. intros C. apply n_ltb_R in C. congruence. }
      eexists. split; [exact Vk|]. split; [reflexivity|]. split; [|contradiction]. intros _.
      eexists. split; [reflexivity|]. unfold quantile_is. fold i. split; [intros [C|C]; [contradiction|lia]|].
      intros _ HS. split; [intros C; lra|]. intros _. rn. reflexivity.
Qed.

Lemma quantile_ok qs : Forall (fun q => 0 < q) qs ->
  exists ds, quantile p qs = Ok ds /\ Forall2 (fun q d => exists r, quantile_cell p L q r /\ quantile_dict p L q r d) qs ds.
Proof.
  intros QP. unfold quantile.
  assert (IS : p_issing p = Some false).
  { unfold p_issing. rewrite (vp_issing _ _ V). f_equal. destruct L as [|k L'] eqn:EL; [congruence|]. rewrite <- EL in *.
    assert (K : In k L) by (rewrite EL; left; reflexivity). destruct (vp_get p k (vp_incl _ _ V k K)) as (v & G).
    apply (vp_sing_false p L V k v G) in K. destruct (forallb _ _) eqn:E; [|reflexivity].
    rewrite forallb_forall in E. specialize (E _ (od_get_in _ _ G)). cbn in E. congruence. }
  rewrite IS. destruct quantile_front as (t & rav & cump & E1 & E2 & Lr & Nr & E3 & Lc & Nc).
  rewrite E1. cbn [bind]. rewrite E2. cbn [bind]. rn. rewrite E3. cbn [bind].
  pose proof cells_pos as CP. pose proof npz_pos as ZP. assert (TT : 0 < total p L) by lra.
  assert (AS : nondecr (to_list cump) = true).
  { apply nondecr_iff. intros i j H. rewrite !Nc by lia. apply Rmult_le_compat_r; [left; apply Rinv_0_lt_compat, TT|].
    apply mass_to_le. lia. }
  induction QP as [|q qs Q0 QP IH]; [exists []; split; [reflexivity|constructor]|].
  destruct IH as (ds & ED & FD). cbn [map_res]. unfold digitize at 1. rewrite AS. cbn [bind].
  set (f := fun b : R => n_leb b q). set (kk := count f (to_list cump)).
  destruct (count_prefix f (to_list cump)) as [C1 C2].
  { intros i j H Fj. unfold f in *. apply Rleb_iff. apply Rleb_iff in Fj. apply nondecr_iff in AS. specialize (AS i j H). lra. }
  fold kk in C1, C2. rewrite Lc in C1, C2.
  assert (I : forall i, (i < cells p L)%nat -> (mass_to p L i <= q * total p L <-> (i < kk)%nat)).
  { intros i Hi. rewrite <- (C2 i Hi). unfold f. change (n_leb (nth i (to_list cump) 0) q) with (Rleb (nth i (to_list cump) 0) q).
    rewrite Rleb_iff, Nc by exact Hi. split; intros H.
    - apply Rmult_le_reg_r with (total p L); [exact TT|]. unfold Rdiv. rewrite Rmult_assoc, Rinv_l by lra. lra.
    - apply Rmult_le_compat_r with (r := total p L) in H; [|lra]. unfold Rdiv in H. rewrite Rmult_assoc, Rinv_l in H by lra. lra. }
  assert (QC : quantile_cell p L q (kk - 1)).
  { split; [lia|]. split.
    - destruct kk as [|k0] eqn:Ek; [left; reflexivity|right]. apply I; lia.
    - intros i Hi. apply Rnot_le_lt. intros C. apply I in C; lia. }
  set (r := (kk - 1)%nat) in *.
  assert (VI : Forall (fun it => exists x, (let '(key, v, sing) := it in
                            let! x := if (sing : bool) then Ok v
                                      else quantile_value p (to_list rav) (to_list cump) q r (unravel (p_shape p) r) key v in
                            Ok (key, x)) = Ok (fst (fst it), x) /\
                 (~ In (fst (fst it)) L -> x = snd (fst it)) /\
                 (In (fst (fst it)) L -> forall l, variable p (fst (fst it)) = Some (Col l) ->
                    (sorted_column l -> exists y, x = VNum y /\ quantile_is p L q r (fst (fst it)) l y) /\
                    (~ sorted_column l -> x = VSet [SEint (Z.of_nat (length l))]))) (p_items p)).
  { apply Forall_forall. intros [[k v] s] Hin. destruct (vp_in_items p L V k v s Hin) as (G & -> & KL). cbn [fst snd].
    destruct (mem_str k L) eqn:M; cbn [negb].
    - apply mem_str_iff in M. destruct (value_is q r k v _ _ Q0 M G Nr Nc QC) as (l & x & X1 & X2 & X3 & X4). exists x.
      rewrite X2. cbn [bind]. split; [reflexivity|]. split; [contradiction|]. intros _ l' Vl. assert (l' = l) by congruence. subst l'. auto.
    - apply mem_str_false in M. exists v. split; [reflexivity|]. split; [reflexivity|contradiction]. }
  assert (EX : exists d, map_res (fun it : string * value R * bool => let '(key, v, sing) := it in
                            let! x := if (sing : bool) then Ok v
                                      else quantile_value p (to_list rav) (to_list cump) q r (unravel (p_shape p) r) key v in
                            Ok (key, x)) (p_items p) = Ok d /\ Forall2 (fun it kx => 
                 fst kx = fst (fst it) /\ (~ In (fst (fst it)) L -> snd kx = snd (fst it)) /\
                 (In (fst (fst it)) L -> forall l, variable p (fst (fst it)) = Some (Col l) ->
                    (sorted_column l -> exists y, snd kx = VNum y /\ quantile_is p L q r (fst (fst it)) l y) /\
                    (~ sorted_column l -> snd kx = VSet [SEint (Z.of_nat (length l))]))) (p_items p) d).
  { clear -VI. induction VI as [|it its (x & X1 & X2) VI (d & D1 & D2)]; [exists []; split; [reflexivity|constructor]|].
    exists ((fst (fst it), x) :: d). split; [|constructor; [split; [reflexivity|exact X2]|exact D2]].
    cbn [map_res]. rewrite X1. cbn [bind]. rewrite D1. reflexivity. }
  destruct EX as (d & D1 & D2). exists (d :: ds). rewrite D1. cbn [bind]. rewrite ED. split; [reflexivity|].
  constructor; [|exact FD]. exists r. split; [exact QC|].
  rewrite (vp_items p L V) in D2.
  assert (KD : od_keys d = p_keylist p).
  { unfold p_keylist, d_keylist, od_keys. change (d_vals (p_d p)) with (p_vals p). clear -D2. revert D2. generalize (p_vals p) as m. intros m D2.
    remember (map (fun kv : string * value R => (kv, issingleton (snd kv))) m) as m'. revert m Heqm'.
    induction D2 as [|it kx its d (X1 & _) D2 IH]; intros m Em; destruct m as [|kv m]; try discriminate; [reflexivity|].
    cbn in Em. injection Em as -> Em. cbn [map]. rewrite X1. cbn [fst]. f_equal. apply IH, Em. }
  assert (GD : forall k v, od_get (p_vals p) k = Some v -> exists x, od_get d k = Some x /\ (~ In k L -> x = v) /\
     (In k L -> forall l, variable p k = Some (Col l) ->
                    (sorted_column l -> exists y, x = VNum y /\ quantile_is p L q r k l y) /\
                    (~ sorted_column l -> x = VSet [SEint (Z.of_nat (length l))]))).
  { intros k v G. apply od_get_in in G as I'.
    assert (I2 : In (k, v, issingleton v) (map (fun kv : string * value R => (kv, issingleton (snd kv))) (p_vals p))) by (apply in_map_iff; exists (k, v); auto).
    assert (H : exists kx, In kx d /\ fst kx = k /\ (~ In k L -> snd kx = v) /\
     (In k L -> forall l, variable p k = Some (Col l) ->
                    (sorted_column l -> exists y, snd kx = VNum y /\ quantile_is p L q r k l y) /\
                    (~ sorted_column l -> snd kx = VSet [SEint (Z.of_nat (length l))]))).
    { clear -D2 I2. induction D2 as [|it kx its d X D2 IH]; [destruct I2|]. destruct I2 as [->|I2].
      - exists kx. split; [left; reflexivity|exact X].
      - destruct (IH I2) as (kx' & A & B). exists kx'. split; [right; exact A|exact B]. }
    destruct H as ([k' x] & H1 & H2 & H3). cbn in H2. subst k'. exists x. split; [|exact H3].
    apply od_in_get; [rewrite KD; apply (vp_keys _ _ V)|exact H1]. }
  split; [exact KD|]. split; [|split].
  - intros k v Vk. destruct (scalar_notin p L k v V Vk) as [N G]. destruct (GD k v G) as (x & X1 & X2 & _). rewrite X1, (X2 N). reflexivity.
  - intros k l Vk SC. pose proof (column_in p L k l V Vk) as K. destruct (vp_get p k (vp_incl _ _ V k K)) as (v & G).
    destruct (GD k v G) as (x & X1 & _ & X2). destruct (X2 K l Vk) as [X3 _]. destruct (X3 SC) as (y & -> & Y). exists y. auto.
  - intros k l Vk SC. pose proof (column_in p L k l V Vk) as K. destruct (vp_get p k (vp_incl _ _ V k K)) as (v & G).
    destruct (GD k v G) as (x & X1 & _ & X2). destruct (X2 K l Vk) as [_ X3]. rewrite X1, (X3 SC). reflexivity.
Qed.
End Main.
