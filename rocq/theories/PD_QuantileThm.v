(** Property lemmas and examples about quantiles. *)
From Coq Require Import Ascii String ZArith Reals Lra Bool Arith Lia Permutation List.
From Verif Require Import Base Num Tensor TensorBcast OdLemmas TensorLemmas RNumLemmas PScales
  PScales_Spec PScales_Proofs PScales_Prod Names Names_Spec Names_Proofs Distr PDModel PDUtils PD_Spec PD_Make PD_Sums
  PD_Valid PD_Marg PD_Examples PD_CondEx PD_Remarg_Spec PD_Remarg PD_ExpectThm PDQuantile PD_Quantile_Spec PD_Quantile.
Import ListNotations.
Local Open Scope R_scope.

Section Gen.
Context {F : Fmt R}.

Lemma quantiles (p : pd R) (L : list string) qs : summable p L -> Forall (fun q => 0 < q) qs ->
  exists ds, quantile p qs = Ok ds /\ Forall2 (fun q d => exists r, quantile_cell p L q r /\ quantile_dict p L q r d) qs ds.
Proof. intros (V & FS & NE & PN & LR & TP). apply quantile_ok; assumption. Qed.

Lemma quantile_one (p : pd R) (L : list string) q d : summable p L -> 0 < q -> quantile p [q] = Ok [d] ->
  exists r, quantile_cell p L q r /\ quantile_dict p L q r d.
Proof.
  intros Sm Q E. destruct (quantiles p L [q] Sm) as (ds & E' & H); [constructor; [exact Q|constructor]|].
  assert (ds = [d]) by congruence. subst ds. inversion H. assumption.
Qed.

Lemma scalar_quantiles (p : pd R) qs : valid_pd p [] -> quantile p qs = Ok (map (fun _ => p_vals p) qs).
Proof.
  intros V. unfold quantile. assert (E : p_issing p = Some true); [|rewrite E; reflexivity].
  unfold p_issing. rewrite (vp_issing _ _ V). f_equal. apply forallb_forall. intros [k v] I. cbn.
  apply (vp_sing p [] V k v); [|tauto]. apply od_in_get; [apply (vp_keys _ _ V)|exact I].
Qed.

(** Along the last axis the value lies between those of the cell and of the next. *)
Lemma quantile_mix (p : pd R) (L : list string) q r k l x : summable p L -> 0 < q -> quantile_cell p L q r -> In k L ->
  variable p k = Some (Col l) -> quantile_is p L q r k l x ->
  let i := cell p L r k in
  (i < length l)%nat /\
  ((x = nth i l 0) \/ exists w, 0 <= w <= 1 /\ (S i < length l)%nat /\ x = (1 - w) * nth i l 0 + w * nth (S i) l 0).
Proof.
  intros (V & FS & NE & PN & LR & TP) Q QC K Vk H. cbn zeta.
  assert (Z : size_of p k = length l) by (unfold size_of; rewrite Vk; reflexivity).
  pose proof QC as (Q1 & Q2 & Q3). pose proof (cell_in p L V r Q1 k K) as CB. rewrite Z in CB. split; [exact CB|].
  unfold quantile_is in H. cbn zeta in H. set (i := cell p L r k) in *. destruct H as [H1 H2].
  assert (DL : last_axis L k \/ ~ last_axis L k) by (rewrite (last_axis_pos p L V k K); lia).
  destruct DL as [LA|NL]; [|left; apply H1; left; exact NL].
  destruct (Nat.eq_dec (S i) (length l)) as [E|NE']; [left; apply H1; right; exact E|].
  assert (SI : (S i < length l)%nat) by lia. destruct (H2 LA SI) as [A B].
  destruct (next_cell p L V k r LA Q1) as [SR _]; [rewrite Z; exact SI|].
  pose proof (mass_pos p L V PN r Q1) as M0. pose proof (mass_pos p L V PN (S r) SR) as M1. pose proof npz_pos as ZP.
  specialize (Q3 (S r) ltac:(lia)) as QS. assert (MS : mass_to p L (S r) = mass_to p L r + mass p L (S r)) by reflexivity.
  destruct (Rlt_le_dec (Rabs (mass p L (S r) - mass p L r)) (Rmin q (1 - q))) as [D|D].
  - destruct (A D) as [A1 A2]. destruct (Rlt_le_dec (q * total p L) (mass_to p L r)) as [C|C]; [left; apply A1, C|].
    right. exists ((q * total p L - mass_to p L r) / mass p L (S r)). assert (MP : 0 < mass p L (S r)) by lra. split; [|split; [exact SI|]].
    + split.
      * apply Rmult_le_reg_r with (mass p L (S r)); [exact MP|]. unfold Rdiv. rewrite Rmult_assoc, Rinv_l by lra. lra.
      * apply Rmult_le_reg_r with (mass p L (S r)); [exact MP|]. unfold Rdiv. rewrite Rmult_assoc, Rinv_l by lra. lra.
    + rewrite (A2 C). lra.
  - assert (MP : 0 < mass p L r + mass p L (S r)).
    { destruct (Req_dec (mass p L r + mass p L (S r)) 0) as [C|C]; [|lra]. exfalso.
      assert (Z0 : mass p L r = 0) by lra. assert (Z1 : mass p L (S r) = 0) by lra. rewrite Z0, Z1, Rminus_0_r, Rabs_R0 in D.
      assert (1 <= q). { unfold Rmin in D. destruct (Rle_dec q (1 - q)); lra. }
      pose proof (mass_to_le p L V PN (S r) (cells p L - 1) ltac:(lia)) as T1. rewrite (mass_to_total p L V TP) in T1.
      assert (total p L <= q * total p L) by (rewrite <- (Rmult_1_l (total p L)) at 1; apply Rmult_le_compat_r; lra). lra. }
    right. exists (mass p L (S r) / (mass p L r + mass p L (S r))). split; [|split; [exact SI|]].
    + split; (apply Rmult_le_reg_r with (mass p L r + mass p L (S r)); [exact MP|]; unfold Rdiv; rewrite Rmult_assoc, ?Rinv_l by lra; lra).
    + rewrite (B D). field. lra.
Qed.

Lemma quantile_within (p : pd R) (L : list string) q d k l lo hi : summable p L -> 0 < q -> quantile p [q] = Ok [d] ->
  variable p k = Some (Col l) -> sorted_column l -> (forall y, In y l -> lo <= y <= hi) ->
  exists x, od_get d k = Some (VNum x) /\ lo <= x <= hi.
Proof.
  intros Sm Q E Vk SC B. destruct (quantile_one p L q d Sm Q E) as (r & QC & D).
  destruct D as (_ & _ & D & _). destruct (D k l Vk SC) as (x & G & X). exists x. split; [exact G|].
  assert (K : In k L) by (eapply column_in; [apply Sm|exact Vk]).
  destruct (quantile_mix p L q r k l x Sm Q QC K Vk X) as [I H].
  destruct H as [->|(w & W & SI & ->)].
  - apply B, nth_In, I.
  - pose proof (B _ (nth_In l 0 I)) as B0. pose proof (B _ (nth_In l 0 SI)) as B1.
    set (v0 := nth (cell p L r k) l 0) in *. set (v1 := nth (S (cell p L r k)) l 0) in *. split.
    + apply Rle_trans with ((1 - w) * lo + w * lo); [lra|]. apply Rplus_le_compat; apply Rmult_le_compat_l; lra.
    + apply Rle_trans with ((1 - w) * hi + w * hi); [|lra]. apply Rplus_le_compat; apply Rmult_le_compat_l; lra.
Qed.

(** From q = 1 on it is the last value. *)
Lemma nth_cell_end ks k n : In (k, n) ks -> NoDup (map fst ks) -> (0 < number ks)%nat -> nth_cell ks (number ks - 1) k = (n - 1)%nat.
Proof.
  induction ks as [|[k' n'] ks IH]; intros I ND NP; [destruct I|]. inversion ND as [|? ? N1 N2]; subst.
  cbn [nth_cell number] in *. set (m := number ks) in *. assert (Z : (m <> 0)%nat) by (intros C; rewrite C in NP; lia).
  assert (n' <> 0)%nat by (intros C; rewrite C in NP; lia).
  assert (Q : ((n' * m - 1) / m = n' - 1)%nat).
  { symmetry. apply (Nat.div_unique _ m _ (m - 1)); [lia|]. destruct n' as [|n']; [lia|]. cbn [Nat.mul]. rewrite Nat.mul_comm. lia. }
  assert (Mo : ((n' * m - 1) mod m = m - 1)%nat).
  { symmetry. apply (Nat.mod_unique _ m (n' - 1)); [lia|]. destruct n' as [|n']; [lia|]. cbn [Nat.mul]. rewrite Nat.mul_comm. lia. }
  rewrite Q, Mo. destruct I as [I|I].
  - injection I as -> ->. rewrite upd_same. reflexivity.
  - rewrite upd_other; [apply IH; [exact I|exact N2|lia]|]. intros C. subst k'. apply N1. apply in_map_iff. exists (k, n). auto.
Qed.

Lemma quantile_end (p : pd R) (L : list string) q d k l : summable p L -> 1 <= q -> quantile p [q] = Ok [d] ->
  variable p k = Some (Col l) -> sorted_column l -> od_get d k = Some (VNum (last l 0)).
Proof.
  intros Sm Q E Vk SC. destruct (quantile_one p L q d Sm ltac:(lra) E) as (r & QC & D).
  destruct Sm as (V & FS & NE & PN & LR & TP).
  assert (K : In k L) by (eapply column_in; [exact V|exact Vk]).
  assert (Z : size_of p k = length l) by (unfold size_of; rewrite Vk; reflexivity).
  pose proof (cells_pos p L V TP) as CP. pose proof npz_pos as ZP.
  assert (R : r = (cells p L - 1)%nat).
  { destruct QC as (Q1 & Q2 & Q3). destruct (Nat.eq_dec r (cells p L - 1)) as [X|X]; [exact X|]. exfalso.
    specialize (Q3 (cells p L - 1)%nat ltac:(lia)). rewrite (mass_to_total p L V TP) in Q3.
    assert (total p L <= q * total p L) by (rewrite <- (Rmult_1_l (total p L)) at 1; apply Rmult_le_compat_r; lra). lra. }
  destruct D as (_ & _ & D & _). destruct (D k l Vk SC) as (x & G & X). rewrite G. do 2 f_equal.
  assert (CK : cell p L r k = (length l - 1)%nat).
  { rewrite R. unfold cell, cells. rewrite <- Z. apply nth_cell_end; [unfold sized; apply in_map_iff; exists k; auto| |exact CP].
    unfold sized. rewrite map_map. cbn [fst]. rewrite map_id. apply (vp_axes _ _ V). }
  destruct X as [X _]. rewrite CK in X. rewrite last_nth. apply X. right. destruct SC. lia.
Qed.

(** Quantile positions grow with q. *)
Lemma cell_mono (p : pd R) (L : list string) q q' r r' : summable p L -> q <= q' ->
  quantile_cell p L q r -> quantile_cell p L q' r' -> (r <= r')%nat.
Proof.
  intros (V & _ & _ & PN & _ & TP) Q (A1 & A2 & A3) (B1 & B2 & B3). pose proof npz_pos.
  assert (q * total p L <= q' * total p L) by (apply Rmult_le_compat_r; lra).
  destruct (le_lt_dec r r') as [H'|H']; [exact H'|]. exfalso. specialize (B3 r ltac:(lia)). destruct A2 as [A2|A2]; [lia|lra].
Qed.

(** The column on the first of several axes. *)
Lemma first_mono (p : pd R) (k k' : string) (L : list string) q q' d d' l :
  summable p (k :: k' :: L) -> 0 < q -> q <= q' -> quantile p [q] = Ok [d] -> quantile p [q'] = Ok [d'] ->
  variable p k = Some (Col l) -> (1 < length l)%nat -> ascending l ->
  exists x x', od_get d k = Some (VNum x) /\ od_get d' k = Some (VNum x') /\ x <= x' /\ In x l /\ In x' l.
Proof.
  intros Sm Q QQ E E' Vk LN AS. set (LL := k :: k' :: L) in *.
  destruct (quantile_one p LL q d Sm Q E) as (r & QC & D). destruct (quantile_one p LL q' d' Sm ltac:(lra) E') as (r' & QC' & D').
  assert (SC : sorted_column l) by (split; [exact LN|left; exact AS]).
  destruct D as (_ & _ & D & _). destruct (D k l Vk SC) as (x & G & X).
  destruct D' as (_ & _ & D' & _). destruct (D' k l Vk SC) as (x' & G' & X').
  exists x, x'. split; [exact G|]. split; [exact G'|].
  pose proof (cell_mono p LL q q' r r' Sm QQ QC QC') as RR.
  destruct Sm as (V & FS & NE & PN & LR & TP). assert (K : In k LL) by (left; reflexivity).
  assert (NL : ~ last_axis LL k).
  { rewrite (last_axis_pos p LL V k K). cbn. rewrite String.eqb_refl. lia. }
  assert (Z : size_of p k = length l) by (unfold size_of; rewrite Vk; reflexivity).
  destruct X as [X _]. destruct X' as [X' _]. rewrite (X (or_introl NL)), (X' (or_introl NL)).
  pose proof (cell_in p LL V r (proj1 QC) k K) as C1. pose proof (cell_in p LL V r' (proj1 QC') k K) as C2. rewrite Z in C1, C2.
  assert (CC : (cell p LL r k <= cell p LL r' k)%nat).
  { unfold cell, LL. cbn [sized map nth_cell]. rewrite !upd_same. 
    destruct (Nat.eq_dec (number (sized p (k' :: L))) 0) as [N0|N0].
    - exfalso. pose proof (proj1 QC) as C. unfold cells, LL in C. change (sized p (k :: k' :: L)) with ((k, size_of p k) :: sized p (k' :: L)) in C. cbn [number] in C. rewrite N0 in C. lia.
    - apply Nat.div_le_mono; [exact N0|exact RR]. }
  split; [|split; apply nth_In; assumption].
  destruct (Nat.eq_dec (cell p LL r k) (cell p LL r' k)) as [EQ|NQ]; [rewrite EQ; lra|]. apply AS. lia.
Qed.

(** One variable whose probabilities differ little from one value to the next. *)
Lemma gentle_mono (p : pd R) (k : string) q q' d d' l :
  summable p [k] -> 0 < q -> q <= q' -> gentle p [k] q -> gentle p [k] q' -> quantile p [q] = Ok [d] -> quantile p [q'] = Ok [d'] ->
  variable p k = Some (Col l) -> (1 < length l)%nat -> ascending l ->
  exists x x', od_get d k = Some (VNum x) /\ od_get d' k = Some (VNum x') /\ x <= x'.
Proof.
  intros Sm Q QQ GE GE' E E' Vk LN AS.
  destruct (quantile_one p [k] q d Sm Q E) as (r & QC & D). destruct (quantile_one p [k] q' d' Sm ltac:(lra) E') as (r' & QC' & D').
  assert (SC : sorted_column l) by (split; [exact LN|left; exact AS]).
  destruct D as (_ & _ & D & _). destruct (D k l Vk SC) as (x & G & X).
  destruct D' as (_ & _ & D' & _). destruct (D' k l Vk SC) as (x' & G' & X').
  exists x, x'. split; [exact G|]. split; [exact G'|].
  pose proof (cell_mono p [k] q q' r r' Sm QQ QC QC') as RR. assert (K : In k [k]) by (left; reflexivity).
  assert (Z : size_of p k = length l) by (unfold size_of; rewrite Vk; reflexivity).
  assert (CE : cells p [k] = length l) by (unfold cells; cbn; rewrite Z; lia).
  assert (CI : forall i, cell p [k] i k = i).
  { intros i. unfold cell. cbn [sized map nth_cell number]. rewrite upd_same. apply Nat.div_1_r. }
  pose proof (quantile_mix p [k] q r k l x Sm Q QC K Vk X) as M. pose proof (quantile_mix p [k] q' r' k l x' Sm ltac:(lra) QC' K Vk X') as M'.
  cbn zeta in M, M'. rewrite CI in M, M'. destruct M as [I1 M]. destruct M' as [I2 M'].
  assert (MONO : forall i j, (i <= j < length l)%nat -> nth i l 0 <= nth j l 0).
  { intros i j H. destruct (Nat.eq_dec i j) as [->|N]; [lra|]. apply AS. lia. }
  assert (LO : nth r' l 0 <= x').
  { destruct M' as [->|(w & W & SI & ->)]; [lra|]. pose proof (MONO r' (S r') ltac:(lia)) as H.
    apply Rle_trans with ((1 - w) * nth r' l 0 + w * nth r' l 0); [lra|]. apply Rplus_le_compat_l, Rmult_le_compat_l; lra. }
  destruct (Nat.eq_dec r r') as [EQ|NQ].
  - subst r'. destruct (Nat.eq_dec (S r) (length l)) as [EL|NL].
    + destruct X as [X _]. rewrite CI in X. rewrite (X (or_intror EL)). exact LO.
    + assert (LA : last_axis [k] k) by (exists []; reflexivity). assert (SI : (S r < length l)%nat) by lia.
      destruct X as [_ X]. destruct X' as [_ X']. rewrite CI in X, X'. destruct (X LA SI) as [A _]. destruct (X' LA SI) as [A' _].
      destruct (A (GE r ltac:(lia))) as [A1 A2]. destruct (A' (GE' r ltac:(lia))) as [A1' A2'].
      destruct Sm as (V & FS & NE & PN & LR & TP). pose proof npz_pos as ZP.
      assert (TT : q * total p [k] <= q' * total p [k]) by (apply Rmult_le_compat_r; lra).
      destruct (Rlt_le_dec (q * total p [k]) (mass_to p [k] r)) as [C|C]; [rewrite (A1 C); exact LO|].
      rewrite (A2 C), (A2' ltac:(lra)). apply Rplus_le_compat_l. 
      pose proof (MONO r (S r) ltac:(lia)) as H. apply Rmult_le_compat_r; [lra|].
      destruct QC as (_ & _ & Q3). specialize (Q3 (S r) ltac:(lia)). 
      assert (MS : mass_to p [k] (S r) = mass_to p [k] r + mass p [k] (S r)) by reflexivity.
      apply Rmult_le_compat_r; [left; apply Rinv_0_lt_compat; lra|lra].
  - apply Rle_trans with (nth r' l 0); [|exact LO]. destruct M as [->|(w & W & SI & ->)]; [apply MONO; lia|].
    pose proof (MONO r r' ltac:(lia)) as H1. pose proof (MONO (S r) r' ltac:(lia)) as H2.
    apply Rle_trans with ((1 - w) * nth r' l 0 + w * nth r' l 0); [|lra]. apply Rplus_le_compat; apply Rmult_le_compat_l; lra.
Qed.

(** One variable with two values. *)
Lemma two_values (p : pd R) (k : string) q d v0 v1 a b : summable p [k] -> 0 < q < 1 -> variable p k = Some (Col [v0; v1]) -> v0 < v1 ->
  prob_at p [k] (fun _ => 0%nat) = a -> prob_at p [k] (fun _ => 1%nat) = b -> quantile p [q] = Ok [d] ->
  od_get d k = Some (VNum (if Rlt_le_dec (Rabs (b - a)) (Rmin q (1 - q))
                           then if Rlt_le_dec (q * (a + b)) a then v0 else v0 + (q * (a + b) - a) / b * (v1 - v0)
                           else (a * v0 + b * v1) / (a + b))).
Proof.
  intros Sm Q Vk VV P0 P1 E. destruct (quantile_one p [k] q d Sm ltac:(lra) E) as (r & QC & D).
  assert (SC : sorted_column [v0; v1]).
  { split; [cbn; lia|]. left. intros i j H. cbn in H. assert (i = 0%nat) by lia. assert (j = 1%nat) by lia. subst. cbn. lra. }
  destruct D as (_ & _ & D & _). destruct (D k _ Vk SC) as (x & G & X). rewrite G. do 2 f_equal.
  destruct Sm as (V & FS & NE & PN & LR & TP). pose proof npz_pos as ZP.
  assert (Z : size_of p k = 2%nat) by (unfold size_of; rewrite Vk; reflexivity).
  assert (CE : cells p [k] = 2%nat) by (unfold cells; cbn; rewrite Z; lia).
  assert (CI : forall i, cell p [k] i k = i).
  { intros i. unfold cell. cbn [sized map nth_cell number]. rewrite upd_same. apply Nat.div_1_r. }
  assert (MI : forall i, mass p [k] i = prob_at p [k] (fun _ => i)).
  { intros i. unfold mass. unfold prob_at. destruct (p_prob p); [|reflexivity]. cbn [map]. rewrite CI. reflexivity. }
  assert (T : total p [k] = a + b). { rewrite (total_mass p [k] V), CE. cbn [sum_n]. rewrite !MI, P0, P1. lra. }
  assert (MT0 : mass_to p [k] 0 = a) by (unfold mass_to; cbn [sum_n]; rewrite MI, P0; lra).
  assert (MT1 : mass_to p [k] 1 = a + b) by (unfold mass_to; cbn [sum_n]; rewrite !MI, P0, P1; lra).
  assert (R : r = 0%nat).
  { destruct QC as (Q1 & Q2 & Q3). destruct r as [|r]; [reflexivity|]. destruct Q2 as [Q2|Q2]; [discriminate|].
    assert (r = 0%nat) by lia. subst r. rewrite MT1, T in Q2. rewrite T in TP. exfalso.
    assert (q * (a + b) < 1 * (a + b)) by (apply Rmult_lt_compat_r; lra). lra. }
  subst r. destruct X as [_ X]. rewrite CI in X. specialize (X (ex_intro _ [] eq_refl) ltac:(cbn; lia)). cbn [nth] in X.
  rewrite MT0, T, !MI, P0, P1 in X. destruct X as [A B].
  destruct (Rlt_le_dec (Rabs (b - a)) (Rmin q (1 - q))) as [H|H]; [|exact (B H)]. destruct (A H) as [A1 A2].
  destruct (Rlt_le_dec (q * (a + b)) a) as [H'|H']; [exact (A1 H')|exact (A2 H')].
Qed.

(** A constant factor does not move the position. *)
Lemma cell_scale (p p' : pd R) (L : list string) c q r : summable p L -> summable p' L -> 0 < c ->
  (forall k, In k L -> variable p' k = variable p k) ->
  (forall b, in_bounds p L b -> prob_at p' L b = c * prob_at p L b) -> (quantile_cell p L q r <-> quantile_cell p' L q r).
Proof.
  intros (V & FS & NE & PN & LR & TP) (V' & FS' & _ & PN' & LR' & TP') C VV PP.
  assert (Zs : sized p' L = sized p L).
  { unfold sized. apply map_ext_in. intros k K. unfold size_of. rewrite (VV k K). reflexivity. }
  assert (CC : cells p' L = cells p L) by (unfold cells; rewrite Zs; reflexivity).
  assert (CE : forall i, cell p' L i = cell p L i) by (intros i; unfold cell; rewrite Zs; reflexivity).
  assert (MI : forall i, (i < cells p L)%nat -> mass p' L i = c * mass p L i).
  { intros i H. unfold mass. rewrite CE. apply PP. apply cell_in; assumption. }
  assert (SN : forall n, (n <= cells p L)%nat -> sum_n n (mass p' L) = c * sum_n n (mass p L)).
  { induction n as [|n IH]; intros H; cbn [sum_n]; [lra|]. rewrite IH, MI by lia. lra. }
  assert (T : total p' L = c * total p L) by (rewrite (total_mass p' L V'), (total_mass p L V), CC; apply SN; lia).
  assert (MT : forall i, (i < cells p L)%nat -> mass_to p' L i = c * mass_to p L i) by (intros i H; apply SN; lia).
  assert (LE : forall i, (i < cells p L)%nat -> (mass_to p' L i <= q * total p' L <-> mass_to p L i <= q * total p L)).
  { intros i H. rewrite (MT i H), T. replace (q * (c * total p L)) with (c * (q * total p L)) by ring.
    split; intros H'; [apply Rmult_le_reg_l with c; assumption|apply Rmult_le_compat_l; lra]. }
  unfold quantile_cell. rewrite CC. split; (intros (A1 & A2 & A3); split; [exact A1|]; split).
  - destruct A2 as [A2|A2]; [left; exact A2|right; apply LE; assumption].
  - intros i H. apply Rnot_le_lt. intros N. apply LE in N; [|lia]. specialize (A3 i H). lra.
  - destruct A2 as [A2|A2]; [left; exact A2|right; apply LE; assumption].
  - intros i H. apply Rnot_le_lt. intros N. apply LE in N; [|lia]. specialize (A3 i H). lra.
Qed.

Lemma scale_inner (p p' : pd R) (L : list string) c q d d' k l : summable p L -> summable p' L -> 0 < c -> 0 < q ->
  (forall k, In k L -> variable p' k = variable p k) ->
  (forall b, in_bounds p L b -> prob_at p' L b = c * prob_at p L b) ->
  quantile p [q] = Ok [d] -> quantile p' [q] = Ok [d'] -> variable p k = Some (Col l) -> sorted_column l -> ~ last_axis L k ->
  od_get d k = od_get d' k.
Proof.
  intros Sm Sm' C Q VV PP E E' Vk SC NL.
  destruct (quantile_one p L q d Sm Q E) as (r & QC & D). destruct (quantile_one p' L q d' Sm' Q E') as (r' & QC' & D').
  assert (K : In k L) by (eapply column_in; [apply Sm|exact Vk]).
  apply (cell_scale p p' L c q r Sm Sm' C VV PP) in QC.
  assert (r = r'). { apply (quantile_cell_unique p' L q r r'); [|exact QC|exact QC']. destruct Sm' as (V' & _ & _ & PN' & _). intros i. apply mass_pos; assumption. }
  subst r'. assert (Vk' : variable p' k = Some (Col l)) by (rewrite (VV k K); exact Vk).
  destruct D as (_ & _ & D & _). destruct (D k l Vk SC) as (x & G & X).
  destruct D' as (_ & _ & D' & _). destruct (D' k l Vk' SC) as (x' & G' & X').
  rewrite G, G'. do 2 f_equal. destruct X as [X _]. destruct X' as [X' _]. rewrite (X (or_introl NL)), (X' (or_introl NL)). 
  assert (Zs : sized p' L = sized p L).
  { unfold sized. apply map_ext_in. intros k0 K0. unfold size_of. rewrite (VV k0 K0). reflexivity. }
  unfold cell. rewrite Zs. reflexivity.
Qed.

Lemma quantile_single (p : pd R) (L : list string) q d k v : summable p L -> 0 < q -> quantile p [q] = Ok [d] ->
  variable p k = Some (Col [v]) -> od_get d k = Some (VSet [SEint 1]).
Proof.
  intros Sm Q E Vk. destruct (quantile_one p L q d Sm Q E) as (r & _ & (_ & _ & _ & D)).
  apply (D k [v] Vk). intros [C _]. cbn in C. lia.
Qed.
End Gen.

Section Refuted.
Context {F : Fmt R}.

(** The weighted value comes before the lower one. *)
Lemma not_monotone (p : pd R) (k : string) (v0 v1 a q q' : R) d d' : summable p [k] ->
  variable p k = Some (Col [v0; v1]) -> v0 < v1 ->
  prob_at p [k] (fun _ => 0%nat) = a -> prob_at p [k] (fun _ => 1%nat) = 1 - a ->
  / 3 < a < / 2 -> 0 < q -> q <= 1 - 2 * a -> 1 - 2 * a < q' -> q' < a ->
  quantile p [q] = Ok [d] -> quantile p [q'] = Ok [d'] ->
  exists x, od_get d k = Some (VNum x) /\ od_get d' k = Some (VNum v0) /\ v0 < x.
Proof.
  intros Sm Vk VV P0 P1 A Q0 Q1 Q2 Q3 E E'.
  pose proof (two_values p k q d v0 v1 a (1 - a) Sm ltac:(lra) Vk VV P0 P1 E) as H.
  pose proof (two_values p k q' d' v0 v1 a (1 - a) Sm ltac:(lra) Vk VV P0 P1 E') as H'.
  assert (AB : Rabs (1 - a - a) = 1 - 2 * a) by (rewrite Rabs_right; lra). rewrite AB in H, H'.
  rewrite Rmin_left in H, H' by lra.
  destruct (Rlt_le_dec (1 - 2 * a) q) as [C|C]; [lra|]. destruct (Rlt_le_dec (1 - 2 * a) q') as [C'|C']; [|lra].
  destruct (Rlt_le_dec (q' * (a + (1 - a))) a) as [C2|C2]; [|lra].
  eexists. split; [exact H|]. split; [exact H'|]. replace (a + (1 - a)) with 1 by lra. unfold Rdiv. rewrite Rinv_1, Rmult_1_r.
  assert (0 < (1 - a) * (v1 - v0)) by (apply Rmult_lt_0_compat; lra). lra.
Qed.

(** Which rule applies depends on a common factor of the probabilities. *)
Lemma scale_matters (p p' : pd R) (k : string) (v0 v1 a b c q : R) d d' : summable p [k] -> summable p' [k] ->
  variable p k = Some (Col [v0; v1]) -> variable p' k = Some (Col [v0; v1]) -> v0 < v1 -> 0 < b ->
  prob_at p [k] (fun _ => 0%nat) = a -> prob_at p [k] (fun _ => 1%nat) = b ->
  prob_at p' [k] (fun _ => 0%nat) = c * a -> prob_at p' [k] (fun _ => 1%nat) = c * b -> 0 < a -> 0 < c ->
  q <= / 2 -> 0 < q -> q * (a + b) < a -> c * Rabs (b - a) < q -> q <= Rabs (b - a) ->
  quantile p [q] = Ok [d] -> quantile p' [q] = Ok [d'] ->
  exists x, od_get d k = Some (VNum x) /\ od_get d' k = Some (VNum v0) /\ v0 < x.
Proof.
  intros Sm Sm' Vk Vk' VV BP P0 P1 P0' P1' A0 C0 Q1 Q0 QA QC QD E E'.
  pose proof (two_values p k q d v0 v1 a b Sm ltac:(lra) Vk VV P0 P1 E) as H.
  pose proof (two_values p' k q d' v0 v1 (c * a) (c * b) Sm' ltac:(lra) Vk' VV P0' P1' E') as H'.
  rewrite Rmin_left in H, H' by lra. replace (c * b - c * a) with (c * (b - a)) in H' by ring.
  rewrite Rabs_mult, (Rabs_right c) in H' by lra.
  destruct (Rlt_le_dec (Rabs (b - a)) q) as [X|X]; [lra|]. destruct (Rlt_le_dec (c * Rabs (b - a)) q) as [X'|X']; [|lra].
  destruct (Rlt_le_dec (q * (c * a + c * b)) (c * a)) as [Y|Y].
  - eexists. split; [exact H|]. split; [exact H'|].
    apply Rmult_lt_reg_r with (a + b); [lra|]. unfold Rdiv. rewrite Rmult_assoc, Rinv_l by lra.
    assert (0 < b * (v1 - v0)) by (apply Rmult_lt_0_compat; lra). lra.
  - exfalso. replace (q * (c * a + c * b)) with (c * (q * (a + b))) in Y by ring. apply Rmult_le_reg_l in Y; lra.
Qed.
End Refuted.

Section Ex.
Local Existing Instance fmt_ex.

(** p(x) over a column, held under the linear scale 1. *)
Definition col_make (l pr : list R) := make_pd "x" [("x"%string, VArr (of_list 0 l))] (Some [("x"%string, Some 0%Z)]) (Some (of_list 0 pr)) (PSFloat 1).

Lemma col_ok l pr : l <> [] -> length pr = length l -> (forall x, In x pr -> 0 <= x) -> npz <= fold_right Rplus 0 pr ->
  exists p, col_make l pr = Ok p /\ summable p ["x"]%string /\ ~ log_scaled p /\ variable p "x" = Some (Col l) /\
    forall i, prob_at p ["x"]%string (fun _ => i) = nth i pr 0.
Proof.
  intros NE Ln NN TP.
  assert (One : eval_pscale (PSFloat 1) = Ok (Lin 1)).
  { cbn. assert (H : n_eqb 1 n1 = true) by (apply Reqb_iff; reflexivity). rewrite H. reflexivity. }
  destruct (@make_pd_ok fmt_ex [("x"%string, VArr (of_list 0 l))] [("x"%string, Some 0%Z)] ["x"%string] [("x"%string, "x"%string)] []
              (of_list 0 pr) (PSFloat 1) (Lin 1)) as (p & E & V & K & M & C & P & S & Vr).
  - repeat constructor; cbn; tauto.
  - discriminate.
  - cbn. intros k' Hk. intuition (subst; discriminate).
  - repeat constructor; cbn; tauto.
  - intros k' Hk. exact Hk.
  - intros k' v Gk Hk. exfalso. apply Hk. apply od_get_some_key in Gk. exact Gk.
  - intros [|j] k' Hj; cbn in Hj; [|destruct j; discriminate]. injection Hj as <-.
    exists (of_list 0 l). cbn. rewrite Ln. destruct l as [|y l]; [congruence|]. cbn. repeat split; auto; try discriminate; try lia. do 2 f_equal. lia.
  - intros k' Hk. exact Hk.
  - repeat constructor; cbn; tauto.
  - reflexivity.
  - apply good_keyed. reflexivity.
  - apply good_keyed. reflexivity.
  - cbn. repeat constructor.
  - exact One.
  - exact One.
  - exists p. split; [exact E|]. destruct (@fine_plain fmt_ex p S) as [FS NL].
    assert (PA : forall b, prob_at p ["x"]%string b = nth (b "x"%string) pr 0).
    { intros b. unfold prob_at. rewrite P, S. cbn [spec_of]. rewrite denote_one. reflexivity. }
    assert (Vx : variable p "x" = Some (Col l)). { rewrite Vr. rewrite <- (of_list_to_list l) at 2. destruct l; reflexivity. }
    assert (SN : forall (m : list R), sum_n (length m) (fun i => nth i m 0) = fold_right Rplus 0 m).
    { intros m. assert (G : forall n f, sum_n (Datatypes.S n) f = f 0%nat + sum_n n (fun i => f (Datatypes.S i))).
      { induction n as [|n IH]; intros f; [cbn; lra|]. cbn [sum_n] in *. rewrite IH. lra. }
      induction m as [|y m IH]; [reflexivity|]. cbn [length fold_right]. rewrite G. cbn [nth]. rewrite IH. lra. }
    split; [|split; [exact NL|split; [exact Vx|intros i; apply PA]]].
    split; [exact V|]. split; [exact FS|]. split; [discriminate|]. split.
    { intros b B. rewrite PA. apply NN, nth_In. specialize (B "x"%string (or_introl eq_refl)). unfold size_of in B. rewrite Vx in B. lia. }
    split; [intros C'; contradiction|].
    unfold total, sized, size_of. cbn [map sum_over]. rewrite Vx, <- Ln. rewrite <- SN in TP.
    erewrite sum_n_ext; [exact TP|]. intros i _. rewrite PA, upd_same. reflexivity.
Qed.

Lemma ex_two : exists p, col_make [0; 1] [2 / 5; 3 / 5] = Ok p /\ summable p ["x"]%string /\ variable p "x" = Some (Col [0; 1]) /\
  prob_at p ["x"]%string (fun _ => 0%nat) = 2 / 5 /\ prob_at p ["x"]%string (fun _ => 1%nat) = 1 - 2 / 5.
Proof.
  destruct (col_ok [0; 1] [2 / 5; 3 / 5]) as (p & E & Sm & _ & Vx & P); [discriminate|reflexivity| | |].
  - intros x [<-|[<-|[]]]; lra.
  - cbn. pose proof npz_lt_1. lra.
  - exists p. split; [exact E|]. split; [exact Sm|]. split; [exact Vx|]. rewrite !P. cbn. lra.
Qed.

Lemma ex_scaled : exists p, col_make [0; 1] [1 / 5; 3 / 10] = Ok p /\ summable p ["x"]%string /\ variable p "x" = Some (Col [0; 1]) /\
  prob_at p ["x"]%string (fun _ => 0%nat) = 1 / 2 * (2 / 5) /\ prob_at p ["x"]%string (fun _ => 1%nat) = 1 / 2 * (1 - 2 / 5).
Proof.
  destruct (col_ok [0; 1] [1 / 5; 3 / 10]) as (p & E & Sm & _ & Vx & P); [discriminate|reflexivity| | |].
  - intros x [<-|[<-|[]]]; lra.
  - cbn. pose proof npz_third. lra.
  - exists p. split; [exact E|]. split; [exact Sm|]. split; [exact Vx|]. rewrite !P. cbn. lra.
Qed.

Lemma ex_single : exists p, col_make [7] [1] = Ok p /\ summable p ["x"]%string /\ variable p "x" = Some (Col [7]).
Proof.
  destruct (col_ok [7] [1]) as (p & E & Sm & _ & Vx & P); [discriminate|reflexivity| | |].
  - intros x [<-|[]]; lra.
  - cbn. pose proof npz_lt_1. lra.
  - exists p. auto.
Qed.

(** Three values with the same probability. *)
Lemma ex_gentle : exists p, col_make [1; 2; 4] [/ 3; / 3; / 3] = Ok p /\ summable p ["x"]%string /\ variable p "x" = Some (Col [1; 2; 4]) /\
  ascending [1; 2; 4] /\ forall q, 0 < q < 1 -> gentle p ["x"]%string q.
Proof.
  destruct (col_ok [1; 2; 4] [/ 3; / 3; / 3]) as (p & E & Sm & _ & Vx & P); [discriminate|reflexivity| | |].
  - intros x [<-|[<-|[<-|[]]]]; lra.
  - cbn. pose proof npz_lt_1. lra.
  - exists p. split; [exact E|]. split; [exact Sm|]. split; [exact Vx|]. split.
    { intros i j H. cbn in H. assert (H' : (i = 0 /\ j = 1 \/ i = 0 /\ j = 2 \/ i = 1 /\ j = 2)%nat) by lia.
      destruct H' as [[-> ->]|[[-> ->]|[-> ->]]]; cbn; lra. }
    intros q Q i H. assert (MI : forall j, mass p ["x"]%string j = nth j [/ 3; / 3; / 3] 0).
    { intros j. rewrite <- P. unfold mass, prob_at. destruct (p_prob p); [|reflexivity]. cbn [map]. unfold cell. cbn [sized map nth_cell number].
      rewrite upd_same, Nat.div_1_r. reflexivity. }
    unfold cells, sized, size_of in H. cbn [map number] in H. rewrite Vx in H. cbn in H. rewrite !MI.
    assert (H' : (i = 0 \/ i = 1)%nat) by lia. 
    assert (0 < Rmin q (1 - q)) by (apply Rmin_glb_lt; lra).
    destruct H' as [-> | ->]; cbn [nth]; rewrite Rminus_diag_eq, Rabs_R0 by reflexivity; assumption.
Qed.

(** p(x,y,w=5|z) of PD_Examples. *)
Lemma ex_quantile : exists p, ex_make = Ok p /\ summable p ["x"; "y"; "z"]%string /\ 
  variable p "x" = Some (Col [1; 2]) /\ sorted_column [1; 2] /\ ~ last_axis ["x"; "y"; "z"]%string "x" /\
  (forall b, in_bounds p ["x"; "y"; "z"]%string b -> prob_at p ["x"; "y"; "z"]%string b = / 6).
Proof.
  destruct ex_ok as (p & E & V & K & M & C & P & S & Vx & Vy & Vz & Vw). exists p. split; [exact E|].
  destruct (@fine_plain fmt_ex p S) as [FS NL].
  assert (PB : forall b, prob_at p ["x"; "y"; "z"]%string b = / 6).
  { intros b. unfold prob_at. rewrite P, S. cbn [spec_of]. rewrite denote_one. reflexivity. }
  split.
  - split; [exact V|]. split; [exact FS|]. split; [discriminate|]. split; [intros b _; rewrite PB; lra|]. split; [intros C'; contradiction|].
    unfold total, sized, size_of. cbn [map]. rewrite Vx, Vy, Vz. cbn [sum_over sum_n length]. rewrite !PB. pose proof npz_lt_1. lra.
  - split; [exact Vx|]. split; [|split; [|intros b _; apply PB]].
    + split; [cbn; lia|]. left. intros i j H. cbn in H. assert (i = 0%nat) by lia. assert (j = 1%nat) by lia. subst. cbn. lra.
    + intros (L' & C'). destruct L' as [|a [|b [|c [|e L']]]]; try discriminate.
Qed.
End Ex.
