(** Facts about rules of acceptance, and about where chains get to. *)
From Coq Require Import String ZArith Reals Lra Bool Arith Lia List.
From Verif Require Import Base Num RNumLemmas PScales PScales_Spec PScales_Proofs RVModel SPModel SP_Scores ChainModel Chain_Spec Chain_Thm.
Import ListNotations.
Local Open Scope R_scope.

Lemma metropolis_balances dens prop x y : 0 <= dens x -> 0 <= dens y -> prop x y = prop y x ->
  balances dens prop (metropolis_rule dens) x y.
Proof.
  intros X Y Q. unfold balances, metropolis_rule. rewrite Q. pose proof (clamped_balance npz (dens x) (dens y) npz_pos X Y) as B.
  replace (dens x * prop y x * _) with (prop y x * (dens x * Rmin 1 (dens y / Rmax npz (dens x)))) by ring. rewrite B. ring.
Qed.

Lemma ratio_clamped u v : 0 < u -> npz <= u \/ npz <= v -> Rmin 1 (v / Rmax npz u) = Rmin 1 (v / u).
Proof.
  intros U H. pose proof npz_pos as Z. destruct (Rle_dec npz u) as [L|L]; [rewrite Rmax_right by exact L; reflexivity|].
  destruct H as [H|H]; [lra|]. rewrite Rmax_left by lra. rewrite !Rmin_left; [reflexivity| |].
  - apply Rmult_le_reg_r with u; [exact U|]. replace (v / u * u) with v by (field; lra). lra.
  - apply Rmult_le_reg_r with npz; [exact Z|]. replace (v / npz * npz) with v by (field; lra). lra.
Qed.

Lemma min_scaled u v : 0 < u -> 0 < v -> u * Rmin 1 (v / u) = Rmin u v.
Proof.
  intros U V. unfold Rmin. destruct (Rle_dec 1 (v / u)) as [A|A], (Rle_dec u v) as [B|B].
  - lra.
  - exfalso. apply B. apply Rmult_le_compat_r with (r := u) in A; [|lra]. replace (v / u * u) with v in A by (field; lra). lra.
  - exfalso. apply A. apply Rmult_le_reg_r with u; [exact U|]. replace (v / u * u) with v by (field; lra). lra.
  - field. lra.
Qed.

Lemma weighted_same dens prop x y : 0 < dens x -> 0 < dens y -> 0 < prop x y ->
  npz <= dens x * prop x y \/ npz <= dens y * prop x y ->
  unless_improper prop (weighted_rule dens prop) x y = Rmin 1 (dens y / dens x).
Proof.
  intros X Y Q H. unfold unless_improper, weighted_rule. destruct (Rle_dec (prop x y) 0) as [C|_]; [lra|].
  rewrite ratio_clamped; [|apply Rmult_lt_0_compat; assumption|exact H]. f_equal. field. lra.
Qed.

Lemma weighted_balance dens prop x y : 0 < dens x -> 0 < dens y -> 0 < prop x y -> 0 < prop y x ->
  npz <= dens x * prop x y \/ npz <= dens y * prop x y -> npz <= dens x * prop y x \/ npz <= dens y * prop y x ->
  (balances dens prop (unless_improper prop (weighted_rule dens prop)) x y <-> prop x y = prop y x) /\
  (unless_improper prop (weighted_rule dens prop) x y = hastings_rule dens prop x y /\
   unless_improper prop (weighted_rule dens prop) y x = hastings_rule dens prop y x <-> prop x y = prop y x).
Proof.
  intros X Y Q Q' H H'. assert (H2 : npz <= dens y * prop y x \/ npz <= dens x * prop y x) by tauto.
  pose proof (weighted_same dens prop x y X Y Q H) as W1. pose proof (weighted_same dens prop y x Y X Q' H2) as W2.
  pose proof (min_scaled (dens x) (dens y) X Y) as M1. pose proof (min_scaled (dens y) (dens x) Y X) as M2. rewrite (Rmin_comm (dens y) (dens x)) in M2.
  assert (MP : 0 < Rmin (dens x) (dens y)) by (apply Rmin_glb_lt; assumption).
  assert (BI : balances dens prop (unless_improper prop (weighted_rule dens prop)) x y <-> prop x y = prop y x).
  { unfold balances. rewrite W1, W2.
    replace (dens x * prop x y * Rmin 1 (dens y / dens x)) with (prop x y * (dens x * Rmin 1 (dens y / dens x))) by ring.
    replace (dens y * prop y x * Rmin 1 (dens x / dens y)) with (prop y x * (dens y * Rmin 1 (dens x / dens y))) by ring.
    rewrite M1, M2. split; [intros E; apply Rmult_eq_reg_r in E; lra|intros ->; reflexivity]. }
  split; [exact BI|]. split.
  - intros [A B]. apply BI. unfold balances. rewrite A, B. unfold hastings_rule.
    rewrite !min_scaled by (apply Rmult_lt_0_compat; assumption). apply Rmin_comm.
  - intros E. rewrite W1, W2. unfold hastings_rule. rewrite E. split; f_equal; field; lra.
Qed.

(** Chains with limits stay within them. *)
Lemma kept_within l x y : lm_lo l <= lm_hi l -> within1 l x -> within1 l (kept l x y).
Proof.
  intros LE W. unfold within1, kept in *. destruct (lm_open l).
  - destruct (Rlt_dec (lm_lo l) y); [destruct (Rlt_dec y (lm_hi l))|]; lra.
  - split; [apply Rmax_l|]. apply Rmax_lub; [exact LE|apply Rmin_l].
Qed.

Lemma moved_within lims x d : within lims x -> length d = length x -> within lims (moved_in lims x d).
Proof.
  intros W. revert d. induction W as [|l x lims xs W1 W2 IH]; intros [|e d] L; try discriminate; [constructor|].
  cbn. constructor; [|apply IH; injection L; auto]. apply kept_within; [|exact W1]. unfold within1 in W1. destruct (lm_open l); lra.
Qed.

Lemma moved_in_length lims x d : within lims x -> length d = length x -> length (moved_in lims x d) = length x.
Proof. intros W L. apply Forall2_len in W. unfold moved_in. rewrite map_length, !combine_length. lia. Qed.

Lemma chain_within lims rule x n steps : within lims x -> length x = n -> Forall (fun s => length (fst s) = n) steps ->
  Forall (within lims) (sampled_chain (moved_in lims) rule x steps).
Proof.
  assert (G : forall steps x, within lims x -> length x = n -> Forall (fun s => length (fst s) = n) steps ->
    Forall (within lims) (accept_chain (moved_in lims) rule x steps)).
  { clear. induction steps as [|[d u] steps IH]; intros x W L FR; [constructor|]. pose proof (Forall_inv FR) as F1. pose proof (Forall_inv_tail FR) as F2. cbn [fst] in F1.
    assert (LD : length d = length x) by congruence.
    pose proof (moved_within lims x d W LD) as WM. pose proof (moved_in_length lims x d W LD) as LM.
    cbn [accept_chain]. cbv zeta. destruct (Rle_dec u _); (constructor; [assumption|]); apply IH; auto; congruence. }
  intros W L FR. destruct steps as [|[d u] steps]; [constructor|]. pose proof (Forall_inv FR) as F1. pose proof (Forall_inv_tail FR) as F2. cbn [fst] in F1.
  assert (LD : length d = length x) by congruence. cbn [sampled_chain]. cbv zeta. constructor; [apply moved_within; auto|].
  apply G; [apply moved_within; auto|rewrite moved_in_length; auto|exact F2].
Qed.
