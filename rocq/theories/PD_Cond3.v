(** Conditioning: which blocks of columns can be moved. *)
From Coq Require Import String ZArith Reals Lra Bool Arith Lia Permutation List.
From Verif Require Import Base Num Tensor TensorBcast OdLemmas TensorLemmas RNumLemmas PScales PScales_Spec
  PScales_Proofs PScales_Prod Names Names_Spec Distr PDModel PDUtils PD_Spec PD_Make PD_Sums PD_Valid PD_Marg PD_Align
  PD_Move PD_Cond PD_Cond2 PD_Cond_Spec.
Import ListNotations.

Lemma filter_none {A} (f : A -> bool) l : (forall x, In x l -> f x = true -> False) -> filter f l = [].
Proof.
  induction l as [|x l IH]; cbn; intros H; auto. destruct (f x) eqn:E; [exfalso; eapply H; eauto|]. apply IH. intros y Hy. apply H. auto.
Qed.

Lemma nth_error_skipn' {A} (l : list A) e i : nth_error (skipn e l) i = nth_error l (e + i).
Proof.
  revert e. induction l as [|x l IH]; intros e.
  - rewrite skipn_nil. rewrite !(proj2 (nth_error_None _ _)); auto; cbn; lia.
  - destruct e; cbn; auto.
Qed.

Section Blocks.
Context {F : Fmt R}.
Variable p : pd R.
Variable L : list string.
Hypothesis V : valid_pd p L.
Hypothesis O : in_name_order p L.
Variable keys : list string.
Hypothesis NK : NoDup keys.
Hypothesis IM : incl keys (od_keys (p_marg p)).

Notation ML := (marg_columns p L).
Notation CL := (cond_columns p L).
Notation B := (restrict keys L).

Lemma marg_iff k : od_mem (p_marg p) k = true <-> In k (od_keys (p_marg p)).
Proof. apply od_mem_iff. Qed.

Lemma columns_split : L = ML ++ CL.
Proof.
  destruct O as [OK KO]. destruct (vp_marg_cond p L V) as (NM & NC & DJ).
  assert (E1' : ML = filter (fun k => mem_str k L) (od_keys (p_marg p))).
  { unfold marg_columns. rewrite KO at 1. rewrite OK, filter_app. unfold restrict. rewrite filter_app.
    assert (E : filter (fun k => mem_str k (od_keys (p_marg p))) (filter (fun k => mem_str k L) (od_keys (p_cond p))) = []).
    { apply filter_none. intros k Hk Hm. apply filter_In in Hk. apply mem_str_iff in Hm. apply (DJ k); tauto. }
    rewrite E, app_nil_r. rewrite filter_filter. apply filter_ext_in. intros k Hk.
    apply mem_str_iff in Hk. rewrite Hk. destruct (mem_str k L); reflexivity. }
  assert (E2' : CL = filter (fun k => mem_str k L) (od_keys (p_cond p))).
  { unfold cond_columns. rewrite KO at 1. rewrite OK, filter_app. unfold restrict. rewrite filter_app.
    assert (E : filter (fun k => mem_str k (od_keys (p_cond p))) (filter (fun k => mem_str k L) (od_keys (p_marg p))) = []).
    { apply filter_none. intros k Hk Hm. apply filter_In in Hk. apply mem_str_iff in Hm. apply (DJ k); tauto. }
    rewrite E. cbn [app]. rewrite filter_filter. apply filter_ext_in. intros k Hk.
    apply mem_str_iff in Hk. rewrite Hk. destruct (mem_str k L); reflexivity. }
  rewrite E1', E2', <- filter_app, <- OK. exact KO.
Qed.

Lemma nodup_cols : NoDup ML /\ NoDup CL /\ (forall k, In k ML -> In k CL -> False).
Proof. pose proof (vp_axes _ _ V) as N. rewrite columns_split in N. apply nodup_app_iff in N. exact N. Qed.

Lemma keys_not_cond k : In k keys -> ~ In k CL.
Proof.
  intros H C. apply in_restrict in C. destruct (vp_marg_cond p L V) as (_ & _ & DJ). apply (DJ k); [apply IM; auto|tauto].
Qed.

Lemma B_marg : B = restrict keys ML.
Proof.
  rewrite columns_split at 1. unfold restrict at 1. rewrite filter_app.
  assert (E : filter (fun k => mem_str k keys) CL = []).
  { destruct (filter (fun k => mem_str k keys) CL) as [|k r] eqn:E; auto. exfalso.
    assert (H : In k (k :: r)) by (cbn; auto). rewrite <- E in H. apply filter_In in H. destruct H as [H1 H2].
    apply mem_str_iff in H2. eapply keys_not_cond; eauto. }
  rewrite E, app_nil_r. reflexivity.
Qed.

Lemma raw_marg k : In k ML -> rawdim p L keys k = Z.of_nat (pos k L).
Proof.
  intros H. unfold rawdim. apply in_restrict in H. rewrite (proj2 (marg_iff k)) by tauto. reflexivity.
Qed.

Lemma raw_cond k : In k CL -> rawdim p L keys k = (Z.of_nat (pos k L) - Z.of_nat (length B))%Z.
Proof.
  intros H. apply in_restrict in H. destruct H as [H1 H2]. destruct (vp_marg_cond p L V) as (NM & NC & DJ).
  unfold rawdim. assert (M : od_mem (p_marg p) k = false).
  { apply not_true_is_false. rewrite marg_iff. intros C. apply (DJ k); auto. }
  rewrite M. f_equal. f_equal. destruct O as [OK KO]. rewrite OK.
  assert (Bf : before k (od_keys (p_marg p) ++ od_keys (p_cond p)) = od_keys (p_marg p) ++ before k (od_keys (p_cond p))).
  { assert (Hn : ~ In k (od_keys (p_marg p))) by (intros C; apply (DJ k); auto). revert Hn. generalize (od_keys (p_marg p)) (od_keys (p_cond p)).
    clear. induction l as [|x l IH]; intros m Hn; cbn; auto. destruct (String.eqb_spec x k); [exfalso; apply Hn; cbn; auto|].
    f_equal. apply IH. intros C. apply Hn. cbn. auto. }
  rewrite Bf, filter_app.
  assert (Z0 : filter (colkey L keys) (before k (od_keys (p_cond p))) = []).
  { destruct (filter (colkey L keys) (before k (od_keys (p_cond p)))) as [|x r] eqn:E; auto. exfalso.
    assert (H : In x (x :: r)) by (cbn; auto). rewrite <- E in H. apply filter_In in H. destruct H as [Hx Hc].
    unfold colkey in Hc. apply andb_true_iff in Hc. rewrite !mem_str_iff in Hc.
    assert (Hx' : In x (od_keys (p_cond p))).
    { clear - Hx. induction (od_keys (p_cond p)) as [|y l IH]; cbn in *; [tauto|]. destruct (String.eqb y k); [destruct Hx|].
      destruct Hx as [->|Hx]; auto. }
    apply (DJ x); auto. apply IM. tauto. }
  rewrite Z0, app_nil_r.
  assert (EB : Permutation (filter (colkey L keys) (od_keys (p_marg p))) B).
  { apply NoDup_Permutation; [apply filter_nodup; auto|apply filter_nodup, (vp_axes _ _ V)|].
    intros x. rewrite filter_In, in_restrict. unfold colkey. rewrite andb_true_iff, !mem_str_iff. split; [tauto|].
    intros [A1 A2]. repeat split; auto. }
  apply Permutation_length in EB. exact EB.
Qed.

(** *** sufficient: an order S of the columns that stay *)
Lemma newdim_order (S : list string) (c e : Z) :
  NoDup S -> (forall k, In k S <-> In k L /\ ~ In k keys) ->
  (forall k, In k S -> rawdim p L keys k = (c + Z.of_nat (pos k S))%Z) ->
  (forall k, In k B -> Z.of_nat (pos k L) = (e + Z.of_nat (pos k B))%Z) ->
  (S <> [] \/ B = []) ->
  forall k, In k L -> newdim p L keys k = Z.of_nat (pos k (S ++ B)).
Proof.
  intros NS IS RS PB NE k Hk.
  assert (SC : forall k, In k (staycols p L keys) <-> In k S) by (intros x; rewrite (in_staycols p L V keys), IS; tauto).
  assert (RM : S <> [] -> rawmin p L keys = c).
  { intros NS0. assert (SN : staycols p L keys <> []).
    { destruct S as [|s0 S0]; [congruence|]. intros C. assert (In s0 (staycols p L keys)) by (apply SC; cbn; auto). rewrite C in H. destruct H. }
    destruct (rawmin_in p L keys SN) as (x & Hx & Ex). apply SC in Hx. rewrite RS in Ex by auto.
    assert (H0 : exists s0, In s0 S /\ pos s0 S = 0).
    { destruct S as [|s0 S0]; [congruence|]. exists s0. cbn. rewrite String.eqb_refl. auto. }
    destruct H0 as (s0 & Hs0 & P0). assert (M : (rawmin p L keys <= rawdim p L keys s0)%Z) by (apply rawmin_le, SC; auto).
    rewrite (RS s0 Hs0), P0 in M. lia. }
  assert (TD : S <> [] -> topdim p L keys = (Z.of_nat (length S) - 1)%Z).
  { intros NS0. unfold topdim. rewrite RM by auto.
    assert (Last : exists s, In s S /\ pos s S = length S - 1).
    { destruct (nth_error S (length S - 1)) as [s|] eqn:Es.
      - exists s. split; [eapply nth_error_In; eauto|apply nth_pos; auto].
      - apply nth_error_None in Es. destruct S; [congruence|cbn in Es; lia]. }
    destruct Last as (s & Hs & Ps). pose proof (pos_lt s S Hs) as Hlt.
    destruct (zmax_ge (map (fun k0 => rawdim p L keys k0 - c)%Z (staycols p L keys)) 0%Z) as [_ G].
    specialize (G (rawdim p L keys s - c)%Z). rewrite RS, Ps in G by auto.
    assert (G' : (c + Z.of_nat (length S - 1) - c <= fold_left Z.max (map (fun k0 => rawdim p L keys k0 - c)%Z (staycols p L keys)) 0)%Z).
    { apply G. apply in_map_iff. exists s. rewrite RS, Ps by auto. split; auto. apply SC. auto. }
    destruct (zmax_in (map (fun k0 => rawdim p L keys k0 - c)%Z (staycols p L keys)) 0%Z) as [E|E].
    - rewrite E in *. lia.
    - apply in_map_iff in E. destruct E as (x & Ex & Hx). rewrite <- Ex in *. apply SC in Hx. rewrite RS in * by auto.
      pose proof (pos_lt x S Hx). lia. }
  unfold newdim. rewrite pos_app. destruct (mem_str k keys) eqn:Mk.
  - assert (Kk : In k keys) by (apply mem_str_iff; auto).
    assert (HB : In k B) by (apply in_restrict; auto).
    assert (MS : mem_str k S = false) by (apply mem_str_false; rewrite IS; tauto). rewrite MS.
    assert (NS0 : S <> []) by (destruct NE as [NE|NE]; auto; rewrite NE in HB; destruct HB).
    rewrite TD by auto.
    assert (KM : keymin L keys = e).
    { unfold keymin. set (l := map (fun k0 => Z.of_nat (pos k0 L)) (restrict L keys)).
      assert (RB : forall x, In x (restrict L keys) <-> In x B) by (intros x; rewrite !in_restrict; tauto).
      destruct (zmin_le l (Z.of_nat (length L))) as [Z1 Z2].
      assert (H0 : exists s0, In s0 B /\ pos s0 B = 0).
      { destruct B as [|b0 b]; [destruct HB|]. exists b0. cbn. rewrite String.eqb_refl. auto. }
      destruct H0 as (s0 & Hs0 & P0).
      assert (Z3 : (zmin_list l (Z.of_nat (length L)) <= Z.of_nat (pos s0 L))%Z).
      { apply Z2. unfold l. apply in_map_iff. exists s0. split; auto. apply RB. auto. }
      rewrite (PB s0 Hs0), P0 in Z3.
      destruct (zmin_in l (Z.of_nat (length L))) as [E|E].
      - rewrite E in *. pose proof (PB s0 Hs0) as Ps0. rewrite P0 in Ps0. apply in_restrict in Hs0. destruct Hs0 as [Hs0 _].
        pose proof (pos_lt s0 L Hs0). lia.
      - unfold l in E at 2. apply in_map_iff in E. destruct E as (x & Ex & Hx). apply RB in Hx. rewrite <- Ex in *.
        rewrite PB in * by auto. lia. }
    rewrite KM. rewrite PB by auto. destruct S; [congruence|]. cbn [length]. lia.
  - apply mem_str_false in Mk. assert (HS : In k S) by (apply IS; auto).
    rewrite (proj2 (mem_str_iff k S) HS). rewrite RS by auto. rewrite RM; [lia|]. intros C. rewrite C in HS. destruct HS.
Qed.

Lemma in_ML k : In k ML <-> In k L /\ In k (od_keys (p_marg p)).
Proof. unfold marg_columns. rewrite in_restrict. tauto. Qed.

Lemma movable_order : movable p L keys ->
  exists L', NoDup L' /\ (forall k, In k L' <-> In k L) /\
    (forall k, In k L -> newdim p L keys k = Z.of_nat (pos k L')).
Proof.
  pose proof columns_split as SP. destruct nodup_cols as (NM & NC & DJ).
  assert (LI : forall k, In k L <-> In k ML \/ In k CL) by (intros k; rewrite SP at 1; rewrite in_app_iff; tauto).
  assert (BI : forall k, In k B <-> In k L /\ In k keys) by (intros k; rewrite in_restrict; tauto).
  assert (PL : forall k, pos k L = if mem_str k ML then pos k ML else length ML + pos k CL).
  { intros k. rewrite SP at 1. apply pos_app. }
  assert (Fin : forall S, NoDup S -> (forall k, In k S <-> In k L /\ ~ In k keys) ->
     (forall k, In k L -> newdim p L keys k = Z.of_nat (pos k (S ++ B))) ->
     exists L', NoDup L' /\ (forall k, In k L' <-> In k L) /\ (forall k, In k L -> newdim p L keys k = Z.of_nat (pos k L'))).
  { intros S NS IS NEWS. exists (S ++ B). split; [|split; auto].
    - apply nodup_app_iff. split; auto. split; [apply filter_nodup, (vp_axes _ _ V)|].
      intros k H1 H2. apply IS in H1. apply BI in H2. tauto.
    - intros k. rewrite in_app_iff, IS, BI. destruct (in_dec string_dec k keys); tauto. }
  intros [(A & EA & NE)|(A & EA & NA & Cd)]; rewrite EA in NM; apply nodup_app_iff in NM; destruct NM as (N1 & N2 & N3).
  - (* last block *)
    assert (IA : forall k, In k A -> ~ In k keys).
    { intros k Hk C. apply (N3 k Hk). apply BI. split; auto. apply LI. left. rewrite EA. apply in_or_app. auto. }
    assert (IS : forall k, In k (A ++ CL) <-> In k L /\ ~ In k keys).
    { intros k. rewrite in_app_iff, LI, EA, in_app_iff, BI. pose proof (IA k). pose proof (keys_not_cond k). tauto. }
    assert (NS : NoDup (A ++ CL)).
    { apply nodup_app_iff. split; auto. split; auto. intros k H1 H2. apply (DJ k); auto. rewrite EA. apply in_or_app. auto. }
    apply (Fin (A ++ CL)); auto.
    apply (newdim_order (A ++ CL) 0 (Z.of_nat (length A))); auto.
    + intros k Hk. rewrite pos_app. apply in_app_or in Hk. destruct (mem_str k A) eqn:MA.
      * apply mem_str_iff in MA. rewrite raw_marg by (rewrite EA; apply in_or_app; auto).
        rewrite PL, (proj2 (mem_str_iff k ML)) by (rewrite EA; apply in_or_app; auto).
        rewrite EA, pos_app, (proj2 (mem_str_iff k A) MA). lia.
      * apply mem_str_false in MA. destruct Hk as [Hk|Hk]; [contradiction|].
        rewrite raw_cond by auto. rewrite PL, (proj2 (mem_str_false k ML)) by (intros C; apply (DJ k); auto).
        rewrite EA, app_length. lia.
    + intros k Hk. rewrite PL, (proj2 (mem_str_iff k ML)) by (rewrite EA; apply in_or_app; auto).
      rewrite EA, pos_app, (proj2 (mem_str_false k A)) by (intros C; apply (N3 k); auto). lia.
  - (* first block *)
    assert (IA : forall k, In k A -> ~ In k keys).
    { intros k Hk C. apply (N3 k); auto. apply BI. split; auto. apply LI. left. rewrite EA. apply in_or_app. auto. }
    assert (PB : forall k, In k B -> (Z.of_nat (pos k L) = 0 + Z.of_nat (pos k B))%Z).
    { intros k Hk. rewrite PL, (proj2 (mem_str_iff k ML)) by (rewrite EA; apply in_or_app; auto).
      rewrite EA, pos_app, (proj2 (mem_str_iff k B) Hk). lia. }
    assert (RA : forall k, In k A -> rawdim p L keys k = Z.of_nat (length B + pos k A)).
    { intros k Hk. rewrite raw_marg by (rewrite EA; apply in_or_app; auto).
      rewrite PL, (proj2 (mem_str_iff k ML)) by (rewrite EA; apply in_or_app; auto).
      rewrite EA, pos_app, (proj2 (mem_str_false k B)) by (intros C; apply (N3 k); auto). reflexivity. }
    destruct Cd as [C0|Cl].
    + rewrite C0 in *. assert (IS : forall k, In k A <-> In k L /\ ~ In k keys).
      { intros k. rewrite LI, EA, in_app_iff, BI. cbn. pose proof (IA k). tauto. }
      apply (Fin A); auto. apply (newdim_order A (Z.of_nat (length B)) 0); auto.
      intros k Hk. rewrite RA by auto. lia.
    + assert (IS : forall k, In k (CL ++ A) <-> In k L /\ ~ In k keys).
      { intros k. rewrite in_app_iff, LI, EA, in_app_iff, BI. pose proof (IA k). pose proof (keys_not_cond k). tauto. }
      assert (NS : NoDup (CL ++ A)).
      { apply nodup_app_iff. split; auto. split; auto. intros k H1 H2. apply (DJ k); auto. rewrite EA. apply in_or_app. auto. }
      apply (Fin (CL ++ A)); auto. apply (newdim_order (CL ++ A) (Z.of_nat (length A)) 0); auto.
      * intros k Hk. rewrite pos_app. apply in_app_or in Hk. destruct (mem_str k CL) eqn:MC.
        -- apply mem_str_iff in MC. rewrite raw_cond by auto. rewrite PL, (proj2 (mem_str_false k ML)) by (intros C; apply (DJ k); auto).
           rewrite EA, app_length. lia.
        -- apply mem_str_false in MC. destruct Hk as [Hk|Hk]; [contradiction|]. rewrite RA by auto. lia.
      * left. intros C. apply app_eq_nil in C. tauto.
Qed.

(** *** necessary *)
Section Needed.
Variable L' : list string.
Hypothesis NL' : NoDup L'.
Hypothesis LL : forall k, In k L' <-> In k L.
Hypothesis NEW : forall k, In k L -> newdim p L keys k = Z.of_nat (pos k L').

Notation S0 := (staycols p L keys).

Lemma len_LL : length L' = length L.
Proof. apply Permutation_length, NoDup_Permutation; auto. apply (vp_axes _ _ V). Qed.

Lemma hit j : j < length L -> exists k, In k L /\ newdim p L keys k = Z.of_nat j.
Proof.
  intros H. rewrite <- len_LL in H. destruct (nth_error L' j) as [k|] eqn:E; [|apply nth_error_None in E; lia].
  exists k. assert (Hk : In k L) by (apply LL; eapply nth_error_In; eauto). split; auto. rewrite NEW by auto. rewrite (nth_pos k L' j); auto.
Qed.

Lemma inj x y : In x L -> In y L -> newdim p L keys x = newdim p L keys y -> x = y.
Proof.
  intros Hx Hy E. rewrite !NEW in E by auto. apply Nat2Z.inj in E. apply LL in Hx, Hy. apply (pos_inj x y L'); auto.
Qed.

Lemma in_S0 k : In k S0 <-> In k L /\ ~ In k keys.
Proof. apply (in_staycols p L V keys). Qed.

Lemma nodup_S0 : NoDup S0.
Proof. apply filter_nodup, filter_nodup, (vp_keys _ _ V). Qed.

Lemma nodup_new : NoDup (map (newdim p L keys) S0).
Proof. apply nodup_map_in; [|apply nodup_S0]. intros x y Hx Hy. apply in_S0 in Hx, Hy. apply inj; tauto. Qed.

Lemma B_len : length S0 + length B = length L.
Proof.
  assert (P : Permutation (S0 ++ B) L).
  { apply NoDup_Permutation; [|apply (vp_axes _ _ V)|].
    - apply nodup_app_iff. split; [apply nodup_S0|]. split; [apply filter_nodup, (vp_axes _ _ V)|].
      intros k H1 H2. apply in_S0 in H1. apply in_restrict in H2. tauto.
    - intros k. rewrite in_app_iff, in_S0, in_restrict. destruct (in_dec string_dec k keys); tauto. }
  apply Permutation_length in P. rewrite app_length in P. auto.
Qed.

Lemma top_ge : (Z.of_nat (length S0) <= topdim p L keys + 1)%Z.
Proof.
  assert (I : incl (map (newdim p L keys) S0) (map Z.of_nat (seq 0 (Z.to_nat (topdim p L keys + 1))))).
  { intros z Hz. apply in_map_iff in Hz. destruct Hz as (k & <- & Hk). apply in_S0 in Hk.
    destruct (newdim_stay p L V keys k) as [G1 G2]; try tauto. apply in_map_iff. exists (Z.to_nat (newdim p L keys k)).
    split; [lia|]. apply in_seq. lia. }
  apply NoDup_incl_length in I; [|apply nodup_new]. rewrite !map_length, seq_length in I.
  pose proof (topdim_nonneg p L keys). lia.
Qed.

Lemma hit_stay j : j < length S0 -> exists k, In k S0 /\ newdim p L keys k = Z.of_nat j.
Proof.
  intros H. destruct (hit j) as (k & Hk & Ek); [pose proof B_len; lia|]. exists k. split; auto. apply in_S0. split; auto.
  intros C. pose proof (newdim_key p L keys k Hk C). pose proof top_ge. lia.
Qed.

Lemma stay_lt k : In k S0 -> (newdim p L keys k < Z.of_nat (length S0))%Z.
Proof.
  intros Hk.
  assert (I : incl (map Z.of_nat (seq 0 (length S0))) (map (newdim p L keys) S0)).
  { intros z Hz. apply in_map_iff in Hz. destruct Hz as (j & <- & Hj). apply in_seq in Hj.
    destruct (hit_stay j) as (x & Hx & Ex); [lia|]. rewrite <- Ex. apply in_map. auto. }
  apply NoDup_length_incl in I.
  - apply (in_map (newdim p L keys)) in Hk. apply I in Hk. apply in_map_iff in Hk. destruct Hk as (j & <- & Hj). apply in_seq in Hj. lia.
  - apply FinFun.Injective_map_NoDup; [intros a b; apply Nat2Z.inj|apply seq_NoDup].
  - rewrite !map_length, seq_length. lia.
Qed.

Lemma stay_some : B <> [] -> S0 <> [].
Proof.
  intros HB C. assert (T0 : topdim p L keys = 0%Z) by (unfold topdim; rewrite C; reflexivity).
  destruct (hit 0) as (k & Hk & Ek). { pose proof B_len. destruct B; [congruence|cbn in *; lia]. }
  destruct (in_dec string_dec k keys) as [Kk|Kk].
  - pose proof (newdim_key p L keys k Hk Kk). lia.
  - assert (In k S0) by (apply in_S0; auto). rewrite C in H. destruct H.
Qed.

Lemma top_eq : S0 <> [] -> topdim p L keys = (Z.of_nat (length S0) - 1)%Z.
Proof.
  intros NE. pose proof top_ge as G. assert (LT : (topdim p L keys < Z.of_nat (length S0))%Z); [|lia].
  assert (H : exists k, In k S0 /\ topdim p L keys = newdim p L keys k \/ topdim p L keys = 0%Z).
  { unfold topdim. destruct (zmax_in (map (fun k => rawdim p L keys k - rawmin p L keys)%Z S0) 0%Z) as [E|E].
    - exists ""%string. auto.
    - rewrite in_map_iff in E. destruct E as (k & Ek & Hk). exists k. left. split; auto. unfold newdim.
      rewrite (proj2 (mem_str_false k keys)) by (apply in_S0 in Hk; tauto). symmetry. exact Ek. }
  destruct H as (k & [[H1 H2]|H]).
  - rewrite H2. apply stay_lt. auto.
  - rewrite H. destruct S0; [congruence|]. cbn [length]. lia.
Qed.

(** the key columns are contiguous *)
Lemma keys_contiguous : B <> [] -> forall i, i < length B ->
  exists k, In k B /\ (Z.of_nat (pos k L) = keymin L keys + Z.of_nat i)%Z.
Proof.
  intros HB i Hi. destruct (hit (length S0 + i)) as (k & Hk & Ek); [pose proof B_len; lia|].
  exists k. assert (Kk : In k keys).
  { destruct (in_dec string_dec k keys) as [|n]; auto. exfalso. assert (HS : In k S0) by (apply in_S0; auto).
    apply stay_lt in HS. lia. }
  split; [apply in_restrict; auto|]. unfold newdim in Ek. rewrite (proj2 (mem_str_iff k keys) Kk) in Ek.
  rewrite top_eq in Ek by (apply stay_some; auto). lia.
Qed.

Lemma keys_block : B <> [] -> exists X Y, L = X ++ B ++ Y.
Proof.
  intros HB. pose proof (keys_contiguous HB) as H.
  assert (E0 : (0 <= keymin L keys)%Z).
  { destruct (zmin_in (map (fun k => Z.of_nat (pos k L)) (restrict L keys)) (Z.of_nat (length L))) as [E|E]; unfold keymin.
    - rewrite E. lia.
    - rewrite in_map_iff in E. destruct E as (k & <- & _). lia. }
  set (e := Z.to_nat (keymin L keys)). set (b := length B).
  assert (H' : forall i, i < b -> exists k, In k B /\ nth_error L (e + i) = Some k).
  { intros i Hi. destruct (H i Hi) as (k & Hk & Ek). exists k. split; auto.
    replace (e + i) with (pos k L) by (unfold e; lia). apply pos_nth. apply in_restrict in Hk. tauto. }
  set (M := firstn b (skipn e L)).
  assert (EL : L = firstn e L ++ M ++ skipn b (skipn e L)) by (unfold M; rewrite firstn_skipn, firstn_skipn; auto).
  assert (Nsk : forall i, nth_error (skipn e L) i = nth_error L (e + i)).
  { intros i. apply nth_error_skipn'. }
  assert (LM : length M = b).
  { unfold M. apply firstn_length_le. assert (Hb : b <> 0) by (unfold b; destruct B; [congruence|cbn; lia]).
    destruct (H' (b - 1)) as (k & _ & Ek); [lia|]. assert (e + (b - 1) < length L) by (apply nth_error_Some; congruence).
    rewrite skipn_length. lia. }
  assert (IMB : incl M B).
  { intros k Hk. apply In_nth_error in Hk. destruct Hk as [i Hi]. assert (Hlt : i < b) by (rewrite <- LM; apply nth_error_Some; congruence).
    destruct (H' i Hlt) as (k' & Hk' & Ek'). rewrite <- Nsk in Ek'.
    assert (Ef : nth_error (skipn e L) i = Some k).
    { rewrite <- (firstn_skipn b (skipn e L)). rewrite nth_error_app1 by (fold M; lia). exact Hi. }
    congruence. }
  assert (NLs := vp_axes _ _ V). rewrite EL in NLs. apply nodup_app_iff in NLs. destruct NLs as (NX & NMY & DX).
  apply nodup_app_iff in NMY. destruct NMY as (NM & NY & DY).
  assert (IBM : incl B M) by (apply NoDup_length_incl; auto; unfold b in LM; lia).
  assert (MK : forall k, In k M -> mem_str k keys = true).
  { intros k Hk. apply IMB in Hk. apply in_restrict in Hk. apply mem_str_iff. tauto. }
  assert (EB : B = M).
  { unfold restrict. rewrite EL at 1. rewrite !filter_app.
    assert (F1 : filter (fun k => mem_str k keys) (firstn e L) = []).
    { destruct (filter (fun k => mem_str k keys) (firstn e L)) as [|k r] eqn:E; auto. exfalso.
      assert (Hk : In k (k :: r)) by (cbn; auto). rewrite <- E in Hk. apply filter_In in Hk. destruct Hk as [K1 K2].
      apply (DX k); auto. apply in_or_app. left. apply IBM. apply in_restrict. apply mem_str_iff in K2. split; auto.
      rewrite EL. apply in_or_app. auto. }
    assert (F3 : filter (fun k => mem_str k keys) (skipn b (skipn e L)) = []).
    { destruct (filter (fun k => mem_str k keys) (skipn b (skipn e L))) as [|k r] eqn:E; auto. exfalso.
      assert (Hk : In k (k :: r)) by (cbn; auto). rewrite <- E in Hk. apply filter_In in Hk. destruct Hk as [K1 K2].
      apply (DY k); auto. apply IBM. apply in_restrict. apply mem_str_iff in K2. split; auto.
      rewrite EL. apply in_or_app. right. apply in_or_app. auto. }
    rewrite F1, F3, app_nil_r. cbn [app]. clear - MK. induction M as [|k l IH]; cbn; auto.
    rewrite MK by (cbn; auto). f_equal. apply IH. intros; apply MK; cbn; auto. }
  exists (firstn e L), (skipn b (skipn e L)). rewrite EB. exact EL.
Qed.

Lemma order_movable : movable p L keys.
Proof.
  destruct (list_eq_dec string_dec B []) as [EB|NB].
  - left. unfold last_block. exists ML. rewrite EB, app_nil_r. auto.
  - destruct (keys_block NB) as (X & Y & EL). assert (NE : S0 <> []) by (apply stay_some; auto).
    unfold movable, last_block, first_block. cbv zeta.
    assert (RC0 : forall k, In k CL -> rawdim p L keys k = (Z.of_nat (pos k L) - Z.of_nat (length B))%Z) by (apply raw_cond).
    remember (restrict keys L) as Bl eqn:EBl. pose proof columns_split as SP. destruct nodup_cols as (NM & NC & DJ).
    (* the marginal columns end after the block *)
    assert (HY : exists Y', ML = X ++ Bl ++ Y' /\ Y = Y' ++ CL).
    { assert (Le : length (X ++ Bl) <= length ML).
      { destruct (le_lt_dec (length (X ++ Bl)) (length ML)) as [|Hlt]; auto. exfalso.
        destruct (nth_error Bl (length Bl - 1)) as [k|] eqn:Ek.
        2:{ apply nth_error_None in Ek. destruct Bl; [congruence|cbn in Ek; lia]. }
        assert (HkB : In k Bl) by (eapply nth_error_In; eauto). rewrite EBl in HkB. apply in_restrict in HkB.
        assert (En : nth_error L (length (X ++ Bl) - 1) = Some k).
        { rewrite EL. rewrite app_length. assert (length Bl <> 0) by (destruct Bl; [congruence|cbn; lia]).
          rewrite nth_error_app2 by lia. rewrite nth_error_app1 by lia.
          replace (length X + length Bl - 1 - length X) with (length Bl - 1) by lia. auto. }
        rewrite SP in En. rewrite nth_error_app2 in En by lia. apply nth_error_In in En. eapply keys_not_cond; eauto. tauto. }
      assert (EM : ML = (X ++ Bl) ++ skipn (length (X ++ Bl)) ML).
      { rewrite <- (firstn_skipn (length (X ++ Bl)) ML) at 1. f_equal.
        transitivity (firstn (length (X ++ Bl)) L).
        - rewrite SP at 2. rewrite firstn_app. replace (length (X ++ Bl) - length ML) with 0 by lia. cbn. rewrite app_nil_r. auto.
        - rewrite EL, app_assoc, firstn_app, Nat.sub_diag, firstn_all. cbn. apply app_nil_r. }
      exists (skipn (length (X ++ Bl)) ML). rewrite app_assoc. split; auto.
      apply (app_inv_head (X ++ Bl)). rewrite app_assoc, <- EM, <- SP. rewrite <- app_assoc. symmetry. exact EL. }
    destruct HY as (Y' & EM & EY).
    assert (NLx := vp_axes _ _ V). rewrite EL in NLx. apply nodup_app_iff in NLx. destruct NLx as (NX & NBY & DX).
    apply nodup_app_iff in NBY. destruct NBY as (NBB & NY & DY).
    assert (BI : forall k, In k Bl <-> In k L /\ In k keys) by (intros k; rewrite EBl, in_restrict; tauto).
    assert (SI : forall k, In k S0 <-> In k X \/ In k Y).
    { intros k. rewrite in_S0. split.
      - intros [H1 H2]. rewrite EL in H1. rewrite !in_app_iff in H1. destruct H1 as [H1|[H1|H1]]; auto. apply BI in H1. tauto.
      - intros H. assert (HL : In k L) by (rewrite EL, !in_app_iff; tauto). split; auto. intros C.
        assert (HB : In k Bl) by (apply BI; auto). destruct H as [H|H]; [apply (DX k); auto; apply in_or_app; auto|apply (DY k); auto]. }
    assert (LS : length S0 = length X + length Y).
    { assert (PS : Permutation S0 (X ++ Y)).
      { apply NoDup_Permutation; [apply nodup_S0| |intros k; rewrite SI, in_app_iff; tauto].
        apply nodup_app_iff. split; auto. split; auto. intros k H1 H2. apply (DX k); auto. apply in_or_app. auto. }
      apply Permutation_length in PS. rewrite app_length in PS. auto. }
    assert (RX : forall k, In k X -> rawdim p L keys k = Z.of_nat (pos k X)).
    { intros k Hk. rewrite raw_marg by (rewrite EM; apply in_or_app; auto). rewrite EL, pos_app, (proj2 (mem_str_iff k X) Hk). auto. }
    assert (PY : forall k, In k Y -> pos k L = length X + (length Bl + pos k Y)).
    { intros k Hk. rewrite EL at 1. rewrite pos_app, (proj2 (mem_str_false k X)) by (intros C; apply (DX k); auto; apply in_or_app; auto).
      rewrite pos_app, (proj2 (mem_str_false k Bl)) by (intros C; apply (DY k); auto). reflexivity. }
    assert (RY : forall k, In k Y' -> rawdim p L keys k = Z.of_nat (length X + (length Bl + pos k Y'))).
    { intros k Hk. rewrite raw_marg by (rewrite EM, !in_app_iff; auto). rewrite PY by (rewrite EY; apply in_or_app; auto).
      rewrite EY, pos_app, (proj2 (mem_str_iff k Y') Hk). reflexivity. }
    assert (DYC : forall k, In k CL -> ~ In k Y').
    { intros k Hk C. apply (DJ k); auto. rewrite EM, !in_app_iff. auto. }
    assert (RC : forall k, In k CL -> rawdim p L keys k = Z.of_nat (length X + (length Y' + pos k CL))).
    { intros k Hk. rewrite RC0 by auto. rewrite PY by (rewrite EY; apply in_or_app; auto).
      rewrite EY, pos_app, (proj2 (mem_str_false k Y')) by auto. lia. }
    assert (NDk : forall k, In k S0 -> newdim p L keys k = (rawdim p L keys k - rawmin p L keys)%Z).
    { intros k Hk. apply in_S0 in Hk. unfold newdim. rewrite (proj2 (mem_str_false k keys)) by tauto. reflexivity. }
    assert (Cases : forall k, In k S0 -> In k X \/ In k Y' \/ In k CL).
    { intros k Hk. apply SI in Hk. rewrite EY, in_app_iff in Hk. tauto. }
    assert (LB : 0 < length Bl) by (destruct Bl; [congruence|cbn; lia]).
    assert (LY : length Y = length Y' + length CL) by (rewrite EY, app_length; auto).
    destruct Y' as [|y0 Yr] eqn:EY'.
    + (* last block *)
      left. exists X. rewrite EM, app_nil_r. split; auto. left. intros C. apply app_eq_nil in C. destruct C as [-> CE].
      assert (length S0 = 0) by (rewrite LS, LY, CE; reflexivity). destruct S0; [congruence|discriminate].
    + rewrite <- EY' in *. assert (Yn : 0 < length Y') by (rewrite EY'; cbn; lia). clear EY' y0 Yr.
      assert (EX : X = []).
      { destruct X as [|x0 Xr] eqn:EX; auto. exfalso. rewrite <- EX in *. assert (Xn : 0 < length X) by (rewrite EX; cbn; lia).
        assert (Hx0 : In x0 X) by (rewrite EX; cbn; auto).
        assert (Px0 : pos x0 X = 0) by (rewrite EX; cbn; rewrite String.eqb_refl; auto).
        assert (R0 : rawmin p L keys = 0%Z).
        { destruct (rawmin_in p L keys NE) as (x & Hx & Ex).
          assert (M : (rawmin p L keys <= rawdim p L keys x0)%Z) by (apply rawmin_le, SI; auto). rewrite RX, Px0 in M by auto.
          destruct (Cases x Hx) as [H|[H|H]]; [rewrite RX in Ex by auto|rewrite RY in Ex by auto|rewrite RC in Ex by auto]; lia. }
        destruct (hit_stay (length X)) as (k & Hk & Ek); [lia|]. rewrite NDk, R0 in Ek by auto.
        destruct (Cases k Hk) as [H|[H|H]].
        - rewrite RX in Ek by auto. apply pos_lt in H. lia.
        - rewrite RY in Ek by auto. lia.
        - rewrite RC in Ek by auto. lia. }
      subst X. cbn [length app] in *. right. exists Y'. split; [exact EM|]. split; [intros C; rewrite C in Yn; cbn in Yn; lia|].
      destruct CL as [|c0 Cr] eqn:EC; auto. rewrite <- EC in *. right.
      assert (Cn : 0 < length CL) by (rewrite EC; cbn; lia).
      assert (IY : forall j, j < length Y' -> exists k, In k Y' /\ pos k Y' = j).
      { intros j Hj. destruct (nth_error Y' j) as [k|] eqn:E; [|apply nth_error_None in E; lia]. exists k.
        split; [eapply nth_error_In; eauto|]. apply nth_pos; auto. rewrite EY in NY. apply nodup_app_iff in NY. tauto. }
      assert (IC : forall j, j < length CL -> exists k, In k CL /\ pos k CL = j).
      { intros j Hj. destruct (nth_error CL j) as [k|] eqn:E; [|apply nth_error_None in E; lia]. exists k.
        split; [eapply nth_error_In; eauto|]. apply nth_pos; auto. }
      assert (SY : forall k, In k Y' -> In k S0) by (intros k Hk; apply SI; right; rewrite EY; apply in_or_app; auto).
      assert (SC : forall k, In k CL -> In k S0) by (intros k Hk; apply SI; right; rewrite EY; apply in_or_app; auto).
      assert (Inj : forall x y, In x Y' -> In y CL -> rawdim p L keys x <> rawdim p L keys y).
      { intros x y Hx Hy E. assert (x = y).
        { apply inj; [apply SY, in_S0 in Hx; tauto|apply SC, in_S0 in Hy; tauto|]. rewrite !NDk by auto. lia. }
        subst. apply (DYC y); auto. }
      (* no overlap *)
      assert (Dis : length Y' + length CL <= length Bl).
      { destruct (le_lt_dec (length Y' + length CL) (length Bl)) as [|Hlt]; auto. exfalso.
        destruct (le_lt_dec (length Y') (length Bl)) as [H1|H1].
        - destruct (IC (length Bl - length Y')) as (y & Hy & Py); [lia|]. destruct (IY 0) as (x & Hx & Px); [lia|].
          apply (Inj x y); auto. rewrite RY, RC by auto. rewrite Px, Py. lia.
        - destruct (IC 0) as (y & Hy & Py); [lia|]. destruct (IY (length Y' - length Bl)) as (x & Hx & Px); [lia|].
          apply (Inj x y); auto. rewrite RY, RC by auto. rewrite Px, Py. lia. }
      assert (RM : rawmin p L keys = Z.of_nat (length Y')).
      { destruct (rawmin_in p L keys NE) as (x & Hx & Ex). destruct (IC 0) as (y & Hy & Py); [lia|].
        assert (M : (rawmin p L keys <= rawdim p L keys y)%Z) by (apply rawmin_le; apply SC; auto). rewrite RC, Py in M by auto.
        destruct (Cases x Hx) as [H|[H|H]]; [destruct H|rewrite RY in Ex by auto|rewrite RC in Ex by auto]; lia. }
      destruct (Nat.eq_dec (length Bl) (length Y' + length CL)) as [|Nq]; auto. exfalso.
      destruct (hit_stay (length CL)) as (k & Hk & Ek); [lia|]. rewrite NDk, RM in Ek by auto.
      destruct (Cases k Hk) as [H|[H|H]]; [destruct H| |].
      * rewrite RY in Ek by auto. lia.
      * rewrite RC in Ek by auto. apply pos_lt in H. lia.
Qed.
End Needed.

End Blocks.
