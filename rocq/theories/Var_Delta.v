(** Proofs about perturbation of variables. *)
From Coq Require Import String ZArith Reals Lra Lia Bool Arith List Permutation.
From Verif Require Import Base Num RNumLemmas Likelihoods VariableModel Var_Spec Var_Proofs.
Import ListNotations.
Local Open Scope R_scope.

Lemma map_res_len {A B} (f : A -> result B) l bs : map_res f l = Ok bs -> length bs = length l.
Proof.
  revert bs. induction l as [|a l IH]; intros bs H; cbn in H.
  - inversion H. reflexivity.
  - destruct (f a); [|discriminate]. cbn in H. destruct (map_res f l); [|discriminate]. inversion H. cbn. f_equal. auto.
Qed.

Lemma bound_map (P : pyval R -> Prop) s scalar :
  (forall old v w, P old -> bound_elem s scalar old v = Ok w -> P w) ->
  forall values vals out, length vals = length values -> Forall P values ->
  map_res (fun ov : pyval R * pyval R => bound_elem s scalar (fst ov) (snd ov)) (combine values vals) = Ok out ->
  Forall P out /\ length out = length values.
Proof.
  intros H. induction values as [|o values IH]; intros [|v vals] out L F E; try discriminate; cbn in E.
  - inversion E. auto.
  - inversion F; subst. destruct (bound_elem s scalar o v) as [w|] eqn:B; [|discriminate]. cbn in E.
    destruct (map_res _ (combine values vals)) as [ws|] eqn:M; [|discriminate]. inversion E; subst.
    cbn in L. destruct (IH vals ws) as [A C]; auto. split; [constructor; eauto|cbn; auto].
Qed.

Lemma apply_bound (P : pyval R -> Prop) s u dc scalar values d r out :
  (forall old v w, P old -> bound_elem s scalar old v = Ok w -> P w) ->
  Forall P values -> apply_delta s u dc scalar values d (Some true) r = Ok out ->
  Forall P out /\ length out = length values.
Proof.
  intros HB F H. unfold apply_delta in H.
  match type of H with bind ?x _ = _ => destruct x as [d1|]; [|discriminate] end. cbn [bind] in H.
  assert (G : forall vals, length vals = length values ->
     (let! vals' := match vs_vtype s with Some t => Ok (map (fun v => revtype v t) vals) | None => Ok vals end in
      map_res (fun ov : pyval R * pyval R => bound_elem s scalar (fst ov) (snd ov)) (combine values vals')) = Ok out ->
     Forall P out /\ length out = length values).
  { intros vals L E. destruct (vs_vtype s); cbn [bind] in E; (eapply bound_map; [exact HB| |exact F|exact E]);
      rewrite ?map_length; auto. }
  set (d2 := match d1 with DDelta v => DScal v | _ => d1 end) in H. clearbody d2.
  destruct d2 as [|v|l|l|v].
  - inversion H; subst. auto.
  - destruct (match vs_vtype s with Some VBool => true | _ => false end).
    + apply G in H; auto. apply map_length.
    + destruct u as [u|]; (apply G in H; [auto|apply map_length]).
  - destruct l as [|v [|]]; try discriminate. destruct scalar.
    + apply G in H; auto. apply map_length.
    + apply G in H; auto. rewrite map_length, combine_length, seq_length. lia.
  - destruct l as [|v [|]]; try discriminate. apply G in H; auto. apply map_length.
  - discriminate.
Qed.

(** ** Intervals *)

Definition respects (e0 e1 : elem R) (v : pyval R) : Prop := over e0 (num v) /\ under e1 (num v).

Lemma interval_lims e0 e1 : limit_le (atom_of e0) (atom_of e1) -> lims [e0; e1] = Some (atom_of e0, atom_of e1).
Proof.
  intros H. unfold lims. cbn [fold_left]. unfold atom_min, atom_max.
  rewrite (proj2 (atom_leb_iff _ _) H). reflexivity.
Qed.

Lemma bound_interval e0 e1 scalar old v : limit_le (atom_of e0) (atom_of e1) ->
  exists w, bound_elem (interval e0 e1) scalar old v = Ok w /\
  (scalar = false \/ is_tup e0 = is_tup e1 -> respects e0 e1 old -> respects e0 e1 w).
Proof.
  intros LE. unfold bound_elem. cbn [interval vs_vset vs_vtype]. rewrite (interval_lims _ _ LE).
  destruct e0 as [a0|a0], e1 as [a1|a1]; cbn [is_tup atom_of] in *.
  - eexists. split; [reflexivity|]. intros _ [O U].
    destruct a0 as [x|[|]], a1 as [y|[|]]; cbn in O, U, LE; try discriminate; try tauto; unfold respects; cbn [over under v_min v_max].
    + destruct (v_leb y v) eqn:E1; [apply v_leb_iff in E1|apply v_leb_false in E1].
      * destruct (v_leb y x) eqn:E2; [apply v_leb_iff in E2|apply v_leb_false in E2]; lra.
      * destruct (v_leb v x) eqn:E2; [apply v_leb_iff in E2|apply v_leb_false in E2]; lra.
    + destruct (v_leb v x) eqn:E2; [apply v_leb_iff in E2|apply v_leb_false in E2]; split; auto; lra.
    + destruct (v_leb y v) eqn:E2; [apply v_leb_iff in E2|apply v_leb_false in E2]; split; auto; lra.
    + auto.
  - unfold below, above. destruct scalar.
    + eexists. split; [reflexivity|]. intros [X|X]; discriminate.
    + eexists. split; [reflexivity|]. intros _ [O U].
      destruct (negb (atom_ltb (AV v) a1)) eqn:B.
      * destruct a0 as [x|[|]]; cbn in O; try discriminate; unfold respects; cbn [over v_max]; [|auto].
        destruct (v_leb old x) eqn:E; [apply v_leb_iff in E|]; [|auto].
        assert (num old = num x) by (apply Rle_antisym; auto). split; [lra|].
        destruct a1 as [y|[|]]; cbn in *; auto. lra.
      * apply negb_false_iff, atom_ltb_iff in B.
        assert (UV : under (Tup a1) (num v)).
        { destruct a1 as [y|[|]]; cbn in *; auto; try tauto. lra. }
        destruct a0 as [x|[|]]; cbn in O; try discriminate; unfold respects; cbn [over v_max]; [|auto].
        destruct (v_leb v x) eqn:E; [apply v_leb_iff in E|apply v_leb_false in E; split; auto; lra].
        split; [lra|]. destruct a1 as [y|[|]]; cbn in *; auto. lra.
  - unfold below, above. destruct scalar.
    + eexists. split; [reflexivity|]. intros [X|X]; discriminate.
    + eexists. split; [reflexivity|]. intros _ [O U].
      destruct (negb (atom_ltb a0 (AV v))) eqn:B.
      * destruct a1 as [y|[|]]; cbn in U; try discriminate; unfold respects; cbn [under v_min]; [|auto].
        destruct (v_leb y old) eqn:E; [apply v_leb_iff in E|]; [|auto].
        assert (num old = num y) by (apply Rle_antisym; auto). split; [|lra].
        destruct a0 as [x|[|]]; cbn in *; auto. lra.
      * apply negb_false_iff, atom_ltb_iff in B.
        assert (OV : over (Tup a0) (num v)).
        { destruct a0 as [x|[|]]; cbn in *; auto; try tauto. lra. }
        destruct a1 as [y|[|]]; cbn in U; try discriminate; unfold respects; cbn [under v_min]; [|auto].
        destruct (v_leb y v) eqn:E; [apply v_leb_iff in E|apply v_leb_false in E; split; auto; lra].
        split; [|lra]. destruct a0 as [x|[|]]; cbn in *; auto. lra.
  - change (mkVS (Some VFloat) (Some [Tup a0; Tup a1])) with (interval (Tup a0) (Tup a1)).
    destruct (inside_interval (Tup a0) (Tup a1) v) as (b & -> & IB). destruct b.
    + exists v. split; auto. intros _ _. apply IB. auto.
    + exists old. split; auto.
Qed.

Lemma apply_interval e0 e1 u dc scalar values d r out :
  limit_le (atom_of e0) (atom_of e1) -> scalar = false \/ is_tup e0 = is_tup e1 ->
  Forall (fun v => inside (interval e0 e1) v = Some true) values ->
  apply_delta (interval e0 e1) u dc scalar values d (Some true) r = Ok out ->
  Forall (fun v => inside (interval e0 e1) v = Some true) out /\ length out = length values.
Proof.
  intros LE SC F H.
  assert (HB : forall old v w, respects e0 e1 old -> bound_elem (interval e0 e1) scalar old v = Ok w -> respects e0 e1 w).
  { intros old v w R E. destruct (bound_interval e0 e1 scalar old v LE) as (w' & E' & K).
    rewrite E' in E. inversion E; subst. auto. }
  assert (F' : Forall (respects e0 e1) values).
  { eapply Forall_impl; [|exact F]. intros v Hv. apply inside_interval_iff. auto. }
  destruct (apply_bound (respects e0 e1) _ _ _ _ _ _ _ _ HB F' H) as [A B]. split; auto.
  eapply Forall_impl; [|exact A]. intros v Hv. apply inside_interval_iff. auto.
Qed.

(** With a number as perturbation there is always an answer. *)
Lemma map_res_total {A B} (f : A -> result B) l : (forall a, exists b, f a = Ok b) -> exists bs, map_res f l = Ok bs.
Proof.
  intros H. induction l as [|a l [bs IH]]; cbn; eauto. destruct (H a) as [b ->]. rewrite IH. cbn. eauto.
Qed.

Lemma apply_interval_total e0 e1 u dc scalar values (x : R) r :
  limit_le (atom_of e0) (atom_of e1) -> x <> 0 ->
  exists out, apply_delta (interval e0 e1) u dc scalar values (DScal (PF x)) (Some true) r = Ok out.
Proof.
  intros LE NZ. unfold apply_delta. cbn [interval vs_vtype delta_or].
  assert (TV : v_true (T := R) (PF x) = true) by (unfold v_true; cbn [as_num]; rewrite (proj2 (Reqb_false_iff x n0)); auto).
  rewrite TV. cbn [bind].
  destruct u as [u|]; apply map_res_total; intros [o v]; cbn [fst snd];
    destruct (bound_interval e0 e1 scalar o v LE) as (w & E & _); eauto.
Qed.

(** A scalar in a half-open interval. *)
Lemma v_true_ne (d : R) : d <> 0 -> v_true (T := R) (PF d) = true.
Proof. intros H. unfold v_true. cbn [as_num]. rewrite (proj2 (Reqb_false_iff d n0)); auto. Qed.

Lemma half_open_low L U dc x d r : L < x <= U -> d <> 0 ->
  exists w, apply_delta (interval (Tup (AV (PF L))) (Bare (AV (PF U)))) None dc true [PF x] (DScal (PF d)) (Some true) r
            = Ok [PF w] /\
    (inside (interval (Tup (AV (PF L))) (Bare (AV (PF U)))) (PF w) = Some true <-> x + d <> L).
Proof.
  intros H D. unfold apply_delta. cbn [interval vs_vtype delta_or]. rewrite v_true_ne by auto.
  cbn [bind map combine map_res fst snd v_add].
  unfold revtype. cbn [vtype_of vtype_eqb].
  unfold bound_elem. cbn [interval vs_vset vs_vtype]. rewrite interval_lims by (cbn; lra).
  cbn [is_tup atom_of below]. unfold below. cbn [n_add RNum as_num].
  destruct (atom_ltb (AV (PF (x + d))) (AV (PF L))) eqn:B.
  - cbn [bind]. exists x. split; auto. rewrite inside_interval_iff. cbn. apply atom_ltb_iff in B. cbn in B. lra.
  - cbn [bind]. apply not_true_iff_false in B. rewrite atom_ltb_iff in B. cbn in B.
    unfold v_min. destruct (v_leb (PF U) (PF (x + d))) eqn:E.
    + apply v_leb_iff in E. cbn in E. exists U. split; auto. rewrite inside_interval_iff. cbn. lra.
    + apply v_leb_false in E. cbn in E. exists (x + d). split; auto. rewrite inside_interval_iff. cbn. lra.
Qed.

Lemma half_open_high L U dc x d r : L <= x < U -> d <> 0 ->
  exists w, apply_delta (interval (Bare (AV (PF L))) (Tup (AV (PF U)))) None dc true [PF x] (DScal (PF d)) (Some true) r
            = Ok [PF w] /\
    (inside (interval (Bare (AV (PF L))) (Tup (AV (PF U)))) (PF w) = Some true <-> x + d <> U).
Proof.
  intros H D. unfold apply_delta. cbn [interval vs_vtype delta_or]. rewrite v_true_ne by auto.
  cbn [bind map combine map_res fst snd v_add].
  unfold revtype. cbn [vtype_of vtype_eqb].
  unfold bound_elem. cbn [interval vs_vset vs_vtype]. rewrite interval_lims by (cbn; lra).
  cbn [is_tup atom_of]. unfold above. cbn [n_add RNum as_num].
  destruct (atom_ltb (AV (PF U)) (AV (PF (x + d)))) eqn:B.
  - cbn [bind]. exists x. split; auto. rewrite inside_interval_iff. cbn. apply atom_ltb_iff in B. cbn in B. lra.
  - cbn [bind]. apply not_true_iff_false in B. rewrite atom_ltb_iff in B. cbn in B.
    unfold v_max. destruct (v_leb (PF (x + d)) (PF L)) eqn:E.
    + apply v_leb_iff in E. cbn in E. exists L. split; auto. rewrite inside_interval_iff. cbn. lra.
    + apply v_leb_false in E. cbn in E. exists (x + d). split; auto. rewrite inside_interval_iff. cbn. lra.
Qed.

(** ** Discrete variables *)

Lemma fold_min_mem (l : list (pyval R)) : forall v, exists m,
  fold_left (fun acc e => atom_min acc (atom_of e)) (map (fun v => Bare (AV v)) l) (AV v) = AV m /\
  In m (v :: l) /\ Forall (fun w => num m <= num w) (v :: l).
Proof.
  induction l as [|x l IH]; intros v; cbn [map fold_left].
  - exists v. split; auto. split; [left; auto|]. constructor; auto. lra.
  - cbn [atom_of]. unfold atom_min at 2. cbn [atom_leb]. destruct (v_leb v x) eqn:E.
    + destruct (IH v) as (m & A & B & C). exists m. split; auto. apply v_leb_iff in E.
      inversion C; subst. split; [destruct B; [left; auto|right; right; auto]|].
      constructor; auto. constructor; auto. lra.
    + destruct (IH x) as (m & A & B & C). exists m. split; auto. apply v_leb_false in E.
      inversion C; subst. split; [right; auto|]. constructor; auto. lra.
Qed.

Lemma fold_max_mem (l : list (pyval R)) : forall v, exists m,
  fold_left (fun acc e => atom_max acc (atom_of e)) (map (fun v => Bare (AV v)) l) (AV v) = AV m /\
  In m (v :: l) /\ Forall (fun w => num w <= num m) (v :: l).
Proof.
  induction l as [|x l IH]; intros v; cbn [map fold_left].
  - exists v. split; auto. split; [left; auto|]. constructor; auto. lra.
  - cbn [atom_of]. unfold atom_max at 2. cbn [atom_leb]. destruct (v_leb v x) eqn:E.
    + destruct (IH x) as (m & A & B & C). exists m. split; auto. apply v_leb_iff in E.
      inversion C; subst. split; [right; auto|]. constructor; auto. lra.
    + destruct (IH v) as (m & A & B & C). exists m. split; auto. apply v_leb_false in E.
      inversion C; subst. split; [destruct B; [left; auto|right; right; auto]|].
      constructor; auto. constructor; auto. lra.
Qed.

Lemma discrete_lims vals : vals <> [] -> exists lo hi,
  lims (map (fun v => Bare (AV v)) vals) = Some (AV (T := R) lo, AV hi) /\ In lo vals /\ In hi vals /\
  Forall (fun w => num lo <= num w <= num hi) vals.
Proof.
  intros NE. destruct vals as [|v l]; [congruence|]. cbn [map lims atom_of].
  destruct (fold_min_mem l v) as (lo & A1 & A2 & A3). destruct (fold_max_mem l v) as (hi & B1 & B2 & B3).
  exists lo, hi. rewrite A1, B1. split; auto. split; auto. split; auto.
  rewrite Forall_forall in *. auto.
Qed.

Definition spanned (vals : list (pyval R)) (v : pyval R) : Prop :=
  exists lo hi, In lo vals /\ In hi vals /\ num lo <= num v <= num hi.

Lemma bound_discrete t vals scalar old v : t <> VFloat -> vals <> [] ->
  exists w, bound_elem (discrete t vals) scalar old v = Ok w /\ spanned vals w /\ (spanned vals v -> num w = num v).
Proof.
  intros NF NE. unfold bound_elem. cbn [discrete vs_vset vs_vtype].
  destruct (discrete_lims vals NE) as (lo & hi & -> & IL & IH & F).
  assert (LH : num lo <= num hi) by (rewrite Forall_forall in F; destruct (F _ IH); lra).
  exists (v_max (AV lo) (v_min (AV hi) v)). split; [destruct t; congruence || reflexivity|]. cbn [v_min v_max].
  destruct (v_leb hi v) eqn:E1; [apply v_leb_iff in E1|apply v_leb_false in E1].
  - destruct (v_leb hi lo) eqn:E2; [apply v_leb_iff in E2|apply v_leb_false in E2].
    + split; [exists lo, lo; repeat split; auto; lra|]. intros (a & b & Ia & Ib & K).
      rewrite Forall_forall in F. pose proof (F a Ia). pose proof (F b Ib). lra.
    + split; [exists hi, hi; repeat split; auto; lra|]. intros (a & b & Ia & Ib & K).
      rewrite Forall_forall in F. pose proof (F a Ia). pose proof (F b Ib). lra.
  - destruct (v_leb v lo) eqn:E2; [apply v_leb_iff in E2|apply v_leb_false in E2].
    + split; [exists lo, lo; repeat split; auto; lra|]. intros (a & b & Ia & Ib & K).
      rewrite Forall_forall in F. pose proof (F a Ia). pose proof (F b Ib). lra.
    + split; [exists lo, hi; repeat split; auto; lra|]. auto.
Qed.

Lemma apply_discrete t vals u dc scalar values d r out : t <> VFloat -> vals <> [] ->
  Forall (spanned vals) values ->
  apply_delta (discrete t vals) u dc scalar values d (Some true) r = Ok out ->
  Forall (spanned vals) out /\ length out = length values.
Proof.
  intros NF NE F H. eapply apply_bound; [|exact F|exact H]. intros old v w _ E.
  destruct (bound_discrete t vals scalar old v NF NE) as (w' & E' & S & _). rewrite E' in E. inversion E; subst. auto.
Qed.

(** An integer variable: the sum, whether or not it belongs to the set. *)
Lemma apply_int_gap zs dc x d r : zs <> [] -> d <> 0%Z ->
  spanned (map PI zs) (PI (x + d)) ->
  exists w, apply_delta (discrete VInt (map PI zs)) None dc true [PI x] (DScal (PI d)) (Some true) r = Ok [w] /\
    num w = IZR (x + d) /\ (inside (discrete VInt (map PI zs)) w = Some true <-> In (x + d)%Z zs).
Proof.
  intros NE D SP. unfold apply_delta. cbn [discrete vs_vtype delta_or].
  assert (TV : v_true (T := R) (PI d) = true).
  { unfold v_true. cbn [as_num]. rewrite (proj2 (Reqb_false_iff (IZR d) n0)); auto.
    intros E. apply (eq_IZR d 0) in E. auto. }
  rewrite TV. cbn [bind map combine map_res fst snd v_add z_of]. unfold revtype. cbn [vtype_of vtype_eqb].
  assert (NE' : map (@PI R) zs <> []) by (destruct zs; [congruence|discriminate]).
  destruct (bound_discrete VInt (map PI zs) true (PI x) (PI (x + d)) ltac:(discriminate) NE') as (w & E & _ & K).
  rewrite E. cbn [bind]. exists w. split; auto. specialize (K SP). split; auto.
  destruct (inside_discrete VInt (map PI zs) w ltac:(discriminate)) as (b & EB & IB).
  rewrite EB. rewrite K in IB. cbn [num] in IB. split.
  - intros B. inversion B; subst.
    pose proof (proj1 IB eq_refl) as M; rewrite map_map in M; apply in_map_iff in M;
      destruct M as (z & EZ & IZ); cbn in EZ; apply eq_IZR in EZ; subst; auto.
  - intros I. f_equal. apply IB. rewrite map_map. apply in_map_iff. exists (x + d)%Z. auto.
Qed.
