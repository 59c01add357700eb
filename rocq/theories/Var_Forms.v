(** Lemmas about the forms in which the set of a variable can be given. *)
From Coq Require Import String ZArith Reals Lra Lia Bool Arith List Permutation.
From Verif Require Import Base Num RNumLemmas Likelihoods VariableModel Var_Spec Var_Proofs Var_Delta Var_Forms_Spec.
Import ListNotations.
Local Open Scope R_scope.

Lemma v_true_iff (v : pyval R) : v_true v = true <-> num v <> 0.
Proof.
  unfold v_true. rewrite negb_true_iff, as_num_num. unfold n_eqb. change (@n0 R RNum) with (IZR 0). rn.
  destruct (Reqb_iff (num v) 0) as [A B]. fold (n_eqb (num v) 0). 
  split.
  - intros H C. unfold n_eqb in *. apply B in C. congruence.
  - intros H. apply not_true_is_false. intros C. apply H, A, C.
Qed.

Lemma trunc_ok x : truncated x (n_trunc x).
Proof.
  unfold n_trunc, RTrunc, truncated. destruct (Rle_dec 0 x) as [H|H].
  - left. split; [exact H|]. destruct (base_Int_part x). lra.
  - right. split; [lra|]. rewrite opp_IZR. destruct (base_Int_part (- x)). lra.
Qed.

Lemma trunc_int (z : Z) : truncated (IZR z) z.
Proof. unfold truncated. destruct (Rle_dec 0 (IZR z)); [left|right]; lra. Qed.

Lemma cast_converted t v : converted t v (cast t v).
Proof.
  destruct t; cbn.
  - exists (v_true v). split; [reflexivity|apply v_true_iff].
  - destruct v as [b|z|x]; [exists (if b then 1 else 0)%Z|exists z|exists (n_trunc x)]; (split; [reflexivity|]); cbn.
    + destruct b; apply trunc_int.
    + apply trunc_int.
    + apply trunc_ok.
  - destruct v as [b|z|x]; try reflexivity; destruct b; reflexivity.
Qed.

Lemma cast_all own t vs : cast_loop (T := R) (Some own) (Some t) (map (fun v => Bare (AV v)) vs) =
  Ok (map (fun v => Bare (AV v)) (map (cast t) vs), Some t).
Proof. induction vs as [|v vs IH]; [reflexivity|]. cbn [map cast_loop bind]. rewrite IH. reflexivity. Qed.

Lemma eval_bare t (vs : list (pyval R)) : t <> VFloat -> vs <> [] ->
  eval_vlims (Some t) (map (fun v => Bare (AV v)) vs) = Ok (map (fun v => Bare (AV v)) vs).
Proof.
  intros NF NE. destruct vs as [|v vs]; [congruence|].
  assert (E : existsb is_tup (map (fun v => Bare (AV v)) (v :: vs)) = false) by (clear; induction (v :: vs); cbn; auto).
  unfold eval_vlims. rewrite E. destruct t; try reflexivity. congruence.
Qed.

Lemma set_bare t s a vs l : vs_vtype s = Some t -> t <> VFloat -> vs <> [] -> l = map (fun v => Bare (AV v)) vs ->
  (a = AList l \/ exists l0, a = ASet l0 /\ l = map Bare (sort_atoms l0)) ->
  set_vset (T := R) s a = (discrete t (map (cast t) vs), Ok tt).
Proof.
  intros Vt NF NE -> H. unfold set_vset. rewrite Vt.
  assert (X : forall n, n = Ok (map (fun v => Bare (AV v)) vs) -> match n with
    | Ok l => match cast_loop (Some t) (Some t) l with
              | Ok (l', vt) => match eval_vlims vt l' with
                               | Ok l'' => (mkVS vt (Some l''), Ok tt) | Err e => (mkVS vt (Some l'), Err e) end
              | Err e => (s, Err e) end
    | Err e => (s, Err e) end = (discrete t (map (cast t) vs), Ok tt)).
  { intros n ->. rewrite cast_all, eval_bare; [reflexivity|exact NF|]. destruct vs; [congruence|discriminate]. }
  destruct H as [->|(l0 & -> & E)].
  - exact (X _ eq_refl).
  - rewrite <- E. exact (X _ eq_refl).
Qed.

Lemma first_type t : t <> VFloat -> exists vs, set_vtype (T := R) new_state (AType t) = (discrete t vs, Ok tt).
Proof.
  intros NF. destruct t; [| |congruence].
  - exists [PB false; PB true].
    change (set_vtype (T := R) new_state (AType VBool)) with (set_vset (T := R) (mkVS (Some VBool) None) (AList (map (fun v => Bare (AV v)) [PB false; PB true]))).
    erewrite (set_bare VBool _ _ [PB false; PB true]); [|reflexivity|discriminate|discriminate|reflexivity|left; reflexivity]. cbn [map cast].
    assert (v_true (T := R) (PB false) = false) as ->. { apply not_true_iff_false. rewrite v_true_iff. cbn. lra. }
    assert (v_true (T := R) (PB true) = true) as ->. { apply v_true_iff. cbn. lra. }
    reflexivity.
  - exists [PI 0; PI 1]. reflexivity.
Qed.

Lemma make_discrete nm a t vs l : valid_name nm = true -> is_container a = true -> truth a = Ok true -> t <> VFloat -> vs <> [] ->
  l = map (fun v => Bare (AV v)) vs ->
  (a = AList l \/ exists l0, a = ASet l0 /\ l = map Bare (sort_atoms l0)) ->
  make_variable (T := R) (Some nm) a (AType t) = Ok (nm, discrete t (map (cast t) vs)).
Proof.
  intros Vn Ca Ta NF NE El H. unfold make_variable, set_name. rewrite Vn. cbn [bind is_container].
  unfold init_state. cbn [truth]. destruct (first_type t NF) as (v0 & ->). cbn [seq_state]. rewrite Ta.
  rewrite (set_bare t (discrete t v0) a vs l); auto.
Qed.

Lemma list_form nm t vs : valid_name nm = true -> t <> VFloat -> vs <> [] ->
  exists ws, make_variable (Some nm) (AList (map (fun v => Bare (AV v)) vs)) (AType t) = Ok (nm, discrete t ws) /\
    Forall2 (converted t) vs ws.
Proof.
  intros Vn NF NE. exists (map (cast t) vs). split.
  - eapply make_discrete; eauto. cbn. destruct vs; [congruence|reflexivity].
  - clear. induction vs; constructor; auto. apply cast_converted.
Qed.

(** *** sets *)
Lemma ins_perm (a : atom R) l : Permutation (ins_atom a l) (a :: l).
Proof.
  induction l as [|b l IH]; [reflexivity|]. cbn. destruct (atom_ltb a b); [reflexivity|].
  rewrite IH. apply perm_swap.
Qed.

Lemma sort_perm_gen (l : list (atom R)) : forall acc, Permutation (fold_left (fun acc a => ins_atom a acc) l acc) (l ++ acc).
Proof.
  induction l as [|a l IH]; intros acc; [reflexivity|]. cbn [fold_left app]. rewrite IH, ins_perm.
  symmetry. apply Permutation_middle.
Qed.

Lemma sort_perm (l : list (atom R)) : Permutation (sort_atoms l) l.
Proof. unfold sort_atoms. rewrite sort_perm_gen, app_nil_r. reflexivity. Qed.

Fixpoint asc_atoms (l : list (atom R)) : Prop :=
  match l with a :: ((b :: _) as l') => limit_le a b /\ asc_atoms l' | _ => True end.

Lemma ins_asc a l : asc_atoms l -> asc_atoms (ins_atom a l) /\
  (forall b l', l = b :: l' -> exists c l'', ins_atom a l = c :: l'' /\ (c = a \/ c = b)).
Proof.
  induction l as [|b l IH]; intros S; [split; [exact I|discriminate]|]. cbn [ins_atom].
  destruct (atom_ltb a b) eqn:L.
  - split; [|intros; eauto]. split; [|exact S]. apply atom_ltb_iff in L. destruct (limit_total a b); [assumption|contradiction].
  - split; [|intros b0 l0 E; injection E as <- <-; eauto].
    assert (B : limit_le b a). { apply not_true_iff_false in L. rewrite atom_ltb_iff in L. destruct (limit_total b a); [assumption|]. tauto. }
    assert (S' : asc_atoms l) by (destruct l; [exact I|apply S]).
    destruct (IH S') as [A1 A2]. destruct l as [|c l]; [split; [exact B|exact I]|].
    destruct (A2 c l eq_refl) as (d & l'' & Ed & Hd). rewrite Ed in *. split; [|exact A1].
    destruct Hd as [-> | ->]; [exact B|apply S].
Qed.

Lemma sort_asc (l : list (atom R)) : asc_atoms (sort_atoms l).
Proof.
  unfold sort_atoms. assert (G : forall acc, asc_atoms acc -> asc_atoms (fold_left (fun acc a => ins_atom a acc) l acc)).
  { induction l as [|a l IH]; intros acc H; [exact H|]. cbn. apply IH, ins_asc, H. }
  apply G. exact I.
Qed.

Lemma all_values (l : list (atom R)) vs : Permutation l (map AV vs) -> exists ws, l = map AV ws /\ Permutation vs ws.
Proof.
  intros P. apply (Permutation_map_inv _ _ P).
Qed.

Lemma set_form nm t vs : valid_name nm = true -> t <> VFloat -> vs <> [] ->
  exists us ws, Permutation vs us /\ ascends us /\ Forall2 (converted t) us ws /\
    make_variable (Some nm) (ASet (map AV vs)) (AType t) = Ok (nm, discrete t ws).
Proof.
  intros Vn NF NE. destruct (all_values (sort_atoms (map AV vs)) vs (sort_perm _)) as (us & Eu & Pu).
  exists us, (map (cast t) us). split; [exact Pu|]. split; [|split].
  - pose proof (sort_asc (map AV vs)) as A. rewrite Eu in A. clear - A. induction us as [|v [|w us] IH]; cbn in *; auto. split; [tauto|]. apply IH. tauto.
  - clear. induction us; constructor; auto. apply cast_converted.
  - eapply make_discrete with (l := map (fun v => Bare (AV v)) us); eauto.
    + cbn. destruct vs; [congruence|reflexivity].
    + intros ->. apply NE. apply Permutation_nil, Permutation_sym, Pu.
    + right. exists (map AV vs). split; [reflexivity|]. rewrite Eu, map_map. reflexivity.
Qed.

(** *** intervals *)
Lemma tuple_form nm (a b : pyval R) : valid_name nm = true ->
  exists s, make_variable (Some nm) (ATuple [AV a; AV b]) (AType VFloat) = Ok (nm, s) /\
    forall x : R, inside s (PF x) = Some true <-> Rmin (num a) (num b) < x < Rmax (num a) (num b).
Proof.
  intros Vn.
  assert (G : forall u v, num u <= num v -> eval_vlims (T := R) (Some VFloat) [Tup (AV (cast VFloat u)); Tup (AV (cast VFloat v))] =
    Ok [Tup (AV (cast VFloat u)); Tup (AV (cast VFloat v))]).
  { intros u v H. unfold eval_vlims. cbn [atom_of]. assert (L : atom_ltb (AV (cast VFloat v)) (AV (cast VFloat u)) = false).
    { apply not_true_iff_false. rewrite atom_ltb_iff. intros C. apply C. cbn. rewrite !as_num_num. exact H. }
    rewrite L. reflexivity. }
  assert (M : exists u v, sort_atoms (T := R) [AV a; AV b] = [AV u; AV v] /\ num u = Rmin (num a) (num b) /\ num v = Rmax (num a) (num b)).
  { unfold sort_atoms. cbn [fold_left ins_atom]. destruct (atom_ltb (AV b) (AV a)) eqn:L.
    - apply atom_ltb_iff in L. cbn in L. exists b, a. unfold Rmin, Rmax. destruct (Rle_dec (num a) (num b)); [contradiction|auto].
    - apply not_true_iff_false in L. rewrite atom_ltb_iff in L. cbn in L. exists a, b. unfold Rmin, Rmax. destruct (Rle_dec (num a) (num b)); [auto|tauto]. }
  destruct M as (u & v & Es & Eu & Ev).
  exists (interval (Tup (AV (cast VFloat u))) (Tup (AV (cast VFloat v)))). split.
  - unfold make_variable, set_name. rewrite Vn. cbn [bind is_container]. unfold init_state. cbn [truth].
    change (set_vtype (T := R) new_state (AType VFloat)) with (mkVS (T := R) (Some VFloat) (Some [Tup (AOO false); Tup (AOO true)]), Ok tt).
    cbn [seq_state]. unfold set_vset. rewrite Es. cbn [vs_vtype cast_loop bind]. rewrite G; [reflexivity|].
    rewrite Eu, Ev. unfold Rmin, Rmax. destruct (Rle_dec (num a) (num b)); lra.
  - intros x. rewrite inside_interval_iff. unfold over, under. change (num (cast VFloat u)) with (as_num u). change (num (cast VFloat v)) with (as_num v). rewrite !as_num_num. rewrite Eu.
    rewrite (as_num_num v), Ev. cbn [num]. tauto.
Qed.

(** *** perturbations keep the type *)
Lemma revtype_typed t v : vtype_of (revtype (T := R) v t) = t.
Proof. unfold revtype. destruct (vtype_eqb t (vtype_of v)) eqn:E; [destruct t, (vtype_of v); cbn in E; congruence|apply cast_vtype]. Qed.

Lemma lims_typed t (l : list (elem R)) lo hi : Forall (typed t) l -> lims l = Some (lo, hi) ->
  (forall v, lo = AV v -> vtype_of v = t) /\ (forall v, hi = AV v -> vtype_of v = t).
Proof.
  intros Fl. destruct l as [|e l]; [discriminate|]. cbn [lims]. inversion Fl as [|? ? T0 Tl]; subst.
  assert (E : exists e1 e2, In e1 (e :: l) /\ In e2 (e :: l) /\
    fold_left (fun acc e => atom_min acc (atom_of e)) l (atom_of e) = atom_of e1 /\
    fold_left (fun acc e => atom_max acc (atom_of e)) l (atom_of e) = atom_of e2).
  { clear. assert (G : forall (f : atom R -> atom R -> atom R), (forall a b, f a b = a \/ f a b = b) -> forall l e,
      exists e1, In e1 (e :: l) /\ fold_left (fun acc e => f acc (atom_of e)) l (atom_of e) = atom_of e1).
    { intros f Hf l0. induction l0 as [|y l0 IH]; intros e0; [exists e0; cbn; auto|]. cbn [fold_left].
      destruct (Hf (atom_of e0) (atom_of y)) as [-> | ->].
      - destruct (IH e0) as (e1 & I1 & E1). exists e1. split; [cbn in *; tauto|exact E1].
      - destruct (IH y) as (e1 & I1 & E1). exists e1. split; [cbn in *; tauto|exact E1]. }
    destruct (G atom_min) with (l := l) (e := e) as (e1 & I1 & E1). { intros a b. unfold atom_min. destruct (atom_leb a b); auto. }
    destruct (G atom_max) with (l := l) (e := e) as (e2 & I2 & E2). { intros a b. unfold atom_max. destruct (atom_leb a b); auto. }
    exists e1, e2. auto. }
  destruct E as (e1 & e2 & I1 & I2 & -> & ->). intros H. assert (lo = atom_of e1 /\ hi = atom_of e2) as [-> ->] by (split; congruence).
  rewrite Forall_forall in Fl. split; intros v Ev; [specialize (Fl _ I1)|specialize (Fl _ I2)]; unfold typed in Fl; rewrite Ev in Fl; exact Fl.
Qed.

Lemma bound_typed s t scalar old v w : vs_vtype s = Some t -> (forall l, vs_vset s = Some l -> Forall (typed t) l) ->
  vtype_of old = t -> vtype_of v = t -> bound_elem s scalar old v = Ok w -> vtype_of (T := R) w = t.
Proof.
  intros Vt Fs To Tv. unfold bound_elem. destruct (vs_vset s) as [l|] eqn:El; [|discriminate].
  destruct (lims l) as [[lo hi]|] eqn:Li; [|discriminate]. destruct (lims_typed t l lo hi (Fs l eq_refl) Li) as [Tl Th].
  assert (Mn : forall u, vtype_of u = t -> vtype_of (v_min hi u) = t).
  { intros u Tu. unfold v_min. destruct hi as [h|]; [|exact Tu]. destruct (v_leb h u); [apply Th; reflexivity|exact Tu]. }
  assert (Mx : forall u, vtype_of u = t -> vtype_of (v_max lo u) = t).
  { intros u Tu. unfold v_max. destruct lo as [h|]; [|exact Tu]. destruct (v_leb u h); [apply Tl; reflexivity|exact Tu]. }
  assert (C : vtype_of (v_max lo (v_min hi v)) = t) by auto.
  rewrite Vt. destruct t; try (intros H; assert (w = v_max lo (v_min hi v)) by congruence; subst w; exact C).
  destruct l as [|e0 [|e1 [|e2 l]]]; try (intros H; assert (w = v_max lo (v_min hi v)) by congruence; subst w; exact C).
  destruct (is_tup e0), (is_tup e1).
  - destruct (inside s v) as [[]|]; intros H; try discriminate; (assert (w = v \/ w = old) as [-> | ->] by (left + right; congruence)); assumption.
  - destruct scalar; intros H; injection H as <-.
    + destruct (below v lo); auto.
    + apply Mn. destruct (negb (above v lo)); auto.
  - destruct scalar; intros H; injection H as <-.
    + destruct (above v hi); auto.
    + apply Mx. destruct (negb (below v hi)); auto.
  - intros H; injection H as <-. exact C.
Qed.

Lemma apply_typed s t u dc scalar values d bound r out : vs_vtype s = Some t ->
  (forall l, vs_vset s = Some l -> Forall (typed t) l) ->
  Forall (fun v => vtype_of v = t) values -> apply_delta (T := R) s u dc scalar values d bound r = Ok out ->
  Forall (fun v => vtype_of v = t) out.
Proof.
  intros Vt Fs Fv. unfold apply_delta. rewrite Vt.
  match goal with |- bind ?x _ = Ok _ -> _ => destruct x as [d1|]; [|discriminate] end. cbn [bind].
  assert (FIN : forall vals, length vals = length values ->
     (let! vals' := Ok (map (fun v => revtype v t) vals) in
      if match bound with Some b => b | None => dc_bound dc end
      then map_res (fun ov : pyval R * pyval R => bound_elem s scalar (fst ov) (snd ov)) (combine values vals')
      else Ok vals') = Ok out -> Forall (fun v => vtype_of v = t) out).
  { intros vals _. cbn [bind]. assert (R0 : Forall (fun v => vtype_of v = t) (map (fun v => revtype v t) vals)).
    { apply Forall_forall. intros w I. apply in_map_iff in I. destruct I as (v & <- & _). apply revtype_typed. }
    destruct (match bound with Some b => b | None => dc_bound dc end); [|intros H; injection H as <-; exact R0].
    revert R0. generalize (map (fun v => revtype v t) vals). clear vals. intros vals. revert out values Fv.
    induction vals as [|v vals IH]; intros out values Fv R0 H.
    - destruct values; injection H as <-; constructor.
    - destruct values as [|o values]; [injection H as <-; constructor|]. cbn [combine map_res fst snd] in H.
      destruct (bound_elem s scalar o v) as [w|] eqn:B; [|discriminate]. cbn [bind] in H.
      destruct (map_res _ (combine values vals)) as [ws|] eqn:MR; [|discriminate]. injection H as <-.
      apply Forall_cons_iff in Fv as [Fo Fv]. apply Forall_cons_iff in R0 as [Hv Hvs].
      constructor; [exact (bound_typed s t scalar o v w Vt Fs Fo Hv B)|]. exact (IH ws values Fv Hvs MR). }
  destruct d1 as [|v|l|l|v]; try discriminate.
  - intros H; injection H as <-. exact Fv.
  - destruct t; (destruct u; apply FIN; rewrite map_length; reflexivity) || (apply FIN; rewrite map_length; reflexivity).
  - destruct l as [|v [|]]; try discriminate. destruct scalar; apply FIN; rewrite map_length; [reflexivity|].
    rewrite combine_length, seq_length, Nat.min_id. reflexivity.
  - destruct l as [|v [|]]; try discriminate. apply FIN. rewrite map_length. reflexivity.
  - destruct t; (destruct u; apply FIN; rewrite map_length; reflexivity) || (apply FIN; rewrite map_length; reflexivity).
Qed.

(** An int variable moved by a float. *)
Lemma int_by_float vals dc (xs : list Z) scalar (d : R) r : d <> 0 ->
  exists zs, apply_delta (T := R) (discrete VInt vals) None dc scalar (map PI xs) (DScal (PF d)) (Some false) r = Ok (map PI zs) /\
    Forall2 (fun x z => truncated (IZR x + d) z) xs zs.
Proof.
  intros Nd. exists (map (fun x => n_trunc (IZR x + d)) xs). split.
  - unfold apply_delta. cbn [discrete vs_vtype delta_or]. rewrite (v_true_ne d Nd). cbn [bind]. f_equal. rewrite !map_map. reflexivity.
  - clear. induction xs; constructor; auto. apply trunc_ok.
Qed.
