(** Which of a series of evaluations of explicit conditionals raise. *)
From Coq Require Import String Ascii ZArith Bool Arith Lia List.
From Verif Require Import Base OdLemmas Num Tensor Names Names_Spec Names_Proofs VariableModel FieldModel Field_Spec Field_Proofs ExprModel GibbsModel Gibbs_Proofs CFModel CF_Spec CF_Proofs CF_Calls.
Import ListNotations.
Set Implicit Arguments.
Local Open Scope list_scope.
Local Open Scope nat_scope.

Section P.
Context {T : Type} {N : Num T} {TR : Trunc T}.
Context {V : Type} (sub : V -> V -> V) (ustr : string -> V) (apply : nat -> list (parg V) -> odict V -> result (V + odict V)).
Implicit Types (c : cfn T V) (d : odict string).

Lemma window_at (keys : list string) n t j pos : 0 < t ->
  match pos with None => j = 0 | Some p => p = Z.of_nat (j * t) end ->
  window_of keys n (Some (Z.of_nat t)) pos =
    (firstn t (skipn (j * t) keys), Some (if n <=? S j * t then 0%Z else Z.of_nat (S j * t))).
Proof.
  intros Ht Hp. cbn [window_of]. destruct (Z.of_nat t =? 0)%Z eqn:E; [apply Z.eqb_eq in E; lia|].
  assert (P : match pos with None => 0%Z | Some m => m end = Z.of_nat (j * t)) by (destruct pos; subst; reflexivity).
  rewrite P. replace (Z.of_nat (j * t) + Z.of_nat t)%Z with (Z.of_nat (S j * t)) by lia.
  rewrite py_slice_nat. replace (S j * t - j * t) with t by lia. f_equal. f_equal.
  destruct (n <=? S j * t) eqn:L; destruct (Z.of_nat (S j * t) >=? Z.of_nat n)%Z eqn:G; try reflexivity; exfalso.
  - apply Nat.leb_le in L. rewrite Z.geb_leb in G. apply Z.leb_gt in G. lia.
  - apply Nat.leb_gt in L. rewrite Z.geb_leb in G. apply Z.leb_le in G. lia.
Qed.

Lemma eval_at c d n t j pos rev values : f_index (cf_func c) = None -> f_ismulti (cf_func c) = true -> 0 < t -> length values = n ->
  match pos with None => j = 0 | Some p => p = Z.of_nat (j * t) end ->
  let '(c', pos', r) := eval_explicit sub ustr apply c d (Some (Z.of_nat t)) pos rev values in
  pos' = Some (if n <=? S j * t then 0%Z else Z.of_nat (S j * t)) /\
  (r = Ok values <-> rev = false /\ length d <= j * t) /\ (r = Ok values \/ exists e, r = Err e).
Proof.
  intros E M Ht L Hp. unfold eval_explicit. rewrite (@window_at (od_keys d) (length values) t j pos Ht Hp), L.
  destruct rev; [split; [reflexivity|]; split; [split; [discriminate|intros [Q _]; discriminate]|eauto]|].
  rewrite M. cbn [negb].
  assert (LK : length (od_keys d) = length d) by (unfold od_keys; apply map_length).
  destruct (le_lt_dec (length d) (j * t)) as [G|G].
  - rewrite skipn_all2 by (rewrite LK; exact G). rewrite firstn_nil. cbn. split; [reflexivity|]. split; [|auto]. tauto.
  - assert (NE : firstn t (skipn (j * t) (od_keys d)) <> []).
    { intros Q. apply (f_equal (@length _)) in Q. rewrite firstn_length, skipn_length, LK in Q. cbn in Q. lia. }
    destruct (@draw_fails T V sub ustr apply (firstn t (skipn (j * t) (od_keys d))) (firstn t (skipn (j * t) (od_keys d))) c values E M NE) as (e & X).
    destruct (draw_keys _ _ _ _ _ _ _) as [c' r]. cbn [snd] in X. subst r. split; [reflexivity|]. split; [split; [discriminate|intros [_ Q]; lia]|eauto].
Qed.

Lemma evals_at n t q d : 0 < t -> rounds n t q -> forall l i c pos j,
  f_index (cf_func c) = None -> f_ismulti (cf_func c) = true -> j < q ->
  (forall x, In x l -> length (snd x) = n) -> match pos with None => j = 0 | Some p => p = Z.of_nat (j * t) end ->
  forall rev values, nth_error l i = Some (rev, values) ->
  exists r, nth_error (evals sub ustr apply c d (Some (Z.of_nat t)) pos l) i = Some (values, r) /\
  (r = Ok values <-> rev = false /\ length d <= t * ((j + i) mod q)) /\ (r = Ok values \/ exists e, r = Err e).
Proof.
  intros Ht (Hq & R1 & R2). induction l as [|[rev0 values0] l IH]; intros i c pos j E M Hj HL Hp rev values Ni; [destruct i; discriminate|].
  cbn [evals]. pose proof (@eval_at c d n t j pos rev0 values0 E M Ht (HL _ (or_introl eq_refl)) Hp) as Q.
  pose proof (@eval_index T V sub ustr apply c d (Some (Z.of_nat t)) pos rev0 values0 E) as [I1 I2].
  destruct (eval_explicit _ _ _ _ _ _ _ _ _) as [[c' pos'] r]. cbn [fst] in I1, I2. destruct Q as (Q1 & Q2 & Q3).
  destruct i as [|i].
  - cbn in Ni. injection Ni as -> ->. exists r. cbn. split; [reflexivity|]. rewrite Nat.add_0_r, Nat.mod_small by exact Hj.
    rewrite (Nat.mul_comm t). auto.
  - cbn in Ni. cbn [nth_error].
    assert (M' : f_ismulti (cf_func c') = true) by (rewrite (multi_of I2); exact M).
    assert (B : (n <=? S j * t) = (S j =? q)).
    { destruct (S j =? q) eqn:K; [apply Nat.eqb_eq in K; apply Nat.leb_le; subst q; exact R2|].
      apply Nat.eqb_neq in K. apply Nat.leb_gt. eapply Nat.le_lt_trans; [|exact R1]. apply Nat.mul_le_mono_r. lia. }
    rewrite B in Q1. destruct (S j =? q) eqn:K.
    + apply Nat.eqb_eq in K. destruct (IH i c' pos' 0 I1 M' ltac:(lia) (fun x I => HL x (or_intror I)) ltac:(subst pos'; reflexivity) rev values Ni) as (r' & A1 & A2).
      exists r'. split; [exact A1|]. replace ((j + S i) mod q) with ((0 + i) mod q); [exact A2|].
      replace (j + S i) with (i + 1 * q) by lia. rewrite Nat.mod_add by lia. reflexivity.
    + apply Nat.eqb_neq in K. destruct (IH i c' pos' (S j) I1 M' ltac:(lia) (fun x I => HL x (or_intror I)) ltac:(subst pos'; reflexivity) rev values Ni) as (r' & A1 & A2).
      exists r'. split; [exact A1|]. replace (j + S i) with (S j + i) by lia. exact A2.
Qed.

Lemma windows o d (a : cfuncarg V) args kwds order delta c n t q l : make_cf o (InOrd d) a args kwds order delta = Ok c ->
  f_ismulti (cf_func c) = true -> 0 < t -> rounds n t q -> (forall x, In x l -> length (snd x) = n) ->
  forall i rev values, nth_error l i = Some (rev, values) ->
  exists r, nth_error (evals sub ustr apply c d (Some (Z.of_nat t)) None l) i = Some (values, r) /\
  (r = Ok values <-> rev = false /\ length d <= t * (i mod q)) /\ (r = Ok values \/ exists e, r = Err e).
Proof.
  intros H M Ht R HL i rev values Ni. apply make_cf_func in H as [H _]. apply set_func_parts in H.
  exact (@evals_at n t q d Ht R l i c None 0 H M (proj1 R) HL eq_refl rev values Ni).
Qed.

Lemma dependent_out (f : field T) (i : cinp T) (a : cfuncarg V) args kwds order delta :
  make_cf (CoRf f true) i a args kwds order delta = Err AssertionError.
Proof. reflexivity. Qed.

Lemma dependent_inp (o : cobj T) (f : field T) (a : cfuncarg V) args kwds order delta (c : cfn T V) :
  make_cf o (InObj (CoRf f true)) a args kwds order delta <> Ok c.
Proof.
  unfold make_cf. destruct (to_rf o) as [[g|]|]; cbn; discriminate.
Qed.
End P.
