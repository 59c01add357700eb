(** Proofs about which mappings are accepted, and arguments of lambda functions
    without parameters. *)
From Coq Require Import String Ascii ZArith Bool Arith Lia List.
From Verif Require Import Base OdLemmas ExprModel Expr_Spec Expr_Proofs Expr_More.
Import ListNotations.

Lemma mapping_ints_in m i : In i (mapping_ints m) <-> exists k, In (k, MInt i) m.
Proof.
  induction m as [|[k v] m IH]; cbn; [split; [intros []|intros (k & [])]|].
  destruct v; cbn; rewrite ?IH; split.
  - intros [->|(k' & H)]; eauto.
  - intros (k' & [H|H]); [inversion H; auto|eauto].
  - intros (k' & H); eauto.
  - intros (k' & [H|H]); [discriminate|eauto].
  - intros (k' & H); eauto.
  - intros (k' & [H|H]); [discriminate|eauto].
  - intros (k' & H); eauto.
  - intros (k' & [H|H]); [discriminate|eauto].
Qed.

Lemma zmin_spec l : forall z, (zmin z l <= z)%Z /\ (forall x, In x l -> (zmin z l <= x)%Z) /\ In (zmin z l) (z :: l).
Proof.
  unfold zmin. induction l as [|y l IH]; intros z; cbn; [repeat split; [lia|intros x []|auto]|].
  destruct (IH (Z.min z y)) as (H1 & H2 & H3). repeat split.
  - lia.
  - intros x [<-|Hx]; [lia|auto].
  - destruct H3 as [H3|H3]; [|auto]. rewrite <- H3. destruct (Z.min_spec z y) as [[_ ->]|[_ ->]]; auto.
Qed.
Lemma zmax_spec l : forall z, (z <= zmax z l)%Z /\ (forall x, In x l -> (x <= zmax z l)%Z) /\ In (zmax z l) (z :: l).
Proof.
  unfold zmax. induction l as [|y l IH]; intros z; cbn; [repeat split; [lia|intros x []|auto]|].
  destruct (IH (Z.max z y)) as (H1 & H2 & H3). repeat split.
  - lia.
  - intros x [<-|Hx]; [lia|auto].
  - destruct H3 as [H3|H3]; [|auto]. rewrite <- H3. destruct (Z.max_spec z y) as [[_ ->]|[_ ->]]; auto.
Qed.

Lemma contiguous_iff l : contiguous l = true <->
  forall i j n, In i l -> In j l -> (i <= n <= j)%Z -> In n l.
Proof.
  destruct l as [|z l]; [split; [intros _ i j n []|reflexivity]|]. unfold contiguous.
  destruct (zmin_spec l z) as (A1 & A2 & A3). destruct (zmax_spec l z) as (B1 & B2 & B3).
  rewrite forallb_forall. split.
  - intros H i j n Hi Hj Hn.
    assert (Lo : (zmin z l <= i)%Z) by (destruct Hi as [<-|Hi]; auto).
    assert (Hh : (j <= zmax z l)%Z) by (destruct Hj as [<-|Hj]; auto).
    specialize (H (Z.to_nat (n - zmin z l))). rewrite existsb_exists in H. destruct H as (x & Hx & E).
    + apply in_seq. lia.
    + apply Z.eqb_eq in E. replace n with x by lia. exact Hx.
  - intros H n Hn. apply in_seq in Hn. apply existsb_exists. exists (zmin z l + Z.of_nat n)%Z.
    split; [|apply Z.eqb_refl]. apply (H (zmin z l) (zmax z l)); auto. lia.
Qed.

Lemma check_mapping_iff m : check_mapping m = Ok tt <-> acceptable m.
Proof.
  unfold check_mapping, acceptable.
  destruct (existsb (fun kv => is_other (snd kv)) m) eqn:E.
  - split; [discriminate|]. intros [H _]. apply existsb_exists in E. destruct E as ([k v] & I & O).
    destruct v; try discriminate. destruct (H k I).
  - assert (NO : forall k, ~ In (k, MOther) m).
    { intros k I. assert (existsb (fun kv : string * mval => is_other (snd kv)) m = true); [|congruence].
      apply existsb_exists. exists (k, MOther). auto. }
    unfold assert_. destruct (contiguous (mapping_ints m)) eqn:C.
    + split; auto. intros _. split; auto. pose proof (proj1 (contiguous_iff _) C) as C'. clear C.
      intros k i k' j n H1 H2 H3. apply mapping_ints_in. eapply C'; [| |exact H3]; apply mapping_ints_in; eauto.
    + split; [discriminate|]. intros [_ H]. assert (contiguous (mapping_ints m) = true); [|congruence].
      apply contiguous_iff. intros i j n H1 H2 H3. apply mapping_ints_in in H1. apply mapping_ints_in in H2. apply mapping_ints_in.
      destruct H1 as [k H1], H2 as [k' H2]. eauto.
Qed.

Lemma set_order_iff (V : Type) (e : expression V) m : snd (e_maps e) = None ->
  (snd (e_set_order e (Some m)) = Ok tt <-> acceptable m).
Proof.
  intros H. unfold e_set_order, set_order. rewrite H. cbn. apply check_mapping_iff.
Qed.
Lemma set_delta_iff (V : Type) (e : expression V) m : fst (e_maps e) = None ->
  (snd (e_set_delta e (Some m)) = Ok tt <-> acceptable m).
Proof.
  intros H. unfold e_set_delta, set_delta. rewrite H. cbn. apply check_mapping_iff.
Qed.

Lemma lambda_arguments (V : Type) (sub : V -> V -> V) s cargs ckw (e : expression V) key id args kwds :
  make_expression s cargs ckw None None = Ok e ->
  e_getitem e key = Ok (Fun id Lambda 0) ->
  not_sole_dict (cargs ++ args)%list -> (cargs ++ args)%list <> [] ->
  e_item_call sub e key args kwds = Err AssertionError.
Proof.
  intros M G NS NE. pose proof (make_islambda _ _ _ _ _ _ M G) as EL.
  apply make_expression_maps in M. destruct M as [_ [MA [MK [MM _]]]].
  unfold e_item_call. rewrite G. cbn [bind]. unfold e_call_item. rewrite MA, MM, EL. cbn [no_map fst snd andb Nat.eqb].
  destruct (cargs ++ args)%list as [|x l]; [congruence|].
  destruct x as [v|d|]; cbn; auto. destruct l as [|y l]; cbn; auto. destruct (NS d eq_refl).
Qed.
