(** Proofs about comparison of distributions (C244). *)
From Coq Require Import String ZArith Bool Arith Lia Reals List.
From Verif Require Import Base Num RNumLemmas Tensor TensorLemmas OdLemmas PScales Names Distr PDModel EqModel Eq_Spec.
Import ListNotations.
Local Open Scope nat_scope.

Section S.
Variable other : value R -> value R -> result bool.
Variable same : string -> bool.

Lemma value_eq_one v w : alike v w -> elements v = 1 ->
  exists b, value_eq other v w = Ok b /\ (b = true <-> equal v w).
Proof.
  destruct v as [x|s|l|a|], w as [y|t|m|c|]; cbn; intros A E; try contradiction.
  - eexists. split; [reflexivity|]. apply Reqb_iff.
  - eexists. split; [reflexivity|]. apply String.eqb_eq.
  - assert (H : list_eqb Nat.eqb (shape a) (shape c) = true) by (apply list_eqb_nat; exact A). rewrite H.
    assert (E' : length (to_list c) = 1) by (rewrite to_list_length in E |- *; unfold tsize in *; rewrite <- A; exact E).
    destruct (to_list a) as [|x [|x' l]]; cbn in E; try discriminate. destruct (to_list c) as [|y [|y' m]]; cbn in E'; try discriminate.
    eexists. split; [reflexivity|]. rewrite Reqb_iff. split; [intros ->; auto|intros (_ & H1); congruence].
Qed.

Lemma value_eq_more v w : alike v w -> 1 < elements v -> value_eq other v w = Err ValueError.
Proof.
  destruct v as [x|s|l|a|], w as [y|t|m|c|]; cbn; intros A E; try contradiction; try lia.
  assert (H : list_eqb Nat.eqb (shape a) (shape c) = true) by (apply list_eqb_nat; exact A). rewrite H.
  destruct (to_list a) as [|x [|x' l]]; cbn in E; try lia. destruct (to_list c); reflexivity.
Qed.

Definition fits (l m : odict (value R)) : Prop :=
  forall k v w, In (k, v) l -> od_get m k = Some w -> alike v w /\ 0 < elements v.

Lemma fits_cons kv l m : fits (kv :: l) m -> fits l m.
Proof. intros H k v w I. apply H. right. exact I. Qed.

Lemma items_true l m : fits l m ->
  (items_eq other same l m = Ok true <->
   forall k v, In (k, v) l -> exists w, od_get m k = Some w /\ (same k = true \/ (equal v w /\ elements v = 1))).
Proof.
  induction l as [|[k v] l IH]; intros H; cbn; [split; [intros _ k v []|reflexivity]|].
  specialize (IH (fits_cons _ _ _ H)). destruct (od_get m k) as [w|] eqn:G.
  2: { split; [discriminate|]. intros C. destruct (C k v (or_introl eq_refl)) as (w & C1 & _). congruence. }
  destruct (H k v w (or_introl eq_refl) G) as (A & P).
  destruct (same k) eqn:Sk; cbn.
  - rewrite IH. split.
    + intros C k' v' [I|I]; [injection I as <- <-; exists w; auto|apply C; exact I].
    + intros C k' v' I. apply C. auto.
  - destruct (Nat.eq_dec (elements v) 1) as [E1|E1].
    + destruct (value_eq_one v w A E1) as (b & -> & B). cbn. destruct b.
      * rewrite IH. split.
        -- intros C k' v' [I|I]; [injection I as <- <-; exists w; intuition|apply C; exact I].
        -- intros C k' v' I. apply C. auto.
      * split; [discriminate|]. intros C. destruct (C k v (or_introl eq_refl)) as (w' & C1 & [C2|(C2 & _)]); [congruence|].
        rewrite G in C1. injection C1 as <-. apply B in C2. discriminate.
    + rewrite (value_eq_more v w A) by lia. cbn. split; [discriminate|].
      intros C. destruct (C k v (or_introl eq_refl)) as (w' & C1 & [C2|(_ & C2)]); congruence.
Qed.

Lemma items_false l m : fits l m -> items_eq other same l m = Ok false ->
  exists k v, In (k, v) l /\ (od_get m k = None \/ exists w, od_get m k = Some w /\ ~ equal v w).
Proof.
  induction l as [|[k v] l IH]; intros H; cbn; [discriminate|].
  specialize (IH (fits_cons _ _ _ H)). destruct (od_get m k) as [w|] eqn:G.
  2: { intros _. exists k, v. auto. }
  destruct (H k v w (or_introl eq_refl) G) as (A & P).
  assert (R : items_eq other same l m = Ok false -> exists k' v', ((k, v) = (k', v') \/ In (k', v') l) /\
    (od_get m k' = None \/ exists w0, od_get m k' = Some w0 /\ ~ equal v' w0)).
  { intros C. destruct (IH C) as (k' & v' & I & D). exists k', v'. auto. }
  destruct (same k); cbn; [exact R|].
  destruct (Nat.eq_dec (elements v) 1) as [E1|E1].
  - destruct (value_eq_one v w A E1) as (b & -> & B). cbn. destruct b; [exact R|]. intros _. exists k, v. split; [auto|].
    right. exists w. split; [exact G|]. intros C. apply B in C. discriminate.
  - rewrite (value_eq_more v w A) by lia. discriminate.
Qed.

Lemma items_raise l m : fits l m ->
  (forall k v, In (k, v) l -> exists w, od_get m k = Some w /\ equal v w) ->
  (exists k v, In (k, v) l /\ same k = false /\ 1 < elements v) ->
  items_eq other same l m = Err ValueError.
Proof.
  induction l as [|[k v] l IH]; intros H Q (k0 & v0 & I & S0 & E0); [destruct I|]. cbn.
  destruct (Q k v (or_introl eq_refl)) as (w & G & EQ). rewrite G.
  destruct (H k v w (or_introl eq_refl) G) as (A & P).
  assert (R : In (k0, v0) l -> items_eq other same l m = Err ValueError).
  { intros I0. apply IH; [apply (fits_cons _ _ _ H)| |eauto]. intros k' v' I'. apply Q. right. exact I'. }
  destruct (same k) eqn:Sk; cbn.
  - destruct I as [I|I]; [injection I as -> ->; congruence|auto].
  - destruct (Nat.eq_dec (elements v) 1) as [E1|E1].
    + destruct (value_eq_one v w A E1) as (b & -> & B). cbn. rewrite (proj2 B EQ).
      destruct I as [I|I]; [injection I as -> ->; lia|auto].
    + rewrite (value_eq_more v w A) by lia. reflexivity.
Qed.

Lemma comparable_fits p q : comparable p q -> fits (p_vals p) (p_vals q).
Proof. intros (N1 & N2 & H) k v w I G. apply (H k v w); [|exact G]. apply od_in_get; assumption. Qed.

Lemma keys_length (p q : pd R) : p_keylist p = p_keylist q -> length (p_vals p) = length (p_vals q).
Proof.
  intros H. unfold p_keylist, d_keylist, od_keys in H. change (map fst (p_vals p) = map fst (p_vals q)) in H.
  rewrite <- (map_length fst (p_vals p)), H. apply map_length.
Qed.

Lemma keys_get (p q : pd R) k v : p_keylist p = p_keylist q -> In (k, v) (p_vals p) -> exists w, od_get (p_vals q) k = Some w.
Proof.
  intros K I. destruct (od_get (p_vals q) k) as [w|] eqn:G; [eauto|]. apply od_get_none in G. exfalso. apply G.
  change (In k (p_keylist q)). rewrite <- K. apply (in_map fst) in I. exact I.
Qed.

Lemma eq_true p q : comparable p q ->
  (pd_eq other same p q = Ok true <->
   p_keylist p = p_keylist q /\
   forall k v w, od_get (p_vals p) k = Some v -> od_get (p_vals q) k = Some w -> same k = true \/ (equal v w /\ elements v = 1)).
Proof.
  intros C. pose proof (comparable_fits p q C) as FT. pose proof (items_true _ _ FT) as IT. destruct C as (N1 & N2 & _).
  unfold pd_eq. split.
  - destruct (length (p_vals p) =? length (p_vals q)); [|discriminate].
    destruct (items_eq other same (p_vals p) (p_vals q)) as [[]|] eqn:E; cbn; try discriminate.
    intros H. injection H as H. apply list_eqb_str in H. split; [exact H|]. intros k v w G1 G2.
    destruct (proj1 IT eq_refl k v (od_get_in _ _ G1)) as (w' & G3 & D). rewrite G2 in G3. injection G3 as <-. exact D.
  - intros (K & H). rewrite (keys_length p q K), Nat.eqb_refl. rewrite (proj2 IT); cbn.
    + f_equal. apply list_eqb_str. exact K.
    + intros k v I. destruct (keys_get p q k v K I) as (w & G). exists w. split; [exact G|]. apply (H k v w); [|exact G].
      apply od_in_get; assumption.
Qed.

Lemma eq_false p q : comparable p q -> pd_eq other same p q = Ok false -> ~ same_values p q.
Proof.
  intros C H (K & Q). pose proof (comparable_fits p q C) as FT. destruct C as (N1 & N2 & _).
  unfold pd_eq in H. rewrite (keys_length p q K), Nat.eqb_refl in H.
  destruct (items_eq other same (p_vals p) (p_vals q)) as [[]|] eqn:E; cbn in H; try discriminate.
  - injection H as H. rewrite (proj2 (list_eqb_str _ _) K) in H. discriminate.
  - destruct (items_false _ _ FT E) as (k & v & I & [G|(w & G & D)]).
    + destruct (keys_get p q k v K I) as (w & G'). congruence.
    + apply D. apply (Q k v w); [|exact G]. apply od_in_get; assumption.
Qed.

Lemma eq_raises p q : comparable p q -> same_values p q ->
  (exists k v, od_get (p_vals p) k = Some v /\ same k = false /\ 1 < elements v) ->
  pd_eq other same p q = Err ValueError.
Proof.
  intros C (K & Q) (k0 & v0 & G0 & S0 & E0). pose proof (comparable_fits p q C) as FT. destruct C as (N1 & N2 & _).
  unfold pd_eq. rewrite (keys_length p q K), Nat.eqb_refl. rewrite items_raise; [reflexivity|exact FT| |].
  - intros k v I. destruct (keys_get p q k v K I) as (w & G). exists w. split; [exact G|]. apply (Q k v w); [|exact G].
    apply od_in_get; assumption.
  - exists k0, v0. split; [apply od_get_in; exact G0|auto].
Qed.

Lemma bindE {A B} (r : result A) (f : A -> result B) b : bind r f = Ok b -> exists a, r = Ok a /\ f a = Ok b.
Proof. destruct r; cbn; [eauto|discriminate]. Qed.

Lemma made_vals (F : Fmt R) name vals dims t s (p : pd R) : make_pd name vals dims t s = Ok p ->
  exists d, make_dist name vals dims = Ok d /\ p_vals p = d_vals d.
Proof.
  unfold make_pd. intros H. apply bindE in H. destruct H as ([m c] & _ & H). apply bindE in H. destruct H as (d & D & H).
  apply bindE in H. destruct H as ([m' c'] & _ & H). apply bindE in H. destruct H as (ps & _ & H). apply bindE in H.
  destruct H as (u & _ & H). injection H as <-. exists d. split; [exact D|reflexivity].
Qed.

Lemma dist_vals name name' (vals : odict (value R)) dims d d' :
  make_dist name vals dims = Ok d -> make_dist name' vals dims = Ok d' -> d_vals d = d_vals d'.
Proof.
  unfold make_dist. destruct vals as [|kv vals]; [intros H H'; injection H as <-; injection H' as <-; reflexivity|].
  intros H H'. apply bindE in H. destruct H as (v1 & E1 & H). rewrite E1 in H'. cbn [bind] in H'.
  apply bindE in H. destruct H as (st & E2 & H). rewrite E2 in H'. cbn [bind] in H'.
  apply bindE in H. destruct H as (sh & E3 & H). rewrite E3 in H'. cbn [bind] in H'. injection H as <-. injection H' as <-. reflexivity.
Qed.

Lemma eq_made (F : Fmt R) name name' vals dims t t' s s' (p q : pd R) :
  make_pd name vals dims t s = Ok p -> make_pd name' vals dims t' s' = Ok q -> NoDup (p_keylist p) ->
  (forall k v, In (k, v) (p_vals p) -> same k = true \/ (exists x, v = VNum x) \/ exists x, v = VStr x) ->
  pd_eq other same p q = Ok true.
Proof.
  intros H H' ND C. destruct (made_vals F _ _ _ _ _ p H) as (d & D & V). destruct (made_vals F _ _ _ _ _ q H') as (d' & D' & V').
  pose proof (dist_vals _ _ _ _ _ _ D D') as E. rewrite <- V, <- V' in E.
  assert (K : p_keylist p = p_keylist q) by (unfold p_keylist, d_keylist; fold (p_vals p); fold (p_vals q); rewrite E; reflexivity).
  unfold pd_eq. rewrite (keys_length p q K), Nat.eqb_refl, <- K, <- E.
  replace (items_eq other same (p_vals p) (p_vals p)) with (@Ok bool true); [cbn; f_equal; apply list_eqb_str; reflexivity|].
  symmetry. assert (G : forall k v, In (k, v) (p_vals p) -> od_get (p_vals p) k = Some v) by (intros; apply od_in_get; assumption).
  revert G C. generalize (p_vals p) at 1 3 4 as l. induction l as [|[k v] l IH]; intros G C; [reflexivity|]. cbn.
  rewrite (G k v (or_introl eq_refl)). destruct (C k v (or_introl eq_refl)) as [->|[(x & ->)|(x & ->)]].
  - cbn. apply IH; intros; [apply G|apply C]; right; assumption.
  - destruct (same k); cbn; rewrite ?Reqb_refl; apply IH; intros; [apply G|apply C|apply G|apply C]; right; assumption.
  - destruct (same k); cbn; rewrite ?String.eqb_refl; apply IH; intros; [apply G|apply C|apply G|apply C]; right; assumption.
Qed.

End S.
