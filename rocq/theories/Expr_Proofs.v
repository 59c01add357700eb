(** Proofs about mapped calls. *)
From Coq Require Import String Ascii ZArith Bool Arith Lia List.
From Verif Require Import Base OdLemmas ExprModel Expr_Spec.
Import ListNotations.
Set Implicit Arguments.

(** *** dictionaries *)

Lemma od_get_del {A} (d : odict A) k j :
  NoDup (od_keys d) -> od_get (od_del d k) j = if String.eqb j k then None else od_get d j.
Proof.
  intros N. rewrite od_del_filter by auto.
  rewrite (od_get_filter (fun x => negb (String.eqb x k))).
  destruct (String.eqb j k); reflexivity.
Qed.

Lemma od_del_nodup {A} (d : odict A) k : NoDup (od_keys d) -> NoDup (od_keys (od_del d k)).
Proof.
  intros N. rewrite od_del_filter by auto.
  rewrite (od_keys_filter (fun x => negb (String.eqb x k))). apply filter_nodup; auto.
Qed.

Lemma od_set_set {A} (d : odict A) k v w : od_set (od_set d k v) k w = od_set d k w.
Proof.
  induction d as [|[k' v'] d IH]; cbn; [rewrite String.eqb_refl; auto|].
  destruct (String.eqb k k') eqn:E; cbn; rewrite E; [auto|rewrite IH; auto].
Qed.

Lemma od_set_comm {A} (d : odict A) k v j w :
  j <> k -> In k (od_keys d) -> od_set (od_set d k v) j w = od_set (od_set d j w) k v.
Proof.
  intros NE. induction d as [|[k' v'] d IH]; cbn; [tauto|]. intros H.
  destruct (String.eqb_spec k k'); cbn.
  - subst. destruct (String.eqb_spec j k'); [congruence|]. cbn.
    rewrite String.eqb_refl. reflexivity.
  - destruct (String.eqb_spec j k'); cbn.
    + destruct (String.eqb_spec k k'); [congruence|]. reflexivity.
    + destruct (String.eqb_spec k k'); [congruence|].
      f_equal. apply IH. destruct H; [congruence|auto].
Qed.

Lemma od_del_set_ne {A} (d : odict A) k v j :
  j <> k -> od_del (od_set d k v) j = od_set (od_del d j) k v.
Proof.
  intros NE. induction d as [|[k' v'] d IH]; cbn.
  - destruct (String.eqb_spec j k); [congruence|auto].
  - destruct (String.eqb_spec k k'); cbn.
    + subst. destruct (String.eqb_spec j k'); [congruence|]. cbn. rewrite String.eqb_refl. auto.
    + destruct (String.eqb_spec j k'); cbn; auto.
      destruct (String.eqb_spec k k'); [congruence|]. rewrite IH. auto.
Qed.

Lemma od_update_cons {A} (d : odict A) k v e : od_update d ((k, v) :: e) = od_update (od_set d k v) e.
Proof. reflexivity. Qed.

Lemma od_update_nodup {A} (d e : odict A) : NoDup (od_keys d) -> NoDup (od_keys (od_update d e)).
Proof.
  revert d. induction e as [|[k v] e IH]; intros d N; [exact N|].
  rewrite od_update_cons. apply IH. apply od_keys_set_nodup. auto.
Qed.

Lemma od_update_keys {A} (d e : odict A) j :
  In j (od_keys (od_update d e)) <-> In j (od_keys d) \/ In j (od_keys e).
Proof.
  revert d. induction e as [|[k v] e IH]; intros d; [cbn; tauto|].
  rewrite od_update_cons, IH, od_keys_set_in. cbn. intuition congruence.
Qed.

(** [od_set] of a key that the update does not mention. *)
Lemma od_update_set_out {A} (d e : odict A) k v :
  ~ In k (od_keys e) -> In k (od_keys d) ->
  od_update (od_set d k v) e = od_set (od_update d e) k v.
Proof.
  revert d. induction e as [|[j w] e IH]; intros d NI H; [reflexivity|].
  cbn in NI. rewrite !od_update_cons. rewrite od_set_comm by (auto; congruence).
  apply IH; [tauto|]. apply od_keys_set_in. auto.
Qed.

Lemma od_update_set {A} (d e : odict A) k v :
  NoDup (od_keys e) ->
  od_update d (od_set e k v) = od_set (od_update d e) k v.
Proof.
  intros N. revert d. induction e as [|[j w] e IH]; intros d; [reflexivity|].
  cbn in N. inversion N; subst. cbn [od_set].
  destruct (String.eqb_spec k j).
  - subst. rewrite !od_update_cons.
    rewrite <- od_update_set_out; [|auto|apply od_keys_set_in; auto].
    rewrite od_set_set. reflexivity.
  - rewrite !od_update_cons. apply IH; auto.
Qed.

Lemma od_update_assoc {A} (d e f : odict A) :
  NoDup (od_keys e) -> od_update d (od_update e f) = od_update (od_update d e) f.
Proof.
  revert e. induction f as [|[k v] f IH]; intros e N; [reflexivity|].
  rewrite !od_update_cons. rewrite IH by (apply od_keys_set_nodup; auto).
  rewrite od_update_set by auto. reflexivity.
Qed.

(** *** padding *)

Lemma fold_max_ge l z : (z <= fold_left Z.max l z)%Z /\ (forall x, In x l -> (x <= fold_left Z.max l z)%Z).
Proof.
  revert z. induction l as [|a l IH]; intros z; cbn; [split; [lia|tauto]|].
  destruct (IH (Z.max z a)) as [H1 H2]. split; [lia|].
  intros x [<-|H]; [lia|auto].
Qed.

Lemma fold_max_in l z : fold_left Z.max l z = z \/ In (fold_left Z.max l z) l.
Proof.
  revert z. induction l as [|a l IH]; intros z; cbn; [auto|].
  destruct (IH (Z.max z a)) as [H|H]; [|auto].
  rewrite H. destruct (Z.max_spec z a) as [[_ ->]|[_ ->]]; auto.
Qed.

Lemma in_mapping_ints m i : In i (mapping_ints m) <-> exists k, In (k, MInt i) m.
Proof.
  induction m as [|[k t] m IH]; cbn; [split; [tauto|intros [k []]]|].
  destruct t; cbn; rewrite IH; split.
  - intros [->|[k' H]]; eauto.
  - intros [k' [E|H]]; [inversion E; auto|eauto].
  - intros [k' H]; eauto.
  - intros [k' [E|H]]; [discriminate|eauto].
  - intros [k' H]; eauto.
  - intros [k' [E|H]]; [discriminate|eauto].
  - intros [k' H]; eauto.
  - intros [k' [E|H]]; [discriminate|eauto].
Qed.

Lemma pad_length_ge n m : n <= pad_length n m.
Proof. unfold pad_length. destruct (fold_max_ge (map (fun i => (i + 1)%Z) (mapping_ints m)) (Z.of_nat n)). lia. Qed.

Lemma pad_length_int n m k i : In (k, MInt (Z.of_nat i)) m -> i < pad_length n m.
Proof.
  intros H. unfold pad_length.
  destruct (fold_max_ge (map (fun i => (i + 1)%Z) (mapping_ints m)) (Z.of_nat n)) as [_ G].
  specialize (G (Z.of_nat i + 1)%Z).
  assert (H1 : In (Z.of_nat i + 1)%Z (map (fun i0 => (i0 + 1)%Z) (mapping_ints m))).
  { apply (in_map (fun i0 => (i0 + 1)%Z)). apply in_mapping_ints. eauto. }
  specialize (G H1). lia.
Qed.

Lemma pad_length_inv n m i :
  i < pad_length n m -> i < n \/ exists k j, In (k, MInt (Z.of_nat j)) m /\ i <= j.
Proof.
  unfold pad_length. intros H.
  destruct (fold_max_in (map (fun i => (i + 1)%Z) (mapping_ints m)) (Z.of_nat n)) as [E|E].
  - rewrite E in H. left. lia.
  - apply in_map_iff in E. destruct E as [z [E Hz]]. apply in_mapping_ints in Hz.
    destruct Hz as [k Hk]. right. exists k, (Z.to_nat z).
    assert (0 <= z)%Z by lia. rewrite Z2Nat.id by lia. split; [auto|lia].
Qed.

Section Pad.
Context {V : Type}.

Lemma pad_len (args : list (parg V)) m : length (pad args m) = pad_length (length args) m.
Proof.
  unfold pad. rewrite app_length, repeat_length. pose proof (pad_length_ge (length args) m). lia.
Qed.

Lemma pad_nth (args : list (parg V)) m i :
  i < length (pad args m) -> nth_error (pad args m) i = Some (nth i args PNone).
Proof.
  intros H. rewrite nth_error_nth' with (d := PNone) by auto. f_equal.
  unfold pad. destruct (Nat.lt_ge_cases i (length args)).
  - apply app_nth1. auto.
  - rewrite app_nth2 by auto. rewrite (nth_overflow args) by auto.
    destruct (Nat.lt_ge_cases (i - length args) (pad_length (length args) m - length args)).
    + apply nth_repeat.
    + apply nth_overflow. rewrite repeat_length. auto.
Qed.

(** *** the generic loop *)

Definition place (args : list (parg V)) (kw1 : odict V) (t : mval) (v : V)
    : result (list (parg V) * odict V) :=
  match t with
  | MInt i => let! a := put args i v in Ok (a, kw1)
  | MNone => Ok (args, kw1)
  | MStr s => Ok (args, od_set kw1 s v)
  | MOther => Err TypeError
  end.

Definition gstep (take : odict V -> string -> result (V * odict V))
    (st : list (parg V) * odict V) (kv : string * mval) : result (list (parg V) * odict V) :=
  let! (v, kw1) := take (snd st) (fst kv) in place (fst st) kw1 (snd kv) v.

Section Loop.
Variable uses : string -> string -> Prop.
Variable value : odict V -> string -> V -> Prop.
Variable okkey : string -> Prop.
Variable take : odict V -> string -> result (V * odict V).

Hypothesis take_ok : forall kw k, NoDup (od_keys kw) -> okkey k ->
  (forall j, uses k j -> In j (od_keys kw)) ->
  exists v kw1, take kw k = Ok (v, kw1) /\ value kw k v /\ NoDup (od_keys kw1) /\
    (forall j, uses k j -> od_get kw1 j = None) /\
    (forall j, ~ uses k j -> od_get kw1 j = od_get kw j).
Hypothesis value_fun : forall kw k v v', value kw k v -> value kw k v' -> v = v'.
Hypothesis value_ext : forall kw kw' k v,
  (forall j, uses k j -> od_get kw j = od_get kw' j) -> value kw k v -> value kw' k v.
Hypothesis take_inv : forall kw k v kw1, NoDup (od_keys kw) -> take kw k = Ok (v, kw1) ->
  (forall j, uses k j -> In j (od_keys kw)) /\ NoDup (od_keys kw1) /\
  (forall j, uses k j -> od_get kw1 j = None) /\
  (forall j, ~ In j (od_keys kw) -> od_get kw1 j = None).

Lemma fop_cons (e : string * mval) m :
  no_interference uses (e :: m) -> Forall (apart uses e) m /\ no_interference uses m.
Proof. inversion 1; auto. Qed.

Lemma loop_ok m :
  forall (a : list (parg V)) kw,
  no_interference uses m -> from_start m -> (forall k, In (k, MOther) m -> False) ->
  (forall k, In k (od_keys m) -> okkey k) ->
  NoDup (od_keys kw) -> supplied uses m kw ->
  (forall k i, In (k, MInt (Z.of_nat i)) m -> i < length a) ->
  exists fa fk, fold_res (gstep take) m (a, kw) = Ok (fa, fk) /\
    length fa = length a /\
    (forall k i v, In (k, MInt (Z.of_nat i)) m -> value kw k v -> nth_error fa i = Some (PVal v)) /\
    (forall i, (forall k, ~ In (k, MInt (Z.of_nat i)) m) -> nth_error fa i = nth_error a i) /\
    (forall k s v, In (k, MStr s) m -> value kw k v -> od_get fk s = Some v) /\
    (forall k t j, In (k, t) m -> uses k j -> (forall k', ~ In (k', MStr j) m) -> od_get fk j = None) /\
    (forall j, (forall k, In k (od_keys m) -> ~ uses k j) ->
       (forall k', ~ In (k', MStr j) m) -> od_get fk j = od_get kw j).
Proof.
  induction m as [|[k t] m IH]; intros a kw NI FS NO OK N SU LT.
  - exists a, kw. cbn. do 2 (split; [reflexivity|]). do 3 (split; [tauto|]). split; [tauto|auto].
  - apply fop_cons in NI. destruct NI as [AP NI].
    destruct (@take_ok kw k N) as [v [kw1 [T [Vv [N1 [G1 G2]]]]]].
    { apply OK. cbn. auto. }
    { intros j U. apply (SU k); cbn; auto. }
    rewrite Forall_forall in AP.
    assert (PL : exists a1 kw2, place a kw1 t v = Ok (a1, kw2) /\ length a1 = length a /\
      NoDup (od_keys kw2) /\
      (forall s, t = MStr s -> od_get kw2 s = Some v) /\
      (forall j, t <> MStr j -> od_get kw2 j = od_get kw1 j) /\
      (forall i, t = MInt (Z.of_nat i) -> nth_error a1 i = Some (PVal v)) /\
      (forall i, t <> MInt (Z.of_nat i) -> nth_error a1 i = nth_error a i)).
    { destruct t as [i| |s|]; cbn.
      - assert (0 <= i)%Z by (apply (FS k); cbn; auto).
        replace i with (Z.of_nat (Z.to_nat i)) in * by lia. set (p := Z.to_nat i) in *.
        assert (Hp : p < length a) by (apply (LT k); cbn; auto).
        unfold put. rewrite py_indexR_nat by auto. cbn.
        exists (set_nth p (PVal v) a), kw1. split; [auto|]. split; [apply set_nth_length|].
        split; [auto|]. split; [discriminate|]. split; [auto|]. split.
        + intros i' E. inversion E. apply Nat2Z.inj in H1. subst i'.
          apply nth_error_set_nth_eq. auto.
        + intros i' E. apply nth_error_set_nth_ne. congruence.
      - exists a, kw1. do 3 (split; [auto|]). split; [discriminate|]. split; [auto|].
        split; [discriminate|auto].
      - exists a, (od_set kw1 s v). do 2 (split; [auto|]). split; [apply od_keys_set_nodup; auto|].
        split; [intros s' E; inversion E; apply od_get_set_eq|].
        split; [intros j E; apply od_get_set_ne; congruence|]. split; [discriminate|auto].
      - exfalso. apply (NO k). cbn. auto. }
    destruct PL as [a1 [kw2 [PL [L1 [N2 [S1 [S2 [I1 I2]]]]]]]].
    (* the rest of the mapping sees the keywords it takes unchanged *)
    assert (SAME : forall k' t' j, In (k', t') m -> uses k' j -> od_get kw2 j = od_get kw j).
    { intros k' t' j H U. destruct (AP _ H) as [A1 [A2 A3]]. cbn in A1, A2, A3.
      rewrite S2; [apply G2; intros U'; apply (A1 j U' U)|].
      intros E. apply (A3 j E U). }
    destruct (IH a1 kw2) as [fa [fk [F [L [P1 [P2 [P3 [P4 P5]]]]]]]].
    + auto.
    + intros k' i H. apply (FS k'). cbn. auto.
    + intros k' H. apply (NO k'). cbn. auto.
    + intros k' H. apply OK. cbn. auto.
    + auto.
    + intros k' j H U. unfold od_keys in H. apply in_map_iff in H. destruct H as [[k1 t1] [E H]].
      cbn in E. subst k1.
      assert (IN : In j (od_keys kw)).
      { apply (SU k'); cbn; [|auto]. right. apply (in_map fst) in H. exact H. }
      apply od_key_get in IN. destruct IN as [w W]. rewrite <- (SAME _ _ _ H U) in W.
      apply od_get_some_key in W. auto.
    + intros k' i H. rewrite L1. apply (LT k'). cbn. auto.
    + exists fa, fk. split; [cbn; unfold gstep at 1; cbn; rewrite T; cbn; rewrite PL; exact F|].
      split; [congruence|].
      assert (TM : forall k' t', In (k', t') m -> t = t' -> t = MNone).
      { intros k' t' H E. destruct (AP _ H) as [_ [A2 _]]. apply A2. exact E. }
      split; [|split; [|split; [|split]]].
      * intros k' i w [E|H] W.
        -- inversion E; subst. rewrite P2; [rewrite I1 by auto; f_equal; f_equal; eapply value_fun; eauto|].
           intros k2 H2. specialize (TM _ _ H2 eq_refl). discriminate.
        -- apply (P1 k'); auto. eapply value_ext; [|exact W].
           intros j U. symmetry. eapply SAME; eauto.
      * intros i H. rewrite P2; [apply I2; intros E; apply (H k); left; congruence|].
        intros k2 H2. apply (H k2). right. auto.
      * intros k' s w [E|H] W.
        -- inversion E; subst. rewrite P5.
           ++ rewrite (S1 s) by auto. f_equal. eapply value_fun; eauto.
           ++ intros k2 H2 U. unfold od_keys in H2. apply in_map_iff in H2.
              destruct H2 as [[k3 t3] [E3 H3]]. cbn in E3. subst k3.
              destruct (AP _ H3) as [_ [_ A3]]. apply (A3 s); auto.
           ++ intros k2 H2. specialize (TM _ _ H2 eq_refl). discriminate.
        -- apply (P3 k'); auto. eapply value_ext; [|exact W].
           intros j U. symmetry. eapply SAME; eauto.
      * intros k' t' j [E|H] U NT.
        -- inversion E; subst. rewrite P5.
           ++ rewrite S2; [apply G1; auto|]. intros ->. apply (NT k'). left. auto.
           ++ intros k2 H2 U2. unfold od_keys in H2. apply in_map_iff in H2.
              destruct H2 as [[k3 t3] [E3 H3]]. cbn in E3. subst k3.
              destruct (AP _ H3) as [A1 _]. apply (A1 j); auto.
           ++ intros k2 H2. apply (NT k2). right. auto.
        -- eapply P4; eauto. intros k2 H2. apply (NT k2). right. auto.
      * intros j NU NT. rewrite P5.
        -- rewrite S2; [apply G2; apply NU; cbn; auto|]. intros ->. apply (NT k). left. auto.
        -- intros k2 H2. apply NU. cbn. auto.
        -- intros k2 H2. apply (NT k2). right. auto.
Qed.

Lemma place_keys a kw1 t v a' kw' j :
  place a kw1 t v = Ok (a', kw') -> NoDup (od_keys kw1) -> od_get kw1 j = None -> t <> MStr j ->
  NoDup (od_keys kw') /\ od_get kw' j = None.
Proof.
  destruct t as [i| |s|]; cbn; intros E N G NE.
  - destruct (put a i v); cbn in E; inversion E; subst; auto.
  - inversion E; subst; auto.
  - inversion E; subst. split; [apply od_keys_set_nodup; auto|].
    rewrite od_get_set_ne by congruence. auto.
  - discriminate.
Qed.

(** A keyword that is absent stays absent unless something is mapped to it. *)
Lemma loop_absent m a kw j a' kw' :
  fold_res (gstep take) m (a, kw) = Ok (a', kw') -> NoDup (od_keys kw) ->
  od_get kw j = None -> (forall k, ~ In (k, MStr j) m) ->
  NoDup (od_keys kw') /\ od_get kw' j = None.
Proof.
  revert a kw. induction m as [|[k t] m IH]; intros a kw F N G NT.
  - cbn in F. inversion F; subst. auto.
  - cbn in F. unfold gstep at 1 in F. cbn in F.
    destruct (take kw k) as [[v kw1]|] eqn:T; cbn in F; [|discriminate].
    destruct (place a kw1 t v) as [[a2 kw2]|] eqn:P; cbn in F; [|discriminate].
    destruct (take_inv N T) as [T1 [T2 [T3 T4]]].
    destruct (@place_keys a kw1 t v a2 kw2 j P T2) as [Q1 Q2].
    { apply T4. apply od_get_none. auto. }
    { intros ->. apply (NT k). left. auto. }
    apply (IH a2 kw2); auto. intros k' H. apply (NT k'). right. auto.
Qed.

Lemma loop_missing m a kw k t j :
  In (k, t) m -> uses k j -> NoDup (od_keys kw) -> od_get kw j = None ->
  (forall k', ~ In (k', MStr j) m) ->
  exists err, fold_res (gstep take) m (a, kw) = Err err.
Proof.
  intros H U N G NT. apply in_split in H. destruct H as [m1 [m2 ->]].
  rewrite fold_res_app.
  destruct (fold_res (gstep take) m1 (a, kw)) as [[a1 kw1]|e] eqn:F; cbn [bind]; [|eauto].
  destruct (@loop_absent m1 a kw j a1 kw1 F N G) as [N1 G1].
  { intros k' H'. apply (NT k'). apply in_app_iff. auto. }
  cbn. unfold gstep at 1. cbn.
  destruct (take kw1 k) as [[v kw2]|e] eqn:T; cbn; [|eauto].
  destruct (take_inv N1 T) as [T1 _]. specialize (T1 j U).
  apply od_get_none in G1. contradiction.
Qed.

Lemma loop_twice m1 m2 m3 a kw k1 t1 k2 t2 j :
  uses k1 j -> uses k2 j -> NoDup (od_keys kw) ->
  (forall k', ~ In (k', MStr j) (m1 ++ (k1, t1) :: m2 ++ (k2, t2) :: m3)) ->
  exists err, fold_res (gstep take) (m1 ++ (k1, t1) :: m2 ++ (k2, t2) :: m3) (a, kw) = Err err.
Proof.
  intros U1 U2 N NT.
  destruct (od_get kw j) eqn:G.
  2:{ eapply loop_missing with (k := k1); [apply in_app_iff; right; left; reflexivity|..]; eauto. }
  clear G. revert a kw N. induction m1 as [|[k t] m1 IH]; intros a kw N.
  - cbn. unfold gstep at 1. cbn.
    destruct (take kw k1) as [[v1 kw1]|e] eqn:T; cbn; [|eauto].
    destruct (place a kw1 t1 v1) as [[a2 kw2]|e] eqn:P; cbn; [|eauto].
    destruct (take_inv N T) as [T1 [T2 [T3 T4]]].
    destruct (@place_keys a kw1 t1 v1 a2 kw2 j P T2) as [Q1 Q2]; [auto| |].
    { intros ->. apply (NT k1). left. auto. }
    eapply loop_missing with (k := k2); [apply in_app_iff; right; left; reflexivity|..]; eauto.
    intros k' H. apply (NT k'). right. auto.
  - cbn. unfold gstep at 1. cbn.
    destruct (take kw k) as [[v1 kw1]|e] eqn:T; cbn; [|eauto].
    destruct (place a kw1 t v1) as [[a2 kw2]|e] eqn:P; cbn; [|eauto].
    apply IH.
    + intros k' H. apply (NT k'). right. auto.
    + destruct (take_inv N T) as [T1 [T2 [T3 T4]]].
      destruct t as [i| |s|]; cbn in P.
      * destruct (put a i v1); cbn in P; inversion P; subst; auto.
      * inversion P; subst; auto.
      * inversion P; subst. apply od_keys_set_nodup; auto.
      * discriminate.
Qed.

End Loop.
End Pad.
