(** Expressions and Func objects: calls, indices, histories. *)
From Coq Require Import String Ascii ZArith Bool Arith Lia List.
From Verif Require Import Base OdLemmas ExprModel Expr_Spec Expr_Proofs.
Import ListNotations.
Set Implicit Arguments.

(** *** primes *)

Lemma last_char_cons a b s : last_char (String a (String b s)) = last_char (String b s).
Proof. unfold last_char. cbn. rewrite Nat.sub_0_r. reflexivity. Qed.

Lemma chop_cons a b s : chop (String a (String b s)) = String a (chop (String b s)).
Proof. unfold chop. cbn. rewrite Nat.sub_0_r. reflexivity. Qed.

Lemma last_char_some k c : last_char k = Some c -> k = (chop k ++ String c EmptyString)%string.
Proof.
  revert c. induction k as [|a k IH]; intros c H; [discriminate|].
  destruct k as [|b k].
  - cbn in H. inversion H. reflexivity.
  - rewrite last_char_cons in H. rewrite chop_cons. cbn [append]. f_equal. apply IH. auto.
Qed.

Lemma last_char_app x c : last_char (x ++ String c EmptyString)%string = Some c.
Proof.
  induction x as [|a x IH]; [reflexivity|]. destruct x as [|b x]; [reflexivity|].
  cbn [append] in *. rewrite last_char_cons. exact IH.
Qed.

Lemma chop_app x c : chop (x ++ String c EmptyString)%string = x.
Proof.
  induction x as [|a x IH]; [reflexivity|]. destruct x as [|b x]; [reflexivity|].
  cbn [append] in *. rewrite chop_cons. f_equal. exact IH.
Qed.

Lemma last_char_none k : last_char k = None -> k = EmptyString.
Proof.
  induction k as [|a k IH]; [auto|]. destruct k as [|b k]; [discriminate|].
  rewrite last_char_cons. intros H. specialize (IH H). discriminate.
Qed.

Lemma append_ne x : x <> (x ++ "'")%string.
Proof. induction x as [|a x IH]; [discriminate|]. cbn. congruence. Qed.

Lemma append_prime_inj x y : (x ++ "'")%string = (y ++ "'")%string -> x = y.
Proof. intros H. rewrite <- (chop_app x "'"%char), <- (chop_app y "'"%char). f_equal. exact H. Qed.

Section More.
Context {V : Type} (sub : V -> V -> V).

(** *** order *)

Lemma pop_ok (kw : odict V) k :
  NoDup (od_keys kw) -> In k (od_keys kw) ->
  exists v, pop kw k = Ok (v, od_del kw k) /\ od_get kw k = Some v.
Proof.
  intros N H. apply od_key_get in H. destruct H as [v H]. exists v.
  unfold pop, od_getR. rewrite H. auto.
Qed.

Lemma pop_inv (kw : odict V) k v kw1 :
  pop kw k = Ok (v, kw1) -> od_get kw k = Some v /\ kw1 = od_del kw k.
Proof.
  unfold pop, od_getR. destruct (od_get kw k); cbn; intros E; inversion E; auto.
Qed.

Lemma pop_missing (kw : odict V) k : od_get kw k = None -> pop kw k = Err KeyError.
Proof. intros H. unfold pop, od_getR. rewrite H. reflexivity. Qed.

Lemma order_take_ok (kw : odict V) k : NoDup (od_keys kw) -> True ->
  (forall j, order_uses k j -> In j (od_keys kw)) ->
  exists v kw1, pop kw k = Ok (v, kw1) /\ order_value kw k v /\ NoDup (od_keys kw1) /\
    (forall j, order_uses k j -> od_get kw1 j = None) /\
    (forall j, ~ order_uses k j -> od_get kw1 j = od_get kw j).
Proof.
  intros N _ H. destruct (@pop_ok kw k N) as [v [P G]]; [apply H; reflexivity|].
  exists v, (od_del kw k). split; [auto|]. split; [auto|]. split; [apply od_del_nodup; auto|].
  unfold order_uses. split; intros j E; rewrite od_get_del by auto;
    destruct (String.eqb_spec j k); congruence.
Qed.

Lemma order_value_fun (kw : odict V) k v v' : order_value kw k v -> order_value kw k v' -> v = v'.
Proof. unfold order_value. congruence. Qed.

Lemma order_value_ext (kw kw' : odict V) k v :
  (forall j, order_uses k j -> od_get kw j = od_get kw' j) -> order_value kw k v -> order_value kw' k v.
Proof. unfold order_value, order_uses. intros H E. rewrite <- (H k); auto. Qed.

Lemma order_take_inv (kw : odict V) k v kw1 : NoDup (od_keys kw) -> pop kw k = Ok (v, kw1) ->
  (forall j, order_uses k j -> In j (od_keys kw)) /\ NoDup (od_keys kw1) /\
  (forall j, order_uses k j -> od_get kw1 j = None) /\
  (forall j, ~ In j (od_keys kw) -> od_get kw1 j = None).
Proof.
  intros N P. apply pop_inv in P. destruct P as [G ->]. unfold order_uses.
  split; [intros j ->; eapply od_get_some_key; eauto|]. split; [apply od_del_nodup; auto|].
  split; intros j H; rewrite od_get_del by auto; destruct (String.eqb_spec j k); auto; try congruence.
  apply od_get_none. auto.
Qed.

Lemma order_step_gen m (st : list (parg V) * odict V) :
  (forall k, In (k, MOther) m -> False) -> fold_res order_step m st = fold_res (gstep pop) m st.
Proof.
  revert st. induction m as [|[k t] m IH]; intros [a kw] NO; [reflexivity|].
  cbn [fold_res]. assert (E : order_step (a, kw) (k, t) = gstep pop (a, kw) (k, t)).
  { unfold gstep. cbn. destruct t; cbn; destruct (pop kw k) as [[v kw1]|]; cbn; auto;
      exfalso; apply (NO k); left; auto. }
  rewrite E. destruct (gstep pop (a, kw) (k, t)); cbn; auto. apply IH.
  intros k' H. apply (NO k'). right. auto.
Qed.

(** *** delta *)

Lemma delta_step_gen m (st : list (parg V) * odict V) :
  fold_res (delta_step sub) m st = fold_res (gstep (delta_take sub)) m st.
Proof.
  revert st. induction m as [|[k t] m IH]; intros [a kw]; [reflexivity|].
  cbn [fold_res]. assert (E : delta_step sub (a, kw) (k, t) = gstep (delta_take sub) (a, kw) (k, t)).
  { unfold gstep. cbn. destruct (delta_take sub kw k) as [[v kw1]|]; cbn; auto. }
  rewrite E. destruct (gstep (delta_take sub) (a, kw) (k, t)); cbn; auto.
Qed.

Lemma delta_cases k : k <> EmptyString ->
  (exists x, k = (x ++ "'")%string /\ last_char k = Some prime_char /\ chop k = x)
  \/ (exists c, last_char k = Some c /\ Ascii.eqb c prime_char = false /\ forall x, k <> (x ++ "'")%string).
Proof.
  intros NE. destruct (last_char k) as [c|] eqn:E; [|apply last_char_none in E; congruence].
  destruct (Ascii.eqb_spec c prime_char).
  - left. exists (chop k). subst c. split; [apply last_char_some in E; exact E|auto].
  - right. exists c. split; [auto|]. split; [apply Ascii.eqb_neq; auto|].
    intros x ->. change "'"%string with (String prime_char EmptyString) in E.
    rewrite last_char_app in E. congruence.
Qed.

Lemma delta_take_ok (kw : odict V) k : NoDup (od_keys kw) -> k <> EmptyString ->
  (forall j, delta_uses k j -> In j (od_keys kw)) ->
  exists v kw1, delta_take sub kw k = Ok (v, kw1) /\ delta_value sub kw k v /\ NoDup (od_keys kw1) /\
    (forall j, delta_uses k j -> od_get kw1 j = None) /\
    (forall j, ~ delta_uses k j -> od_get kw1 j = od_get kw j).
Proof.
  intros N NE H. destruct (@pop_ok kw k N) as [v1 [P1 G1]]; [apply H; left; auto|].
  unfold delta_take. destruct (delta_cases NE) as [[x [E [L C]]]|[c [L [C NX]]]]; rewrite L.
  - cbn. rewrite P1. cbn. rewrite C.
    assert (Nx : x <> k) by (rewrite E; apply append_ne).
    destruct (@pop_ok (od_del kw k) x) as [v0 [P0 G0]].
    + apply od_del_nodup. auto.
    + assert (Hx : In x (od_keys kw)) by (apply H; right; auto).
      apply od_key_get in Hx. destruct Hx as [w W]. eapply od_get_some_key.
      rewrite od_get_del by auto. destruct (String.eqb_spec x k); [congruence|]. eauto.
    + rewrite P0. cbn. rewrite od_get_del in G0 by auto.
      destruct (String.eqb_spec x k); [congruence|].
      exists (sub v1 v0), (od_del (od_del kw k) x). split; [auto|]. split.
      { left. exists x, v1, v0. auto. }
      split; [apply od_del_nodup; apply od_del_nodup; auto|].
      split; intros j U; rewrite !od_get_del by (try apply od_del_nodup; auto);
        destruct (String.eqb_spec j x); auto; destruct (String.eqb_spec j k); auto.
      all: try (exfalso; apply U; first [left; congruence | right; congruence]).
      destruct U as [->|U]; [congruence|]. exfalso. rewrite E in U.
      apply append_prime_inj in U. congruence.
  - rewrite C, P1. exists v1, (od_del kw k). split; [auto|]. split; [right; auto|].
    split; [apply od_del_nodup; auto|].
    split; intros j U; rewrite od_get_del by auto; destruct (String.eqb_spec j k); auto.
    + destruct U as [->|U]; [congruence|]. exfalso. apply (NX j U).
    + exfalso. apply U. left. auto.
Qed.

Lemma delta_value_fun (kw : odict V) k v v' :
  delta_value sub kw k v -> delta_value sub kw k v' -> v = v'.
Proof.
  intros [[x [v1 [v0 [E [G1 [G0 ->]]]]]]|[NX G]] [[x' [v1' [v0' [E' [G1' [G0' ->]]]]]]|[NX' G']].
  - rewrite E in E'. apply append_prime_inj in E'. subst x'. congruence.
  - exfalso. apply (NX' x E).
  - exfalso. apply (NX x' E').
  - congruence.
Qed.

Lemma delta_value_ext (kw kw' : odict V) k v :
  (forall j, delta_uses k j -> od_get kw j = od_get kw' j) ->
  delta_value sub kw k v -> delta_value sub kw' k v.
Proof.
  intros H [[x [v1 [v0 [E [G1 [G0 ->]]]]]]|[NX G]].
  - left. exists x, v1, v0. rewrite <- (H k) by (left; auto). rewrite <- (H x) by (right; auto). auto.
  - right. rewrite <- H; auto. left. auto.
Qed.

Lemma delta_take_inv (kw : odict V) k v kw1 :
  NoDup (od_keys kw) -> delta_take sub kw k = Ok (v, kw1) ->
  (forall j, delta_uses k j -> In j (od_keys kw)) /\ NoDup (od_keys kw1) /\
  (forall j, delta_uses k j -> od_get kw1 j = None) /\
  (forall j, ~ In j (od_keys kw) -> od_get kw1 j = None).
Proof.
  intros N. unfold delta_take. destruct (string_dec k EmptyString) as [->|NE]; [discriminate|].
  destruct (delta_cases NE) as [[x [E [L C]]]|[c [L [C NX]]]]; rewrite L.
  - cbn. destruct (pop kw k) as [[v1 kw2]|] eqn:P1; cbn; [|discriminate].
    apply pop_inv in P1. destruct P1 as [G1 ->]. rewrite C.
    destruct (pop (od_del kw k) x) as [[v0 kw3]|] eqn:P0; cbn; [|discriminate].
    apply pop_inv in P0. destruct P0 as [G0 ->]. intros H. inversion H; subst v kw1. clear H.
    rewrite od_get_del in G0 by auto.
    assert (Nx : x <> k) by (rewrite E; apply append_ne).
    destruct (String.eqb_spec x k); [congruence|].
    split.
    { intros j [->|U]; [eapply od_get_some_key; eauto|]. rewrite E in U.
      apply append_prime_inj in U. subst j. eapply od_get_some_key; eauto. }
    split; [apply od_del_nodup; apply od_del_nodup; auto|].
    split; intros j U; rewrite !od_get_del by (try apply od_del_nodup; auto);
      destruct (String.eqb_spec j x); auto; destruct (String.eqb_spec j k); auto.
    + destruct U as [->|U]; [congruence|]. exfalso. rewrite E in U.
      apply append_prime_inj in U. congruence.
    + apply od_get_none. auto.
  - rewrite C. intros P. apply pop_inv in P. destruct P as [G ->].
    split.
    { intros j [->|U]; [eapply od_get_some_key; eauto|]. exfalso. apply (NX j U). }
    split; [apply od_del_nodup; auto|].
    split; intros j U; rewrite od_get_del by auto; destruct (String.eqb_spec j k); auto.
    + destruct U as [->|U]; [congruence|]. exfalso. apply (NX j U).
    + apply od_get_none. auto.
Qed.

(** *** construction *)

Lemma check_mapping_other m : check_mapping m = Ok tt -> forall k, In (k, MOther) m -> False.
Proof.
  unfold check_mapping. destruct (existsb (fun kv => is_other (snd kv)) m) eqn:E; [discriminate|].
  intros _ k H. rewrite <- not_true_iff_false in E. apply E. apply existsb_exists.
  exists (k, MOther). auto.
Qed.

Lemma make_expression_maps s cargs ckw order delta (e : expression V) :
  make_expression s cargs ckw order delta = Ok e ->
  e_spec e = s /\ e_args e = cargs /\ e_kwds e = ckw /\ e_maps e = (order, delta) /\
  (forall m, order = Some m -> check_mapping m = Ok tt) /\
  (forall m, delta = Some m -> check_mapping m = Ok tt) /\
  (order = None \/ delta = None).
Proof.
  unfold make_expression.
  destruct (assert_ _) as [u1|]; cbn [bind]; [|discriminate].
  destruct (assert_ _) as [u2|]; cbn [bind]; [|discriminate].
  destruct (assert_ _) as [u3|]; cbn [bind]; [|discriminate].
  destruct (assert_ _) as [u4|]; cbn [bind]; [|discriminate].
  destruct order as [mo|]; destruct delta as [md|]; cbn.
  - destruct (check_mapping mo) as [[]|]; cbn; discriminate.
  - destruct (check_mapping mo) as [[]|] eqn:C; cbn; [|discriminate].
    destruct (partials_of s); cbn; [|discriminate]. intros E; inversion E; cbn.
    do 4 (split; [auto|]). split; [intros m Em; inversion Em; subst; auto|]. split; [discriminate|auto].
  - destruct (check_mapping md) as [[]|] eqn:C; cbn; [|discriminate].
    destruct (partials_of s); cbn; [|discriminate]. intros E; inversion E; cbn.
    do 4 (split; [auto|]). split; [discriminate|]. split; [intros m Em; inversion Em; subst; auto|auto].
  - destruct (partials_of s); cbn; [|discriminate]. intros E; inversion E; cbn.
    do 4 (split; [auto|]). split; [discriminate|]. split; [discriminate|auto].
Qed.

Lemma merge_not_sole (args : list (parg V)) kw :
  not_sole_dict args -> merge_dict args kw = (args, kw).
Proof.
  intros H. unfold merge_dict. destruct args as [|[v|d|] [|b l]]; auto. exfalso. apply (H d). auto.
Qed.

(** *** C44 and C45: routed calls *)

Lemma routed_pad (uses : string -> string -> Prop) (value : odict V -> string -> V -> Prop) m (args fa : list (parg V)) (kw fk : odict V) :
  length fa = length (pad args m) ->
  (forall k i v, In (k, MInt (Z.of_nat i)) m -> value kw k v -> nth_error fa i = Some (PVal v)) ->
  (forall i, (forall k, ~ In (k, MInt (Z.of_nat i)) m) -> nth_error fa i = nth_error (pad args m) i) ->
  (forall k s v, In (k, MStr s) m -> value kw k v -> od_get fk s = Some v) ->
  (forall k t j, In (k, t) m -> uses k j -> (forall k', ~ In (k', MStr j) m) -> od_get fk j = None) ->
  (forall j, (forall k, In k (od_keys m) -> ~ uses k j) ->
     (forall k', ~ In (k', MStr j) m) -> od_get fk j = od_get kw j) ->
  routed uses value m args kw fa fk.
Proof.
  intros L P1 P2 P3 P4 P5. rewrite pad_len in L. constructor; auto.
  - intros i. rewrite L. split; [apply pad_length_inv|].
    intros [H|[k [j [H H']]]].
    + pose proof (pad_length_ge (length args) m). lia.
    + pose proof (@pad_length_int (length args) m k j H). lia.
  - intros i H NT. rewrite P2 by auto. apply pad_nth. rewrite pad_len. lia.
Qed.

Lemma item_call_mapped s cargs ckw order delta (e : expression V) key id lk argc args kwds m :
  make_expression s cargs ckw order delta = Ok e ->
  (order = Some m \/ delta = Some m) -> m <> [] ->
  e_getitem e key = Ok (Fun id lk argc) ->
  not_sole_dict (cargs ++ args) ->
  e_item_call sub e key args kwds
  = mapped_call sub id (order, delta) (cargs ++ args) (od_update ckw kwds).
Proof.
  intros M OD NE G NS. apply make_expression_maps in M.
  destruct M as [_ [MA [MK [MM [_ [_ OR]]]]]].
  unfold e_item_call. rewrite G. cbn [bind]. unfold e_call_item. rewrite MA, MK, MM.
  rewrite merge_not_sole by auto.
  assert (H : no_map (fst (order, delta)) && no_map (snd (order, delta)) = false).
  { cbn. destruct OD as [-> | ->]; destruct m; try congruence; cbn; auto.
    apply andb_false_r. }
  rewrite H. reflexivity.
Qed.

Lemma order_call s cargs ckw m (e : expression V) key id lk argc args kwds :
  make_expression s cargs ckw (Some m) None = Ok e -> m <> [] ->
  e_getitem e key = Ok (Fun id lk argc) ->
  not_sole_dict (cargs ++ args) ->
  NoDup (od_keys ckw) ->
  no_interference order_uses m -> from_start m ->
  supplied order_uses m (od_update ckw kwds) ->
  exists fargs fkw,
    e_item_call sub e key args kwds = Ok (Called id fargs fkw) /\
    routed order_uses order_value m (cargs ++ args) (od_update ckw kwds) fargs fkw.
Proof.
  intros M NE G NS N NI FS SU.
  pose proof (make_expression_maps _ _ _ _ _ M) as [_ [_ [_ [_ [CO _]]]]].
  specialize (CO m eq_refl). pose proof (check_mapping_other _ CO) as NO.
  rewrite (@item_call_mapped s cargs ckw (Some m) None e key id lk argc args kwds m M); auto.
  set (kw := od_update ckw kwds) in *.
  unfold mapped_call. cbn [fst snd]. destruct m as [|kv m0] eqn:Em; [congruence|]. rewrite <- Em in *.
  assert (Hn : negb (no_map (Some m)) = true) by (rewrite Em; reflexivity). rewrite Hn.
  rewrite order_step_gen by auto.
  destruct (@loop_ok V order_uses order_value (fun _ => True) pop order_take_ok order_value_fun
              order_value_ext m (pad (cargs ++ args) m) kw)
    as [fa [fk [F [L [P1 [P2 [P3 [P4 P5]]]]]]]]; auto.
  - apply od_update_nodup; auto.
  - intros k i H. rewrite pad_len. eapply pad_length_int; eauto.
  - rewrite F. cbn. exists fa, fk. split; [auto|]. apply routed_pad; auto.
Qed.

Lemma delta_call s cargs ckw m (e : expression V) key id lk argc args kwds :
  make_expression s cargs ckw None (Some m) = Ok e -> m <> [] ->
  e_getitem e key = Ok (Fun id lk argc) ->
  not_sole_dict (cargs ++ args) ->
  NoDup (od_keys ckw) -> ~ In EmptyString (od_keys m) ->
  no_interference delta_uses m -> from_start m ->
  supplied delta_uses m (od_update ckw kwds) ->
  exists fargs fkw,
    e_item_call sub e key args kwds = Ok (Called id fargs fkw) /\
    routed delta_uses (delta_value sub) m (cargs ++ args) (od_update ckw kwds) fargs fkw.
Proof.
  intros M NE G NS N NEK NI FS SU.
  pose proof (make_expression_maps _ _ _ _ _ M) as [_ [_ [_ [_ [_ [CO _]]]]]].
  specialize (CO m eq_refl). pose proof (check_mapping_other _ CO) as NO.
  rewrite (@item_call_mapped s cargs ckw None (Some m) e key id lk argc args kwds m M); auto.
  set (kw := od_update ckw kwds) in *.
  unfold mapped_call. cbn [fst snd no_map negb].
  rewrite delta_step_gen.
  destruct (@loop_ok V delta_uses (delta_value sub) (fun k => k <> EmptyString) (delta_take sub)
              delta_take_ok delta_value_fun
              delta_value_ext m (pad (cargs ++ args) m) kw)
    as [fa [fk [F [L [P1 [P2 [P3 [P4 P5]]]]]]]]; auto.
  - intros k H ->. contradiction.
  - apply od_update_nodup; auto.
  - intros k i H. rewrite pad_len. eapply pad_length_int; eauto.
  - rewrite F. cbn. exists fa, fk. split; [auto|]. apply routed_pad; auto.
Qed.

(** A keyword that is mapped but not supplied. *)
Lemma order_missing s cargs ckw m (e : expression V) key id lk argc args kwds k :
  make_expression s cargs ckw (Some m) None = Ok e ->
  e_getitem e key = Ok (Fun id lk argc) ->
  not_sole_dict (cargs ++ args) -> NoDup (od_keys ckw) ->
  In k (od_keys m) -> ~ In k (od_keys ckw) -> ~ In k (od_keys kwds) ->
  (forall k', ~ In (k', MStr k) m) ->
  exists err, e_item_call sub e key args kwds = Err err.
Proof.
  intros M G NS N IN N1 N2 NT.
  assert (NE : m <> []) by (intros ->; destruct IN).
  pose proof (make_expression_maps _ _ _ _ _ M) as [_ [_ [_ [_ [CO _]]]]].
  specialize (CO m eq_refl). pose proof (check_mapping_other _ CO) as NO.
  rewrite (@item_call_mapped s cargs ckw (Some m) None e key id lk argc args kwds m M); auto.
  unfold mapped_call. cbn [fst snd]. destruct m as [|kv m0] eqn:Em; [congruence|]. rewrite <- Em in *.
  assert (Hn : negb (no_map (Some m)) = true) by (rewrite Em; reflexivity). rewrite Hn.
  rewrite order_step_gen by auto.
  unfold od_keys in IN. apply in_map_iff in IN. destruct IN as [[k1 t] [E IN]]. cbn in E. subst k1.
  destruct (@loop_missing V order_uses pop order_take_inv m (pad (cargs ++ args) m)
              (od_update ckw kwds) k t k) as [err F]; auto.
  - reflexivity.
  - apply od_update_nodup; auto.
  - apply od_get_none. rewrite od_update_keys. tauto.
  - rewrite F. cbn. eauto.
Qed.

(** A delta mapping in which two entries need the same keyword. *)
Lemma delta_twice s cargs ckw m1 m2 m3 k1 t1 k2 t2 (e : expression V) key id lk argc args kwds j :
  make_expression s cargs ckw None (Some (m1 ++ (k1, t1) :: m2 ++ (k2, t2) :: m3)) = Ok e ->
  e_getitem e key = Ok (Fun id lk argc) ->
  not_sole_dict (cargs ++ args) -> NoDup (od_keys ckw) ->
  delta_uses k1 j -> delta_uses k2 j ->
  (forall k', ~ In (k', MStr j) (m1 ++ (k1, t1) :: m2 ++ (k2, t2) :: m3)) ->
  exists err, e_item_call sub e key args kwds = Err err.
Proof.
  intros M G NS N U1 U2 NT.
  rewrite (@item_call_mapped s cargs ckw None (Some (m1 ++ (k1, t1) :: m2 ++ (k2, t2) :: m3)) e
             key id lk argc args kwds (m1 ++ (k1, t1) :: m2 ++ (k2, t2) :: m3) M); auto.
  2:{ destruct m1; discriminate. }
  unfold mapped_call. cbn [fst snd no_map negb]. rewrite delta_step_gen.
  edestruct (@loop_twice V delta_uses (delta_take sub) delta_take_inv) as [err F];
    [exact U1|exact U2| |exact NT|].
  2:{ rewrite F. cbn. eauto. }
  apply od_update_nodup; auto.
Qed.

(** *** a value that is lost *)

Lemma fold_same m (a : list (parg V)) kw k v :
  In k (od_keys kw) -> ~ In k (od_keys m) -> (exists k', In (k', MStr k) m) ->
  (forall k', In (k', MOther) m -> False) ->
  fold_res (gstep pop) m (a, od_set kw k v) = fold_res (gstep pop) m (a, kw).
Proof.
  revert a kw. induction m as [|[k1 t] m IH]; intros a kw IN NK [k' EX] NO; [destruct EX|].
  cbn in NK. assert (NE : k1 <> k) by tauto.
  cbn. unfold gstep at 1 3. cbn.
  unfold pop at 1 3, od_getR. rewrite od_get_set_ne by auto.
  destruct (od_get kw k1) as [w|] eqn:G; cbn; [|auto].
  rewrite od_del_set_ne by auto.
  assert (IN' : In k (od_keys (od_del kw k1))).
  { clear -IN NE. induction kw as [|[x y] kw IH]; cbn in *; [auto|].
    destruct (String.eqb_spec k1 x); [destruct IN; [congruence|auto]|].
    cbn. destruct IN; auto. }
  destruct t as [i| |s|]; cbn.
  - destruct (put a i w); cbn; [|auto]. apply IH; auto; [|intros k2 H2; apply (NO k2); right; auto].
    destruct EX as [E|EX]; [discriminate|eauto].
  - apply IH; auto; [|intros k2 H2; apply (NO k2); right; auto].
    destruct EX as [E|EX]; [discriminate|eauto].
  - destruct (string_dec s k) as [->|NS].
    + rewrite od_set_set. auto.
    + rewrite od_set_comm by auto. apply IH; auto.
      * apply od_keys_set_in. auto.
      * destruct EX as [E|EX]; [inversion E; congruence|eauto].
      * intros k2 H2. apply (NO k2). right. auto.
  - exfalso. apply (NO k1). left. auto.
Qed.

Lemma order_lost s cargs ckw m1 m2 k t (e : expression V) key args kwds v :
  make_expression s cargs ckw (Some (m1 ++ (k, t) :: m2)) None = Ok e ->
  not_sole_dict (cargs ++ args) ->
  NoDup (od_keys kwds) -> In k (od_keys kwds) ->
  ~ In k (od_keys m1) -> (exists k', In (k', MStr k) m1) ->
  e_item_call sub e key args (od_set kwds k v) = e_item_call sub e key args kwds.
Proof.
  intros M NS N IN NK EX.
  destruct (e_getitem e key) as [it|err] eqn:G.
  2:{ unfold e_item_call. rewrite G. reflexivity. }
  destruct it as [id lk argc|w sc].
  - rewrite (@item_call_mapped s cargs ckw (Some (m1 ++ (k, t) :: m2)) None e key id lk argc args
      (od_set kwds k v) (m1 ++ (k, t) :: m2) M); auto; try (destruct m1; discriminate).
    rewrite (@item_call_mapped s cargs ckw (Some (m1 ++ (k, t) :: m2)) None e key id lk argc args
      kwds (m1 ++ (k, t) :: m2) M); auto; try (destruct m1; discriminate).
    pose proof (make_expression_maps _ _ _ _ _ M) as [_ [_ [_ [_ [CO _]]]]].
    specialize (CO _ eq_refl). pose proof (check_mapping_other _ CO) as NO.
    unfold mapped_call. cbn [fst snd].
    assert (Hn : negb (no_map (Some (m1 ++ (k, t) :: m2))) = true) by (destruct m1; reflexivity).
    rewrite Hn. rewrite !order_step_gen by auto. rewrite !fold_res_app.
    rewrite od_update_set by auto.
    rewrite fold_same; auto.
    + apply od_update_keys. auto.
    + intros k' H. apply (NO k'). apply in_app_iff. auto.
  - unfold e_item_call. rewrite G. cbn [bind]. unfold e_call_item.
    destruct (e_args e ++ args); [|reflexivity]. cbn [nilb andb].
    assert (H1 : forall kw0 : odict V, In k (od_keys kw0) -> nilb (od_update (e_kwds e) kw0) = false).
    { intros kw0 H. destruct (od_update (e_kwds e) kw0) eqn:E; [|auto].
      assert (X : In k (od_keys (od_update (e_kwds e) kw0))) by (apply od_update_keys; auto).
      rewrite E in X. destruct X. }
    rewrite !H1; auto. apply od_keys_set_in. auto.
Qed.

(** *** a sole dictionary *)

Lemma sole_dict s ckw order delta (e : expression V) key id lk argc kwds d :
  make_expression s [] ckw order delta = Ok e ->
  e_getitem e key = Ok (Fun id lk argc) ->
  NoDup (od_keys kwds) ->
  e_item_call sub e key [PDict d] kwds = e_item_call sub e key [] (od_update kwds d).
Proof.
  intros M G N. apply make_expression_maps in M. destruct M as [_ [MA _]].
  unfold e_item_call. rewrite G. cbn [bind]. unfold e_call_item. rewrite MA. cbn [app merge_dict].
  rewrite od_update_assoc by auto. reflexivity.
Qed.

(** *** stored and given keywords *)

Lemma plain_call s cargs ckw (e : expression V) key id lk argc args kwds :
  make_expression s cargs ckw None None = Ok e ->
  e_getitem e key = Ok (Fun id lk argc) ->
  not_sole_dict (cargs ++ args) ->
  (lk <> Lambda \/ argc <> 0) -> e_islambda e = Nat.eqb (item_lambda (V := V) (Fun id lk argc)) 1 ->
  e_item_call sub e key args kwds = Ok (Called id (cargs ++ args) (od_update ckw kwds)).
Proof.
  intros M G NS LK EL. apply make_expression_maps in M. destruct M as [_ [MA [MK [MM _]]]].
  unfold e_item_call. rewrite G. cbn [bind]. unfold e_call_item. rewrite MA, MK, MM, EL.
  rewrite merge_not_sole by auto. cbn [fst snd no_map andb].
  assert (H : Nat.eqb (item_lambda (V := V) (Fun id lk argc)) 1 && Nat.eqb argc 0 = false).
  { destruct LK as [H|H].
    - destruct lk; [congruence|reflexivity|reflexivity].
    - apply Nat.eqb_neq in H. rewrite H. apply andb_false_r. }
  rewrite H. reflexivity.
Qed.

(** All items of an expression are lambdas or none is. *)
Lemma all_same_in {A} (eqb : A -> A -> bool) (spec : forall x y, eqb x y = true -> x = y) l x y :
  all_same eqb l = true -> In x l -> hd_error l = Some y -> x = y.
Proof.
  destruct l as [|a l]; cbn; [discriminate|]. intros H [->|IN] E; inversion E; auto; subst.
  rewrite forallb_forall in H. symmetry. apply spec. auto.
Qed.

Lemma partial_get_in l k (it : item V) : partial_get l k = Ok it -> In (k, it) l.
Proof.
  induction l as [|[k' it'] l IH]; cbn; [discriminate|].
  destruct (ekey_eqb k k') eqn:E; [|auto]. intros H. inversion H; subst. left. f_equal.
  destruct k, k'; cbn in E; try discriminate; auto.
  - apply Z.eqb_eq in E. congruence.
  - apply String.eqb_eq in E. congruence.
Qed.

Lemma partials_items s l k (it : item V) :
  partials_of s = Ok l -> In (k, it) l -> In it (spec_items s).
Proof.
  destruct s as [i|ts|d]; cbn.
  - intros E. inversion E; subst. intros [H|[]]. inversion H. auto.
  - destruct (rev ts) as [|z r] eqn:R; [discriminate|]. intros E. inversion E; subst. clear E.
    rewrite in_app_iff. intros [H|[H|[]]].
    + apply in_combine_r in H. auto.
    + inversion H; subst. apply in_rev. rewrite R. left. auto.
  - intros E. inversion E; subst. rewrite in_map_iff. intros [[k' v'] [H H']]. cbn in H.
    inversion H; subst. apply (in_map snd) in H'. exact H'.
Qed.

Lemma getitem_items (e : expression V) key it : e_getitem e key = Ok it -> In it (spec_items (e_spec e)).
Proof.
  unfold e_getitem. destruct (assert_ _); cbn [bind]; [|discriminate].
  destruct (partials_of (e_spec e)) as [l|] eqn:P; cbn [bind]; [|discriminate].
  intros H. apply partial_get_in in H. eapply partials_items; eauto.
Qed.

Lemma make_islambda s cargs ckw order delta (e : expression V) key id lk argc :
  make_expression s cargs ckw order delta = Ok e ->
  e_getitem e key = Ok (Fun id lk argc) ->
  e_islambda e = Nat.eqb (item_lambda (V := V) (Fun id lk argc)) 1.
Proof.
  intros M G. pose proof (make_expression_maps _ _ _ _ _ M) as [MS _].
  apply getitem_items in G. rewrite MS in G. clear MS.
  unfold make_expression in M.
  destruct (assert_ (all_same Bool.eqb (map item_callable (spec_items s)))) as [u1|];
    cbn [bind] in M; [|discriminate].
  destruct (assert_ (all_same Nat.eqb (map item_lambda (spec_items s)))) as [u2|] eqn:A2;
    cbn [bind] in M; [|discriminate].
  apply assert_ok in A2.
  destruct (assert_ _) as [u3|]; cbn [bind] in M; [|discriminate].
  destruct (assert_ _) as [u4|]; cbn [bind] in M; [|discriminate].
  destruct (spec_items s) as [|i0 its] eqn:SI; [destruct G|].
  assert (EQ : item_lambda (V := V) (Fun id lk argc) = item_lambda i0).
  { eapply (@all_same_in nat Nat.eqb).
    - intros x y H. apply Nat.eqb_eq. auto.
    - exact A2.
    - apply in_map. exact G.
    - reflexivity. }
  rewrite EQ.
  destruct order as [mo|]; destruct delta as [md|]; cbn [set_order set_delta fst snd bind] in M.
  - destruct (check_mapping mo) as [[]|]; cbn in M; discriminate.
  - destruct (check_mapping mo) as [[]|]; cbn in M; [|discriminate].
    destruct (partials_of s); cbn in M; [|discriminate]. inversion M. reflexivity.
  - destruct (check_mapping md) as [[]|]; cbn in M; [|discriminate].
    destruct (partials_of s); cbn in M; [|discriminate]. inversion M. reflexivity.
  - destruct (partials_of s); cbn in M; [|discriminate]. inversion M. reflexivity.
Qed.

Lemma unmapped_call s cargs ckw (e : expression V) key id lk argc args kwds :
  make_expression s cargs ckw None None = Ok e ->
  e_getitem e key = Ok (Fun id lk argc) ->
  not_sole_dict (cargs ++ args) ->
  (lk <> Lambda \/ argc <> 0) ->
  e_item_call sub e key args kwds = Ok (Called id (cargs ++ args) (od_update ckw kwds)).
Proof.
  intros M G NS LK. eapply plain_call; eauto. eapply make_islambda; eauto.
Qed.

Lemma no_arg_lambda s ckw (e : expression V) key id kwds :
  make_expression s [] ckw None None = Ok e ->
  e_getitem e key = Ok (Fun id Lambda 0) ->
  e_item_call sub e key [] kwds = Ok (Called id [] []).
Proof.
  intros M G. pose proof (make_islambda _ _ _ _ _ _ M G) as EL.
  apply make_expression_maps in M. destruct M as [_ [MA [MK [MM _]]]].
  unfold e_item_call. rewrite G. cbn [bind]. unfold e_call_item. rewrite MA, MM, EL. reflexivity.
Qed.

(** *** keys of a multiple expression *)

Lemma partial_get_tuple (l : list (item V)) n rest i :
  i < length l ->
  partial_get (combine (map (fun j => KInt (Z.of_nat j)) (seq n (length l))) l ++ rest)
              (KInt (Z.of_nat (n + i)))
  = match nth_error l i with Some it => Ok it | None => Err KeyError end.
Proof.
  revert n i. induction l as [|a l IH]; intros n i H; cbn in H; [lia|].
  cbn [length seq map combine app partial_get]. destruct i as [|i].
  - rewrite Nat.add_0_r. cbn [ekey_eqb]. rewrite Z.eqb_refl. reflexivity.
  - cbn [ekey_eqb]. destruct (Z.eqb_spec (Z.of_nat (n + S i)) (Z.of_nat n)); [lia|].
    replace (n + S i) with (S n + i) by lia. cbn [nth_error]. apply IH. lia.
Qed.

Lemma partial_get_tuple_out (l : list (item V)) n rest z :
  (z < Z.of_nat n \/ Z.of_nat (n + length l) <= z)%Z ->
  partial_get (combine (map (fun j => KInt (Z.of_nat j)) (seq n (length l))) l ++ rest) (KInt z)
  = partial_get rest (KInt z).
Proof.
  revert n. induction l as [|a l IH]; intros n H; [reflexivity|].
  cbn [length seq map combine app partial_get ekey_eqb]. cbn [length] in H.
  destruct (Z.eqb_spec z (Z.of_nat n)); [lia|]. apply IH. lia.
Qed.

Definition tuple_key (l : list (item V)) (z : Z) : option (item V) :=
  if (z =? -1)%Z then nth_error l (length l - 1)
  else if (0 <=? z)%Z then nth_error l (Z.to_nat z) else None.

Lemma rev_last (l : list (item V)) z r : rev l = z :: r -> nth_error l (length l - 1) = Some z.
Proof.
  intros H. assert (E : l = rev r ++ [z]) by (rewrite <- (rev_involutive l), H; reflexivity).
  rewrite E. rewrite app_length. cbn. rewrite nth_error_app2 by lia.
  replace (length (rev r) + 1 - 1 - length (rev r)) with 0 by lia. reflexivity.
Qed.

Lemma tuple_index l cargs ckw order delta (e : expression V) z :
  make_expression (ETuple l) cargs ckw order delta = Ok e ->
  e_getitem e (KInt z) = match tuple_key l z with Some it => Ok it | None => Err KeyError end.
Proof.
  intros M. pose proof (make_expression_maps _ _ _ _ _ M) as [MS _].
  unfold e_getitem, e_ismulti. rewrite MS. cbn [assert_ bind partials_of].
  assert (NE : rev l <> []).
  { intros R. unfold make_expression in M.
    destruct (assert_ _) as [u1|]; cbn [bind] in M; [|discriminate].
    destruct (assert_ _) as [u2|]; cbn [bind] in M; [|discriminate].
    destruct (assert_ _) as [u3|]; cbn [bind] in M; [|discriminate].
    destruct (assert_ _) as [u4|]; cbn [bind] in M; [|discriminate].
    destruct (match order with None => _ | _ => _ end) as [s1 r1].
    destruct r1; cbn [bind] in M; [|discriminate].
    destruct (match delta with None => _ | _ => _ end) as [s2 r2].
    destruct r2; cbn [bind] in M; [|discriminate].
    cbn [partials_of] in M. rewrite R in M. discriminate. }
  destruct (rev l) as [|zl r] eqn:R; [congruence|]. cbn [bind].
  unfold tuple_key. destruct (Z.eqb_spec z (-1)).
  - subst. rewrite partial_get_tuple_out by lia. cbn.
    rewrite (rev_last _ R). reflexivity.
  - destruct (Z.leb_spec 0 z).
    + destruct (Z_lt_le_dec z (Z.of_nat (length l))).
      * replace z with (Z.of_nat (0 + Z.to_nat z)) at 1 by lia.
        rewrite partial_get_tuple by lia. reflexivity.
      * rewrite partial_get_tuple_out by lia. cbn.
        destruct (Z.eqb_spec z (-1)); [lia|].
        assert (H1 : nth_error l (Z.to_nat z) = None) by (apply nth_error_None; lia).
        rewrite H1. reflexivity.
    + rewrite partial_get_tuple_out by lia. cbn. destruct (Z.eqb_spec z (-1)); [lia|]. reflexivity.
Qed.

Lemma tuple_len l cargs ckw order delta (e : expression V) :
  make_expression (ETuple l) cargs ckw order delta = Ok e ->
  e_len e = Ok (S (length l)).
Proof.
  intros M. pose proof (@tuple_index l _ _ _ _ _ 0 M) as T.
  pose proof (make_expression_maps _ _ _ _ _ M) as [MS _].
  unfold e_getitem in T. unfold e_len, e_ismulti in *. rewrite MS in *. cbn [partials_of assert_ bind] in *.
  destruct (rev l) as [|z r] eqn:R.
  - assert (l = []) by (rewrite <- (rev_involutive l), R; reflexivity). subst.
    unfold make_expression in M. cbn in M.
    destruct (assert_ _) as [u4|]; cbn [bind] in M; [|discriminate].
    destruct order as [mo|]; destruct delta as [md|]; cbn in M.
    + destruct (check_mapping mo); cbn in M; discriminate.
    + destruct (check_mapping mo); cbn in M; discriminate.
    + destruct (check_mapping md); cbn in M; discriminate.
    + discriminate.
  - cbn [bind]. f_equal. rewrite app_length, combine_length, map_length, seq_length. cbn. lia.
Qed.

Lemma empty_tuple cargs ckw order delta : forall e : expression V,
  make_expression (ETuple []) cargs ckw order delta <> Ok e.
Proof.
  intros e M. pose proof (tuple_len _ _ _ _ _ M) as T. unfold e_len, e_ismulti in T.
  pose proof (make_expression_maps _ _ _ _ _ M) as [MS _]. rewrite MS in T. cbn in T. discriminate.
Qed.

Lemma multi_call_never (e : expression V) args kwds :
  e_ismulti e = true -> e_call sub e args kwds = Err TypeError.
Proof. intros H. unfold e_call. rewrite H. reflexivity. Qed.

Lemma single_call s cargs ckw order delta (e : expression V) it args kwds :
  s = ESingle it ->
  make_expression s cargs ckw order delta = Ok e ->
  e_getitem e KNone = Ok it /\
  e_call sub e args kwds = e_item_call sub e KNone args kwds /\
  (forall z, e_getitem e (KInt z) = Err AssertionError) /\
  e_len e = Err TypeError.
Proof.
  intros -> M. apply make_expression_maps in M. destruct M as [MS _].
  unfold e_getitem, e_item_call, e_call, e_getitem, e_len, e_ismulti. rewrite MS. cbn. auto.
Qed.

(** *** rejected mappings are kept *)

Lemma rejected_order_kept (e : expression V) m err :
  snd (e_set_order e (Some m)) = Err err ->
  fst (e_maps (fst (e_set_order e (Some m)))) = Some m.
Proof. reflexivity. Qed.

(** *** Func *)

Lemma f_op_static (f : func V) o :
  f_spec (f_op sub f o) = f_spec f /\ f_args (f_op sub f o) = f_args f /\
  f_kwds (f_op sub f o) = f_kwds f /\ f_maps (f_op sub f o) = f_maps f /\
  f_callable (f_op sub f o) = f_callable f.
Proof.
  destruct o as [i|args kwds]; cbn.
  - unfold f_getitem. destruct (f_ismulti f); cbn; auto.
  - unfold f_do_call, f_target. destruct (f_index f) as [i|]; [|cbn; auto].
    destruct (f_spec f) as [it|l] eqn:E; cbn; [auto|].
    destruct (py_index (length l) i) as [p|]; cbn; [|auto].
    destruct (nth_error l p); cbn; auto.
Qed.

Lemma f_run_static (f : func V) ops :
  f_spec (f_run sub f ops) = f_spec f /\ f_args (f_run sub f ops) = f_args f /\
  f_kwds (f_run sub f ops) = f_kwds f /\ f_maps (f_run sub f ops) = f_maps f /\
  f_callable (f_run sub f ops) = f_callable f.
Proof.
  revert f. induction ops as [|o ops IH]; intros f; [cbn; auto|].
  change (f_run sub f (o :: ops)) with (f_run sub (f_op sub f o) ops).
  specialize (IH (f_op sub f o)). destruct (f_op_static f o) as [A [B [C [D E]]]].
  rewrite A, B, C, D, E in IH. exact IH.
Qed.

Lemma f_index_fresh (f : func V) ops i :
  f_ismulti f = true ->
  fst (f_getitem (f_run sub f ops) i) = f_with_index f (Some i).
Proof.
  intros MU. destruct (f_run_static f ops) as [A [B [C [D E]]]].
  unfold f_getitem, f_ismulti in *. rewrite A. destruct (f_spec f) eqn:S; [discriminate|].
  cbn. unfold f_with_index. rewrite A, B, C, D, E, S. reflexivity.
Qed.

Lemma f_immediate (f : func V) ops i args kwds :
  f_ismulti f = true ->
  f_do_call sub (fst (f_getitem (f_run sub f ops) i)) args kwds
  = f_do_call sub (fst (f_getitem f i)) args kwds.
Proof.
  intros MU. rewrite f_index_fresh by auto.
  unfold f_getitem. rewrite MU. reflexivity.
Qed.

Lemma f_last_index (f : func V) i j args kwds :
  f_ismulti f = true ->
  f_do_call sub (fst (f_getitem (fst (f_getitem f i)) j)) args kwds
  = f_do_call sub (fst (f_getitem f j)) args kwds.
Proof.
  intros MU. apply (@f_immediate f [FIndex i]). auto.
Qed.

Lemma f_call_at (f : func V) l i p id lk argc args kwds :
  f_spec f = FTuple l -> py_index (length l) i = Some p -> nth_error l p = Some (Fun id lk argc) ->
  f_callable f = true -> f_maps f = (None, None) -> not_sole_dict args ->
  f_do_call sub (fst (f_getitem f i)) args kwds
  = (f_with_index f None, Ok (FOut (Called id (f_args f ++ args) (od_update kwds (f_kwds f))))).
Proof.
  intros S P NT CA MA NS. unfold f_getitem, f_ismulti. rewrite S. cbn [fst].
  unfold f_do_call, f_target, f_with_index. cbn [f_index f_spec f_callable f_maps f_args f_kwds].
  rewrite S. rewrite P, NT, CA, MA. cbn [negb bind]. rewrite merge_not_sole by auto. rewrite ?S. reflexivity.
Qed.

(** A handle used a second time calls the tuple itself. *)
Lemma f_reused (f : func V) l i args kwds args' kwds' :
  f_spec f = FTuple l -> f_callable f = true -> f_index f = None ->
  (exists p it, py_index (length l) i = Some p /\ nth_error l p = Some it) ->
  exists err, snd (f_do_call sub (fst (f_do_call sub (fst (f_getitem f i)) args kwds)) args' kwds') = Err err.
Proof.
  intros S CA IX [p [it [P NT]]].
  assert (H : fst (f_do_call sub (fst (f_getitem f i)) args kwds) = f_with_index f None).
  { unfold f_getitem, f_ismulti. rewrite S. cbn [fst].
    unfold f_do_call, f_target. cbn [f_index f_with_index f_spec]. rewrite S, P, NT. cbn.
    unfold f_with_index. cbn. rewrite S. reflexivity. }
  rewrite H. unfold f_do_call, f_target. cbn [f_with_index f_index f_spec f_callable]. rewrite S, CA.
  cbn [snd bind negb]. destruct (merge_dict args' kwds') as [a k]. 
  destruct (mapped_call sub 0 (f_maps (f_with_index f None)) (f_args (f_with_index f None) ++ a)
              (od_update k (f_kwds (f_with_index f None))));
    match goal with |- context [if ?b then _ else _] => destruct b end; cbn; eauto.
Qed.

(** Two indexed handles held at the same time. *)
Lemma f_two_handles (f : func V) l i j p id lk argc args kwds :
  f_spec f = FTuple l -> py_index (length l) j = Some p -> nth_error l p = Some (Fun id lk argc) ->
  f_callable f = true -> f_maps f = (None, None) -> not_sole_dict args ->
  snd (f_do_call sub (fst (f_getitem (fst (f_getitem f i)) j)) args kwds)
  = Ok (FOut (Called id (f_args f ++ args) (od_update kwds (f_kwds f)))).
Proof.
  intros S P NT CA MA NS. rewrite f_last_index; [|unfold f_ismulti; rewrite S; reflexivity].
  erewrite f_call_at; [reflexivity|..]; eauto.
Qed.

Lemma make_func_props s cargs ckw order delta (f : func V) :
  make_func s cargs ckw order delta = Ok f ->
  f_spec f = s /\ f_args f = cargs /\ f_kwds f = ckw /\ f_maps f = (order, delta) /\ f_index f = None /\
  (forall it, In it (fspec_items s) -> f_callable f = item_callable it).
Proof.
  unfold make_func.
  destruct (assert_ (all_same Bool.eqb (map item_callable (fspec_items s)))) as [u1|] eqn:A1;
    cbn [bind]; [|discriminate]. apply assert_ok in A1.
  destruct (assert_ _) as [u2|]; cbn [bind]; [|discriminate].
  destruct (assert_ _) as [u3|]; cbn [bind]; [|discriminate].
  assert (K : forall it, In it (fspec_items s) ->
    match fspec_items s with [] => false | i0 :: _ => item_callable i0 end = item_callable it).
  { intros it H. destruct (fspec_items s) as [|i0 its]; [destruct H|]. symmetry.
    eapply (@all_same_in bool Bool.eqb).
    - intros x y. apply Bool.eqb_prop.
    - exact A1.
    - apply in_map. exact H.
    - reflexivity. }
  destruct order as [mo|]; destruct delta as [md|]; cbn [set_order set_delta fst snd bind].
  - destruct (check_mapping mo) as [[]|]; cbn; discriminate.
  - destruct (check_mapping mo) as [[]|]; cbn [bind]; [|discriminate].
    intros E; inversion E; subst; cbn. do 5 (split; [auto|]). exact K.
  - destruct (check_mapping md) as [[]|]; cbn [bind]; [|discriminate].
    intros E; inversion E; subst; cbn. do 5 (split; [auto|]). exact K.
  - intros E; inversion E; subst; cbn. do 5 (split; [auto|]). exact K.
Qed.

Lemma func_immediate l cargs ckw order delta (f : func V) ops i args kwds :
  make_func (FTuple l) cargs ckw order delta = Ok f ->
  snd (f_do_call sub (fst (f_getitem (f_run sub f ops) i)) args kwds)
  = snd (f_do_call sub (fst (f_getitem f i)) args kwds).
Proof.
  intros M. apply make_func_props in M. destruct M as [MS _].
  rewrite f_immediate; [reflexivity|]. unfold f_ismulti. rewrite MS. reflexivity.
Qed.

Lemma func_at l cargs ckw (f : func V) i id lk argc args kwds :
  make_func (FTuple l) cargs ckw None None = Ok f ->
  nth_error l i = Some (Fun id lk argc) -> not_sole_dict args -> NoDup (od_keys ckw) ->
  exists fkw, snd (f_do_call sub (fst (f_getitem f (Z.of_nat i))) args kwds)
              = Ok (FOut (Called id (cargs ++ args) fkw)) /\
    forall k, od_get fkw k = match od_get ckw k with Some v => Some v | None => od_get kwds k end.
Proof.
  intros M NT NS N. apply make_func_props in M. destruct M as [MS [MA [MK [MM [MI MC]]]]].
  assert (IL : i < length l) by (apply nth_error_Some; congruence).
  exists (od_update kwds ckw). split; [|intros k; apply od_get_update; auto].
  rewrite f_call_at with (l := l) (p := i) (id := id) (lk := lk) (argc := argc); auto.
  - rewrite MA, MK. reflexivity.
  - apply py_index_nat. auto.
  - rewrite (MC (Fun id lk argc)); [reflexivity|]. cbn. eapply nth_error_In; eauto.
Qed.

Lemma func_two l cargs ckw (f : func V) i j id lk argc args kwds :
  make_func (FTuple l) cargs ckw None None = Ok f ->
  nth_error l j = Some (Fun id lk argc) -> not_sole_dict args ->
  snd (f_do_call sub (fst (f_getitem (fst (f_getitem f i)) (Z.of_nat j))) args kwds)
  = Ok (FOut (Called id (cargs ++ args) (od_update kwds ckw))).
Proof.
  intros M NT NS. apply make_func_props in M. destruct M as [MS [MA [MK [MM [MI MC]]]]].
  assert (IL : j < length l) by (apply nth_error_Some; congruence).
  rewrite f_two_handles with (l := l) (p := j) (id := id) (lk := lk) (argc := argc); auto.
  - rewrite MA, MK. reflexivity.
  - apply py_index_nat. auto.
  - rewrite (MC (Fun id lk argc)); [reflexivity|]. cbn. eapply nth_error_In; eauto.
Qed.

Lemma func_again l cargs ckw order delta (f : func V) i id lk argc args kwds args' kwds' :
  make_func (FTuple l) cargs ckw order delta = Ok f ->
  nth_error l i = Some (Fun id lk argc) ->
  exists err,
    snd (f_do_call sub (fst (f_do_call sub (fst (f_getitem f (Z.of_nat i))) args kwds)) args' kwds') = Err err.
Proof.
  intros M NT. apply make_func_props in M. destruct M as [MS [MA [MK [MM [MI MC]]]]].
  assert (IL : i < length l) by (apply nth_error_Some; congruence).
  eapply f_reused; eauto.
  - rewrite (MC (Fun id lk argc)); [reflexivity|]. cbn. eapply nth_error_In; eauto.
  - exists i, (Fun id lk argc). split; [apply py_index_nat; auto|auto].
Qed.

(** *** a rejected mapping takes over *)

Lemma rejected_order s cargs ckw md m (e e2 : expression V) :
  make_expression s cargs ckw None (Some md) = Ok e ->
  make_expression s cargs ckw (Some m) None = Ok e2 -> m <> [] ->
  snd (e_set_order e (Some m)) = Err AssertionError /\
  forall key args kwds,
    e_item_call sub (fst (e_set_order e (Some m))) key args kwds = e_item_call sub e2 key args kwds.
Proof.
  intros M M2 NE. pose proof (make_expression_maps _ _ _ _ _ M) as [MS [MA [MK [MM _]]]].
  pose proof (make_expression_maps _ _ _ _ _ M2) as [MS2 [MA2 [MK2 [MM2 _]]]].
  unfold e_set_order, set_order. rewrite MM. cbn [fst snd]. split; [reflexivity|].
  intros key args kwds. unfold e_item_call, e_getitem, e_ismulti. cbn [e_spec]. rewrite MS, MS2.
  destruct (assert_ _); cbn [bind]; [|reflexivity].
  destruct (partials_of s) as [l|]; cbn [bind]; [|reflexivity].
  destruct (partial_get l key) as [it|]; cbn [bind]; [|reflexivity].
  unfold e_call_item. cbn [e_args e_kwds e_maps e_islambda]. rewrite MA, MK, MA2, MK2, MM2.
  destruct it as [id lk argc|v sc]; [|reflexivity].
  destruct (merge_dict (cargs ++ args) (od_update ckw kwds)) as [a1 kw1].
  cbn [fst snd]. destruct m as [|kv m]; [congruence|]. reflexivity.
Qed.

Lemma given_wins s cargs ckw (e : expression V) key id lk argc args kwds :
  make_expression s cargs ckw None None = Ok e ->
  e_getitem e key = Ok (Fun id lk argc) ->
  not_sole_dict (cargs ++ args) -> NoDup (od_keys kwds) ->
  (lk <> Lambda \/ argc <> 0) ->
  exists fkw, e_item_call sub e key args kwds = Ok (Called id (cargs ++ args) fkw) /\
    forall k, od_get fkw k = match od_get kwds k with Some v => Some v | None => od_get ckw k end.
Proof.
  intros M G NS N LK. exists (od_update ckw kwds). split; [eapply unmapped_call; eauto|].
  intros k. apply od_get_update. auto.
Qed.

Lemma delta_both s cargs ckw m (e : expression V) key id lk argc args kwds x t t' :
  make_expression s cargs ckw None (Some m) = Ok e ->
  e_getitem e key = Ok (Fun id lk argc) ->
  not_sole_dict (cargs ++ args) -> NoDup (od_keys ckw) ->
  In (x, t) m -> In ((x ++ "'")%string, t') m -> (forall k, ~ In (k, MStr x) m) ->
  exists err, e_item_call sub e key args kwds = Err err.
Proof.
  intros M G NS N H1 H2 NT.
  apply in_split in H1. destruct H1 as [m1 [m2 E]].
  assert (U1 : delta_uses x x) by (left; auto).
  assert (U2 : delta_uses (x ++ "'") x) by (right; auto).
  rewrite E in H2. apply in_app_iff in H2. destruct H2 as [H2|[H2|H2]].
  - apply in_split in H2. destruct H2 as [m3 [m4 E2]]. subst m1.
    assert (E3 : m = m3 ++ ((x ++ "'")%string, t') :: m4 ++ (x, t) :: m2)
      by (rewrite E, <- app_assoc; reflexivity).
    subst m. rewrite E3 in *. eapply delta_twice; eauto.
  - exfalso. inversion H2. eapply append_ne; eauto.
  - apply in_split in H2. destruct H2 as [m3 [m4 E2]]. subst m2 m. eapply delta_twice; eauto.
Qed.

End More.
