(** Proofs about the axes a field's values are given. *)
From Coq Require Import String Ascii ZArith Bool Arith Lia List.
From Verif Require Import Base OdLemmas Num Tensor TensorLemmas Names Names_Proofs VariableModel FieldModel Lik_Slice
  Field_Spec Field_Proofs Field_Delta.
Import ListNotations.
Set Implicit Arguments.
Local Open Scope bool_scope.
Local Open Scope list_scope.

Lemma subkeys_unshared k : shared k = false -> subkeys k = [k].
Proof. unfold shared, subkeys. intros H. apply split_char_free. apply has_char_false. exact H. Qed.

Lemma subkeys_nonempty k : subkeys k <> [].
Proof.
  unfold subkeys. induction k as [|a k IH]; cbn; [discriminate|].
  destruct (Ascii.eqb a ","); [discriminate|]. destruct (split_char "," k); [congruence|discriminate].
Qed.

Lemma nodup_flat_unique {A B} (f : A -> list B) l a b x :
  NoDup (flat_map f l) -> In a l -> In b l -> In x (f a) -> In x (f b) -> a = b.
Proof.
  induction l as [|c l IH]; intros ND Ia Ib Xa Xb; [destruct Ia|]. cbn in ND. apply nodup_app_iff in ND.
  destruct ND as [N1 [N2 N3]].
  assert (Z : forall d, In d l -> In x (f d) -> ~ In x (f c)).
  { intros d Id Xd Xc. apply (N3 x); auto. apply in_flat_map. eauto. }
  destruct Ia as [<-|Ia], Ib as [<-|Ib]; auto; exfalso; eapply Z; eauto.
Qed.

Lemma nodup_flat_keys {A B} (f : A -> list B) l : (forall a, In a l -> f a <> []) -> NoDup (flat_map f l) -> NoDup l.
Proof.
  induction l as [|c l IH]; intros NE ND; [constructor|]. cbn in ND. apply nodup_app_iff in ND.
  destruct ND as [N1 [N2 N3]]. constructor.
  - intros I. assert (F := NE c (or_introl eq_refl)). destruct (f c) as [|x r] eqn:E; [congruence|].
    apply (N3 x); [left; auto|]. apply in_flat_map. exists c. rewrite E. cbn. auto.
  - apply IH; auto. intros a Ia. apply NE. right. auto.
Qed.

Lemma nodup_flat_each {A B} (f : A -> list B) l a : NoDup (flat_map f l) -> In a l -> NoDup (f a).
Proof.
  induction l as [|c l IH]; intros ND I; [destruct I|]. cbn in ND. apply nodup_app_iff in ND.
  destruct ND as [N1 [N2 _]]. destruct I as [<-|I]; auto.
Qed.

Lemma fold_sets_get {A} (c : A) sks (d : odict A) k :
  od_get (fold_left (fun d sk => od_set d sk c) sks d) k = if mem_str k sks then Some c else od_get d k.
Proof.
  revert d. induction sks as [|s sks IH]; intros d; cbn [fold_left]; [reflexivity|].
  rewrite IH. cbn [mem_str existsb]. change (existsb (String.eqb k) sks) with (mem_str k sks).
  destruct (mem_str k sks) eqn:E; [rewrite orb_true_r; auto|]. rewrite od_get_set, orb_false_r. reflexivity.
Qed.

Section Dims.
Context {T : Type} {N : Num T} {TR : Trunc T}.
Implicit Types values : odict (fentry T).
Implicit Types x : fval T.

Lemma inner_get (o : string) sks a (d : odict (string * option nat)) k :
  (~ In k sks -> od_get (fold_left (fun d (isk : nat * string) => od_set d (snd isk) (o, Some (fst isk)))
      (combine (seq a (length sks)) sks) d) k = od_get d k) /\
  (NoDup sks -> forall i, nth_error sks i = Some k ->
      od_get (fold_left (fun d (isk : nat * string) => od_set d (snd isk) (o, Some (fst isk)))
      (combine (seq a (length sks)) sks) d) k = Some (o, Some (a + i))).
Proof.
  revert a d. induction sks as [|s sks IH]; intros a d.
  - split; [reflexivity|]. intros _ [|i] H; discriminate.
  - cbn [length seq combine fold_left fst snd].
    destruct (IH (S a) (od_set d s (o, Some a))) as [I1 I2]. split.
    + intros NI. rewrite I1 by (intros H; apply NI; right; auto). rewrite od_get_set_ne; [auto|].
      intros ->. apply NI. left. auto.
    + intros ND i H. inversion ND; subst. destruct i as [|i].
      * cbn in H. inversion H; subst. rewrite I1 by auto. rewrite od_get_set_eq, Nat.add_0_r. auto.
      * cbn in H. rewrite (I2 H3 i H). do 3 f_equal. lia.
Qed.

Lemma gives_sub values keys o k x : covers values keys -> gives values o k x ->
  In o (od_keys values) /\ In k (subkeys o) /\ In k keys.
Proof.
  intros [C1 [C2 [C3 [C4 C5]]]] G.
  assert (A : In o (od_keys values) /\ In k (subkeys o)).
  { destruct G as [[-> [S I]]|[S [i [l [I [H1 H2]]]]]].
    - split; [unfold od_keys; apply in_map_iff; exists (k, One x); auto|]. rewrite subkeys_unshared by auto. left. auto.
    - split; [unfold od_keys; apply in_map_iff; exists (o, Many l); auto|]. eapply nth_error_In; eauto. }
  destruct A as [A1 A2]. split; [auto|]. split; [auto|]. apply C4. apply in_flat_map. eauto.
Qed.

Lemma find_unique {A} (P : A -> bool) l a : In a l -> P a = true -> (forall b, In b l -> P b = true -> b = a) ->
  find P l = Some a.
Proof.
  intros I H U. destruct (find P l) as [b|] eqn:E.
  - apply find_some in E. destruct E as [E1 E2]. f_equal. auto.
  - exfalso. pose proof (find_none _ _ E a I). congruence.
Qed.

Lemma gives_owner values keys o k x : covers values keys -> gives values o k x -> owner values k = Some o.
Proof.
  intros C G. destruct (gives_sub C G) as [A1 [A2 _]]. destruct C as [C1 [C2 [C3 [C4 C5]]]].
  unfold owner. apply find_unique; [auto|apply mem_str_iff; auto|].
  intros b Ib Hb. apply mem_str_iff in Hb. exact (@nodup_flat_unique _ _ subkeys (od_keys values) _ _ _ C3 Ib A1 Hb A2).
Qed.

Lemma owner_gives values keys k : covers values keys -> In k keys -> exists o x, gives values o k x.
Proof.
  intros [C1 [C2 [C3 [C4 C5]]]] I. apply C4 in I. apply in_flat_map in I. destruct I as [o [Io Ik]].
  unfold od_keys in Io. apply in_map_iff in Io. destruct Io as [[o' e] [E Io]]. cbn in E. subst o'.
  specialize (C5 o e Io). destruct e as [x|l].
  - exists o, x. left. rewrite subkeys_unshared in Ik by auto. destruct Ik as [<-|[]]. auto.
  - destruct C5 as [S L]. apply In_nth_error in Ik. destruct Ik as [i Hi].
    assert (NE : nth_error l i <> None).
    { apply nth_error_Some. rewrite L. apply nth_error_Some. congruence. }
    destruct (nth_error l i) as [x|] eqn:E; [|congruence]. exists o, x. right. split; [auto|]. exists i, l. auto.
Qed.

Lemma covers_nodup values keys : covers values keys -> NoDup (od_keys values).
Proof. intros [_ [_ [C3 _]]]. apply nodup_flat_keys in C3; [auto|]. intros a _. apply subkeys_nonempty. Qed.

Lemma ref_get values keys o k x : covers values keys -> gives values o k x ->
  (o = k /\ shared o = false /\ od_get values k = Some (One x) /\ od_get (values_ref keys values) k = Some (k, None)) \/
  (shared o = true /\ od_mem values k = false /\ exists i l, od_get values o = Some (Many l) /\
     nth_error (subkeys o) i = Some k /\ nth_error l i = Some x /\
     od_get (values_ref keys values) k = Some (o, Some i)).
Proof.
  intros C G. pose proof (covers_nodup C) as NDV. destruct (gives_sub C G) as [A1 [A2 A3]].
  pose proof C as [C1 [C2 [C3 [C4 C5]]]].
  assert (INIT : od_get (od_of_list (map (fun k => (k, (k, @None nat))) keys)) k = Some (k, None)).
  { assert (KK : od_keys (map (fun k => (k, (k, @None nat))) keys) = keys) by (unfold od_keys; rewrite map_map; cbn; apply map_id).
    rewrite od_of_list_nodup by (rewrite KK; auto). apply od_in_get; [rewrite KK; auto|]. apply in_map_iff. eauto. }
  unfold values_ref.
  set (OUT := fun (d : odict (string * option nat)) k =>
      if shared k
      then fold_left (fun d isk => od_set d (snd isk) (k, Some (fst isk)))
             (combine (seq 0 (length (subkeys k))) (subkeys k)) d
      else d).
  assert (SKIP : forall os d, (forall o', In o' os -> shared o' = true -> ~ In k (subkeys o')) ->
     od_get (fold_left OUT os d) k = od_get d k).
  { clear. induction os as [|o' os IH]; intros d H; [reflexivity|]. cbn [fold_left].
    rewrite IH by (intros; apply H; auto; right; auto). unfold OUT. destruct (shared o') eqn:S; [|auto].
    apply inner_get. apply H; auto. left. auto. }
  destruct G as [[-> [S I]]|[S [i [l [I [H1 H2]]]]]].
  - left. do 2 (split; [auto|]). split; [apply od_in_get; auto|]. rewrite SKIP; [exact INIT|].
    intros o' Io' So' Ik. assert (o' = k). { exact (@nodup_flat_unique _ _ subkeys (od_keys values) _ _ _ C3 Io' A1 Ik A2). } subst. congruence.
  - right. split; [auto|]. split.
    { apply od_mem_false. intros IK. assert (o = k).
      { apply (@nodup_flat_unique _ _ subkeys (od_keys values) _ _ k C3 A1 IK A2).
        rewrite subkeys_unshared by (apply C2; auto). left. auto. }
      subst. rewrite C2 in S by auto. discriminate. }
    exists i, l. split; [apply od_in_get; auto|]. split; [auto|]. split; [auto|].
    apply in_split in A1. destruct A1 as [os1 [os2 E]]. rewrite E, fold_left_app. cbn [fold_left].
    assert (ND2 : ~ In o os2). { rewrite E in NDV. apply NoDup_remove_2 in NDV. rewrite in_app_iff in NDV. tauto. }
    rewrite SKIP.
    + unfold OUT at 1. rewrite S.
      match goal with |- od_get (fold_left _ _ ?d) _ = _ => refine (proj2 (inner_get o (subkeys o) 0 d k) _ i H1) end.
      apply (@nodup_flat_each _ _ subkeys (od_keys values) o C3). rewrite E. apply in_app_iff. right. left. auto.
    + intros o' Io' So' Ik. apply ND2. replace o with o'; [auto|].
      apply (@nodup_flat_unique _ _ subkeys (od_keys values) _ _ k C3); auto; rewrite E; apply in_app_iff; right; [right; auto|left; auto].
Qed.

(** *** the axes *)

Lemma axes_snoc values pre k : axes values (pre ++ [k]) =
  match owner values k with
  | Some o => if needs_axis values o && negb (mem_str o (axes values pre)) then axes values pre ++ [o] else axes values pre
  | None => axes values pre
  end.
Proof. unfold axes at 1. rewrite fold_left_app. reflexivity. Qed.

Lemma axes_nodup values keys : NoDup (axes values keys).
Proof.
  induction keys as [|k keys IH] using rev_ind; [constructor|]. rewrite axes_snoc.
  destruct (owner values k) as [o|]; [|auto].
  destruct (needs_axis values o && negb (mem_str o (axes values keys))) eqn:E; [|auto].
  apply andb_true_iff in E. destruct E as [_ E]. apply negb_true_iff in E. apply mem_str_false in E.
  apply nodup_app_iff. split; [auto|]. split; [repeat constructor; intros []|]. intros z I [<-|[]]. auto.
Qed.

Lemma axes_from values keys o : In o (axes values keys) ->
  needs_axis values o = true /\ exists k, In k keys /\ owner values k = Some o.
Proof.
  induction keys as [|k keys IH] using rev_ind; [intros []|]. rewrite axes_snoc. intros I.
  assert (K : In o (axes values keys) -> needs_axis values o = true /\ exists k0, In k0 (keys ++ [k]) /\ owner values k0 = Some o).
  { intros J. destruct (IH J) as [H1 [k0 [H2 H3]]]. split; [auto|]. exists k0. rewrite in_app_iff. auto. }
  destruct (owner values k) as [o'|] eqn:O; [|auto].
  destruct (needs_axis values o' && negb (mem_str o' (axes values keys))) eqn:E; [|auto].
  apply in_app_iff in I. destruct I as [I|[<-|[]]]; [auto|].
  apply andb_true_iff in E. split; [tauto|]. exists k. rewrite in_app_iff. cbn. auto.
Qed.

Lemma axes_all values keys k o : In k keys -> owner values k = Some o -> needs_axis values o = true -> In o (axes values keys).
Proof.
  induction keys as [|k' keys IH] using rev_ind; [intros []|]. rewrite axes_snoc. intros I O Nx.
  apply in_app_iff in I. destruct I as [I|[->|[]]].
  - specialize (IH I O Nx). destruct (owner values k') as [o'|]; [|auto].
    destruct (needs_axis values o' && _); [apply in_app_iff|]; auto.
  - rewrite O, Nx. cbn [andb]. destruct (mem_str o (axes values keys)) eqn:E; cbn [negb].
    + apply mem_str_iff. auto.
    + apply in_app_iff. right. left. auto.
Qed.

(** The loop over the variables. *)
Definition located (m : nat) (ax : list string) (dims : odict (option nat)) (o k : string) : Prop :=
  (forall i, nth_error ax i = Some o -> od_get dims k = Some (Some (m + i))) /\
  (~ In o ax -> od_get dims k = Some None).

Definition loop_inv values keys m (pre : list string) (st : dstep) : Prop :=
  let '(dims, seen, nd) := st in
  let ax := axes values pre in
  nd = m + length ax /\ od_keys dims = keys /\
  (forall k o, In k keys -> owner values k = Some o -> located m ax dims o k) /\
  (forall k o, In k keys -> owner values k = Some o -> shared o = true -> (In k seen <-> In o ax)).

Lemma nth_error_snoc {A} (l : list A) a i b : nth_error (l ++ [a]) i = Some b ->
  nth_error l i = Some b \/ (i = length l /\ b = a).
Proof.
  intros H. destruct (Nat.lt_ge_cases i (length l)) as [L|L].
  - rewrite nth_error_app1 in H by auto. auto.
  - rewrite nth_error_app2 in H by auto. destruct (i - length l) as [|j] eqn:E; cbn in H.
    + inversion H. right. split; [lia|auto].
    + destruct j; discriminate.
Qed.

Lemma loop_ok values keys m : covers values keys -> arrays_shared values ->
  exists st, fold_res (dim_step values (values_ref keys values)) keys
     (od_of_list (map (fun k => (k, None)) keys), [], m) = Ok st /\ loop_inv values keys m keys st.
Proof.
  intros C AS. pose proof C as [C1 [C2 _]].
  assert (KK : od_keys (map (fun k => (k, @None nat)) keys) = keys) by (unfold od_keys; rewrite map_map; cbn; apply map_id).
  rewrite od_of_list_nodup by (rewrite KK; auto).
  apply fold_res_ok.
  - cbn. split; [lia|]. split; [exact KK|]. split.
    + intros k o I _. split; [intros [|i] H; discriminate|]. intros _.
      apply od_in_get; [rewrite KK; auto|]. apply in_map_iff. eauto.
    + intros. tauto.
  - intros pre k post [[dims seen] nd] E INV. destruct INV as [ND [KD [LOC SEEN]]].
    assert (Ik : In k keys) by (rewrite E; apply in_app_iff; right; left; auto).
    destruct (owner_gives _ C Ik) as [o [x G]]. pose proof (gives_owner C G) as O.
    assert (KS : forall c, od_keys (od_set dims k c) = keys) by (intros; rewrite od_keys_set_old; [auto|rewrite KD; auto]).
    unfold dim_step. destruct (ref_get C G) as [[-> [S [GV RG]]]|[S [MV [i [l [GV [H1 [H2 RG]]]]]]]].
    + (* a variable of its own *)
      unfold od_getR at 1. rewrite RG. cbn [bind]. unfold od_getR at 1. rewrite GV. cbn [bind].
      assert (NI : ~ In k (axes values pre)).
      { intros I. apply axes_from in I. destruct I as [_ [k' [Ik' O']]].
        assert (In k' keys) by (rewrite E; apply in_app_iff; auto).
        destruct (owner_gives _ C H) as [o' [x' G']]. pose proof (gives_owner C G') as O''.
        assert (o' = k) by congruence. subst o'. destruct (gives_sub C G') as [_ [B _]].
        rewrite subkeys_unshared in B by auto. destruct B as [B|[]]. subst k'.
        rewrite E in C1. apply NoDup_remove_2 in C1. apply C1. apply in_app_iff. auto. }
      assert (NX : needs_axis values k = negb (dimensionless x)) by (unfold needs_axis; rewrite GV; auto).
      assert (OTHER : forall k' o', In k' keys -> owner values k' = Some o' -> o' = k -> k' = k).
      { intros k' o' I' O' ->. destruct (owner_gives _ C I') as [o'' [x' G']]. pose proof (gives_owner C G') as O''.
        assert (o'' = k) by congruence. subst o''. destruct (gives_sub C G') as [_ [B _]].
        rewrite subkeys_unshared in B by auto. destruct B as [B|[]]. auto. }
      destruct (dimensionless x) eqn:DX.
      * eexists. split; [reflexivity|]. unfold loop_inv. cbv zeta. rewrite axes_snoc, O, NX. cbn [negb andb].
        split; [auto|]. split; [auto|]. split; [auto|].
        intros k' o' I' O' S'. rewrite <- (SEEN k' o' I' O' S'). cbn [In]. split; [|auto].
        intros [<-|J]; [|auto]. assert (o' = k) by congruence. subst. congruence.
      * eexists. split; [reflexivity|]. unfold loop_inv. cbv zeta. rewrite axes_snoc, O, NX.
        apply mem_str_false in NI as NM. rewrite NM. cbn [negb andb].
        split; [rewrite app_length; cbn; lia|]. split; [auto|]. split.
        -- intros k' o' I' O'. destruct (LOC k' o' I' O') as [L1 L2]. split.
           ++ intros i H. apply nth_error_snoc in H. destruct H as [H|[-> ->]].
              ** rewrite od_get_set_ne; [auto|]. intros ->. assert (o' = k) by congruence. subst. apply NI.
                 eapply nth_error_In; eauto.
              ** rewrite (OTHER k' k I' O' eq_refl). rewrite od_get_set_eq, ND. auto.
           ++ intros J. rewrite in_app_iff in J. cbn in J. rewrite od_get_set_ne; [apply L2; tauto|].
              intros ->. apply J. right. left. congruence.
        -- intros k' o' I' O' S'. rewrite in_app_iff. rewrite <- (SEEN k' o' I' O' S'). cbn [In]. split.
           ++ intros [<-|J]; [|auto]. assert (o' = k) by congruence. subst. congruence.
           ++ intros [J|[J|[]]]; [auto|]. subst o'. congruence.
    + (* a shared key *)
      unfold od_getR at 1. rewrite RG. cbn [bind].
      assert (NX : needs_axis values o = true) by (unfold needs_axis; rewrite GV; auto).
      destruct (mem_str k seen) eqn:MS.
      * apply mem_str_iff in MS. apply (SEEN k o Ik O S) in MS.
        eexists. split; [reflexivity|]. unfold loop_inv. cbv zeta. rewrite axes_snoc, O, NX.
        apply mem_str_iff in MS. rewrite MS. cbn [negb andb]. auto.
      * assert (NI : ~ In o (axes values pre)).
        { intros I. apply (SEEN k o Ik O S) in I. apply mem_str_iff in I. congruence. }
        unfold entry_at, od_getR. rewrite GV. cbn [bind]. rewrite H2. cbn [bind].
        rewrite (AS o k x G S).
        eexists. split; [reflexivity|]. unfold loop_inv. cbv zeta. rewrite axes_snoc, O, NX.
        apply mem_str_false in NI as NM. rewrite NM. cbn [negb andb].
        assert (SUB : forall k' o', In k' keys -> owner values k' = Some o' -> (In k' (subkeys o) <-> o' = o)).
        { intros k' o' I' O'. destruct (owner_gives _ C I') as [o'' [x' G']]. pose proof (gives_owner C G') as O''.
          assert (o'' = o') by congruence. subst o''. destruct (gives_sub C G') as [A1' [B _]].
          destruct (gives_sub C G) as [A1 _]. destruct C as [_ [_ [C3 _]]]. split.
          - intros J. exact (@nodup_flat_unique _ _ subkeys (od_keys values) _ _ _ C3 A1' A1 B J).
          - intros ->. auto. }
        split; [rewrite app_length; cbn; lia|]. split.
        { assert (FK : forall sks d, (forall s, In s sks -> In s (od_keys d)) ->
             od_keys (fold_left (fun d sk => od_set d sk (Some nd)) sks d) = od_keys d).
          { clear. induction sks as [|s sks IH]; intros d H; [auto|]. cbn [fold_left].
            assert (KS : od_keys (od_set d s (Some nd)) = od_keys d) by (apply od_keys_set_old; apply H; left; auto).
            rewrite IH; [auto|]. intros s' I. rewrite KS. apply H. right. auto. }
          rewrite FK; [auto|]. intros s Is. rewrite KD. destruct C as [_ [_ [_ [C4 _]]]]. apply C4.
          apply in_flat_map. exists o. split; [|auto]. eapply od_get_some_key; eauto. }
        split.
        -- intros k' o' I' O'. destruct (LOC k' o' I' O') as [L1 L2].
           unfold located. rewrite fold_sets_get.
           destruct (mem_str k' (subkeys o)) eqn:MK.
           ++ apply mem_str_iff in MK. apply (SUB k' o' I' O') in MK. subst o'. split.
              ** intros j H. apply nth_error_snoc in H. destruct H as [H|[-> _]]; [exfalso; apply NI; eapply nth_error_In; eauto|].
                 rewrite ND. auto.
              ** intros J. exfalso. apply J. apply in_app_iff. right. left. auto.
           ++ apply mem_str_false in MK. assert (o' <> o) by (intros Q; apply MK; apply (SUB k' o' I' O'); auto). split.
              ** intros j H'. apply nth_error_snoc in H'. destruct H' as [H'|[_ Q]]; [auto|congruence].
              ** intros J. apply L2. intros Q. apply J. apply in_app_iff. auto.
        -- intros k' o' I' O' S'. rewrite !in_app_iff, (SUB k' o' I' O'), (SEEN k' o' I' O' S'). cbn. intuition.
Qed.


Lemma max_dim_spec (d : odict (option nat)) n :
  (forall k j, In (k, Some j) d -> S j <= n) -> (n = 0 \/ exists k j, In (k, Some j) d /\ S j = n) -> max_dim d = n.
Proof.
  intros UB AT. unfold max_dim.
  set (F := fun (n0 : nat) (kd : string * option nat) => match snd kd with Some d0 => Nat.max n0 (S d0) | None => n0 end).
  assert (M : forall (d : odict (option nat)) a, a <= fold_left F d a).
  { clear. induction d as [|[k [j|]] d IH]; intros a; cbn [fold_left]; [auto| |apply IH].
    specialize (IH (F a (k, Some j))). assert (a <= F a (k, Some j)) by (unfold F; cbn [snd]; lia). lia. }
  assert (LE : forall d a, a <= n -> (forall k j, In (k, Some j) d -> S j <= n) -> fold_left F d a <= n).
  { clear. induction d as [|[k [j|]] d IH]; intros a L H; cbn [fold_left]; [auto| |].
    - apply IH; [unfold F; cbn; specialize (H k j (or_introl eq_refl)); lia|]. intros k' j' I. apply (H k'). right. auto.
    - apply IH; [auto|]. intros k' j' I. apply (H k'). right. auto. }
  assert (GE : forall d a k j, In (k, Some j) d -> S j <= fold_left F d a).
  { clear -M. induction d as [|[k' dj] d IH]; intros a k j I; [destruct I|]. cbn [fold_left]. destruct I as [I|I].
    - inversion I; subst. specialize (M d (F a (k, Some j))). assert (S j <= F a (k, Some j)) by (unfold F; cbn [snd]; lia). lia.
    - apply (IH _ k). auto. }
  apply Nat.le_antisymm; [apply LE; [lia|auto]|]. destruct AT as [->|[k [j [I <-]]]]; [lia|]. apply (GE _ _ k). auto.
Qed.

Lemma prod_axis_gen m i s : i < m -> prod_list (set_nth i s (repeat 1 m)) = s.
Proof.
  revert i. induction m as [|m IH]; intros [|i] L; try lia; cbn [repeat set_nth prod_list fold_right].
  - change (s * prod_list (repeat 1 m) = s). rewrite prod_ones. lia.
  - change (1 * prod_list (set_nth i s (repeat 1 m)) = s). rewrite IH by lia. lia.
Qed.

Lemma val_of_gives values keys o k x : covers values keys -> gives values o k x ->
  val_of values (values_ref keys values) k = Ok x.
Proof.
  intros C G. unfold val_of, od_getR. destruct (ref_get C G) as [[-> [S [GV RG]]]|[S [MV [i [l [GV [H1 [H2 RG]]]]]]]].
  - assert (M : od_mem values k = true) by (apply od_mem_iff; eapply od_get_some_key; eauto).
    rewrite M, GV. reflexivity.
  - rewrite MV, RG. cbn [bind]. unfold entry_at, od_getR. rewrite GV. cbn [bind]. rewrite H2. reflexivity.
Qed.

Lemma evaluate_axes_by ev (f : field T) values m (A : string -> tensor (pyval T)) :
  map (@fv_name T) (fd_varlist f) = fd_keys f -> covers values (fd_keys f) -> arrays_shared values ->
  forallb (@entry_scalar T) (od_vals values) = false ->
  (forall i v, nth_error (fd_varlist f) i = Some v ->
     exists o x, gives values o (fv_name v) x /\ ev i v x = Ok (A (fv_name v)) /\
       (shape (A (fv_name v)) = [] <-> dimensionless x = true)) ->
  exists vals dims, f_evaluate_by ev f values m = Ok (vals, dims) /\
    od_keys vals = fd_keys f /\ od_keys dims = fd_keys f /\
    forall k, In k (fd_keys f) -> exists a d, od_get vals k = Some a /\ od_get dims k = Some d /\
      to_list a = to_list (A k) /\ placed values (fd_keys f) m A k a d.
Proof.
  intros NM C AS NS EV. unfold f_evaluate_by. rewrite NS. cbv zeta. set (keys := fd_keys f) in *.
  destruct (@loop_ok values keys m C AS) as [[[dims seen] nd] [E INV]].
  match goal with |- context [fold_res ?a ?b ?c] => replace (fold_res a b c) with (Ok (dims, seen, nd)) by (symmetry; exact E) end.
  cbn [bind]. destruct INV as [ND [KD [LOC _]]]. pose proof C as [C1 _].
  set (ax := axes values keys) in *.
  (* facts about each variable *)
  assert (VAR : forall i v, nth_error (fd_varlist f) i = Some v -> exists o x,
      gives values o (fv_name v) x /\ ev i v x = Ok (A (fv_name v)) /\
      In (fv_name v) keys /\ owner values (fv_name v) = Some o /\
      (shape (A (fv_name v)) = [] <-> needs_axis values o = false)).
  { intros i v Hv. destruct (EV i v Hv) as [o [x [G [H1 H2]]]]. exists o, x. split; [auto|]. split; [auto|].
    destruct (gives_sub C G) as [_ [_ Ik]]. split; [auto|]. split; [exact (gives_owner C G)|].
    rewrite H2. unfold needs_axis.
    destruct (ref_get C G) as [[-> [S [GV _]]]|[S [_ [j [l [GV _]]]]]]; rewrite GV.
    - rewrite negb_false_iff. tauto.
    - rewrite (AS o _ x G S). split; discriminate. }
  assert (KV : forall k, In k keys -> exists i v, nth_error (fd_varlist f) i = Some v /\ fv_name v = k).
  { intros k I. rewrite <- NM in I. apply in_map_iff in I. destruct I as [v [Q I]]. apply In_nth_error in I.
    destruct I as [i I]. eauto. }
  assert (DM : forall k, In k keys -> exists d, od_get dims k = Some d /\
      ((shape (A k) = [] /\ d = None) \/ (shape (A k) <> [] /\ exists o i, owner values k = Some o /\ nth_error ax i = Some o /\ d = Some (m + i)))).
  { intros k I. destruct (KV k I) as [i [v [Hv <-]]]. destruct (VAR i v Hv) as [o [x [G [H1 [H2 [H3 H4]]]]]].
    destruct (LOC _ _ I H3) as [L1 L2]. destruct (needs_axis values o) eqn:NX.
    - assert (IO : In o ax) by (apply (@axes_all values keys (fv_name v) o); auto).
      apply In_nth_error in IO. destruct IO as [j IO]. exists (Some (m + j)). split; [auto|]. right.
      split; [rewrite H4; discriminate|]. exists o, j. auto.
    - exists None. split.
      + apply L2. intros IO. apply axes_from in IO. destruct IO as [IO _]. congruence.
      + left. split; [apply H4; auto|auto]. }
  assert (MX : ax <> [] -> max_dim dims = m + length ax).
  { intros NE. apply max_dim_spec.
    - intros k j I. assert (Ik : In k keys) by (rewrite <- KD; unfold od_keys; apply in_map_iff; exists (k, Some j); auto).
      destruct (DM k Ik) as [d [G D]]. assert (ND' : NoDup (od_keys dims)) by (rewrite KD; auto).
      rewrite (od_in_get _ _ _ ND' I) in G. inversion G; subst.
      destruct D as [[_ D]|[_ [o [i [_ [H D]]]]]]; [discriminate|]. inversion D; subst.
      assert (i < length ax) by (apply nth_error_Some; congruence). lia.
    - right. destruct (exists_last NE) as [l' [o EL]].
      assert (IO : In o ax) by (rewrite EL; apply in_app_iff; right; left; auto).
      apply axes_from in IO as FR. destruct FR as [_ [k [Ik Ok]]]. destruct (LOC k o Ik Ok) as [L1 _].
      assert (HN : nth_error ax (length l') = Some o) by (rewrite EL, nth_error_app2, Nat.sub_diag by auto; auto).
      exists k, (m + length l'). split; [apply od_get_in; auto|]. rewrite EL, app_length. cbn. lia. }
  (* the arrays *)
  assert (PL : forall k, In k keys -> exists a d, od_get dims k = Some d /\ place (max_dim dims) d (A k) = Ok a /\
      to_list a = to_list (A k) /\
      ((shape (A k) = [] /\ a = A k /\ d = None) \/ (shape (A k) <> [] /\ shape a <> [] /\ exists o i, owner values k = Some o /\ nth_error ax i = Some o /\
         d = Some (m + i) /\ shape a = set_nth (m + i) (tsize (A k)) (repeat 1 (m + length ax))))).
  { intros k I. destruct (DM k I) as [d [G D]]. destruct D as [[S ->]|[S [o [i [O [H ->]]]]]].
    - exists (A k), None. split; [auto|]. unfold place. rewrite S. split; [auto|]. split; [auto|]. left. auto.
    - assert (LT : i < length ax) by (apply nth_error_Some; congruence).
      assert (NE : ax <> []) by (intros Q; rewrite Q in LT; cbn in LT; lia).
      destruct (@reshape_ok _ (set_nth (m + i) (tsize (A k)) (repeat 1 (m + length ax))) (A k)) as [a [R [SA TL]]].
      { apply prod_axis_gen. lia. }
      exists a, (Some (m + i)). split; [auto|]. split.
      + unfold place. destruct (shape (A k)); [congruence|]. rewrite (MX NE). exact R.
      + split; [auto|]. right. split; [auto|]. split.
        * rewrite SA. intros Q. apply (f_equal (@length nat)) in Q. rewrite set_nth_len, repeat_length in Q. cbn in Q. lia.
        * exists o, i. auto. }
  (* collect *)
  assert (MR : exists vals, map_res (fun iv : nat * fvar T =>
        let v := snd iv in
        let! x := val_of values (values_ref keys values) (fv_name v) in
        let! a := ev (fst iv) v x in
        let! d := od_getR dims (fv_name v) in
        let! a' := place (max_dim dims) d a in
        Ok (fv_name v, a'))
      (combine (seq 0 (length (fd_varlist f))) (fd_varlist f)) = Ok vals /\ od_keys vals = keys /\
      forall k a, In (k, a) vals -> exists d, od_get dims k = Some d /\ place (max_dim dims) d (A k) = Ok a).
  { assert (G : forall vs a0, (forall i v, nth_error vs i = Some v -> nth_error (fd_varlist f) (a0 + i) = Some v) ->
      exists vals, map_res (fun iv : nat * fvar T =>
        let v := snd iv in
        let! x := val_of values (values_ref keys values) (fv_name v) in
        let! a := ev (fst iv) v x in
        let! d := od_getR dims (fv_name v) in
        let! a' := place (max_dim dims) d a in
        Ok (fv_name v, a')) (combine (seq a0 (length vs)) vs) = Ok vals /\ od_keys vals = map (@fv_name T) vs /\
      forall k a, In (k, a) vals -> exists d, od_get dims k = Some d /\ place (max_dim dims) d (A k) = Ok a).
    { induction vs as [|v vs IH]; intros a0 H; [exists []; cbn; split; [auto|split; [auto|intros k a []]]|].
      pose proof (H 0 v eq_refl) as H0. rewrite Nat.add_0_r in H0.
      destruct (IH (S a0)) as [vals [M1 [M2 M3]]].
      { intros i w Hw. specialize (H (S i) w Hw). rewrite <- H. f_equal. lia. }
      destruct (VAR a0 v H0) as [o [x [G [H1 [H2 [H3 H4]]]]]].
      destruct (PL _ H2) as [a [d [D1 [D2 _]]]].
      exists ((fv_name v, a) :: vals). split; [|split].
      - cbn [length seq combine map_res fst snd]. rewrite (val_of_gives C G). cbn [bind]. rewrite H1. cbn [bind].
        unfold od_getR at 1. rewrite D1. cbn [bind]. rewrite D2. cbn [bind]. cbv zeta in M1. rewrite M1. reflexivity.
      - cbn. f_equal. exact M2.
      - intros k b [I|I]; [inversion I; subst; eauto|auto]. }
    destruct (G (fd_varlist f) 0) as [vals [M1 [M2 M3]]]; [intros i v Hv; exact Hv|]. exists vals. split; [exact M1|]. split; [congruence|exact M3]. }
  destruct MR as [vals [M1 [M2 M3]]].
  match goal with |- context [map_res ?a ?b] => replace (map_res a b) with (Ok vals) by (symmetry; exact M1) end. cbn [bind].
  set (dims' := fold_left _ vals dims).
  assert (DD : forall (vs : odict (tensor (pyval T))) d0,
     (forall k, In k (od_keys vs) -> In k (od_keys d0)) ->
     let d1 := fold_left (fun d kv => match shape (snd kv) with [] => od_set d (fst kv) None | _ => d end) vs d0 in
     od_keys d1 = od_keys d0 /\
     forall k, (od_get d1 k = od_get d0 k /\ forall a, In (k, a) vs -> shape a <> []) \/
               (od_get d1 k = Some (@None nat) /\ exists a, In (k, a) vs /\ shape a = [])).
  { clear. induction vs as [|[k0 a0] vs IH]; intros d0 H; cbn [fold_left snd fst].
    - split; [auto|]. intros k. left. split; [auto|]. intros a [].
    - cbv zeta. destruct (shape a0) as [|n sh] eqn:S.
      + assert (K0 : od_keys (od_set d0 k0 None) = od_keys d0) by (apply od_keys_set_old; apply H; left; auto).
        destruct (IH (od_set d0 k0 None)) as [I1 I2].
        { intros k I. rewrite K0. apply H. right. auto. }
        split; [congruence|]. intros k. destruct (I2 k) as [[I3 I4]|[I3 [a [I4 I5]]]].
        * destruct (String.eqb_spec k k0) as [->|NE].
          -- right. split; [rewrite I3, od_get_set_eq; auto|]. exists a0. split; [left; auto|auto].
          -- left. split; [rewrite I3, od_get_set_ne by auto; auto|]. intros a [I|I]; [congruence|eauto].
        * right. split; [auto|]. exists a. split; [right; auto|auto].
      + destruct (IH d0) as [I1 I2]; [intros k I; apply H; right; auto|]. split; [auto|].
        intros k. destruct (I2 k) as [[I3 I4]|[I3 [a [I4 I5]]]].
        * left. split; [auto|]. intros a [I|I]; [inversion I; subst; rewrite S; discriminate|eauto].
        * right. split; [auto|]. exists a. split; [right; auto|auto]. }
  destruct (DD vals dims) as [DK DG]; [intros k; rewrite M2, KD; auto|]. fold dims' in DK, DG.
  exists vals, dims'. split; [reflexivity|]. split; [auto|]. split; [congruence|].
  intros k I. destruct (PL k I) as [a [d [D1 [D2 [D3 D4]]]]].
  assert (NDV : NoDup (od_keys vals)) by (rewrite M2; auto).
  assert (GV : od_get vals k = Some a).
  { assert (IV : In k (od_keys vals)) by (rewrite M2; auto). apply od_key_get in IV. destruct IV as [b GB].
    rewrite GB. f_equal. apply od_get_in in GB. destruct (M3 k b GB) as [d' [X1 X2]]. congruence. }
  exists a. destruct D4 as [[S [-> ->]]|[S [SA [o [i [O [H [-> SH]]]]]]]].
  - exists None. split; [auto|]. split; [|split; [auto|left; auto]].
    destruct (DG k) as [[X _]|[X _]]; congruence.
  - exists (Some (m + i)). split; [auto|]. split; [|split; [auto|right; split; [auto|exists o, i; auto]]].
    destruct (DG k) as [[X _]|[_ [b [IB SB]]]]; [congruence|].
    exfalso. apply (od_in_get _ _ _ NDV) in IB. congruence.
Qed.

Lemma evaluate_axes (f : field T) values m r (A : string -> tensor (pyval T)) :
  map (@fv_name T) (fd_varlist f) = fd_keys f -> covers values (fd_keys f) -> arrays_shared values ->
  forallb (@entry_scalar T) (od_vals values) = false ->
  (forall i v, nth_error (fd_varlist f) i = Some v ->
     exists o x, gives values o (fv_name v) x /\ eval_val v x (r i) = Ok (A (fv_name v)) /\
       (shape (A (fv_name v)) = [] <-> dimensionless x = true)) ->
  exists vals dims, f_evaluate f values m r = Ok (vals, dims) /\
    od_keys vals = fd_keys f /\ od_keys dims = fd_keys f /\
    forall k, In k (fd_keys f) -> exists a d, od_get vals k = Some a /\ od_get dims k = Some d /\
      to_list a = to_list (A k) /\ placed values (fd_keys f) m A k a d.
Proof. apply (@evaluate_axes_by (fun i v x => eval_val v x (r i))). Qed.

Lemma evaluate_scalars_by ev (f : field T) values m :
  forallb (@entry_scalar T) (od_vals values) = true ->
  exists vals, f_evaluate_by ev f values m = Ok (vals, []) /\ od_keys vals = od_keys values /\
    forall k a, In (k, a) vals -> exists y, In (k, One (FNum y)) values /\ a = tscalar y.
Proof.
  intros H. unfold f_evaluate_by. rewrite H. eexists. split; [reflexivity|]. induction values as [|[k e] values IH].
  - cbn. split; [auto|]. intros k a [].
  - cbn in H. apply andb_true_iff in H. destruct H as [H1 H2]. destruct (IH H2) as [I1 I2].
    destruct e as [[y|b| |n]|l]; try discriminate. cbn. split; [f_equal; exact I1|].
    intros k0 a [I|I]; [inversion I; subst; eauto|]. destruct (I2 k0 a I) as [y' [J1 J2]]. eauto.
Qed.

Lemma evaluate_scalars (f : field T) values m r :
  forallb (@entry_scalar T) (od_vals values) = true ->
  exists vals, f_evaluate f values m r = Ok (vals, []) /\ od_keys vals = od_keys values /\
    forall k a, In (k, a) vals -> exists y, In (k, One (FNum y)) values /\ a = tscalar y.
Proof. apply evaluate_scalars_by. Qed.

End Dims.
