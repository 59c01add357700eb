(** Proofs about the graph and the classes of a dependence. *)
From Coq Require Import String Ascii ZArith Bool Arith Lia List.
From Verif Require Import Base OdLemmas Num Tensor Names VariableModel FieldModel Expr_Proofs Lik_Slice
  Field_Spec Field_Proofs DependenceModel Dependence_Spec.
Import ListNotations.
Set Implicit Arguments.
Local Open Scope list_scope.

Section Proofs.
Context {T : Type} {N : Num T} {TR : Trunc T}.
Variable w : nat -> fvar T.
Implicit Types (v u : fvar T) (l m vs : list (fvar T)) (es : list (fvar T * fvar T)) (d : dep T) (f : field T).
Notation bel := (belongs w).

Lemma bel_eq v u : bel v -> bel u -> fv_id v = fv_id u -> v = u.
Proof. unfold belongs. intros A B E. rewrite <- A, <- B, E. reflexivity. Qed.

Lemma bel_coherent l : Forall bel l -> coherent l.
Proof. intros F v u A B. rewrite Forall_forall in F. apply bel_eq; auto. Qed.

Lemma mem_iff v l : bel v -> Forall bel l -> (mem_var v l = true <-> In v l).
Proof.
  intros B F. rewrite mem_var_iff, in_map_iff. split.
  - intros [u [E I]]. rewrite Forall_forall in F. rewrite <- (@bel_eq u v); auto.
  - intros I. eauto.
Qed.

Lemma same_iff v u : bel v -> bel u -> (same_var v u = true <-> v = u).
Proof.
  intros A B. unfold same_var. rewrite Nat.eqb_eq. split; [apply bel_eq; auto|]. intros ->. auto.
Qed.

(** *** nodes *)

Lemma fold_nodes vs l : Forall bel l -> Forall bel vs -> NoDup l ->
  let r := fold_left add_node vs l in
  (forall v, In v r <-> In v l \/ In v vs) /\ NoDup r /\ Forall bel r.
Proof.
  cbv zeta. revert l. induction vs as [|v vs IH]; intros l Fl Fv ND; cbn [fold_left].
  - split; [|auto]. intros v. cbn. tauto.
  - inversion Fv as [|a b Bv Fv']; subst. unfold add_node at 2 4 6. destruct (mem_var v l) eqn:E.
    + apply mem_iff in E; auto. destruct (IH l Fl Fv' ND) as [A [B C]]. split; [|auto].
      intros u. rewrite A. cbn. split; [tauto|]. intros [H|[<-|H]]; auto.
    + destruct (IH (l ++ [v])) as [A [B C]]; auto.
      * apply Forall_app. auto.
      * apply nodup_app_iff. split; [auto|]. split; [repeat constructor; intros []|].
        intros x I [<-|[]]. apply (@mem_iff v l) in I; auto. congruence.
      * split; [|auto]. intros u. rewrite A, in_app_iff. cbn. tauto.
Qed.

Lemma nodes_spec vs : Forall bel vs ->
  let r := fold_left add_node vs [] in
  (forall v, In v r <-> In v vs) /\ NoDup r /\ Forall bel r.
Proof.
  intros F. cbv zeta. destruct (@fold_nodes vs []) as [A B]; auto; try constructor; [|exact B].
  intros v. rewrite A. cbn. tauto.
Qed.

Lemma nodup_objects l : Forall bel l -> NoDup l -> distinct_objects l.
Proof.
  intros F ND. unfold distinct_objects. induction ND as [|v l NI ND IH]; cbn; [constructor|].
  inversion F; subst. constructor; [|auto]. intros I. apply in_map_iff in I. destruct I as [u [E I]].
  apply NI. rewrite Forall_forall in *. rewrite <- (@bel_eq u v); auto.
Qed.

(** *** edges *)

Definition ebel (e : fvar T * fvar T) : Prop := bel (fst e) /\ bel (snd e).

Lemma same_edge_iff e e' : ebel e -> ebel e' -> (same_edge e e' = true <-> e = e').
Proof.
  intros [A B] [A' B']. unfold same_edge. rewrite andb_true_iff, !same_iff by auto.
  destruct e, e'; cbn. split; [intros [-> ->]; auto|]. intros E; inversion E; auto.
Qed.

Lemma fold_edges es es0 : Forall ebel es0 -> Forall ebel es ->
  forall e, In e (fold_left add_edge es es0) <-> In e es0 \/ In e es.
Proof.
  revert es0. induction es as [|x es IH]; intros es0 F0 F e; cbn [fold_left]; [cbn; tauto|].
  inversion F as [|a b Bx F']; subst. unfold add_edge at 2. destruct (existsb (same_edge x) es0) eqn:E.
  - apply existsb_exists in E. destruct E as [y [I E]]. apply same_edge_iff in E; auto;
      [|rewrite Forall_forall in F0; auto]. subst y. rewrite IH by auto. cbn. split; [tauto|].
    intros [H|[<-|H]]; auto.
  - rewrite IH by (auto; apply Forall_app; auto). rewrite in_app_iff. cbn. tauto.
Qed.

Lemma edges_spec es : Forall ebel es -> forall e, In e (fold_left add_edge es []) <-> In e es.
Proof. intros F e. rewrite fold_edges by auto. cbn. tauto. Qed.

Lemma pred_iff es v p : Forall ebel es -> bel v -> (In p (predecessors es v) <-> In (p, v) es).
Proof.
  intros F B. unfold predecessors. rewrite in_map_iff. split.
  - intros [[a b] [E I]]. apply filter_In in I. destruct I as [I S]. cbn in *. subst a.
    rewrite Forall_forall in F. destruct (F _ I). apply same_iff in S; auto. subst; auto.
  - intros I. exists (p, v). split; [auto|]. apply filter_In. split; [auto|]. cbn.
    apply same_iff; auto.
Qed.

Lemma succ_iff es v p : Forall ebel es -> bel v -> (In p (successors es v) <-> In (v, p) es).
Proof.
  intros F B. unfold successors. rewrite in_map_iff. split.
  - intros [[a b] [E I]]. apply filter_In in I. destruct I as [I S]. cbn in *. subst b.
    rewrite Forall_forall in F. destruct (F _ I). apply same_iff in S; auto. subst; auto.
  - intros I. exists (v, p). split; [auto|]. apply filter_In. split; [auto|]. cbn.
    apply same_iff; auto.
Qed.

Lemma parents_iff es v : Forall ebel es -> bel v -> (has_parents es v = true <-> exists p, In (p, v) es).
Proof.
  intros F B. unfold has_parents. split.
  - intros H. destruct (predecessors es v) as [|p ps] eqn:E; [discriminate|]. exists p. apply pred_iff; auto.
    rewrite E. left; auto.
  - intros [p I]. apply pred_iff in I; auto. destruct (predecessors es v); [destruct I|auto].
Qed.

Lemma children_iff es v : Forall ebel es -> bel v -> (has_children es v = true <-> exists p, In (v, p) es).
Proof.
  intros F B. unfold has_children. split.
  - intros H. destruct (successors es v) as [|p ps] eqn:E; [discriminate|]. exists p. apply succ_iff; auto.
    rewrite E. left; auto.
  - intros [p I]. apply succ_iff in I; auto. destruct (successors es v); [destruct I|auto].
Qed.

(** *** fields *)

Lemma new_field_eq stoch l : l <> [] ->
  new_field stoch l = match refresh (mkFld (fold_left add_node l []) None [] [] stoch) with
    | (f, Ok _) => Ok f | (_, Err e) => Err e end.
Proof.
  intros NE. unfold new_field. destruct l as [|v [|u l]]; [congruence| |rewrite make_many_nodes by auto; reflexivity].
  unfold make_field, add_var. cbn [add_loop]. unfold add_body. cbn [nonempty fd_nvars andb].
  cbn [fd_nodes fd_nvars fd_vars fd_keys fd_stoch fold_left]. destruct (refresh _) as [f [[]|e]]; reflexivity.
Qed.

Lemma new_field_nil stoch : new_field (T := T) stoch [] = Err AssertionError.
Proof. reflexivity. Qed.

Lemma new_field_inv stoch l f : new_field stoch l = Ok f ->
  built f /\ fd_stoch f = stoch /\ l <> [] /\ fd_vars f = vars_of (fold_left add_node l []) /\
  fd_keys f = od_keys (fd_vars f) /\ fd_nodes f = fold_left add_node l [].
Proof.
  intros H. assert (NE : l <> []) by (intros ->; discriminate).
  split. { left. unfold new_field in H. eauto. }
  rewrite new_field_eq in H by auto. unfold refresh in H. cbn [fd_nodes fd_stoch fd_keys] in H.
  destruct stoch; [destruct (forallb _ _)|destruct (existsb _ _)]; inversion H; subst; cbn; auto 10.
Qed.

Lemma names_filter (p : fvar T -> bool) l : distinct_names l -> distinct_names (filter p l).
Proof.
  unfold distinct_names. induction l as [|v l IH]; cbn; [auto|]. intros ND. inversion ND; subst.
  destruct (p v); cbn; [|auto]. constructor; [|auto]. intros I. apply in_map_iff in I. destruct I as [u [E I]].
  apply filter_In in I. apply H1. rewrite <- E. apply in_map. tauto.
Qed.

Lemma vals_vars_of l : distinct_names l -> od_vals (vars_of l) = l.
Proof. intros D. rewrite vars_of_distinct by auto. unfold od_vals. rewrite map_map. apply map_id. Qed.

Lemma new_field_list stoch l f : new_field stoch l = Ok f -> Forall bel l -> NoDup l -> distinct_names l ->
  fd_varlist f = l.
Proof.
  intros H F ND D. destruct (new_field_inv _ _ H) as [_ [_ [_ [V _]]]]. unfold fd_varlist. rewrite V.
  rewrite fold_add_new by (apply nodup_objects; auto). cbn [app]. apply vals_vars_of. auto.
Qed.

Lemma new_field_sub stoch l f : new_field stoch l = Ok f -> Forall bel l ->
  (forall v, In v (fd_varlist f) -> In v l) /\ Forall bel (fd_varlist f).
Proof.
  intros H F. destruct (new_field_inv _ _ H) as [_ [_ [_ [V _]]]]. unfold fd_varlist. rewrite V.
  destruct (nodes_spec F) as [A [_ B]].
  assert (S : forall v, In v (od_vals (vars_of (fold_left add_node l []))) -> In v l).
  { intros v I. apply A. apply (proj2 (vars_of_named _)). auto. }
  split; [auto|]. apply Forall_forall. intros v I. rewrite Forall_forall in F. auto.
Qed.

Lemma new_field_ok stoch l : l <> [] -> allowed stoch l -> Forall bel l ->
  exists f, new_field stoch l = Ok f.
Proof.
  intros NE A F. rewrite new_field_eq by auto. unfold refresh. cbn [fd_nodes fd_stoch].
  assert (M : forall v, In v (od_vals (vars_of (fold_left add_node l []))) -> fv_stoch v = stoch).
  { intros v I. apply (proj2 (vars_of_named _)) in I. apply (nodes_spec F) in I. apply A in I. exact I. }
  destruct stoch.
  - assert (Q : forallb (fun v => fv_stoch v) (od_vals (vars_of (fold_left add_node l []))) = true) by (apply forallb_forall; exact M).
    rewrite Q. eauto.
  - destruct (existsb _ _) eqn:E; [|eauto]. apply existsb_exists in E. destruct E as [v [I S]].
    apply M in I. congruence.
Qed.

Lemma new_field_err stoch l e : new_field stoch l = Err e -> e = AssertionError \/ e = AttributeError.
Proof.
  destruct l as [|v l]; [intros H; inversion H; auto|]. intros H. rewrite new_field_eq in H by congruence.
  unfold refresh in H. cbn [fd_nodes fd_stoch] in H.
  destruct stoch; [destruct (forallb _ _)|destruct (existsb _ _)]; inversion H; auto.
Qed.

Lemma built_names f : built f -> distinct_names (fd_varlist f).
Proof.
  intros B. destruct (built_vars B) as [V _]. unfold fd_varlist. rewrite V.
  destruct (vars_of_named (fd_nodes f)) as [[ND NM] _]. unfold distinct_names.
  assert (E : map (@fv_name T) (od_vals (vars_of (fd_nodes f))) = od_keys (vars_of (fd_nodes f))); [|rewrite E; auto].
  unfold od_vals, od_keys. rewrite map_map. apply map_ext_in. intros [k u] I. cbn. apply NM in I. auto.
Qed.

Lemma names_nodup l : distinct_names l -> NoDup l.
Proof. intros D. eapply NoDup_map_inv. exact D. Qed.

(** *** the invariant *)

Record inv (d : dep T) : Prop := mkInv {
  i_nodes : Forall bel (dp_nodes d);
  i_nodup : NoDup (dp_nodes d);
  i_edges : forall a b, In (a, b) (dp_edges d) -> In a (dp_nodes d) /\ In b (dp_nodes d);
  i_leafs : forall v, In v (fd_varlist (dp_leafs d)) -> In v (dp_nodes d);
  i_leafs_ok : built (dp_leafs d) /\ fd_stoch (dp_leafs d) = dp_stoch d;
  i_roots : forall r, dp_roots d = Some r ->
    (forall v, In v (fd_varlist r) -> In v (dp_nodes d)) /\ built r /\ fd_stoch r = dp_stoch d }.

Lemma edges_bel l es : Forall bel l -> (forall a b, In (a, b) es -> In a l /\ In b l) -> Forall ebel es.
Proof.
  intros F H. apply Forall_forall. intros [a b] I. apply H in I. rewrite Forall_forall in F. split; apply F; tauto.
Qed.

Definition given (r : option (field T)) (l : list (fvar T)) : Prop :=
  match r with Some f => built f /\ forall v, In v (fd_varlist f) -> In v l | None => True end.

Lemma refresh_facts stoch nodes es a lf rt d : refresh_dep stoch nodes es a lf rt = Ok d ->
  dp_nodes d = nodes /\ dp_edges d = es /\ dp_arch d = a /\ dp_stoch d = stoch.
Proof.
  unfold refresh_dep. destruct lf as [l|].
  - destruct (assert_ (Bool.eqb _ _)); cbn [bind]; [|discriminate].
    destruct (assert_ (match rt with Some r => Bool.eqb (fd_stoch r) stoch | None => true end)); cbn [bind]; [|discriminate].
    destruct (kinds_ok _ _); cbn [bind]; [|discriminate]. intros H; inversion H; auto.
  - cbv zeta. destruct (new_field stoch _); cbn [bind]; [|discriminate].
    match goal with |- context [bind (match ?r with [] => _ | _ => _ end) _] => destruct r end; cbn [bind].
    + destruct (vars_of _); [|destruct (new_field stoch _)]; cbn [bind]; try discriminate;
        destruct (kinds_ok _ _); cbn [bind]; try discriminate; intros H; inversion H; auto.
    + destruct (new_field stoch (f :: l)); cbn [bind]; [|discriminate].
      destruct (vars_of _); [|destruct (new_field stoch _)]; cbn [bind]; try discriminate;
        destruct (kinds_ok _ _); cbn [bind]; try discriminate; intros H; inversion H; auto.
Qed.

Lemma refresh_given stoch nodes es a (l : field T) rt d : refresh_dep stoch nodes es a (Some l) rt = Ok d ->
  dp_leafs d = l /\ dp_stems d = [] /\ dp_roots d = rt /\ dp_preds d = rt /\ fd_stoch l = stoch /\
  (forall r, rt = Some r -> fd_stoch r = stoch).
Proof.
  unfold refresh_dep.
  destruct (assert_ (Bool.eqb _ _)) eqn:E1; cbn [bind]; [|discriminate].
  destruct (assert_ (match rt with Some r => Bool.eqb (fd_stoch r) stoch | None => true end)) eqn:E2; cbn [bind]; [|discriminate].
  cbv beta iota zeta. cbn [bind].
  destruct (kinds_ok _ _); cbn [bind]; [|discriminate]. intros H; inversion H; subst; cbn.
  apply assert_ok in E1. apply eqb_prop in E1. do 5 (split; [auto|]). intros r ->. apply assert_ok in E2.
  apply eqb_prop in E2. auto.
Qed.

Lemma refresh_given_ok stoch nodes es a (l : field T) rt : fd_stoch l = stoch -> (forall r, rt = Some r -> fd_stoch r = stoch) ->
  allowed stoch nodes -> exists d, refresh_dep stoch nodes es a (Some l) rt = Ok d.
Proof.
  intros A B C. unfold refresh_dep. rewrite A, eqb_reflx. cbn [assert_ bind].
  assert (E : match rt with Some r => Bool.eqb (fd_stoch r) stoch | None => true end = true).
  { destruct rt as [r|]; [|auto]. rewrite (B r) by auto. apply eqb_reflx. }
  rewrite E. cbn [assert_ bind].
  assert (S : kinds_ok stoch (vars_of nodes) = Ok tt).
  { assert (M : forall v, In v (od_vals (vars_of nodes)) -> fv_stoch v = stoch).
    { intros v I. apply (proj2 (vars_of_named _)) in I. apply C in I. exact I. }
    unfold kinds_ok. destruct stoch.
    { assert (Q : forallb (fun v => fv_stoch v) (od_vals (vars_of nodes)) = true) by (apply forallb_forall; exact M). rewrite Q. auto. }
   
    destruct (existsb _ _) eqn:X; [|auto]. apply existsb_exists in X. destruct X as [v [I S]]. apply M in I. congruence. }
  rewrite S. cbn [assert_ bind]. eauto.
Qed.

Lemma vars_of_nil l : vars_of l = [] -> l = [].
Proof.
  destruct l as [|v l]; [auto|]. unfold vars_of, od_of_list. cbn [map]. rewrite od_update_cons. intros H.
  exfalso. assert (I : In (fv_name v) (od_keys (od_update (od_set [] (fv_name v) v) (map (fun x => (fv_name x, x)) l)))).
  { apply od_update_keys. left. cbn. auto. }
  rewrite H in I. destruct I.
Qed.

Lemma refresh_class stoch nodes es a d : refresh_dep stoch nodes es a None None = Ok d ->
  Forall bel nodes -> NoDup nodes -> (forall x y, In (x, y) es -> In x nodes /\ In y nodes) ->
  (built (dp_leafs d) /\ fd_stoch (dp_leafs d) = stoch /\ forall v, In v (fd_varlist (dp_leafs d)) -> In v nodes) /\
  (forall r, dp_roots d = Some r -> built r /\ fd_stoch r = stoch /\ forall v, In v (fd_varlist r) -> In v nodes) /\
  (distinct_names nodes -> classified d /\ preds_right d).
Proof.
  intros H F ND EN. pose proof (edges_bel _ F EN) as EB.
  destruct (refresh_facts _ _ _ _ _ _ H) as [HN [HE _]].
  unfold refresh_dep in H. cbv zeta in H.
  set (stems := filter (fun v => (has_parents es v && has_children es v)%bool) nodes) in *.
  set (rts := filter (fun v => (negb (has_parents es v) && has_children es v)%bool) nodes) in *.
  set (lfs := filter (fun v => negb (has_children es v)) nodes) in *.
  assert (SB : forall p, Forall bel (filter p nodes)).
  { intros p. apply Forall_forall. intros v I. apply filter_In in I. rewrite Forall_forall in F. apply F. tauto. }
  assert (SN : forall p, NoDup (filter p nodes)) by (intros p; apply NoDup_filter; auto).
  destruct (new_field stoch lfs) as [lf|e] eqn:EL; cbn [bind] in H; [|discriminate].
  destruct (match rts with [] => Ok None | _ :: _ => let! r := new_field stoch rts in Ok (Some r) end) as [rt|e] eqn:ER;
    cbn [bind] in H; [|discriminate].
  set (pl := fold_left (fun ps v => if mem_var v ps then ps else ps ++ [v]) (flat_map (predecessors es) (fd_varlist lf)) []) in *.
  destruct (match vars_of stems with [] => Ok rt | _ :: _ => let! p := new_field stoch pl in Ok (Some p) end) as [pr|e] eqn:EP;
    cbn [bind] in H; [|discriminate].
  destruct (kinds_ok _ _); cbn [bind] in H; [|discriminate]. inversion H; subst d; clear H. cbn [dp_nodes dp_edges] in *.
  cbn [dp_leafs dp_roots].
  assert (RT : (rts = [] /\ rt = None) \/ (exists r, rt = Some r /\ new_field stoch rts = Ok r)).
  { destruct rts as [|q0 qs]; [inversion ER; auto|]. right. destruct (new_field stoch (q0 :: qs)) as [r|]; [|discriminate].
    inversion ER; eauto. }
  assert (LI : forall v, In v lfs <-> In v nodes /\ ~ exists p, In (v, p) es).
  { intros v. unfold lfs. rewrite filter_In, negb_true_iff, <- not_true_iff_false. split; intros [I1 I2]; (split; [auto|]);
    rewrite Forall_forall in F; [rewrite <- children_iff|rewrite children_iff]; auto. }
  assert (RI : forall v, In v rts <-> In v nodes /\ (exists p, In (v, p) es) /\ ~ exists p, In (p, v) es).
  { intros v. unfold rts. rewrite filter_In, andb_true_iff, negb_true_iff, <- not_true_iff_false.
    rewrite Forall_forall in F. split.
    - intros [I1 [I2 I3]]. split; [auto|]. rewrite <- children_iff, <- parents_iff; auto.
    - intros [I1 I2]. split; [auto|]. rewrite children_iff, parents_iff; auto. tauto. }
  assert (SI : forall v, In v stems <-> In v nodes /\ (exists p, In (v, p) es) /\ exists p, In (p, v) es).
  { intros v. unfold stems. rewrite filter_In, andb_true_iff.
    rewrite Forall_forall in F. split.
    - intros [I1 [I2 I3]]. split; [auto|]. rewrite <- children_iff, <- parents_iff; auto.
    - intros [I1 I2]. split; [auto|]. rewrite children_iff, parents_iff; auto. tauto. }
  split; [|split].
  - destruct (new_field_inv _ _ EL) as [B1 [B2 _]]. split; [auto|]. split; [auto|]. intros v I.
    apply (new_field_sub _ EL (SB _)) in I. apply LI in I. tauto.
  - intros r E. destruct RT as [[_ R]|[r' [R1 R2]]]; [congruence|]. assert (r' = r) by congruence. subst r'.
    destruct (new_field_inv _ _ R2) as [B1 [B2 _]]. split; [auto|]. split; [auto|]. intros v I.
    apply (new_field_sub _ R2 (SB _)) in I. apply RI in I. tauto.
  - intros DN.
    assert (VL : fd_varlist lf = lfs). { eapply new_field_list; eauto; try apply SB; try apply SN; apply names_filter; auto. }
    assert (VR : match rt with Some r => fd_varlist r | None => [] end = rts).
    { destruct RT as [[R1 R2]|[r' [R1 R2]]]; rewrite ?R2, ?R1; [auto|]. eapply new_field_list; eauto; try apply SB; try apply SN; apply names_filter; auto. }
    assert (VS : od_vals (vars_of stems) = stems). { apply vals_vars_of. apply names_filter; auto. }
    assert (VR' : forall v, match rt with Some r => In v (fd_varlist r) | None => False end <-> In v rts).
    { intros v. rewrite <- VR. destruct rt; cbn; tauto. }
    split.
    + intros v I. cbn [dp_nodes] in I. unfold is_leaf, is_stem, is_root, outgoing, incoming, arc.
      cbn [dp_leafs dp_stems dp_roots dp_edges]. rewrite VR', VL, VS, LI, RI, SI. tauto.
    + intros v. unfold is_pred, is_leaf, arc. cbn [dp_preds dp_leafs dp_edges]. rewrite VL.
      destruct (vars_of stems) as [|p0 ps0] eqn:EV.
      * inversion EP; subst pr. rewrite VR', RI. apply vars_of_nil in EV.
        split.
        -- intros [I [[u O] NI]]. exists u. split; [|auto]. apply LI. split; [apply (EN _ _ O)|].
           intros O'. assert (S : In u stems). { apply SI. split; [apply (EN _ _ O)|]. split; [auto|]. eauto. }
           rewrite EV in S. destruct S.
        -- intros [u [IL A]]. split; [apply (EN _ _ A)|]. split; [eauto|]. intros NI.
           assert (S : In v stems). { apply SI. split; [apply (EN _ _ A)|]. split; [eauto|auto]. }
           rewrite EV in S. destruct S.
      * destruct (new_field stoch pl) as [pf|] eqn:EPF; cbn [bind] in EP; [|discriminate]. inversion EP; subst pr.
        assert (FM : forall x, In x (flat_map (predecessors es) lfs) <-> exists u, In u lfs /\ In (x, u) es).
        { intros x. rewrite in_flat_map. split; intros [u [I A]]; exists u; (split; [auto|]);
          apply LI in I; apply pred_iff in A || apply pred_iff; auto; rewrite Forall_forall in F; apply F; tauto. }
        assert (FB : Forall bel (flat_map (predecessors es) lfs)).
        { apply Forall_forall. intros x I. apply FM in I. destruct I as [u [_ A]]. apply EN in A.
          rewrite Forall_forall in F. apply F. tauto. }
        change pl with (fold_left (@add_node T) (flat_map (predecessors es) (fd_varlist lf)) []) in EPF.
        rewrite VL in EPF. destruct (nodes_spec FB) as [PA [PB PC]].
        rewrite (new_field_list _ EPF PC PB).
        -- rewrite PA, FM. tauto.
        -- assert (INC : incl (fold_left (@add_node T) (flat_map (predecessors es) lfs) []) nodes).
           { intros x I. apply PA in I. apply FM in I. destruct I as [u [_ A]]. apply EN in A. tauto. }
           clear - INC PB DN. revert PB INC. generalize (fold_left (@add_node T) (flat_map (predecessors es) lfs) []).
           intros l ND I. unfold distinct_names in *. induction ND as [|x l NI ND IH]; cbn; [constructor|].
           constructor; [|apply IH; intros y Y; apply I; right; auto].
           intros C. apply in_map_iff in C. destruct C as [y [E Y]]. apply NI.
           assert (y = x); [|subst; auto]. 
           assert (IX : In x nodes) by (apply I; left; auto). assert (IY : In y nodes) by (apply I; right; auto).
           clear - DN E IX IY. induction nodes as [|z nodes IH]; [destruct IX|]. cbn in DN. inversion DN; subst.
           destruct IX as [->|IX], IY as [->|IY]; auto.
           ++ exfalso. apply H1. rewrite <- E. apply in_map; auto.
           ++ exfalso. apply H1. rewrite E. apply in_map; auto.
Qed.

End Proofs.
