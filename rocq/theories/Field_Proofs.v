(** Proofs about the variables of fields. *)
From Coq Require Import String Ascii ZArith Bool Arith Lia List.
From Verif Require Import Base OdLemmas Num Tensor Names VariableModel FieldModel Expr_Proofs Lik_Slice Field_Spec.
Import ListNotations.
Set Implicit Arguments.

Section Vars.
Context {T : Type} {N : Num T} {TR : Trunc T}.
Implicit Types f : field T.
Implicit Types v w : fvar T.

Lemma mem_var_iff v (l : list (fvar T)) : mem_var v l = true <-> In (fv_id v) (map (@fv_id T) l).
Proof.
  unfold mem_var, same_var. rewrite existsb_exists, in_map_iff. split.
  - intros [w [I E]]. apply Nat.eqb_eq in E. eauto.
  - intros [w [E I]]. exists w. split; [auto|]. apply Nat.eqb_eq. auto.
Qed.

Lemma mem_var_in v (l : list (fvar T)) : In v l -> mem_var v l = true.
Proof. intros H. apply mem_var_iff. apply in_map. auto. Qed.

Lemma add_node_in (l : list (fvar T)) v : mem_var v (add_node l v) = true.
Proof.
  unfold add_node. destruct (mem_var v l) eqn:E; [auto|]. apply mem_var_in. apply in_app_iff. right. left. auto.
Qed.

Lemma add_node_mono (l : list (fvar T)) v w : mem_var w l = true -> mem_var w (add_node l v) = true.
Proof.
  rewrite !mem_var_iff. unfold add_node. destruct (mem_var v l); [auto|]. rewrite map_app, in_app_iff. auto.
Qed.

(** *** the loop *)

Lemma add_loop_app f l m :
  add_loop f (l ++ m) = match add_loop f l with (f', Ok _) => add_loop f' m | r => r end.
Proof.
  revert f. induction l as [|v l IH]; intros f; cbn [add_loop app]; [destruct (add_loop f m); auto|].
  destruct (add_body f v) as [f' [[]|e]]; auto.
Qed.

Lemma add_loop_frame f l :
  let f' := fst (add_loop f l) in
  fd_nvars f' = fd_nvars f /\ fd_vars f' = fd_vars f /\ fd_keys f' = fd_keys f /\ fd_stoch f' = fd_stoch f.
Proof.
  cbv zeta. revert f. induction l as [|v l IH]; intros f; cbn [add_loop]; [auto|].
  unfold add_body. destruct v as [w|]; [|auto].
  destruct (nonempty f && mem_var w (fd_nodes f)); [auto|].
  match goal with |- context [add_loop ?g l] => specialize (IH g) end. cbn in IH. exact IH.
Qed.

Lemma add_loop_members f l f' : add_loop f l = (f', Ok tt) ->
  (forall o, In o l -> exists w, o = Some w /\ mem_var w (fd_nodes f') = true) /\
  (forall w, mem_var w (fd_nodes f) = true -> mem_var w (fd_nodes f') = true).
Proof.
  revert f. induction l as [|v l IH]; intros f; cbn [add_loop].
  - intros H. inversion H; subst. split; [intros o []|auto].
  - unfold add_body. destruct v as [w|]; [|discriminate].
    destruct (nonempty f && mem_var w (fd_nodes f)); [discriminate|]. intros H.
    apply IH in H. destruct H as [H1 H2]. cbn in H2. split.
    + intros o [<-|I]; [|auto]. exists w. split; [auto|]. apply H2. apply add_node_in.
    + intros x Hx. apply H2. apply add_node_mono. auto.
Qed.

Lemma nonempty_frame f l : nonempty (fst (add_loop f l)) = nonempty f.
Proof. unfold nonempty. destruct (add_loop_frame f l) as [-> _]. reflexivity. Qed.

(** A collection is never accepted by a field that has variables. *)
Lemma many_rejected f l : nonempty f = true ->
  exists e, snd (add_var f (AddMany l)) = Err e /\
    let f' := fst (add_var f (AddMany l)) in
    fd_keys f' = fd_keys f /\ fd_vars f' = fd_vars f /\ fd_nvars f' = fd_nvars f.
Proof.
  intros NE. unfold add_var. set (steps := match l with [] => [None] | _ => l ++ [last l None] end).
  assert (K : exists e, snd (add_loop f steps) = Err e).
  { unfold steps. destruct l as [|v l0]; [cbn; eauto|]. set (l := v :: l0).
    rewrite add_loop_app. destruct (add_loop f l) as [f1 [[]|e]] eqn:A; [|cbn; eauto].
    apply add_loop_members in A as M. destruct M as [M _].
    assert (IL : In (last l None) l).
    { unfold l. clear. revert v. induction l0 as [|x l0 IH]; intros v; [left; auto|].
      change (last (v :: x :: l0) None) with (last (x :: l0) None). right. apply IH. }
    destruct (M _ IL) as [w [-> W]]. cbn [add_loop add_body].
    pose proof (nonempty_frame f l) as NF. rewrite A in NF. cbn [fst] in NF. rewrite NF, NE, W. cbn. eauto. }
  destruct K as [e K]. pose proof (add_loop_frame f steps) as F.
  destruct (add_loop f steps) as [f1 [[]|e1]]; cbn in K; [discriminate|].
  cbn in F. destruct F as [F1 [F2 [F3 _]]]. exists e1. cbn. auto.
Qed.

(** New variables are put into the graph. *)
Lemma add_loop_new f vs : nonempty f = true ->
  distinct_objects (fd_nodes f ++ vs) ->
  add_loop f (map Some vs)
  = (mkFld (fd_nodes f ++ vs) (fd_nvars f) (fd_vars f) (fd_keys f) (fd_stoch f), Ok tt).
Proof.
  revert f. induction vs as [|v vs IH]; intros f NE D.
  - rewrite app_nil_r. destruct f; reflexivity.
  - cbn [map add_loop]. unfold add_body. rewrite NE.
    assert (M : mem_var v (fd_nodes f) = false).
    { apply not_true_iff_false. rewrite mem_var_iff. intros I. unfold distinct_objects in D.
      rewrite map_app in D. cbn in D. apply NoDup_remove_2 in D. apply D. apply in_app_iff. auto. }
    unfold add_node. rewrite M. cbn [andb].
    rewrite IH; cbn [fd_nodes fd_nvars fd_vars fd_keys fd_stoch nonempty].
    + rewrite <- app_assoc. reflexivity.
    + exact NE.
    + rewrite <- app_assoc. exact D.
Qed.

Lemma add_loop_empty f vs : nonempty f = false ->
  add_loop f (map Some vs)
  = (mkFld (fold_left add_node vs (fd_nodes f)) (fd_nvars f) (fd_vars f) (fd_keys f) (fd_stoch f), Ok tt).
Proof.
  revert f. induction vs as [|v vs IH]; intros f NE; [destruct f; reflexivity|].
  cbn [map add_loop fold_left]. unfold add_body. rewrite NE. cbn [andb]. rewrite IH by exact NE. reflexivity.
Qed.

Lemma fold_add_new (vs l : list (fvar T)) : distinct_objects (l ++ vs) -> fold_left add_node vs l = l ++ vs.
Proof.
  revert l. induction vs as [|v vs IH]; intros l D; cbn; [rewrite app_nil_r; auto|].
  assert (M : mem_var v l = false).
  { apply not_true_iff_false. rewrite mem_var_iff. intros I. unfold distinct_objects in D.
    rewrite map_app in D. cbn in D. apply NoDup_remove_2 in D. apply D. apply in_app_iff. auto. }
  unfold add_node at 2. rewrite M. rewrite IH; rewrite <- app_assoc; auto.
Qed.

Lemma fold_add_mem (vs l : list (fvar T)) v : mem_var v l = true -> mem_var v (fold_left add_node vs l) = true.
Proof. revert l. induction vs as [|w vs IH]; intros l H; cbn; [auto|]. apply IH. apply add_node_mono. auto. Qed.

Lemma fold_add_in (vs l : list (fvar T)) v : In v vs -> mem_var v (fold_left add_node vs l) = true.
Proof.
  revert l. induction vs as [|w vs IH]; intros l H; [destruct H|]. cbn [fold_left]. destruct H as [->|H]; [|apply IH; auto].
  apply fold_add_mem. apply add_node_in.
Qed.

(** *** what a field shows *)

Lemma vars_of_distinct (l : list (fvar T)) : distinct_names l -> vars_of l = map (fun v => (fv_name v, v)) l.
Proof.
  intros D. unfold vars_of. apply od_of_list_nodup. unfold od_keys. rewrite map_map. exact D.
Qed.

Lemma refresh_ok f : allowed (fd_stoch f) (fd_nodes f) -> distinct_names (fd_nodes f) ->
  exists f', refresh f = (f', Ok tt) /\ holds f' (fd_nodes f) /\ fd_nodes f' = fd_nodes f /\
    fd_nvars f' = Some (length (fd_nodes f)) /\ fd_stoch f' = fd_stoch f.
Proof.
  intros A D. unfold refresh. cbv zeta. rewrite vars_of_distinct by auto.
  assert (V : od_vals (map (fun v => (fv_name v, v)) (fd_nodes f)) = fd_nodes f).
  { unfold od_vals. rewrite map_map. cbn. apply map_id. }
  assert (K : od_keys (map (fun v => (fv_name v, v)) (fd_nodes f)) = map (@fv_name T) (fd_nodes f)).
  { unfold od_keys. rewrite map_map. reflexivity. }
  rewrite V. assert (C : fd_stoch f = true -> forallb (fun v => fv_stoch v) (fd_nodes f) = true).
  { intros E. apply forallb_forall. intros v I. rewrite (A v I). exact E. }
  assert (C' : fd_stoch f = false -> existsb (fun v => fv_stoch v) (fd_nodes f) = false).
  { intros E. apply not_true_iff_false. rewrite existsb_exists. intros [v [I E']]. rewrite (A v I) in E'. congruence. }
  destruct (fd_stoch f) eqn:SF; [rewrite C by reflexivity|rewrite C' by reflexivity]; (eexists; split; [reflexivity|]); unfold holds, fd_varlist; cbn [fd_keys fd_vars fd_nodes fd_nvars fd_stoch]; rewrite K, V; auto.
Qed.

Lemma add_one f v : nonempty f = true ->
  distinct_objects (fd_nodes f ++ [v]) -> distinct_names (fd_nodes f ++ [v]) ->
  allowed (fd_stoch f) (fd_nodes f ++ [v]) ->
  exists f', add_var f (AddOne (Some v)) = (f', Ok tt) /\ holds f' (fd_nodes f ++ [v]) /\
    fd_nodes f' = fd_nodes f ++ [v] /\ fd_nvars f' = Some (S (length (fd_nodes f))).
Proof.
  intros NE D1 D2 A. unfold add_var. change [Some v] with (map Some [v]).
  rewrite add_loop_new by auto.
  match goal with |- context [refresh ?g] => destruct (refresh_ok g) as [f' [R [H [H1 [H2 _]]]]]; auto end.
  exists f'. rewrite R. cbn in *. split; [auto|]. split; [auto|]. split; [auto|].
  rewrite H2, app_length. cbn. f_equal. lia.
Qed.

Lemma last_in (vs : list (fvar T)) : vs <> [] -> exists x, last (map Some vs) None = Some x /\ In x vs.
Proof.
  destruct vs as [|w vs0]; [congruence|]. intros _. revert w.
  induction vs0 as [|y vs0 IH]; intros w; [exists w; cbn; auto|].
  destruct (IH y) as [x [E I]]. exists x. split; [|right; auto]. cbn [map] in *. exact E.
Qed.

(** A rejected collection shows up with the next variable that is accepted. *)
Lemma rejected_shows_up f vs v : nonempty f = true -> vs <> [] ->
  distinct_objects (fd_nodes f ++ vs ++ [v]) -> distinct_names (fd_nodes f ++ vs ++ [v]) ->
  allowed (fd_stoch f) (fd_nodes f ++ vs ++ [v]) ->
  exists f1 f2, add_var f (AddMany (map Some vs)) = (f1, Err AssertionError) /\
    fd_keys f1 = fd_keys f /\ fd_varlist f1 = fd_varlist f /\
    add_var f1 (AddOne (Some v)) = (f2, Ok tt) /\ holds f2 (fd_nodes f ++ vs ++ [v]).
Proof.
  intros NE NV D1 D2 A.
  set (f1 := mkFld (fd_nodes f ++ vs) (fd_nvars f) (fd_vars f) (fd_keys f) (fd_stoch f)).
  assert (E : add_var f (AddMany (map Some vs)) = (f1, Err AssertionError)).
  { unfold add_var.
    assert (S : match map Some vs with [] => [None] | _ :: _ => map Some vs ++ [last (map Some vs) None] end
                = map Some vs ++ [last (map Some vs) None]) by (clear -NV; destruct vs; [congruence|reflexivity]).
    rewrite S. rewrite add_loop_app, add_loop_new; [|auto|].
    2:{ unfold distinct_objects in *. rewrite app_assoc, map_app in D1. apply nodup_app_iff in D1. tauto. }
    fold f1. destruct (last_in NV) as [x [-> I]].
    assert (NE1 : nonempty f1 = true) by exact NE.
    assert (MX : mem_var x (fd_nodes f1) = true) by (apply mem_var_in; apply in_app_iff; auto).
    clearbody f1. cbn [add_loop add_body]. rewrite NE1, MX. reflexivity. }
  destruct (@add_one f1 v) as [f2 [A2 [H2 _]]].
  - exact NE.
  - cbn. rewrite <- app_assoc. auto.
  - cbn. rewrite <- app_assoc. auto.
  - cbn. rewrite <- app_assoc. auto.
  - exists f1, f2. split; [exact E|]. split; [reflexivity|]. split; [reflexivity|]. split; [exact A2|].
    cbn in H2. rewrite <- app_assoc in H2. exact H2.
Qed.

Lemma fold_add_again (vs : list (fvar T)) x l : In x vs ->
  fold_left add_node (vs ++ [x]) l = fold_left add_node vs l.
Proof.
  intros I. rewrite fold_left_app. cbn. unfold add_node at 1. rewrite fold_add_in; auto.
Qed.

Lemma make_many_nodes stoch (vs : list (fvar T)) : vs <> [] ->
  make_field stoch (AddMany (map Some vs))
  = match refresh (mkFld (fold_left add_node vs []) None [] [] stoch) with
    | (f, Ok _) => Ok f | (_, Err e) => Err e end.
Proof.
  intros NV. unfold make_field, add_var. destruct (last_in NV) as [x [L I]].
  assert (S : match map Some vs with [] => [None] | _ :: _ => map Some vs ++ [last (map Some vs) None] end
              = map Some (vs ++ [x])).
  { rewrite map_app, L. destruct vs; [congruence|reflexivity]. }
  rewrite S, add_loop_empty by reflexivity. cbn [fd_nodes fd_nvars fd_vars fd_keys fd_stoch].
  rewrite fold_add_again by auto.
  destruct (refresh _) as [g [[]|e]]; reflexivity.
Qed.

Lemma construct stoch (vs : list (fvar T)) : vs <> [] -> distinct_objects vs -> distinct_names vs -> allowed stoch vs ->
  exists f, make_field stoch (AddMany (map Some vs)) = Ok f /\ holds f vs /\
    fd_nodes f = vs /\ fd_nvars f = Some (length vs).
Proof.
  intros NV D1 D2 A. rewrite make_many_nodes by auto. rewrite fold_add_new by auto. cbn [app].
  match goal with |- context [refresh ?g] => destruct (refresh_ok g) as [f' [R [H [H1 [H2 _]]]]]; auto end.
  rewrite R. exists f'. auto.
Qed.

(** *** union *)

Definition named_ok (d : odict (fvar T)) : Prop := NoDup (od_keys d) /\ forall k w, In (k, w) d -> fv_name w = k.

Lemma vars_of_named (l : list (fvar T)) : named_ok (vars_of l) /\ forall w, In w (od_vals (vars_of l)) -> In w l.
Proof.
  unfold vars_of, od_of_list.
  assert (G : forall l d, named_ok d -> named_ok (od_update d (map (fun v => (fv_name v, v)) l)) /\
    forall w, In w (od_vals (od_update d (map (fun v => (fv_name v, v)) l))) -> In w (od_vals d) \/ In w l).
  { clear. induction l as [|v l IH]; intros d H; [cbn; auto|]. cbn [map]. rewrite od_update_cons.
    assert (S : named_ok (od_set d (fv_name v) v) /\ forall w, In w (od_vals (od_set d (fv_name v) v)) -> In w (od_vals d) \/ w = v).
    { destruct H as [H1 H2]. split; [split|].
      - apply od_keys_set_nodup. auto.
      - intros k w I. clear IH. induction d as [|[k' w'] d IHd]; cbn in I.
        + destruct I as [I|[]]. inversion I. auto.
        + destruct (String.eqb (fv_name v) k') eqn:E.
          * destruct I as [I|I]; [inversion I; subst; apply String.eqb_eq in E; auto|].
            apply (H2 k w). right. auto.
          * destruct I as [I|I]; [apply (H2 k w); left; auto|].
            apply IHd; auto. { inversion H1; auto. } intros k0 w0 I0. apply H2. right. auto.
      - intros w I. clear IH H1 H2. induction d as [|[k' w'] d IHd]; cbn in I; [destruct I as [->|[]]; auto|].
        destruct (String.eqb (fv_name v) k') eqn:E; cbn in I.
        + destruct I as [<-|I]; [auto|]. left. right. auto.
        + destruct I as [<-|I]; [left; left; auto|]. destruct (IHd I) as [X|X]; [left; right; auto|auto]. }
    destruct S as [S1 S2]. destruct (IH _ S1) as [I1 I2]. split; [exact I1|].
    intros w I. destruct (I2 w I) as [X|X]; [|right; right; auto].
    destruct (S2 w X) as [Y|Y]; [auto|right; left; auto]. }
  destruct (G l []) as [G1 G2].
  - split; [constructor|intros k w []].
  - split; [exact G1|]. intros w I. destruct (G2 w I) as [[]|X]; auto.
Qed.

Lemma refresh_vars (g f : field T) : refresh g = (f, Ok tt) ->
  fd_vars f = vars_of (fd_nodes f) /\ fd_keys f = od_keys (fd_vars f) /\
  (forall w, In w (od_vals (fd_vars f)) -> fv_stoch w = fd_stoch f).
Proof.
  intros H. unfold refresh in H. destruct (fd_stoch g) eqn:S.
  - destruct (forallb (fun v => fv_stoch v) (od_vals (vars_of (fd_nodes g)))) eqn:E; [|discriminate].
    inversion H; subst; cbn. do 2 (split; [reflexivity|]). intros w I. exact (proj1 (forallb_forall _ _) E w I).
  - destruct (existsb (fun v => fv_stoch v) (od_vals (vars_of (fd_nodes g)))) eqn:E; [discriminate|].
    inversion H; subst; cbn. do 2 (split; [reflexivity|]). intros w I. apply not_true_iff_false. intros X.
    apply not_true_iff_false in E. apply E. apply existsb_exists. eauto.
Qed.

Lemma built_vars f : built f -> fd_vars f = vars_of (fd_nodes f) /\ fd_keys f = od_keys (fd_vars f) /\
  (forall w, In w (od_vals (fd_vars f)) -> fv_stoch w = fd_stoch f).
Proof.
  assert (A : forall g a f, add_var g a = (f, Ok tt) ->
     fd_vars f = vars_of (fd_nodes f) /\ fd_keys f = od_keys (fd_vars f) /\
     (forall w, In w (od_vals (fd_vars f)) -> fv_stoch w = fd_stoch f)).
  { intros g a f0 H. unfold add_var in H. destruct (add_loop g _) as [f1 [[]|e]]; [|discriminate].
    apply refresh_vars in H. exact H. }
  intros [[stoch [a H]]|[f0 [b [_ H]]]].
  - unfold make_field in H. destruct (add_var _ a) as [f1 [[]|e]] eqn:E; [|discriminate].
    inversion H; subst. apply A in E. exact E.
  - apply A in H. exact H.
Qed.

Lemma op_dict_ok o : op_built o -> named_ok (op_dict o) /\ op_vars o = od_vals (op_dict o) /\
  (forall w, In w (op_vars o) -> fv_stoch w = op_stoch o).
Proof.
  destruct o as [v|f]; cbn.
  - intros _. split; [|split; [reflexivity|]].
    + split; [cbn; constructor; [intros []|constructor]|]. intros k w [I|[]]. inversion I; auto.
    + intros w [<-|[]]. auto.
  - intros B. apply built_vars in B. destruct B as [B1 [B2 B3]]. split; [|split; [reflexivity|exact B3]].
    rewrite B1. apply vars_of_named.
Qed.

Lemma fold_add_filter (va vb : list (fvar T)) : NoDup (map (@fv_id T) vb) ->
  fold_left add_node vb va = va ++ filter (fun v => negb (mem_var v va)) vb.
Proof.
  intros D.
  assert (G : forall vb va extra, NoDup (map (@fv_id T) vb) ->
     (forall v, In v vb -> ~ In (fv_id v) (map (@fv_id T) extra)) ->
     fold_left add_node vb (va ++ extra) = (va ++ extra) ++ filter (fun v => negb (mem_var v va)) vb).
  { clear. induction vb as [|v vb IH]; intros va extra D X; cbn [fold_left filter]; [rewrite app_nil_r; auto|].
    cbn in D. inversion D; subst.
    assert (MX : mem_var v (va ++ extra) = mem_var v va).
    { destruct (mem_var v va) eqn:E.
      - apply mem_var_iff. apply mem_var_iff in E. rewrite map_app, in_app_iff. auto.
      - apply not_true_iff_false. rewrite mem_var_iff, map_app, in_app_iff. intros [I|I].
        + apply mem_var_iff in I. congruence.
        + apply (X v); auto. left; auto. }
    unfold add_node at 2. rewrite MX. destruct (mem_var v va) eqn:E; cbn [negb].
    - apply IH; auto. intros w I. apply X. right. auto.
    - rewrite <- app_assoc. rewrite IH; auto.
      + rewrite <- !app_assoc. cbn. reflexivity.
      + intros w I. rewrite map_app, in_app_iff. cbn. intros [Y|[Y|[]]].
        * apply (X w); auto. right; auto.
        * apply H1. rewrite Y. apply in_map. auto. }
  specialize (G vb va []). rewrite app_nil_r in G. apply G; auto.
Qed.

Lemma nodup_ids (d : odict (fvar T)) : named_ok d -> coherent (od_vals d) -> NoDup (map (@fv_id T) (od_vals d)).
Proof.
  intros [N1 N2] C. induction d as [|[k w] d IH]; cbn; [constructor|].
  cbn in N1. inversion N1; subst. constructor.
  - intros I. apply in_map_iff in I. destruct I as [w' [E I]].
    assert (w' = w). { apply C; [right; exact I|left; reflexivity|auto]. } subst w'.
    apply in_map_iff in I. destruct I as [[k' w'] [E' I]]. cbn in E'. subst w'.
    assert (k' = k). { rewrite <- (N2 k w) by (left; auto). rewrite <- (N2 k' w) by (right; auto). auto. }
    subst. apply H1. unfold od_keys. apply in_map_iff. exists (k, w). auto.
  - apply IH; auto.
    + intros k0 w0 I. apply N2. right. auto.
    + intros a b Ia Ib. apply C; right; auto.
Qed.

Lemma pairs_vals (d : odict (fvar T)) : named_ok d -> map (fun v => (fv_name v, v)) (od_vals d) = d.
Proof.
  intros [_ N2]. induction d as [|[k w] d IH]; cbn; [reflexivity|].
  rewrite (N2 k w) by (left; auto). f_equal. apply IH. intros k0 w0 I. apply N2. right. auto.
Qed.

Lemma od_update_keys_order {A} (d e : odict A) : NoDup (od_keys e) ->
  od_keys (od_update d e) = od_keys d ++ filter (fun k => negb (mem_str k (od_keys d))) (od_keys e).
Proof.
  revert d. induction e as [|[k v] e IH]; intros d ND; cbn [od_keys map filter].
  - cbn. rewrite app_nil_r. reflexivity.
  - cbn in ND. inversion ND as [|x y NI N']; subst. rewrite od_update_cons, IH by auto.
    fold (od_keys e). cbn [fst].
    destruct (mem_str k (od_keys d)) eqn:M; cbn [negb].
    + apply mem_str_iff in M. rewrite od_keys_set_old by auto. reflexivity.
    + apply mem_str_false in M. rewrite od_keys_set_new by auto. rewrite <- app_assoc. cbn.
      do 2 f_equal. apply filter_ext_in. intros j J. f_equal.
      destruct (mem_str j (od_keys d)) eqn:E.
      * apply mem_str_iff. apply in_app_iff. left. apply mem_str_iff. auto.
      * apply mem_str_false. rewrite in_app_iff. cbn. apply mem_str_false in E.
        intros [X|[X|[]]]; [auto|]. subst. apply NI. auto.
Qed.

(** The variables of a union, by name. *)
Lemma union_dict (a b : operand T) : op_built a -> op_built b -> coherent (op_vars a ++ op_vars b) ->
  let u := vars_of (fold_left add_node (op_vars a ++ op_vars b) []) in
  od_keys u = od_keys (op_dict a) ++
              filter (fun k => negb (mem_str k (od_keys (op_dict a)))) (od_keys (op_dict b)) /\
  forall k, od_get u k = match od_get (op_dict b) k with Some v => Some v | None => od_get (op_dict a) k end.
Proof.
  cbv zeta.
  intros Ba Bb C. destruct (op_dict_ok _ Ba) as [Na [Va Sa]]. destruct (op_dict_ok _ Bb) as [Nb [Vb Sb]].
  assert (Ca : coherent (od_vals (op_dict a))).
  { rewrite <- Va. intros v w Iv Iw. apply C; apply in_app_iff; auto. }
  assert (Cb : coherent (od_vals (op_dict b))).
  { rewrite <- Vb. intros v w Iv Iw. apply C; apply in_app_iff; auto. }
  assert (FN : fold_left add_node (op_vars a ++ op_vars b) []
             = op_vars a ++ filter (fun v => negb (mem_var v (op_vars a))) (op_vars b)).
  { rewrite fold_left_app. rewrite (fold_add_new (op_vars a) []).
    - cbn [app]. apply fold_add_filter. rewrite Vb. apply nodup_ids; auto.
    - cbn [app]. unfold distinct_objects. rewrite Va. apply nodup_ids; auto. }
  set (da := op_dict a) in *. set (db := op_dict b) in *.
  set (fb := filter (fun kw : string * fvar T => negb (mem_var (snd kw) (op_vars a))) db).
  assert (FB : map (fun v => (fv_name v, v)) (filter (fun v => negb (mem_var v (op_vars a))) (op_vars b)) = fb).
  { rewrite Vb. unfold fb. pose proof (pairs_vals Nb) as P. revert P. generalize (op_vars a). clear.
    intros l. induction db as [|[k w] d IH]; cbn; intros P; [reflexivity|].
    pose proof (f_equal (@tl _) P) as P1. cbn in P1.
    assert (P2 : fv_name w = k) by congruence. specialize (IH P1).
    destruct (negb (mem_var w l)); cbn; [rewrite P2; f_equal|]; exact IH. }
  assert (VO : vars_of (fold_left add_node (op_vars a ++ op_vars b) []) = od_update da fb).
  { rewrite FN. unfold vars_of, od_of_list. rewrite map_app. rewrite FB, Va, (pairs_vals Na).
    unfold od_update. rewrite fold_left_app. f_equal.
    change (od_of_list da = da). apply od_of_list_nodup. apply Na. }
  assert (NB : NoDup (od_keys fb)).
  { destruct Nb as [Nb1 _]. unfold fb, od_keys. clear -Nb1. induction db as [|[k w] d IH]; cbn in *; [constructor|].
    inversion Nb1; subst. destruct (negb (mem_var w (op_vars a))); cbn; [|auto]. constructor; [|auto].
    intros I. apply H1. apply in_map_iff in I. destruct I as [x [E I]]. apply filter_In in I.
    unfold od_keys. apply in_map_iff. exists x. tauto. }
  (* an entry of b that is filtered out is an entry of a *)
  assert (OUT : forall k w, In (k, w) db -> mem_var w (op_vars a) = true -> od_get da k = Some w).
  { intros k w I M. apply mem_var_iff in M. apply in_map_iff in M. destruct M as [w' [E I']].
    assert (w' = w).
    { apply C; [apply in_app_iff; auto| |auto]. apply in_app_iff. right. rewrite Vb.
      unfold od_vals. apply in_map_iff. exists (k, w). auto. }
    subst w'. rewrite Va in I'. unfold od_vals in I'. apply in_map_iff in I'. destruct I' as [[k' w'] [E' I']].
    cbn in E'. subst w'. destruct Na as [Na1 Na2]. destruct Nb as [_ Nb2].
    assert (k' = k) by (rewrite <- (Na2 k' w I'); apply (Nb2 k w I)). subst.
    apply od_in_get; auto. }
  assert (GET : forall k, od_get (od_update da fb) k = match od_get db k with Some v => Some v | None => od_get da k end).
  { intros k. rewrite od_get_update by auto. destruct (od_get db k) as [w|] eqn:G.
    - apply od_get_in in G. destruct (mem_var w (op_vars a)) eqn:M.
      + rewrite (OUT k w G M). destruct (od_get fb k) as [w'|] eqn:G'; [|auto].
        apply od_get_in in G'. unfold fb in G'. apply filter_In in G'. destruct G' as [G1 G2].
        cbn in G2. destruct Nb as [Nb1 _].
        pose proof (od_in_get _ _ _ Nb1 G1) as E1. pose proof (od_in_get _ _ _ Nb1 G) as E2. congruence.
      + assert (I : In (k, w) fb) by (unfold fb; apply filter_In; cbn; rewrite M; auto).
        rewrite (od_in_get _ _ _ NB I). reflexivity.
    - destruct (od_get fb k) as [w'|] eqn:G'; [|auto]. apply od_get_in in G'. unfold fb in G'.
      apply filter_In in G'. destruct G' as [G1 _]. destruct Nb as [Nb1 _].
      pose proof (od_in_get _ _ _ Nb1 G1) as E1. congruence. }
  assert (KEYS : od_keys (od_update da fb) = od_keys da ++ filter (fun k => negb (mem_str k (od_keys da))) (od_keys db)).
  { rewrite od_update_keys_order by auto. f_equal. unfold fb. destruct Nb as [Nb1 Nb2].
    assert (OUT' : forall k w, In (k, w) db -> mem_var w (op_vars a) = true -> mem_str k (od_keys da) = true).
    { intros k w I M. apply mem_str_iff. eapply od_get_some_key. apply (OUT k w I M). }
    clear -OUT'. induction db as [|[k w] d IH]; cbn; [reflexivity|].
    assert (IH' := IH (fun k w I => OUT' k w (or_intror I))). clear IH.
    destruct (mem_var w (op_vars a)) eqn:M; cbn [negb].
    - rewrite (OUT' k w (or_introl eq_refl) M). cbn. exact IH'.
    - cbn. destruct (mem_str k (od_keys da)); cbn; [exact IH'|]. f_equal. exact IH'. }
  rewrite VO. split; [exact KEYS|exact GET].
Qed.

(** Every variable of the union is one of the operands'. *)
Lemma union_in (a b : operand T) w : In w (od_vals (vars_of (fold_left add_node (op_vars a ++ op_vars b) []))) ->
  In w (op_vars a) \/ In w (op_vars b).
Proof.
  intros I. apply vars_of_named in I. revert I.
  assert (G : forall l m, In w (fold_left add_node l m) -> In w m \/ In w l).
  { clear. induction l as [|v l IH]; intros m I; [auto|]. cbn in I. apply IH in I. destruct I as [I|I]; [|right; right; exact I].
    unfold add_node in I. destruct (mem_var v m); [auto|]. apply in_app_iff in I. destruct I as [I|[<-|[]]]; [auto|right; left; auto]. }
  intros I. apply G in I. destruct I as [[]|I]. apply in_app_iff in I. exact I.
Qed.

Lemma and_shape (a b : operand T) : op_vars a <> [] -> op_stoch b = true \/ op_stoch a = false \/ (exists f, a = OpField f) ->
  and_op a b =
    let u := vars_of (fold_left add_node (op_vars a ++ op_vars b) []) in
    let f := mkFld (fold_left add_node (op_vars a ++ op_vars b) [])
               (Some (length (fold_left add_node (op_vars a ++ op_vars b) []))) u (od_keys u) (op_stoch a || op_stoch b) in
    if op_stoch a || op_stoch b
    then if forallb (fun v => fv_stoch v) (od_vals u) then Ok f else Err AttributeError
    else if existsb (fun v => fv_stoch v) (od_vals u) then Err AssertionError else Ok f.
Proof.
  intros NE G. cbv zeta.
  assert (NE2 : op_vars a ++ op_vars b <> []) by (destruct (op_vars a); [congruence|discriminate]).
  unfold and_op. rewrite make_many_nodes by auto.
  assert (Q : match a with OpVar v => if fv_stoch v && negb (op_stoch b) then Err TypeError else Ok tt | OpField _ => Ok tt end = Ok tt).
  { destruct a as [v|f]; [|reflexivity]. cbn in G. destruct (fv_stoch v); [|reflexivity]. destruct (op_stoch b); [reflexivity|].
    destruct G as [G|[G|[f G]]]; discriminate. }
  rewrite Q. cbn [bind]. unfold refresh. cbv zeta. cbn [fd_nodes fd_stoch fd_keys].
  destruct (op_stoch a || op_stoch b).
  - destruct (forallb _ _); reflexivity.
  - destruct (existsb _ _); reflexivity.
Qed.

Lemma union (a b : operand T) : op_built a -> op_built b -> op_vars a <> [] -> op_stoch a = op_stoch b -> coherent (op_vars a ++ op_vars b) ->
  exists f, and_op a b = Ok f /\ built f /\ fd_stoch f = op_stoch b /\
    fd_keys f = od_keys (op_dict a) ++
                filter (fun k => negb (mem_str k (od_keys (op_dict a)))) (od_keys (op_dict b)) /\
    forall k, od_get (fd_vars f) k = match od_get (op_dict b) k with
                                     | Some v => Some v | None => od_get (op_dict a) k end.
Proof.
  intros Ba Bb NE SE C. destruct (union_dict _ _ Ba Bb C) as [KEYS GET].
  destruct (op_dict_ok _ Ba) as [_ [_ Sa]]. destruct (op_dict_ok _ Bb) as [_ [_ Sb]].
  assert (ALL : forall w, In w (od_vals (vars_of (fold_left add_node (op_vars a ++ op_vars b) []))) -> fv_stoch w = op_stoch b).
  { intros w I. apply union_in in I. destruct I as [I|I]; [rewrite (Sa w I); exact SE|exact (Sb w I)]. }
  assert (E : exists f, and_op a b = Ok f /\ fd_vars f = vars_of (fold_left add_node (op_vars a ++ op_vars b) []) /\
                fd_keys f = od_keys (fd_vars f) /\ fd_stoch f = op_stoch b).
  { rewrite and_shape by (auto; rewrite SE; destruct (op_stoch b); auto). cbv zeta. rewrite SE, orb_diag.
    destruct (op_stoch b).
    - assert (F : forallb (fun v => fv_stoch v) (od_vals (vars_of (fold_left add_node (op_vars a ++ op_vars b) []))) = true)
        by (apply forallb_forall; exact ALL).
      rewrite F. eexists. split; [reflexivity|]. repeat split.
    - assert (F : existsb (fun v => fv_stoch v) (od_vals (vars_of (fold_left add_node (op_vars a ++ op_vars b) []))) = false).
      { apply not_true_iff_false. rewrite existsb_exists. intros [w [I X]]. rewrite (ALL w I) in X. discriminate. }
      rewrite F. eexists. split; [reflexivity|]. repeat split. }
  destruct E as [f [E [V [K SF]]]]. exists f. split; [exact E|]. split; [|split; [exact SF|]].
  - left. exists (op_stoch a || op_stoch b), (AddMany (map Some (op_vars a ++ op_vars b))). revert E. unfold and_op.
    destruct (match a with OpVar v => if fv_stoch v && negb (op_stoch b) then Err TypeError else Ok tt | OpField _ => Ok tt end); [auto|discriminate].
  - rewrite K, V. split; [exact KEYS|exact GET].
Qed.

(** Random on the left, plain on the right. *)
Lemma mixed_left (a b : operand T) : op_built a -> op_built b -> op_vars a <> [] -> op_vars b <> [] -> op_stoch a = true -> op_stoch b = false ->
  coherent (op_vars a ++ op_vars b) ->
  and_op a b = Err (match a with OpVar _ => TypeError | OpField _ => AttributeError end).
Proof.
  intros Ba Bb NE NEb SA SB C. destruct a as [v|f].
  - cbn in SA. unfold and_op. rewrite SA, SB. reflexivity.
  - rewrite and_shape by eauto. cbv zeta. rewrite SA. cbn [orb].
    destruct (union_dict _ _ Ba Bb C) as [KEYS GET]. destruct (op_dict_ok _ Bb) as [[Nb1 _] [Vb Sb]].
    assert (F : forallb (fun v => fv_stoch v) (od_vals (vars_of (fold_left add_node (op_vars (OpField f) ++ op_vars b) []))) = false).
    { apply not_true_iff_false. intros X. rewrite forallb_forall in X. rewrite Vb in NEb.
      destruct (op_dict b) as [|[k w] d] eqn:D; [exfalso; apply NEb; reflexivity|].
      specialize (GET k). cbn [od_get] in GET. rewrite String.eqb_refl in GET. apply od_get_in in GET.
      assert (I : In w (od_vals (vars_of (fold_left add_node (op_vars (OpField f) ++ op_vars b) [])))).
      { unfold od_vals. apply in_map_iff. exists (k, w). auto. }
      apply X in I. rewrite (Sb w) in I by (rewrite Vb; left; reflexivity). congruence. }
    rewrite F. reflexivity.
Qed.

(** Plain on the left, random on the right: only if no plain variable is left. *)
Lemma mixed_right (a b : operand T) : op_built a -> op_built b -> op_vars a <> [] -> op_stoch a = false -> op_stoch b = true ->
  coherent (op_vars a ++ op_vars b) ->
  ((exists k, In k (od_keys (op_dict a)) /\ ~ In k (od_keys (op_dict b))) -> and_op a b = Err AttributeError) /\
  ((forall k, In k (od_keys (op_dict a)) -> In k (od_keys (op_dict b))) -> exists f, and_op a b = Ok f).
Proof.
  intros Ba Bb NE SA SB C. rewrite and_shape by auto. cbv zeta. rewrite SB, orb_true_r.
  destruct (union_dict _ _ Ba Bb C) as [KEYS GET]. destruct (op_dict_ok _ Ba) as [[Na1 _] [Va Sa]].
  destruct (op_dict_ok _ Bb) as [[Nb1 _] [Vb Sb]].
  set (u := vars_of (fold_left add_node (op_vars a ++ op_vars b) [])) in *. split.
  - intros [k [I J]].
    assert (F : forallb (fun v => fv_stoch v) (od_vals u) = false).
    { apply not_true_iff_false. intros X. rewrite forallb_forall in X. specialize (GET k).
      assert (G : od_get (op_dict b) k = None).
      { destruct (od_get (op_dict b) k) eqn:G; [|reflexivity]. apply od_get_some_key in G. contradiction. }
      rewrite G in GET. unfold od_keys in I. apply in_map_iff in I. destruct I as [[k' w] [E I]]. cbn in E. subst k'.
      rewrite (od_in_get _ _ _ Na1 I) in GET. apply od_get_in in GET.
      assert (W : In w (od_vals u)) by (unfold od_vals; apply in_map_iff; exists (k, w); auto).
      apply X in W. rewrite (Sa w) in W; [congruence|]. rewrite Va. unfold od_vals. apply in_map_iff. exists (k, w). auto. }
    rewrite F. reflexivity.
  - intros SUB.
    assert (F : forallb (fun v => fv_stoch v) (od_vals u) = true).
    { apply forallb_forall. intros w W. unfold od_vals in W. apply in_map_iff in W. destruct W as [[k w'] [E W]]. cbn in E. subst w'.
      assert (NU : NoDup (od_keys u)) by (apply vars_of_named).
      pose proof (od_in_get _ _ _ NU W) as G. rewrite GET in G.
      destruct (od_get (op_dict b) k) as [x|] eqn:D.
      - inversion G; subst. apply od_get_in in D. rewrite (Sb w); [exact SB|]. rewrite Vb. unfold od_vals. apply in_map_iff. exists (k, w). auto.
      - apply od_get_some_key in G. apply SUB in G. unfold od_keys in G. apply in_map_iff in G. destruct G as [[k' y] [E G]]. cbn in E. subst k'.
        rewrite (od_in_get _ _ _ Nb1 G) in D. discriminate. }
    rewrite F. eexists. reflexivity.
Qed.

End Vars.
