(** Proofs about constructing and composing dependences. *)
From Coq Require Import String Ascii ZArith Bool Arith Lia List.
From Verif Require Import Base OdLemmas Num Tensor Names VariableModel FieldModel Expr_Proofs Lik_Slice
  Field_Spec Field_Proofs DependenceModel Dependence_Spec Dependence_Proofs.
Import ListNotations.
Set Implicit Arguments.
Local Open Scope list_scope.

Section Proofs.
Context {T : Type} {N : Num T} {TR : Trunc T}.
Variable w : nat -> fvar T.
Implicit Types (v u : fvar T) (l m vs : list (fvar T)) (es : list (fvar T * fvar T)) (d : dep T) (f : field T).
Notation bel := (belongs w).

Definition field_ok f : Prop := built f /\ Forall bel (fd_varlist f).

Lemma as_field_inv stoch (a : darg T) f : built_arg w a -> as_field stoch a = Ok f ->
  field_ok f /\ fd_varlist f = arg_vars a /\ is_plain a /\ (arg_stoch a || negb stoch)%bool = true /\
  (fd_stoch f = match a with AVar _ => stoch | _ => arg_stoch a end).
Proof.
  intros B H. destruct B as [v Bv|g Bg Fg|s args d NE IH Hd]; cbn in *.
  - destruct (fv_stoch v || negb stoch)%bool; [|discriminate].
    destruct (new_field_inv stoch _ H) as [B1 [B2 _]].
    assert (V : fd_varlist f = [v]).
    { eapply (new_field_list _ H); [repeat constructor; exact Bv|repeat constructor; intros []|].
      unfold distinct_names; cbn. repeat constructor; intros []. }
    split; [split; [auto|]|auto]. rewrite V. repeat constructor. auto.
  - destruct (fd_stoch g || negb stoch)%bool; [|discriminate]. inversion H; subst. 
    split; [split; auto|auto].
  - discriminate.
Qed.

Lemma field_nodup f : field_ok f -> NoDup (fd_varlist f).
Proof. intros [B _]. apply names_nodup. apply built_names. auto. Qed.

(** A dependence of one field, and of one field on another. *)
Lemma one_field stoch f d : field_ok f -> fst (def_fields stoch [f]) = Ok d ->
  dp_nodes d = fd_varlist f /\ dp_edges d = [] /\ dp_leafs d = f /\ dp_stems d = [] /\ dp_roots d = None /\
  dp_preds d = None /\ dp_arch d = ArchSelf /\ dp_stoch d = stoch /\ fd_stoch f = stoch.
Proof.
  intros F H. cbn [def_fields fst] in H. destruct (refresh_facts _ _ _ _ _ _ H) as [A [B [C D]]].
  destruct (refresh_given _ _ _ _ _ _ H) as [E [G [J [K [L _]]]]].
  rewrite fold_add_new in A by (apply nodup_objects with (w := w); [apply F|apply field_nodup; auto]).
  auto 10.
Qed.

Lemma two_fields stoch f r d : field_ok f -> field_ok r -> fst (def_fields stoch [f; r]) = Ok d ->
  (forall v, In v (dp_nodes d) <-> In v (fd_varlist f) \/ In v (fd_varlist r)) /\
  (forall v u, arc d v u <-> In v (fd_varlist r) /\ In u (fd_varlist f)) /\
  dp_leafs d = f /\ dp_stems d = [] /\ dp_roots d = Some r /\ dp_preds d = Some r /\
  dp_arch d = ArchSelf /\ dp_stoch d = stoch /\ fd_stoch f = stoch /\ fd_stoch r = stoch /\
  NoDup (dp_nodes d) /\ Forall bel (dp_nodes d).
Proof.
  intros Ff Fr H. cbn [def_fields fst last] in H. destruct (refresh_facts _ _ _ _ _ _ H) as [A [B [C D]]].
  destruct (refresh_given _ _ _ _ _ _ H) as [E [G [J [K [L M]]]]].
  assert (FA : Forall bel (fd_varlist f ++ fd_varlist r)) by (apply Forall_app; split; [apply Ff|apply Fr]).
  destruct (nodes_spec FA) as [N1 [N2 N3]]. rewrite <- A in *.
  split. { intros v. rewrite N1, in_app_iff. tauto. }
  split.
  { intros v u. unfold arc. rewrite B. rewrite edges_spec with (w := w).
    - rewrite in_flat_map. split.
      + intros [x [I1 I2]]. apply in_map_iff in I2. destruct I2 as [y [E1 E2]]. inversion E1; subst. auto.
      + intros [I1 I2]. exists v. split; [auto|]. apply in_map_iff. eauto.
    - apply Forall_forall. intros [x y] I. apply in_flat_map in I. destruct I as [x' [I1 I2]].
      apply in_map_iff in I2. destruct I2 as [y' [E1 I2]]. inversion E1; subst.
      destruct Ff as [_ Ff], Fr as [_ Fr]. rewrite Forall_forall in Ff, Fr. split; cbn; auto. }
  do 8 (split; [auto|]). auto.
Qed.

Lemma many_fields stoch f1 f2 f3 (fs : list (field T)) :
  def_fields stoch (f1 :: f2 :: f3 :: fs) =
  (Err AssertionError, fd_varlist f1 ++ flat_map (@fd_varlist T) (removelast (f2 :: f3 :: fs))).
Proof. reflexivity. Qed.

Lemma fields_inv stoch fs d : (forall f, In f fs -> field_ok f) -> fst (def_fields stoch fs) = Ok d -> inv w d.
Proof.
  intros F H. destruct fs as [|f [|r [|x fs]]]; [discriminate| | |].
  - assert (Ff : field_ok f) by (apply F; left; auto).
    destruct (one_field _ Ff H) as [A [B [C [_ [D [_ [_ [E G]]]]]]]]. constructor.
    + rewrite A. apply Ff.
    + rewrite A. apply field_nodup; auto.
    + rewrite B. intros a b [].
    + rewrite A, C. auto.
    + rewrite C, E. split; [apply Ff|auto].
    + rewrite D. discriminate.
  - assert (Ff : field_ok f) by (apply F; left; auto). assert (Fr : field_ok r) by (apply F; right; left; auto).
    destruct (two_fields _ Ff Fr H) as [A [B [C [_ [D [_ [_ [E [G [J [K L]]]]]]]]]]]. constructor; auto.
    + intros a b I. apply B in I. rewrite !A. tauto.
    + rewrite C. intros v I. apply A. auto.
    + rewrite C, E. split; [apply Ff|auto].
    + rewrite D, E. intros r' X. inversion X; subst. split; [intros v I; apply A; auto|]. split; [apply Fr|auto].
  - rewrite many_fields in H. discriminate.
Qed.

(** *** composition *)

Definition all_nodes (ds : list (dep T)) : list (fvar T) :=
  flat_map (fun d => fd_varlist (dp_leafs d)) ds ++ flat_map (@dp_nodes T) ds.

Lemma all_nodes_spec ds : (forall d, In d ds -> inv w d) ->
  let nodes := fold_left (@add_node T) (all_nodes ds) [] in
  (forall v, In v nodes <-> exists d, In d ds /\ In v (dp_nodes d)) /\ NoDup nodes /\ Forall bel nodes.
Proof.
  intros I. cbv zeta.
  assert (FM : forall v, In v (all_nodes ds) <-> exists d, In d ds /\ In v (dp_nodes d)).
  { intros v. unfold all_nodes. rewrite in_app_iff, !in_flat_map. split.
    - intros [[d [A B]]|[d [A B]]]; exists d; (split; [auto|]); [|auto]. apply (i_leafs (I d A)). auto.
    - intros H. right. exact H. }
  assert (F : Forall bel (all_nodes ds)).
  { apply Forall_forall. intros v H. apply FM in H. destruct H as [d [A B]]. pose proof (i_nodes (I d A)) as Q.
    rewrite Forall_forall in Q. auto. }
  destruct (nodes_spec F) as [A B]. split; [|exact B]. intros v. rewrite A. apply FM.
Qed.

Lemma all_edges_spec ds : (forall d, In d ds -> inv w d) ->
  forall a b, In (a, b) (fold_left add_edge (flat_map (@dp_edges T) (rev ds)) []) <-> exists d, In d ds /\ arc d a b.
Proof.
  intros I a b. rewrite edges_spec with (w := w).
  - rewrite in_flat_map. split; intros [d [A B]]; exists d; (split; [|auto]).
    + apply in_rev. auto.
    + apply in_rev in A. auto.
  - apply Forall_forall. intros [x y] H. apply in_flat_map in H. destruct H as [d [A B]]. apply in_rev in A.
    apply (i_edges (I d A)) in B. pose proof (i_nodes (I d A)) as Q. rewrite Forall_forall in Q. split; cbn; apply Q; tauto.
Qed.

Lemma roots_ok d r : roots_list d = Ok r -> exists f, dp_roots d = Some f /\ fd_varlist f = r.
Proof. unfold roots_list. destruct (dp_roots d) as [f|]; [|discriminate]. intros H. inversion H. eauto. Qed.

Lemma run_lists ds lr : map_res (fun d => let! r := roots_list d in Ok (fd_varlist (dp_leafs d), r)) ds = Ok lr ->
  forall d, In d ds -> exists f, dp_roots d = Some f.
Proof.
  revert lr. induction ds as [|d ds IH]; intros lr H d0 I; [destruct I|]. cbn [map_res] in H.
  destruct (roots_list d) as [r|] eqn:E; cbn [bind] in H; [|discriminate].
  destruct (map_res _ ds) as [lr'|] eqn:E'; cbn [bind] in H; [|discriminate].
  destruct I as [<-|I]; [|eapply IH; eauto]. destruct (roots_ok _ E) as [f [F _]]. eauto.
Qed.

Definition run_of ds : list (list (fvar T) * list (fvar T)) :=
  map (fun d => (fd_varlist (dp_leafs d), match dp_roots d with Some f => fd_varlist f | None => [] end)) ds.

Lemma run_lists_ok ds : (forall d, In d ds -> exists f, dp_roots d = Some f) ->
  map_res (fun d => let! r := roots_list d in Ok (fd_varlist (dp_leafs d), r)) ds = Ok (run_of ds).
Proof.
  induction ds as [|d ds IH]; intros H; [reflexivity|]. cbn [map_res run_of map].
  destruct (H d) as [f F]; [left; auto|]. unfold roots_list. rewrite F. cbn [bind].
  unfold roots_list in IH. rewrite IH by (intros; apply H; right; auto). reflexivity.
Qed.

Lemma run_lists_err ds e : map_res (fun d => let! r := roots_list d in Ok (fd_varlist (dp_leafs d), r)) ds = Err e ->
  e = AttributeError.
Proof.
  induction ds as [|d ds IH]; cbn [map_res]; [discriminate|]. unfold roots_list at 1. destruct (dp_roots d); cbn [bind].
  - destruct (map_res _ ds); cbn [bind]; [discriminate|]. intros H. inversion H; subst. auto.
  - intros H; inversion H; auto.
Qed.

Definition nodes_of ds := fold_left (@add_node T) (all_nodes ds) [].
Definition edges_of ds := fold_left add_edge (flat_map (@dp_edges T) (rev ds)) [].

(** The three ways in which composing can go. *)
Lemma def_deps_eq stoch ds : (forall d, In d ds -> exists f, dp_roots d = Some f) ->
  def_deps stoch ds =
  match ds with
  | d0 :: _ :: _ =>
      if is_serial (run_of ds) then
        refresh_dep stoch (nodes_of ds) (edges_of ds) (ArchSerial (length ds)) (Some (dp_leafs d0)) (dp_roots (last ds d0))
      else if is_parallel (run_of ds) then
        let! r := new_field stoch (flat_map snd (run_of ds)) in
        refresh_dep stoch (nodes_of ds) (edges_of ds) (ArchParallel (length ds)) (Some (dp_leafs d0)) (Some r)
      else refresh_dep stoch (nodes_of ds) (edges_of ds) ArchNone None None
  | _ => refresh_dep stoch (nodes_of ds) (edges_of ds) ArchNone None None
  end.
Proof.
  intros H. unfold def_deps. cbv zeta. rewrite run_lists_ok by auto. cbn [bind]. reflexivity.
Qed.

Lemma def_deps_rooted stoch ds d : def_deps stoch ds = Ok d -> forall x, In x ds -> exists f, dp_roots x = Some f.
Proof.
  unfold def_deps. cbv zeta.
  destruct (map_res (fun d => let! r := roots_list d in Ok (fd_varlist (dp_leafs d), r)) ds) as [lr|] eqn:E; [|discriminate].
  intros _. eapply run_lists; eauto.
Qed.

Lemma last_in_gen {A} (x y : A) (l : list A) : In (last (x :: l) y) (x :: l).
Proof. revert x. induction l as [|z l IH]; intros x; [left; auto|]. right. apply IH. Qed.

Lemma deps_inv stoch ds d : (forall x, In x ds -> inv w x) -> def_deps stoch ds = Ok d ->
  inv w d /\
  (forall v, In v (dp_nodes d) <-> exists x, In x ds /\ In v (dp_nodes x)) /\
  (forall a b, arc d a b <-> exists x, In x ds /\ arc x a b) /\
  (dp_arch d = ArchNone -> distinct_names (dp_nodes d) -> classified d /\ preds_right d) /\
  dp_stoch d = stoch.
Proof.
  intros I H. pose proof (def_deps_rooted _ _ H) as RT. rewrite def_deps_eq in H by auto.
  destruct (all_nodes_spec _ I) as [A1 [A2 A3]]. pose proof (all_edges_spec _ I) as EE.
  fold (nodes_of ds) in *. fold (edges_of ds) in *.
  assert (EN : forall x y, In (x, y) (edges_of ds) -> In x (nodes_of ds) /\ In y (nodes_of ds)).
  { intros x y K. apply EE in K. destruct K as [z [K1 K2]]. apply (i_edges (I z K1)) in K2.
    split; apply A1; exists z; tauto. }
  assert (NONE : refresh_dep stoch (nodes_of ds) (edges_of ds) ArchNone None None = Ok d ->
    inv w d /\
    (forall v, In v (dp_nodes d) <-> exists x, In x ds /\ In v (dp_nodes x)) /\
    (forall a b, arc d a b <-> exists x, In x ds /\ arc x a b) /\
    (dp_arch d = ArchNone -> distinct_names (dp_nodes d) -> classified d /\ preds_right d) /\ dp_stoch d = stoch).
  { intros K. destruct (refresh_facts _ _ _ _ _ _ K) as [K1 [K2 [K3 K4]]].
    destruct (refresh_class _ _ _ K A3 A2 EN) as [[L1 [L2 L3]] [R1 CL]].
    unfold arc. rewrite K1, K2. split; [|split; [auto|split; [auto|split; [auto|auto]]]].
    constructor; rewrite ?K1, ?K2, ?K4; auto. intros r E. destruct (R1 r E) as [? [? ?]]. auto. }
  destruct ds as [|d0 [|d1 rest]]; [auto|auto|].
  set (all := d0 :: d1 :: rest) in *.
  destruct (is_serial (run_of all)); [|destruct (is_parallel (run_of all)); [|auto]]; clear NONE.
  - destruct (refresh_facts _ _ _ _ _ _ H) as [K1 [K2 [K3 K4]]].
    destruct (refresh_given _ _ _ _ _ _ H) as [G1 [G2 [G3 [G4 [G5 G6]]]]].
    assert (I0 : In d0 all) by (left; auto).
    assert (IL : In (last all d0) all) by apply last_in_gen.
    unfold arc. rewrite K1, K2, K3. split; [|split; [auto|split; [auto|split; [discriminate|auto]]]].
    constructor; rewrite ?K1, ?K2, ?K4, ?G1, ?G3; auto.
    + intros v V. apply A1. exists d0. split; [auto|]. apply (i_leafs (I _ I0)). auto.
    + split; [apply (i_leafs_ok (I _ I0))|auto].
    + intros r R. destruct (i_roots (I _ IL) R) as [Q1 [Q2 Q3]]. split; [|split; [auto|auto]].
      intros v V. apply A1. exists (last all d0). auto.
  - destruct (new_field stoch (flat_map snd (run_of all))) as [r|] eqn:ER; cbn [bind] in H; [|discriminate].
    destruct (refresh_facts _ _ _ _ _ _ H) as [K1 [K2 [K3 K4]]].
    destruct (refresh_given _ _ _ _ _ _ H) as [G1 [G2 [G3 [G4 [G5 G6]]]]].
    assert (I0 : In d0 all) by (left; auto).
    assert (FM : forall v, In v (flat_map snd (run_of all)) -> exists x, In x all /\ In v (dp_nodes x)).
    { intros v V. apply in_flat_map in V. destruct V as [p [P1 P2]]. unfold run_of in P1. apply in_map_iff in P1.
      destruct P1 as [x [P1 P3]]. subst p. cbn [snd] in P2. exists x. split; [auto|].
      destruct (dp_roots x) as [f|] eqn:E; [|destruct P2]. apply (i_roots (I _ P3) E). auto. }
    assert (FB : Forall bel (flat_map snd (run_of all))).
    { apply Forall_forall. intros v V. apply FM in V. apply A1 in V. rewrite Forall_forall in A3. auto. }
    unfold arc. rewrite K1, K2, K3. split; [|split; [auto|split; [auto|split; [discriminate|auto]]]].
    constructor; rewrite ?K1, ?K2, ?K4, ?G1, ?G3; auto.
    + intros v V. apply A1. exists d0. split; [auto|]. apply (i_leafs (I _ I0)). auto.
    + split; [apply (i_leafs_ok (I _ I0))|auto].
    + intros r' R. inversion R; subst r'. destruct (new_field_inv _ _ ER) as [Q1 [Q2 _]]. split; [|auto].
      intros v V. apply A1. apply FM. apply (new_field_sub _ ER FB). auto.
Qed.

(** *** the constructor *)

Definition args_of (ds : list (dep T)) : list (darg T) := map (@ADep T) ds.

Lemma flat_args ds : flat_map (fun a => match a with ADep d => [d] | _ => [] end) (args_of ds) = ds.
Proof. induction ds as [|d ds IH]; [auto|]. cbn. f_equal. exact IH. Qed.

(** Arguments that are all dependences of the class, or none of them. *)
Lemma make_dep_inv stoch (args : list (darg T)) d : make_dep stoch args = Ok d ->
  (exists ds, args = args_of ds /\ (forall x, In x ds -> (dp_stoch x || negb stoch)%bool = true) /\ def_deps stoch ds = Ok d) \/
  (exists fs, map_res (as_field stoch) args = Ok fs /\ fst (def_fields stoch fs) = Ok d).
Proof.
  unfold make_dep. destruct (existsb (is_dep stoch) args) eqn:E.
  - destruct (forallb (is_dep stoch) args) eqn:A; cbn [assert_ bind]; [|discriminate]. intros H. left.
    exists (flat_map (fun a => match a with ADep d => [d] | _ => [] end) args). split; [|split; [|auto]].
    + clear - A. induction args as [|a args IH]; [auto|]. cbn in A. apply andb_prop in A. destruct A as [A1 A2].
      destruct a; try discriminate. cbn. f_equal. apply IH. auto.
    + intros x I. apply in_flat_map in I. destruct I as [a [I1 I2]]. rewrite forallb_forall in A. apply A in I1.
      destruct a; try destruct I2 as [<-|[]]; try contradiction. exact I1.
  - intros H. right. destruct (map_res (as_field stoch) args) as [fs|] eqn:M; cbn [bind] in H; [|discriminate]. eauto.
Qed.

Lemma make_deps stoch ds : ds <> [] -> (forall x, In x ds -> (dp_stoch x || negb stoch)%bool = true) ->
  make_dep stoch (args_of ds) = def_deps stoch ds.
Proof.
  intros NE H. unfold make_dep.
  assert (A : forallb (is_dep stoch) (args_of ds) = true).
  { apply forallb_forall. intros a I. apply in_map_iff in I. destruct I as [x [<- I]]. cbn. auto. }
  assert (E : existsb (is_dep stoch) (args_of ds) = true).
  { destruct ds as [|d ds]; [congruence|]. cbn [args_of map forallb existsb] in *. apply andb_prop in A.
    destruct A as [-> _]. reflexivity. }
  rewrite E, A. cbn [assert_ bind]. rewrite flat_args. reflexivity.
Qed.

Lemma fields_ok stoch (args : list (darg T)) fs : (forall a, In a args -> built_arg w a) ->
  map_res (as_field stoch) args = Ok fs -> forall f, In f fs -> field_ok f.
Proof.
  intros B M f I. revert fs M I. induction args as [|a args IH]; intros fs M I; cbn [map_res] in M.
  - inversion M; subst. destruct I.
  - destruct (as_field stoch a) as [g|] eqn:E; cbn [bind] in M; [|discriminate].
    destruct (map_res _ args) as [gs|] eqn:E'; cbn [bind] in M; [|discriminate]. inversion M; subst.
    destruct I as [<-|I]; [|eapply IH; eauto; intros; apply B; right; auto].
    eapply as_field_inv; eauto. apply B. left. auto.
Qed.

Lemma arg_inv (a : darg T) : built_arg w a -> match a with ADep d => inv w d | _ => True end.
Proof.
  induction 1 as [v Bv|f Bf Ff|s args d NE B IH H]; auto.
  destruct (make_dep_inv _ _ H) as [[ds [-> [_ D]]]|[fs [M D]]].
  - eapply deps_inv; [|exact D]. intros x I. apply (IH (ADep x)). apply in_map. auto.
  - eapply fields_inv; [|exact D]. eapply fields_ok; eauto.
Qed.

End Proofs.
