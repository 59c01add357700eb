(** Proofs about the operators on dependences. *)
From Coq Require Import String Ascii ZArith Bool Arith Lia List.
From Verif Require Import Base OdLemmas Num Tensor Names VariableModel FieldModel Expr_Proofs Lik_Slice
  Field_Spec Field_Proofs DependenceModel Dependence_Spec Dependence_Proofs Dependence_More.
Import ListNotations.
Set Implicit Arguments.
Local Open Scope list_scope.

Section Proofs.
Context {T : Type} {N : Num T} {TR : Trunc T}.
Variable w : nat -> fvar T.
Implicit Types (v u : fvar T) (l m vs : list (fvar T)) (es : list (fvar T * fvar T)) (d : dep T) (f : field T)
  (a b : darg T).
Notation bel := (belongs w).

Lemma built_nonempty f : built f -> fd_varlist f <> [].
Proof.
  assert (G : forall f0 (a : addarg T) f', add_var f0 a = (f', Ok tt) -> fd_varlist f' <> []).
  { intros f0 a f' H. unfold add_var in H.
    set (steps := match a with AddOne v => [v] | AddMany [] => [None] | AddMany ((_ :: _) as l) => l ++ [last l None] end) in H.
    assert (NE : steps <> []).
    { subst steps; destruct a as [v|[|o os]]; intros Z; inversion Z. }
    clearbody steps. destruct (add_loop f0 steps) as [g [[]|e]] eqn:E; [|discriminate].
    destruct (add_loop_members _ _ E) as [M _]. destruct steps as [|o os]; [congruence|].
    destruct (M o) as [v [_ I]]; [left; auto|].
    assert (V : fd_nodes g <> []). { intros Z. rewrite Z in I. discriminate. }
    unfold refresh in H.
    destruct (fd_stoch g); [destruct (forallb _ _)|destruct (existsb _ _)]; inversion H; subst; unfold fd_varlist; cbn;
    intros Z; apply V; apply vars_of_nil; (destruct (vars_of (fd_nodes g)); [auto|discriminate]). }
  intros [[s [a H]]|[f0 [b [_ H]]]]; [|eapply G; eauto].
  unfold make_field in H. destruct (add_var (mkFld [] None [] [] s) a) as [f' [[]|e]] eqn:E; [|discriminate]. inversion H; subst.
  eapply G; eauto.
Qed.

Lemma keys_names f : built f -> fd_keys f = map (@fv_name T) (fd_varlist f).
Proof.
  intros B. destruct (built_vars B) as [V [K _]]. rewrite K. unfold fd_varlist, od_keys, od_vals. rewrite map_map.
  rewrite V. apply map_ext_in. intros [k u] I. cbn. destruct (vars_of_named (fd_nodes f)) as [[_ NM] _]. symmetry. apply NM in I. auto.
Qed.

Lemma plain_vars a : built_arg w a -> is_plain a -> Forall bel (arg_vars a) /\ arg_vars a <> [] /\
  (forall v, In v (arg_vars a) -> fv_stoch v = arg_stoch a).
Proof.
  intros B P. destruct B as [v Bv|f Bf Ff|s args d NE IH H]; cbn in *; [| |destruct P].
  - split; [repeat constructor; auto|]. split; [congruence|]. intros u [<-|[]]. auto.
  - split; [auto|]. split; [apply built_nonempty; auto|]. destruct (built_vars Bf) as [_ [_ K]]. exact K.
Qed.

Lemma as_field_ok a stoch : built_arg w a -> is_plain a -> arg_stoch a = stoch ->
  exists f, as_field stoch a = Ok f /\ fd_varlist f = arg_vars a /\ field_ok w f /\ fd_stoch f = stoch.
Proof.
  intros B P S. destruct (plain_vars B P) as [F [NE A]]. destruct a as [v|f|d]; [| |destruct P].
  - cbn [as_field arg_stoch] in *. rewrite S. 
    assert (E : (stoch || negb stoch)%bool = true) by (destruct stoch; auto). 
    destruct (@new_field_ok T w stoch [v]) as [f H]; [congruence| |auto|].
    { intros u I. rewrite <- S. apply A; auto. }
    exists f. assert (Q : as_field stoch (AVar v) = Ok f) by (cbn; rewrite S, E; exact H).
    destruct (as_field_inv stoch B Q) as [Q1 [Q2 [_ [_ Q3]]]]. rewrite E. auto.
  - cbn [as_field arg_stoch] in *. exists f.
    assert (E : (fd_stoch f || negb stoch)%bool = true) by (rewrite S; destruct stoch; auto). rewrite E.
    split; [auto|]. split; [auto|]. inversion B; subst. split; [split; auto|auto].
Qed.

Lemma or_plain a b : is_plain a -> is_plain b -> or_op a b =
  let stoch := (arg_stoch a || arg_stoch b)%bool in
  let! f := as_field stoch a in let! r := as_field stoch b in fst (def_fields stoch [f; r]).
Proof.
  intros A B. destruct a as [v|f|d], b as [u|g|e]; cbn in A, B; try contradiction; cbv zeta;
    unfold or_op, make_dep; cbn [existsb is_dep orb]; cbn [map_res];
    repeat (destruct (as_field _ _); cbn [bind]; [|reflexivity]); reflexivity.
Qed.

(** x | y of variables and fields. *)
Lemma conditional a b : built_arg w a -> built_arg w b -> is_plain a -> is_plain b -> arg_stoch a = arg_stoch b ->
  exists d, or_op a b = Ok d /\ dp_stoch d = arg_stoch a /\
    (forall v, In v (dp_nodes d) <-> In v (arg_vars a) \/ In v (arg_vars b)) /\
    (forall v u, arc d v u <-> In v (arg_vars b) /\ In u (arg_vars a)) /\
    fd_varlist (dp_leafs d) = arg_vars a /\ dp_stems d = [] /\
    (exists r, dp_roots d = Some r /\ dp_preds d = Some r /\ fd_varlist r = arg_vars b) /\
    dp_name d = (join "," (map (@fv_name T) (arg_vars a)) ++ "|" ++ join "," (map (@fv_name T) (arg_vars b)))%string /\
    (classified d <-> disjoint (arg_vars a) (arg_vars b)).
Proof.
  intros Ba Bb Pa Pb S. rewrite or_plain by auto. cbv zeta. rewrite <- S, orb_diag. set (stoch := arg_stoch a) in *.
  destruct (as_field_ok Ba Pa eq_refl) as [f [Ef [Vf [Of Sf]]]]. destruct (as_field_ok Bb Pb eq_refl) as [r [Er [Vr [Or Sr]]]].
  rewrite <- S in Er, Sr. fold stoch in Ef, Er, Sf, Sr. rewrite Ef, Er. cbn [bind].
  assert (H : exists d, fst (def_fields stoch [f; r]) = Ok d).
  { cbn [def_fields fst last]. apply refresh_given_ok; [auto|intros r' E; inversion E; subst; auto|].
    intros v I.
    assert (FA : Forall bel (fd_varlist f ++ fd_varlist r)) by (apply Forall_app; split; [apply Of|apply Or]).
    apply (proj1 (nodes_spec FA)) in I. apply in_app_iff in I. rewrite Vf, Vr in I. destruct I as [I|I].
    - apply (plain_vars Ba Pa); auto.
    - rewrite S. apply (plain_vars Bb Pb); auto. }
  destruct H as [d H]. exists d. split; [auto|].
  assert (NM : dp_name d = (fd_name f ++ "|" ++ fd_name r)%string).
  { cbn [def_fields fst last] in H. unfold refresh_dep in H.
    destruct (assert_ (Bool.eqb (fd_stoch f) stoch)); cbn [bind] in H; [|discriminate].
    destruct (assert_ (Bool.eqb (fd_stoch r) stoch)); cbn [bind] in H; [|discriminate].
    destruct (kinds_ok _ _); cbn [bind] in H; [|discriminate]. inversion H; subst. reflexivity. }
  destruct (two_fields stoch Of Or H) as [A [B [C [D [E [G [J [K [L [M [P Q]]]]]]]]]]].
  rewrite Vf, Vr in A, B. split; [auto|]. split; [auto|]. split; [auto|]. rewrite C. split; [auto|]. split; [auto|].
  split; [exists r; auto|]. split.
  { rewrite NM. unfold fd_name. rewrite (keys_names (proj1 Of)), (keys_names (proj1 Or)), Vf, Vr. reflexivity. }
  destruct (plain_vars Ba Pa) as [_ [Na _]]. destruct (plain_vars Bb Pb) as [_ [Nb _]].
  assert (OUT : forall v, outgoing d v <-> In v (arg_vars b)).
  { intros v. split; [intros [u U]; apply B in U; tauto|]. intros I. destruct (arg_vars a) as [|u us] eqn:EA; [congruence|].
    exists u. apply B. split; [auto|left; auto]. }
  assert (INC : forall v, incoming d v <-> In v (arg_vars a)).
  { intros v. split; [intros [u U]; apply B in U; tauto|]. intros I. destruct (arg_vars b) as [|u us] eqn:EB; [congruence|].
    exists u. apply B. split; [left; auto|auto]. }
  unfold classified, is_leaf, is_stem, is_root. rewrite C, D, E, Vf, Vr. split.
  - intros CL v I I'. destruct (CL v) as [Q1 _]; [apply A; auto|]. rewrite OUT in Q1. tauto.
  - intros DJ v I. apply A in I. rewrite OUT, INC. cbn [od_vals map In]. specialize (DJ v). tauto.
Qed.

Lemma conditional_mixed a b : built_arg w a -> built_arg w b -> is_plain a -> is_plain b -> arg_stoch a <> arg_stoch b ->
  or_op a b = Err TypeError.
Proof.
  intros Ba Bb Pa Pb S. rewrite or_plain by auto. cbv zeta.
  assert (O : (arg_stoch a || arg_stoch b)%bool = true).
  { destruct (arg_stoch a), (arg_stoch b); auto. }
  rewrite O. destruct (arg_stoch a) eqn:SA.
  - destruct (as_field_ok Ba Pa SA) as [f [-> _]]. cbn [bind]. assert (SB : arg_stoch b = false) by (destruct (arg_stoch b); congruence).
    destruct b as [v|g|e]; cbn in SB, Pb; [| |contradiction]; cbn [as_field]; rewrite SB; reflexivity.
  - destruct a as [v|g|e]; cbn in SA, Pa; [| |contradiction]; cbn [as_field]; rewrite SA; reflexivity.
Qed.

Lemma dep_of a b d : built_arg w a -> built_arg w b -> or_op a b = Ok d -> built_arg w (ADep d).
Proof.
  intros A B H.
  assert (K : make_dep (arg_stoch a || arg_stoch b) [a; b] = Ok d).
  { destruct a as [v|f|d1], b as [u|g|d2]; cbn [or_op] in H; auto.
    destruct (dp_roots d1), (dp_roots d2); auto. discriminate. }
  eapply built_dep; [|intros c I|exact K]; [congruence|]. destruct I as [<-|[<-|[]]]; auto.
Qed.

Lemma same_set_iff l m : Forall bel l -> Forall bel m -> (same_set l m = true <-> (forall v, In v l <-> In v m)).
Proof.
  intros A B. unfold same_set. rewrite andb_true_iff, !forallb_forall. rewrite Forall_forall in A, B. split.
  - intros [H1 H2] v. split; intros I.
    + apply (mem_iff (w := w)); [auto|apply Forall_forall; auto|auto].
    + apply (mem_iff (w := w)); [auto|apply Forall_forall; auto|auto].
  - intros H. split; intros v I; apply (mem_iff (w := w)); auto; try (apply Forall_forall; auto); apply H; auto.
Qed.

Lemma same_list_refl l : same_list l l = true.
Proof. induction l as [|v l IH]; cbn; [auto|]. unfold same_var. rewrite Nat.eqb_refl. auto. Qed.

(** (y | z) & (x | y) *)
Lemma serial a b c : built_arg w a -> built_arg w b -> built_arg w c -> is_plain a -> is_plain b -> is_plain c ->
  arg_stoch a = arg_stoch b -> arg_stoch b = arg_stoch c ->
  exists d1 d2 d, or_op a b = Ok d1 /\ or_op b c = Ok d2 /\ and_dep (ADep d2) (ADep d1) = Ok d /\
    dp_arch d = ArchSerial 2 /\
    (forall v u, arc d v u <-> (In v (arg_vars b) /\ In u (arg_vars a)) \/ (In v (arg_vars c) /\ In u (arg_vars b))) /\
    (forall v, In v (dp_nodes d) <-> In v (arg_vars a) \/ In v (arg_vars b) \/ In v (arg_vars c)) /\
    (forall v, is_leaf d v <-> In v (arg_vars a)) /\ (forall v, ~ is_stem d v) /\
    (forall v, is_root d v <-> In v (arg_vars c)) /\ (forall v, is_pred d v <-> In v (arg_vars c)).
Proof.
  intros Ba Bb Bc Pa Pb Pc S1 S2.
  destruct (conditional Ba Bb Pa Pb S1) as [d1 [H1 [A0 [A1 [A2 [A3 [A4 [[r1 [A5 [_ A6]]] _]]]]]]]].
  destruct (conditional Bb Bc Pb Pc S2) as [d2 [H2 [B0 [B1 [B2 [B3 [B4 [[r2 [B5 [_ B6]]] _]]]]]]]].
  pose proof (arg_inv (dep_of Ba Bb H1)) as I1. pose proof (arg_inv (dep_of Bb Bc H2)) as I2. cbn in I1, I2.
  exists d1, d2. cbn [and_dep arg_stoch].
  rewrite A0, B0, <- S1, orb_diag. change [ADep d1; ADep d2] with (args_of [d1; d2]).
  assert (MK : make_dep (arg_stoch a) (args_of [d1; d2]) = def_deps (arg_stoch a) [d1; d2]).
  { apply make_deps; [congruence|]. intros x [<-|[<-|[]]]; rewrite ?A0, ?B0, <- ?S1; destruct (arg_stoch a); auto. }
  rewrite MK.
  assert (RT : forall x, In x [d1; d2] -> exists f, dp_roots x = Some f) by (intros x [<-|[<-|[]]]; eauto).
  assert (IV : forall x, In x [d1; d2] -> inv w x) by (intros x [<-|[<-|[]]]; auto).
  pose proof (def_deps_eq (arg_stoch a) _ RT) as EQ.
  assert (SER : is_serial (run_of [d1; d2]) = true).
  { cbn [run_of map is_serial]. rewrite A5, A6, B3. rewrite andb_true_r. apply same_set_iff; [apply (plain_vars Bb Pb)|apply (plain_vars Bb Pb)|tauto]. }
  rewrite SER in EQ. cbn [last length] in EQ.
  assert (OK : exists d, def_deps (arg_stoch a) [d1; d2] = Ok d).
  { rewrite EQ. apply refresh_given_ok.
    - rewrite (proj2 (i_leafs_ok I1)). auto.
    - intros r E. destruct (i_roots I2 E) as [_ [_ Q]]. rewrite Q. rewrite B0. auto.
    - intros v V. apply (all_nodes_spec _ IV) in V.
      destruct V as [x [[<-|[<-|[]]] V]].
      + apply A1 in V. destruct V as [V|V].
        * apply (plain_vars Ba Pa); auto.
        * rewrite S1. apply (plain_vars Bb Pb); auto.
      + apply B1 in V. destruct V as [V|V].
        * rewrite S1. apply (plain_vars Bb Pb); auto.
        * rewrite S1, S2. apply (plain_vars Bc Pc); auto. }
  destruct OK as [d OK]. exists d. do 3 (split; [auto|]).
  destruct (deps_inv (arg_stoch a) _ IV OK) as [_ [N1 [N2 _]]].
  rewrite EQ in OK. destruct (refresh_facts _ _ _ _ _ _ OK) as [_ [_ [K3 _]]].
  destruct (refresh_given _ _ _ _ _ _ OK) as [G1 [G2 [G3 [G4 _]]]].
  split; [auto|]. split.
  { intros v u. rewrite N2. split.
    - intros [x [[<-|[<-|[]]] I]]; [left; apply A2|right; apply B2]; auto.
    - intros [I|I]; [exists d1|exists d2]; (split; [cbn; auto|]); [apply A2|apply B2]; auto. }
  split.
  { intros v. rewrite N1. split.
    - intros [x [[<-|[<-|[]]] I]]; [apply A1 in I|apply B1 in I]; tauto.
    - intros I. destruct I as [I|[I|I]]; [exists d1|exists d1|exists d2]; (split; [cbn; auto|]); [apply A1|apply A1|apply B1]; auto. }
  unfold is_leaf, is_stem, is_root, is_pred. rewrite G1, G2, G3, G4, A3, B5, B6. cbn. repeat split; auto; tauto.
Qed.

Lemma serial_wrong a b c d1 d2 d : built_arg w a -> built_arg w b -> built_arg w c -> is_plain a -> is_plain b -> is_plain c ->
  or_op a b = Ok d1 -> or_op b c = Ok d2 -> and_dep (ADep d2) (ADep d1) = Ok d ->
  disjoint (arg_vars b) (arg_vars a) -> disjoint (arg_vars b) (arg_vars c) ->
  (forall v, In v (arg_vars b) -> In v (dp_nodes d) /\ outgoing d v /\ incoming d v /\
     ~ is_leaf d v /\ ~ is_stem d v /\ ~ is_root d v) /\
  (disjoint (arg_vars a) (arg_vars c) -> forall v u, is_leaf d u -> arc d v u -> ~ is_pred d v) /\
  ~ classified d.
Proof.
  intros Ba Bb Bc Pa Pb Pc H1 H2 H D1 D2.
  assert (S1 : arg_stoch a = arg_stoch b).
  { destruct (Bool.bool_dec (arg_stoch a) (arg_stoch b)) as [E|E]; [auto|]. rewrite (conditional_mixed Ba Bb Pa Pb E) in H1. discriminate. }
  assert (S2 : arg_stoch b = arg_stoch c).
  { destruct (Bool.bool_dec (arg_stoch b) (arg_stoch c)) as [E|E]; [auto|]. rewrite (conditional_mixed Bb Bc Pb Pc E) in H2. discriminate. }
  destruct (serial Ba Bb Bc Pa Pb Pc S1 S2) as [e1 [e2 [e [E1 [E2 [E3 [_ [AR [ND [LF [ST [RT PR]]]]]]]]]]]].
  assert (e1 = d1) by congruence. assert (e2 = d2) by congruence. subst e1 e2. assert (e = d) by congruence. subst e.
  destruct (plain_vars Ba Pa) as [_ [Na _]]. destruct (plain_vars Bb Pb) as [_ [Nb _]]. destruct (plain_vars Bc Pc) as [_ [Nc _]].
  assert (M : forall v, In v (arg_vars b) -> In v (dp_nodes d) /\ outgoing d v /\ incoming d v /\
     ~ is_leaf d v /\ ~ is_stem d v /\ ~ is_root d v).
  { intros v I. split; [apply ND; auto|]. split.
    { destruct (arg_vars a) as [|u us] eqn:E; [congruence|]. exists u. apply AR. left. split; [auto|left; auto]. }
    split. { destruct (arg_vars c) as [|u us] eqn:E; [congruence|]. exists u. apply AR. right. split; [left; auto|auto]. }
    rewrite LF, RT. split; [apply D1; auto|]. split; [apply ST|apply D2; auto]. }
  split; [auto|]. split.
  - intros D3 v u L A P. apply LF in L. apply PR in P. apply AR in A. destruct A as [[A _]|[_ A]].
    + apply (D2 v); auto.
    + apply (D1 u); auto.
  - intros CL. destruct (arg_vars b) as [|v vs] eqn:E; [congruence|]. destruct (M v) as [Q1 [Q2 [Q3 [_ [Q5 _]]]]]; [left; auto|].
    destruct (CL v Q1) as [_ [C _]]. tauto.
Qed.

(** Any composition in series. *)
Lemma serial_classes stoch ds d : (forall x, In x ds -> built_arg w (ADep x)) -> make_dep stoch (args_of ds) = Ok d ->
  dp_arch d = ArchSerial (length ds) -> exists d0, hd_error ds = Some d0 /\ dp_leafs d = dp_leafs d0 /\
    dp_roots d = dp_roots (last ds d0) /\ dp_stems d = [] /\ dp_preds d = dp_roots d.
Proof.
  intros B H A. destruct (make_dep_inv _ _ H) as [[ds' [E [_ D]]]|[fs [M D]]].
  - assert (ds' = ds). { rewrite <- (flat_args ds), <- (flat_args ds'), E. reflexivity. } subst ds'.
    rewrite def_deps_eq in D by (eapply def_deps_rooted; eauto).
    destruct ds as [|d0 [|d1 rest]].
    + destruct (refresh_facts _ _ _ _ _ _ D) as [_ [_ [K _]]]. congruence.
    + destruct (refresh_facts _ _ _ _ _ _ D) as [_ [_ [K _]]]. congruence.
    + destruct (is_serial _).
      * destruct (refresh_given _ _ _ _ _ _ D) as [G1 [G2 [G3 [G4 _]]]]. exists d0. rewrite G1, G2, G3, G4. auto.
      * destruct (is_parallel _).
        -- destruct (new_field _ _); cbn [bind] in D; [|discriminate]. destruct (refresh_facts _ _ _ _ _ _ D) as [_ [_ [K _]]]. congruence.
        -- destruct (refresh_facts _ _ _ _ _ _ D) as [_ [_ [K _]]]. congruence.
  - destruct ds as [|d0 ds]; [cbn in M; inversion M; subst; discriminate|]. cbn in M. discriminate.
Qed.

(** Composition in general. *)
Lemma composed stoch ds d : (forall x, In x ds -> built_arg w (ADep x)) -> make_dep stoch (args_of ds) = Ok d ->
  (forall v, In v (dp_nodes d) <-> exists x, In x ds /\ In v (dp_nodes x)) /\
  (forall v u, arc d v u <-> exists x, In x ds /\ arc x v u) /\
  (dp_arch d = ArchNone -> distinct_names (dp_nodes d) -> classified d /\ preds_right d).
Proof.
  intros B H. destruct (make_dep_inv _ _ H) as [[ds' [E [_ D]]]|[fs [M D]]].
  - assert (ds' = ds). { rewrite <- (flat_args ds), <- (flat_args ds'), E. reflexivity. } subst ds'.
    assert (IV : forall x, In x ds -> inv w x) by (intros x I; apply (arg_inv (B x I))).
    destruct (deps_inv stoch _ IV D) as [_ [? [? [? _]]]]. auto.
  - destruct ds as [|d0 ds]; [cbn in M; inversion M; subst; discriminate|]. cbn in M. discriminate.
Qed.

Lemma composed_union stoch ds d : (forall x, In x ds -> built_arg w (ADep x)) -> make_dep stoch (args_of ds) = Ok d ->
  (forall v, In v (dp_nodes d) <-> exists x, In x ds /\ In v (dp_nodes x)) /\
  (forall v u, arc d v u <-> exists x, In x ds /\ arc x v u).
Proof. intros B H. destruct (composed _ _ B H) as [A [C _]]. auto. Qed.

Lemma composed_class stoch ds d : (forall x, In x ds -> built_arg w (ADep x)) -> make_dep stoch (args_of ds) = Ok d ->
  dp_arch d = ArchNone -> distinct_names (dp_nodes d) -> classified d /\ preds_right d.
Proof. intros B H. destruct (composed _ _ B H) as [_ [_ A]]. auto. Qed.

(** Composition in parallel. *)
Lemma parallel a (bs : list (darg T)) ds : built_arg w a -> (forall b, In b bs -> built_arg w b) -> is_plain a ->
  (forall b, In b bs -> is_plain b) -> Forall2 (fun b d => or_op a b = Ok d) bs ds -> 2 <= length bs ->
  (forall b, In b bs -> disjoint (arg_vars a) (arg_vars b)) ->
  (forall v u, In v (arg_vars a ++ flat_map (@arg_vars T) bs) -> In u (arg_vars a ++ flat_map (@arg_vars T) bs) ->
     fv_name v = fv_name u -> v = u) ->
  exists d, make_dep (arg_stoch a) (args_of ds) = Ok d /\ dp_arch d = ArchParallel (length ds) /\
    (forall v, is_leaf d v <-> In v (arg_vars a)) /\ (forall v, ~ is_stem d v) /\
    (forall v, is_root d v <-> exists b, In b bs /\ In v (arg_vars b)) /\
    classified d /\ preds_right d.
Proof.
  intros Ba Bb Pa Pb F2 LN DJ NM.
  assert (SAME : forall b d, In b bs -> or_op a b = Ok d -> arg_stoch a = arg_stoch b).
  { intros b d I H. destruct (Bool.bool_dec (arg_stoch a) (arg_stoch b)) as [E|E]; [auto|].
    rewrite (conditional_mixed Ba (Bb b I) Pa (Pb b I) E) in H. discriminate. }
  assert (PAIR : forall b d, In b bs -> or_op a b = Ok d -> inv w d /\ dp_stoch d = arg_stoch a /\
    (forall v, In v (dp_nodes d) <-> In v (arg_vars a) \/ In v (arg_vars b)) /\
    (forall v u, arc d v u <-> In v (arg_vars b) /\ In u (arg_vars a)) /\
    fd_varlist (dp_leafs d) = arg_vars a /\ exists r, dp_roots d = Some r /\ fd_varlist r = arg_vars b).
  { intros b d I H. split; [apply (arg_inv (dep_of Ba (Bb b I) H))|].
    destruct (conditional Ba (Bb b I) Pa (Pb b I) (SAME b d I H)) as [d' [H' [A0 [A1 [A2 [A3 [_ [[r [A5 [_ A6]]] _]]]]]]]].
    assert (d' = d) by congruence. subst d'. do 4 (split; [auto|]). eauto. }
  assert (ALL : forall d, In d ds -> exists b, In b bs /\ or_op a b = Ok d).
  { clear - F2. induction F2 as [|b d bs ds H F IH]; intros x I; [destruct I|]. destruct I as [<-|I]; [exists b; cbn; auto|].
    destruct (IH x I) as [b' [I' H']]. exists b'. split; [right; auto|auto]. }
  assert (ALL' : forall b, In b bs -> exists d, In d ds /\ or_op a b = Ok d).
  { clear - F2. induction F2 as [|b d bs ds H F IH]; intros x I; [destruct I|]. destruct I as [<-|I]; [exists d; cbn; auto|].
    destruct (IH x I) as [b' [I' H']]. exists b'. split; [right; auto|auto]. }
  assert (IV : forall x, In x ds -> inv w x). { intros x I. destruct (ALL x I) as [b [Ib Hb]]. apply (PAIR b x Ib Hb). }
  assert (RT : forall x, In x ds -> exists f, dp_roots x = Some f).
  { intros x I. destruct (ALL x I) as [b [Ib Hb]]. destruct (PAIR b x Ib Hb) as [_ [_ [_ [_ [_ [r [R _]]]]]]]. eauto. }
  destruct (plain_vars Ba Pa) as [Fa [Na Sa]].
  assert (RUN : run_of ds = map (fun b => (arg_vars a, arg_vars b)) bs).
  { clear - F2 PAIR. induction F2 as [|b d bs ds H F IH]; [reflexivity|]. cbn [run_of map].
    destruct (PAIR b d) as [_ [_ [_ [_ [L [r [R V]]]]]]]; [left; auto|auto|]. rewrite L, R, V. f_equal.
    apply IH. intros b' d' I. apply PAIR. right. auto. }
  assert (RS : flat_map snd (run_of ds) = flat_map (@arg_vars T) bs).
  { rewrite RUN. clear. induction bs as [|b bs IH]; [auto|]. cbn. rewrite IH. auto. }
  rewrite make_deps.
  2: { destruct F2; cbn in LN; [lia|congruence]. }
  2: { intros x I. destruct (ALL x I) as [b [Ib Hb]]. destruct (PAIR b x Ib Hb) as [_ [-> _]]. destruct (arg_stoch a); auto. }
  pose proof (def_deps_eq (arg_stoch a) _ RT) as EQ.
  destruct ds as [|d0 [|d1 rest]]; [inversion F2; subst; cbn in LN; lia|inversion F2 as [|? ? ? ? ? F3]; subst; inversion F3; subst; cbn in LN; lia|].
  set (ds := d0 :: d1 :: rest) in *.
  assert (SER : is_serial (run_of ds) = false).
  { rewrite RUN. destruct bs as [|b0 [|b1 bs']]; [cbn in LN; lia|cbn in LN; lia|]. cbn [map is_serial].
    apply andb_false_iff. left. apply not_true_iff_false. intros SS.
    assert (I0 : In b0 (b0 :: b1 :: bs')) by (left; auto). destruct (plain_vars (Bb _ I0) (Pb _ I0)) as [F0 _].
    rewrite same_set_iff in SS by auto. destruct (arg_vars a) as [|v vs]; [congruence|].
    apply (DJ b0 I0 v); [left; auto|]. apply SS. left; auto. }
  assert (PAR : is_parallel (run_of ds) = true).
  { rewrite RUN. destruct bs as [|b0 bs']; [cbn in LN; lia|]. cbn [map is_parallel]. apply forallb_forall. intros p I.
    apply in_map_iff in I. destruct I as [b [<- I]]. cbn [fst snd].
    assert (I0 : In b (b0 :: bs')) by (right; auto). destruct (plain_vars (Bb _ I0) (Pb _ I0)) as [_ [NE _]].
    destruct (arg_vars b); [congruence|]. apply same_list_refl. }
  rewrite SER, PAR, RS in EQ.
  assert (FR : Forall bel (flat_map (@arg_vars T) bs)).
  { apply Forall_forall. intros v I. apply in_flat_map in I. destruct I as [b [I1 I2]]. destruct (plain_vars (Bb _ I1) (Pb _ I1)) as [F _].
    rewrite Forall_forall in F. auto. }
  assert (ST : forall b, In b bs -> forall v, In v (arg_vars b) -> fv_stoch v = arg_stoch a).
  { intros b I v V. destruct (ALL' b I) as [d [_ H]]. pose proof (SAME b d I H) as SM. rewrite SM. apply (plain_vars (Bb b I) (Pb b I)); auto. }
  destruct (@new_field_ok T w (arg_stoch a) (flat_map (@arg_vars T) bs)) as [r ER].
  { destruct bs as [|b0 bs']; [cbn in LN; lia|]. assert (I0 : In b0 (b0 :: bs')) by (left; auto).
    destruct (plain_vars (Bb _ I0) (Pb _ I0)) as [_ [NE _]]. cbn. destruct (arg_vars b0); [congruence|cbn; congruence]. }
  { intros v I. apply in_flat_map in I. destruct I as [b [I1 I2]]. eapply ST; eauto. }
  { auto. }
  rewrite ER in EQ. cbn [bind] in EQ.
  destruct (new_field_inv _ _ ER) as [_ [SR _]].
  assert (OK : exists d, def_deps (arg_stoch a) ds = Ok d).
  { rewrite EQ. apply refresh_given_ok.
    - rewrite (proj2 (i_leafs_ok (IV d0 (or_introl eq_refl)))). destruct (ALL d0 (or_introl eq_refl)) as [b [Ib Hb]].
      apply (PAIR b d0 Ib Hb).
    - intros r' E. inversion E; subst; auto.
    - intros v V. apply (all_nodes_spec _ IV) in V.
      destruct V as [x [I V]]. destruct (ALL x I) as [b [Ib Hb]]. apply (PAIR b x Ib Hb) in V. destruct V as [V|V]; [apply (plain_vars Ba Pa); auto|].
      eapply ST; eauto. }
  destruct OK as [d OK]. exists d. split; [auto|].
  destruct (deps_inv (arg_stoch a) _ IV OK) as [_ [N1 [N2 _]]].
  rewrite EQ in OK. destruct (refresh_facts _ _ _ _ _ _ OK) as [_ [_ [K3 _]]].
  destruct (refresh_given _ _ _ _ _ _ OK) as [G1 [G2 [G3 [G4 _]]]].
  assert (LV : fd_varlist (dp_leafs d0) = arg_vars a).
  { destruct (ALL d0 (or_introl eq_refl)) as [b [Ib Hb]]. apply (PAIR b d0 Ib Hb). }
  assert (RV : forall v, In v (fd_varlist r) <-> exists b, In b bs /\ In v (arg_vars b)).
  { intros v. destruct (new_field_inv _ _ ER) as [_ [_ [_ [V _]]]]. unfold fd_varlist. rewrite V.
    destruct (nodes_spec FR) as [P1 [P2 P3]]. rewrite vals_vars_of.
    - rewrite P1, in_flat_map. tauto.
    - assert (Q : forall l, NoDup l -> (forall v u, In v l -> In u l -> fv_name v = fv_name u -> v = u) -> distinct_names l).
      { clear. intros l ND. unfold distinct_names. induction ND as [|x l NI ND IH]; intros H; cbn; constructor.
        - intros I. apply in_map_iff in I. destruct I as [y [E Y]]. apply NI. rewrite <- (H y x); [auto|right; auto|left; auto|auto].
        - apply IH. intros v u A B. apply H; right; auto. }
      apply Q; [auto|]. intros v' u' I1 I2. apply P1 in I1. apply P1 in I2. apply NM; apply in_app_iff; auto. }
  assert (AR : forall v u, arc d v u <-> (exists b, In b bs /\ In v (arg_vars b)) /\ In u (arg_vars a)).
  { intros v u. rewrite N2. split.
    - intros [x [I A]]. destruct (ALL x I) as [b [Ib Hb]]. apply (PAIR b x Ib Hb) in A. split; [exists b|]; tauto.
    - intros [[b [Ib V]] U]. destruct (ALL' b Ib) as [x [I H]]. exists x. split; [auto|]. apply (PAIR b x Ib H). auto. }
  split; [auto|]. split. { intros v. unfold is_leaf. rewrite G1, LV. tauto. }
  split. { intros v. unfold is_stem. rewrite G2. auto. }
  split. { intros v. unfold is_root. rewrite G3. apply RV. }
  assert (B0 : exists b0, In b0 bs) by (destruct bs as [|b0 bs']; [cbn in LN; lia|exists b0; left; auto]).
  split.
  - intros v I. unfold is_leaf, is_stem, is_root. rewrite G1, G2, G3, LV, RV.
    assert (OUT : outgoing d v <-> exists b, In b bs /\ In v (arg_vars b)).
    { split; [intros [u U]; apply AR in U; tauto|]. intros V. destruct (arg_vars a) as [|u us] eqn:E; [congruence|]. exists u. apply AR.
      split; [auto|left; auto]. }
    assert (INC : incoming d v <-> In v (arg_vars a)).
    { split; [intros [u U]; apply AR in U; tauto|]. intros V. destruct B0 as [b0 I0].
      destruct (plain_vars (Bb _ I0) (Pb _ I0)) as [_ [NE _]]. destruct (arg_vars b0) as [|u us] eqn:E; [congruence|].
      exists u. apply AR. split; [exists b0; rewrite E; cbn; auto|auto]. }
    assert (EXC : ~ ((exists b, In b bs /\ In v (arg_vars b)) /\ In v (arg_vars a))).
    { intros [[b [Ib V]] U]. apply (DJ b Ib v); auto. }
    assert (EITHER : In v (arg_vars a) \/ exists b, In b bs /\ In v (arg_vars b)).
    { apply N1 in I. destruct I as [x [I V]]. destruct (ALL x I) as [b [Ib Hb]]. apply (PAIR b x Ib Hb) in V.
      destruct V; [auto|right; eauto]. }
    rewrite OUT, INC. cbn [od_vals map In]. tauto.
  - intros v. unfold is_pred, is_leaf. rewrite G4, G1, LV, RV. split.
    + intros V. destruct (arg_vars a) as [|u us] eqn:E; [congruence|]. exists u. split; [left; auto|]. apply AR. split; [auto|left; auto].
    + intros [u [_ U]]. apply AR in U. tauto.
Qed.

(** *** what always fails *)

Lemma three_fail stoch (args : list (darg T)) : 3 <= length args -> (forall a, In a args -> is_plain a) ->
  exists e, make_dep stoch args = Err e.
Proof.
  intros L P. unfold make_dep.
  assert (E : existsb (is_dep stoch) args = false).
  { apply not_true_iff_false. intros X. apply existsb_exists in X. destruct X as [a [I D]]. apply P in I. destruct a; cbn in *; try discriminate. auto. }
  rewrite E. destruct (map_res (as_field stoch) args) as [fs|e] eqn:M; cbn [bind]; [|eauto].
  assert (LF : length fs = length args).
  { clear - M. revert fs M. induction args as [|a args IH]; intros fs M; cbn [map_res] in M; [inversion M; auto|].
    destruct (as_field stoch a); cbn [bind] in M; [|discriminate]. destruct (map_res _ args) eqn:E; cbn [bind] in M; [|discriminate].
    inversion M; subst. cbn. f_equal. apply IH. auto. }
  destruct fs as [|f1 [|f2 [|f3 fs]]]; cbn in LF; try lia. rewrite many_fields. cbn. eauto.
Qed.

Lemma rootless_fail stoch (ds : list (dep T)) x : In x ds -> dp_roots x = None ->
  (forall y, In y ds -> (dp_stoch y || negb stoch)%bool = true) -> make_dep stoch (args_of ds) = Err AttributeError.
Proof.
  intros I R C. rewrite make_deps; [|destruct ds; [destruct I|congruence]|auto].
  destruct (def_deps stoch ds) as [d|e] eqn:E.
  - destruct (def_deps_rooted _ _ E x I) as [f F]. congruence.
  - unfold def_deps in E. cbv zeta in E.
    destruct (map_res (fun d => let! r := roots_list d in Ok (fd_varlist (dp_leafs d), r)) ds) as [lr|e'] eqn:M.
    + destruct (run_lists _ M x I) as [f F]. congruence.
    + cbn [bind] in E. apply run_lists_err in M. congruence.
Qed.

Lemma mixed_fail stoch (args : list (darg T)) a d : In a args -> is_plain a -> In (ADep d) args -> exists e, make_dep stoch args = Err e.
Proof.
  intros I P D. unfold make_dep. destruct (existsb (is_dep stoch) args) eqn:E.
  - assert (F : forallb (is_dep stoch) args = false).
    { apply not_true_iff_false. rewrite forallb_forall. intros X. apply X in I. destruct a; cbn in *; try discriminate; auto. }
    rewrite F. cbn. eauto.
  - destruct (map_res (as_field stoch) args) as [fs|e] eqn:M; cbn [bind]; [|eauto]. exfalso.
    revert fs M. clear - D. induction args as [|b args IH]; intros fs M; [destruct D|]. cbn [map_res] in M. destruct D as [->|D].
    + cbn in M. discriminate.
    + destruct (as_field stoch b); cbn [bind] in M; [|discriminate]. destruct (map_res _ args) eqn:E; cbn [bind] in M; [|discriminate].
      eapply IH; eauto.
Qed.

Lemma or_dep_fail a b : ~ (is_plain a /\ is_plain b) -> exists e, or_op a b = Err e.
Proof.
  intros NP. destruct a as [v|f|d].
  1,2: destruct b as [u|g|e]; [exfalso; apply NP; cbn; auto|exfalso; apply NP; cbn; auto|];
     unfold or_op; eapply mixed_fail; [left; reflexivity|exact I|right; left; reflexivity].
  destruct b as [u|g|e].
  1,2: unfold or_op; eapply mixed_fail; [right; left; reflexivity|exact I|left; reflexivity].
  unfold or_op. cbn [arg_stoch]. set (stoch := (dp_stoch d || dp_stoch e)%bool).
  assert (K : forall x, In x [d; e] -> dp_roots x = None -> exists er, make_dep stoch [ADep d; ADep e] = Err er).
  { intros x I R. destruct (dp_stoch d) eqn:S1, (dp_stoch e) eqn:S2; subst stoch; cbn [orb].
    - exists AttributeError. eapply (rootless_fail true [d; e]); eauto. intros y [<-|[<-|[]]]; rewrite ?S1, ?S2; auto.
    - unfold make_dep. cbn [existsb forallb is_dep]. rewrite S1, S2. cbn. eauto.
    - unfold make_dep. cbn [existsb forallb is_dep]. rewrite S1, S2. cbn. eauto.
    - exists AttributeError. eapply (rootless_fail false [d; e]); eauto. intros y [<-|[<-|[]]]; rewrite ?S1, ?S2; auto. }
  destruct (dp_roots d) eqn:R1; [|apply (K d); [left; auto|auto]].
  destruct (dp_roots e) eqn:R2; [eauto|apply (K e); [right; left; auto|auto]].
Qed.

Lemma and_left_fail d b : is_plain b -> exists e, and_dep (ADep d) b = Err e.
Proof.
  intros P. destruct b; [| |destruct P]; unfold and_dep; eapply mixed_fail; [left; reflexivity|exact I|right; left; reflexivity|
    left; reflexivity|exact I|right; left; reflexivity].
Qed.

Lemma and_var_fail v d : (dp_stems d <> [] \/ dp_roots d <> None \/
    2 <= length (fold_left (@add_node T) (v :: fd_varlist (dp_leafs d)) []) - 1) ->
  exists e, and_dep (AVar v) (ADep d) = Err e.
Proof.
  intros H. unfold and_dep. cbv zeta. destruct (if (fv_stoch v && negb (dp_stoch d))%bool then _ else _); cbn [bind]; [|eauto].
  destruct (new_field _ _) as [l|] eqn:E; cbn [bind]; [|eauto].
  destruct (dp_stems d); [|eauto]. destruct (dp_roots d); [eauto|].
  destruct H as [H|[H|H]]; try congruence. destruct (new_field_inv _ _ E) as [_ [_ [_ [_ [_ ND]]]]].
  apply three_fail; [rewrite map_length, ND; lia|]. intros q Q. apply in_map_iff in Q. destruct Q as [u [<- _]]. exact I.
Qed.

(** v & w where w is a dependence of a single variable conditions v on it. *)
Lemma and_var_conditions v u d s : belongs w v -> belongs w u -> v <> u -> fv_stoch v = fv_stoch u ->
  make_dep s [AVar u] = Ok d -> and_dep (AVar v) (ADep d) = or_op (AVar v) (AVar u).
Proof.
  intros Bv Bu NE S H. unfold make_dep in H. cbn [existsb is_dep orb map_res] in H.
  destruct (as_field s (AVar u)) as [f|] eqn:E; cbn [bind] in H; [|discriminate].
  destruct (as_field_inv s (built_var Bu) E) as [F [V [_ [C SF]]]]. cbn in V, C, SF.
  destruct (one_field s F H) as [_ [_ [A3 [A4 [A5 [_ [_ [A8 _]]]]]]]].
  assert (SS : s = fv_stoch u).
  { destruct (fv_stoch u) eqn:U; destruct s; auto; try (cbn in C; discriminate).
    destruct F as [BF _]. destruct (built_vars BF) as [_ [_ Q]].
    fold (fd_varlist f) in Q. rewrite V in Q. rewrite (Q u) in U by (left; auto). congruence. }
  unfold and_dep, or_op. cbv zeta. cbn [arg_stoch]. rewrite A3, A4, A5, A8, V, SS, S.
  assert (Z : (fv_stoch u && negb (fv_stoch u))%bool = false) by (destruct (fv_stoch u); auto). rewrite Z. cbn [bind].
  rewrite orb_diag.
  destruct (@new_field_ok T w (fv_stoch u) [v; u]) as [l L]; [congruence| |repeat constructor; auto|].
  { intros x [<-|[<-|[]]]; congruence. }
  rewrite L. cbn [bind]. destruct (new_field_inv _ _ L) as [_ [_ [_ [_ [_ ND]]]]]. rewrite ND.
  assert (Q : fold_left (@add_node T) [v; u] [] = [v; u]).
  { apply fold_add_new. cbn [app]. apply (nodup_objects (w := w)); [repeat constructor; auto|].
    constructor; [intros [<-|[]]; auto|repeat constructor; intros []]. }
  rewrite Q. reflexivity.
Qed.

(** f & (g | r) is (f & g) | r. *)
Lemma and_field f g r d : built_arg w (AField f) -> built_arg w (AField g) -> built_arg w (AField r) ->
  fd_stoch f = fd_stoch g -> or_op (AField g) (AField r) = Ok d ->
  exists j, and_op (OpField f) (OpField g) = Ok j /\ and_dep (AField f) (ADep d) = or_op (AField j) (AField r).
Proof.
  intros Bf Bg Br S H.
  assert (S2 : fd_stoch g = fd_stoch r).
  { destruct (Bool.bool_dec (fd_stoch g) (fd_stoch r)) as [E|E]; [auto|]. rewrite (conditional_mixed Bg Br I I E) in H. discriminate. }
  destruct (plain_vars Bf I) as [Ff [Nf Sf]]. destruct (plain_vars Bg I) as [Fg [Ng Sg]]. cbn [arg_vars arg_stoch] in *.
  assert (AL : allowed (fd_stoch f) (fd_varlist f ++ fd_varlist g)).
  { intros v V. apply in_app_iff in V. destruct V as [V|V]; [auto|]. rewrite S. apply Sg; auto. }
  destruct (@new_field_ok T w (fd_stoch f) (fd_varlist f ++ fd_varlist g)) as [j J]; auto.
  { destruct (fd_varlist f); [congruence|cbn; congruence]. }
  { apply Forall_app; auto. }
  exists j. split.
  - unfold and_op. cbn [op_stoch op_vars]. rewrite <- S, orb_diag. unfold new_field in J.
    destruct (fd_varlist f) as [|v [|v' vs]], (fd_varlist g) as [|u us]; cbn [app] in *; auto; congruence.
  - pose proof H as H'. rewrite or_plain in H' by exact I. cbv zeta in H'. cbn [arg_stoch as_field] in H'. rewrite <- S2, orb_diag in H'.
    assert (O : (fd_stoch g || negb (fd_stoch g))%bool = true) by (destruct (fd_stoch g); auto). rewrite O in H'. cbn [bind] in H'.
    inversion Bg; subst. inversion Br; subst.
    destruct (two_fields (fd_stoch g) (conj H1 H2) (conj H3 H4) H') as [_ [_ [A3 [A4 [A5 [_ [_ [A8 _]]]]]]]].
    unfold and_dep, or_op. cbv zeta. cbn [arg_stoch]. rewrite A3, A4, A5, A8, <- S, orb_diag, J. cbn [bind map od_vals app].
    destruct (new_field_inv _ _ J) as [_ [-> _]]. rewrite <- S2, <- S, orb_diag. reflexivity.
Qed.

End Proofs.
