(** Further proofs about fields: histories, unions, where evaluation misplaces axes. *)
From Coq Require Import String Ascii ZArith Bool Arith Lia List Reals Lra.
From Verif Require Import Base OdLemmas Num Tensor TensorLemmas Names Names_Spec VariableModel FieldModel Expr_Proofs Lik_Slice
  Field_Spec Field_Proofs Field_Delta Field_Dims.
Import ListNotations.
Set Implicit Arguments.
Local Open Scope bool_scope.
Local Open Scope list_scope.
Local Open Scope nat_scope.

Section More.
Context {T : Type} {N : Num T} {TR : Trunc T}.
Implicit Types f : field T.

Definition populated f : Prop := nonempty f = true.

Lemma members_length (l : list (fvar T)) w : mem_var w l = true -> exists n, length l = S n.
Proof. destruct l as [|x l]; [discriminate|]. intros _. exists (length l). reflexivity. Qed.

Lemma refresh_nvars f : fd_nvars (fst (refresh f)) = Some (length (fd_nodes f)).
Proof. unfold refresh. cbv zeta. destruct (fd_stoch f); [|destruct (existsb _ _)]; reflexivity. Qed.

Lemma steps_nonempty (a : addarg T) :
  match a with AddOne v => [v] | AddMany [] => [None] | AddMany l => l ++ [last l None] end <> [].
Proof. destruct a as [v|[|x l]]; discriminate. Qed.

Lemma loop_populates f l f' : l <> [] -> add_loop f l = (f', Ok tt) -> exists n, length (fd_nodes f') = S n.
Proof.
  intros NE H. apply add_loop_members in H. destruct H as [H _]. destruct l as [|o l]; [congruence|].
  destruct (H o (or_introl eq_refl)) as [w [_ W]]. eapply members_length; eauto.
Qed.

Lemma add_populated f a : populated f \/ snd (add_var f a) = Ok tt -> populated (fst (add_var f a)).
Proof.
  unfold add_var, populated. pose proof (steps_nonempty a) as NE.
  set (steps := match a with AddOne v => [v] | AddMany [] => [None] | AddMany l => l ++ [last l None] end) in *.
  pose proof (nonempty_frame f steps) as NF.
  destruct (add_loop f steps) as [f1 [[]|e]] eqn:E; cbn [fst snd] in *.
  - intros _. destruct (loop_populates _ NE E) as [n L]. unfold nonempty. rewrite refresh_nvars, L. reflexivity.
  - intros [H|H]; [congruence|discriminate].
Qed.

Lemma make_populated stoch a f : make_field stoch a = Ok f -> populated f.
Proof.
  unfold make_field. destruct (add_var _ a) as [f1 [[]|e]] eqn:E; [|discriminate]. intros H. inversion H; subst.
  match type of E with add_var ?g a = _ => pose proof (@add_populated g a) as P end. rewrite E in P. apply P. right. reflexivity.
Qed.

Lemma reachable_populated f : reachable f -> populated f.
Proof.
  intros [stoch [a [f0 [l [M ->]]]]]. apply make_populated in M. unfold add_vars. revert f0 M.
  induction l as [|b l IH]; intros f0 M; cbn; [auto|]. apply IH. apply add_populated. auto.
Qed.

Lemma built_populated f : built f -> populated f.
Proof.
  intros [[stoch [a H]]|[f0 [b [R H]]]]; [eapply make_populated; eauto|].
  pose proof (@add_populated f0 b) as P. rewrite H in P. apply P. right. reflexivity.
Qed.

Lemma built_nodes f : built f -> fd_nvars f = Some (length (fd_nodes f)).
Proof.
  assert (A : forall g a f, add_var g a = (f, Ok tt) -> fd_nvars f = Some (length (fd_nodes f))).
  { intros g a f0 H. unfold add_var in H. destruct (add_loop g _) as [f1 [[]|e]]; [|discriminate].
    pose proof (refresh_nvars f1) as R. rewrite H in R. cbn in R.
    assert (Q : fd_nodes f0 = fd_nodes f1).
    { unfold refresh in H. cbv zeta in H. destruct (fd_stoch f1); [|destruct (existsb _ _)]; inversion H; subst; reflexivity. }
    rewrite Q. exact R. }
  intros [[stoch [a H]]|[f0 [b [_ H]]]].
  - unfold make_field in H. destruct (add_var _ a) as [f1 [[]|e]] eqn:E; [|discriminate]. inversion H; subst. eapply A; eauto.
  - eapply A; eauto.
Qed.

Lemma built_vars_nonempty f : built f -> fd_varlist f <> [].
Proof.
  intros B. pose proof (built_populated B) as P. pose proof (built_nodes B) as Q.
  destruct (built_vars B) as [V _]. unfold fd_varlist. rewrite V.
  unfold populated, nonempty in P. rewrite Q in P. destruct (fd_nodes f) as [|w l]; [discriminate|].
  intros Z. unfold vars_of, od_of_list in Z. cbn [map] in Z. rewrite od_update_cons in Z.
  assert (I : In (fv_name w) (od_keys (od_update (od_set [] (fv_name w) w) (map (fun v => (fv_name v, v)) l)))).
  { apply od_update_keys. left. cbn. auto. }
  unfold od_keys in I. unfold od_vals in Z. destruct (od_update _ _); [destruct I|discriminate].
Qed.

Lemma op_nonempty (o : operand T) : op_built o -> op_vars o <> [].
Proof. destruct o as [v|f]; cbn; [discriminate|]. apply built_vars_nonempty. Qed.

(** *** unions *)

Lemma union_update a b : op_built a -> op_built b -> op_stoch a = op_stoch b -> coherent (op_vars a ++ op_vars b) ->
  exists f, and_op a b = Ok f /\ built f /\ fd_vars f = od_update (op_dict a) (op_dict b) /\
    fd_keys f = od_keys (fd_vars f) /\ fd_stoch f = op_stoch b.
Proof.
  intros Ba Bb SE C. destruct (union _ _ Ba Bb (op_nonempty _ Ba) SE C) as [f [E [B [SF [K G]]]]].
  exists f. split; [auto|]. split; [auto|]. destruct (built_vars B) as [V [KV _]].
  destruct (op_dict_ok _ Ba) as [[Na _] _]. destruct (op_dict_ok _ Bb) as [[Nb _] _]. split; [|auto].
  apply od_ext_eq.
  - rewrite V. apply vars_of_named.
  - rewrite <- KV, K. symmetry. apply od_update_keys_order. auto.
  - intros k _. rewrite G. symmetry. apply od_get_update. auto.
Qed.

Lemma union_spec a b : op_built a -> op_built b -> op_stoch a = op_stoch b -> coherent (op_vars a ++ op_vars b) ->
  exists f, and_op a b = Ok f /\ built f /\ fd_stoch f = op_stoch b /\
    fd_keys f = od_keys (op_dict a) ++
                filter (fun k => negb (mem_str k (od_keys (op_dict a)))) (od_keys (op_dict b)) /\
    forall k, od_get (fd_vars f) k = match od_get (op_dict b) k with
                                     | Some v => Some v | None => od_get (op_dict a) k end.
Proof. intros Ba Bb SE C. exact (union _ _ Ba Bb (op_nonempty _ Ba) SE C). Qed.

Lemma union_members a b f : op_built a -> op_built b -> fd_vars f = od_update (op_dict a) (op_dict b) ->
  forall v, In v (op_vars (OpField f)) -> In v (op_vars a ++ op_vars b).
Proof.
  intros Ba Bb U v I. destruct (op_dict_ok _ Ba) as [[Na _] [Va _]]. destruct (op_dict_ok _ Bb) as [[Nb _] [Vb _]].
  cbn in I. unfold fd_varlist in I. rewrite U in I. unfold od_vals in I. apply in_map_iff in I. destruct I as [[k w] [E I]].
  cbn in E. subst w. apply od_in_get in I; [|apply od_update_nodup; auto]. rewrite od_get_update in I by auto.
  apply in_app_iff. rewrite Va, Vb. unfold od_vals. destruct (od_get (op_dict b) k) as [w|] eqn:G.
  - inversion I; subst. right. apply od_get_in in G. apply in_map_iff. exists (k, v). auto.
  - left. apply od_get_in in I. apply in_map_iff. exists (k, v). auto.
Qed.

Lemma union_assoc a b c : op_built a -> op_built b -> op_built c -> op_stoch a = op_stoch b -> op_stoch b = op_stoch c ->
  coherent (op_vars a ++ op_vars b ++ op_vars c) ->
  exists ab bc f g, and_op a b = Ok ab /\ and_op b c = Ok bc /\
    and_op (OpField ab) c = Ok f /\ and_op a (OpField bc) = Ok g /\
    fd_keys f = fd_keys g /\ fd_vars f = fd_vars g.
Proof.
  intros Ba Bb Bc S1 S2 C.
  assert (Cab : coherent (op_vars a ++ op_vars b)).
  { intros v w Iv Iw. apply C; rewrite app_assoc; apply in_app_iff; auto. }
  assert (Cbc : coherent (op_vars b ++ op_vars c)).
  { intros v w Iv Iw. apply C; apply in_app_iff; auto. }
  destruct (@union_update a b Ba Bb S1 Cab) as [ab [E1 [B1 [V1 [K1 T1]]]]].
  destruct (@union_update b c Bb Bc S2 Cbc) as [bc [E2 [B2 [V2 [K2 T2]]]]].
  destruct (@union_update (OpField ab) c B1 Bc) as [f [E3 [B3 [V3 [K3 _]]]]].
  { cbn. congruence. }
  { intros v w Iv Iw. apply C; rewrite app_assoc; apply in_app_iff; [apply in_app_iff in Iv|apply in_app_iff in Iw];
      [destruct Iv as [Iv|Iv]|destruct Iw as [Iw|Iw]]; auto; left; eapply union_members with (f := ab); eauto. }
  destruct (@union_update a (OpField bc) Ba B2) as [g [E4 [B4 [V4 [K4 _]]]]].
  { cbn. congruence. }
  { intros v w Iv Iw. apply C; apply in_app_iff; [apply in_app_iff in Iv|apply in_app_iff in Iw];
      [destruct Iv as [Iv|Iv]|destruct Iw as [Iw|Iw]]; auto; right; eapply union_members with (f := bc); eauto. }
  exists ab, bc, f, g. do 4 (split; [auto|]).
  assert (Q : fd_vars f = fd_vars g).
  { rewrite V3, V4. cbn [op_dict]. rewrite V1, V2. symmetry. apply od_update_assoc. apply (op_dict_ok _ Bb). }
  split; [congruence|auto].
Qed.

Lemma union_self f : built f -> coherent (fd_varlist f) ->
  exists g, and_op (OpField f) (OpField f) = Ok g /\ fd_keys g = fd_keys f /\ fd_vars g = fd_vars f.
Proof.
  intros B C. destruct (@union_update (OpField f) (OpField f) B B eq_refl) as [g [E [_ [V [K _]]]]].
  { intros v w Iv Iw. apply C; [apply in_app_iff in Iv|apply in_app_iff in Iw]; cbn in *; tauto. }
  destruct (built_vars B) as [V0 [K0 _]].
  assert (ND : NoDup (od_keys (fd_vars f))) by (rewrite V0; apply vars_of_named).
  assert (Q : fd_vars g = fd_vars f).
  { cbn [op_dict] in V. apply od_ext_eq.
    - rewrite V. apply od_update_nodup. auto.
    - rewrite V, od_update_keys_order by auto. rewrite filter_none; [apply app_nil_r|].
      intros k I. apply negb_false_iff. apply mem_str_iff. auto.
    - intros k _. rewrite V, od_get_update by auto. destruct (od_get (fd_vars f) k); auto. }
  exists g. split; [auto|]. split; [congruence|auto].
Qed.

Lemma union_mixed_left (a b : operand T) : op_built a -> op_built b -> op_stoch a = true -> op_stoch b = false ->
  coherent (op_vars a ++ op_vars b) ->
  and_op a b = Err (match a with OpVar _ => TypeError | OpField _ => AttributeError end).
Proof. intros Ba Bb SA SB C. exact (mixed_left _ _ Ba Bb (op_nonempty _ Ba) (op_nonempty _ Bb) SA SB C). Qed.

Lemma union_mixed_right (a b : operand T) : op_built a -> op_built b -> op_stoch a = false -> op_stoch b = true ->
  coherent (op_vars a ++ op_vars b) ->
  ((forall k, In k (od_keys (op_dict a)) -> In k (od_keys (op_dict b))) -> exists f, and_op a b = Ok f) /\
  ((exists k, In k (od_keys (op_dict a)) /\ ~ In k (od_keys (op_dict b))) -> and_op a b = Err AttributeError).
Proof. intros Ba Bb SA SB C. destruct (mixed_right _ _ Ba Bb (op_nonempty _ Ba) SA SB C). auto. Qed.

Lemma union_mixed (a b : operand T) : op_built a -> op_built b -> coherent (op_vars a ++ op_vars b) ->
  (op_stoch a = true -> op_stoch b = false ->
     and_op a b = Err (match a with OpVar _ => TypeError | OpField _ => AttributeError end)) /\
  (op_stoch a = false -> op_stoch b = true ->
     ((forall k, In k (od_keys (op_dict a)) -> In k (od_keys (op_dict b))) -> exists f, and_op a b = Ok f) /\
     ((exists k, In k (od_keys (op_dict a)) /\ ~ In k (od_keys (op_dict b))) -> and_op a b = Err AttributeError)).
Proof.
  intros Ba Bb C. split; intros; [apply union_mixed_left; auto|apply union_mixed_right; auto].
Qed.

Lemma plain_refused (vs : list (fvar T)) v : distinct_objects vs -> distinct_names vs -> In v vs -> fv_stoch v = false ->
  make_field true (AddMany (map Some vs)) = Err AttributeError.
Proof.
  intros D1 D2 I P. rewrite make_many_nodes by (intros ->; destruct I). rewrite fold_add_new by exact D1. cbn [app].
  unfold refresh. cbv zeta. cbn [fd_nodes fd_stoch]. rewrite vars_of_distinct by exact D2.
  assert (V : od_vals (map (fun v => (fv_name v, v)) vs) = vs) by (unfold od_vals; rewrite map_map; apply map_id).
  rewrite V. assert (F : forallb (fun v => fv_stoch v) vs = false).
  { apply not_true_iff_false. rewrite forallb_forall. intros X. rewrite (X v I) in P. discriminate. }
  rewrite F. reflexivity.
Qed.

Lemma collection_refused f l : reachable f ->
  exists e, snd (add_var f (AddMany l)) = Err e /\
    let f' := fst (add_var f (AddMany l)) in
    fd_keys f' = fd_keys f /\ fd_varlist f' = fd_varlist f /\ fd_nvars f' = fd_nvars f.
Proof.
  intros R. apply reachable_populated in R. destruct (many_rejected f l R) as [e [H1 [H2 [H3 H4]]]].
  exists e. split; [auto|]. cbv zeta. unfold fd_varlist. rewrite H3. auto.
Qed.

Lemma one_accepted f v : reachable f ->
  distinct_objects (fd_nodes f ++ [v]) -> distinct_names (fd_nodes f ++ [v]) ->
  allowed (fd_stoch f) (fd_nodes f ++ [v]) ->
  exists f', add_var f (AddOne (Some v)) = (f', Ok tt) /\ holds f' (fd_nodes f ++ [v]).
Proof.
  intros R A B C. apply reachable_populated in R. destruct (@add_one _ f v R A B C) as [f' [H1 [H2 _]]]. eauto.
Qed.

Lemma member_refused f v : reachable f -> mem_var v (fd_nodes f) = true ->
  add_var f (AddOne (Some v)) = (f, Err AssertionError).
Proof.
  intros R M. apply reachable_populated in R. unfold add_var. cbn [add_loop]. unfold add_body. rewrite R, M. reflexivity.
Qed.

Lemma refused_shows_up f vs v : reachable f -> vs <> [] ->
  distinct_objects (fd_nodes f ++ vs ++ [v]) -> distinct_names (fd_nodes f ++ vs ++ [v]) ->
  allowed (fd_stoch f) (fd_nodes f ++ vs ++ [v]) ->
  exists f1 f2, add_var f (AddMany (map Some vs)) = (f1, Err AssertionError) /\
    fd_keys f1 = fd_keys f /\ fd_varlist f1 = fd_varlist f /\
    add_var f1 (AddOne (Some v)) = (f2, Ok tt) /\ holds f2 (fd_nodes f ++ vs ++ [v]).
Proof. intros R. apply reachable_populated in R. apply rejected_shows_up. exact R. Qed.

Lemma empty_refused stoch : make_field stoch (AddMany ([] : list (option (fvar T)))) = Err AssertionError.
Proof. reflexivity. Qed.

(** *** misplaced axes *)

Lemma reshape_1d (a : tensor (pyval T)) n sh : shape a = [n] -> prod_list sh = n ->
  exists b, reshape sh a = Ok b /\ shape b = sh /\ to_list b = to_list a.
Proof.
  intros S P. destruct (@reshape_ok _ sh a) as [b H]; [|eauto]. unfold tsize. rewrite S. cbn. lia.
Qed.

Lemma scalar_takes_axis f vx vy y n a r :
  fd_keys f = ["x"; "y"]%string -> fd_varlist f = [vx; vy] -> fv_name vx = "x"%string -> fv_name vy = "y"%string ->
  eval_val vx FNone (r 0) = Ok (tscalar y) -> shape a = [n] ->
  exists b, f_evaluate f [("x", One FNone); ("y", One (FArr a))]%string 0 r
      = Ok ([("x", tscalar y); ("y", b)], [("x", None); ("y", Some 1)])%string /\
    shape b = [1; n] /\ to_list b = to_list a.
Proof.
  intros K V NX NY EV S. destruct (@reshape_1d a n [1; n] S) as [b [R [SB TB]]]; [cbn; lia|].
  exists b. split; [|auto]. unfold f_evaluate, f_evaluate_by. cbn [od_vals map snd forallb entry_scalar npscalar andb]. cbv zeta.
  rewrite K, V. cbn -[eval_val FieldModel.place reshape]. rewrite NX, NY. cbn -[eval_val FieldModel.place reshape]. rewrite EV.
  assert (TS : tsize a = n) by (unfold tsize; rewrite S; cbn; lia).
  assert (PA : FieldModel.place 2 (Some 1) a = Ok b) by (unfold FieldModel.place; rewrite S, TS; exact R).
  cbn [bind eval_val]. rewrite PA. cbn. rewrite SB. reflexivity.
Qed.

Lemma shared_scalars_take_axis f vx vy vz p q n a r :
  fd_keys f = ["x"; "y"; "z"]%string -> fd_varlist f = [vx; vy; vz] ->
  fv_name vx = "x"%string -> fv_name vy = "y"%string -> fv_name vz = "z"%string -> shape a = [n] ->
  exists b, f_evaluate f [("x", One (FArr a)); ("y,z", Many [FNum p; FNum q])]%string 0 r
      = Ok ([("x", b); ("y", tscalar p); ("z", tscalar q)], [("x", Some 0); ("y", None); ("z", None)])%string /\
    shape b = [n; 1] /\ to_list b = to_list a.
Proof.
  intros K V NX NY NZ S. destruct (@reshape_1d a n [n; 1] S) as [b [R [SB TB]]]; [cbn; lia|].
  exists b. split; [|auto]. unfold f_evaluate, f_evaluate_by. cbn [od_vals map snd forallb entry_scalar npscalar andb]. cbv zeta.
  rewrite K, V. cbn -[eval_val FieldModel.place reshape]. rewrite NX, NY, NZ. cbn -[eval_val FieldModel.place reshape].
  assert (TS : tsize a = n) by (unfold tsize; rewrite S; cbn; lia).
  assert (PA : FieldModel.place 2 (Some 0) a = Ok b) by (unfold FieldModel.place; rewrite S, TS; exact R).
  cbn [bind eval_val]. rewrite PA. cbn. rewrite SB. reflexivity.
Qed.

(** A shared key is only checked by its last name. *)
Lemma shared_key_unchecked f k : In k (fd_keys f) -> shared k = false -> forall (t : string) (x : fval T),
  shared t = false ->
  parse_entry f ((t ++ "," ++ k)%string, One x) = Ok ((t ++ "," ++ k)%string, Many [x; x]).
Proof.
  intros I S t x St. unfold parse_entry. cbn [fst snd].
  assert (SK : subkeys (t ++ "," ++ k)%string = [t; k]).
  { unfold subkeys. change ("," ++ k)%string with (String "," k).
    rewrite Names_Proofs.split_char_app by (apply Names_Proofs.has_char_false; exact St).
    f_equal. apply Names_Proofs.split_char_free. apply Names_Proofs.has_char_false. exact S. }
  assert (SH : shared (t ++ "," ++ k)%string = true).
  { unfold shared. apply Names_Proofs.has_char_true. apply Names_Proofs.occurs_app. right. unfold Names_Spec.occurs. cbn. auto. }
  rewrite SK, SH. cbn [bind last length repeat].
  assert (M : mem_str k (fd_keys f) = true) by (apply mem_str_iff; auto). rewrite M. reflexivity.
Qed.

Lemma single_key f k (e : fentry T) : shared k = false ->
  (In k (fd_keys f) /\ parse_entry f (k, e) = Ok (k, e)) \/
  (~ In k (fd_keys f) /\ parse_entry f (k, e) = Err AssertionError).
Proof.
  intros S. unfold parse_entry. cbn [fst snd]. rewrite S, subkeys_unshared by auto. cbn [bind last].
  destruct (mem_str k (fd_keys f)) eqn:M.
  - left. apply mem_str_iff in M. auto.
  - right. apply mem_str_false in M. auto.
Qed.

Lemma dict_same f lens vds d1 d2 un scale bound c1 c2 vds1 vds2 rs u :
  f_set_delta (fd_keys f) lens vds (GDict d1) un scale bound = Ok (c1, vds1) ->
  f_set_delta (fd_keys f) lens vds (GDict d2) un scale bound = Ok (c2, vds2) ->
  vds1 = vds /\ vds2 = vds /\ f_eval_delta f lens c1 vds1 rs u = f_eval_delta f lens c2 vds2 rs u.
Proof.
  intros H1 H2.
  destruct (@dict_ignored _ _ _ f lens vds d1 un scale bound c1 vds1 rs u H1) as [A1 B1].
  destruct (@dict_ignored _ _ _ f lens vds d2 un scale bound c2 vds2 rs u H2) as [A2 B2].
  split; [auto|]. split; [auto|]. rewrite B1, B2. reflexivity.
Qed.

End More.

(** *** Variables left out *)
Section LeftOut.
Context {T : Type} {N : Num T}.

Lemma parse_entry_ok (f : field T) kv kv' : parse_entry f kv = Ok kv' ->
  fst kv' = fst kv /\ (shared (fst kv) = false -> kv' = kv) /\ (shared (fst kv) = true -> exists l, snd kv' = Many l).
Proof.
  destruct kv as [k e]. unfold parse_entry. cbn [fst snd].
  destruct (shared k) eqn:S; [destruct e as [v|l]|].
  - cbn [bind]. unfold assert_. destruct (mem_str _ _); cbn [bind]; intros E; [|discriminate]. injection E as <-. split; [reflexivity|]. split; [discriminate|]. intros _. eexists. reflexivity.
  - unfold assert_. destruct (Nat.eqb _ _); cbn [bind]; [|discriminate]. destruct (mem_str _ _); cbn [bind]; intros E; [|discriminate]. injection E as <-.
    split; [reflexivity|]. split; [discriminate|]. intros _. eexists. reflexivity.
  - cbn [bind]. unfold assert_. destruct (mem_str _ _); cbn [bind]; intros E; [|discriminate]. injection E as <-. split; [reflexivity|]. split; [reflexivity|discriminate].
Qed.

Lemma left_out_gen (f : field T) (values vs : odict (fentry T)) : NoDup (od_keys values) -> f_parse_args f values = Ok vs ->
  (forall o e, In (o, e) values -> shared o = false -> od_get vs o = Some e) /\
  forall k, In k (fd_keys f) -> ~ In k (flat_map subkeys (od_keys values)) ->
  let floats := exists v, In v (fd_varlist f) /\ vs_vtype (fv_state v) = Some VFloat in
  let asked := exists o, shared o = false /\ In (o, One (FUnit 0%Z)) values in
  (floats /\ ~ asked -> od_get vs k = Some (One (FUnit 0%Z))) /\ (~ floats \/ asked -> od_get vs k = Some (One FNone)).
Proof.
  intros ND E. unfold f_parse_args in E. destruct (map_res (parse_entry f) values) as [vs0|] eqn:M; [|discriminate]. cbn [bind] in E. injection E as <-.
  apply map_res_ok in M.
  assert (K0 : od_keys vs0 = od_keys values).
  { unfold od_keys. clear ND. induction M as [|kv kv' l l' H M IH]; [reflexivity|]. cbn [map]. rewrite IH. f_equal. apply (parse_entry_ok f kv H). }
  assert (SUB : forall o e, In (o, e) values -> shared o = false -> In (o, e) vs0).
  { clear ND K0. intros o e I S. induction M as [|kv kv' l l' H M IH]; [destruct I|]. destruct I as [->|I]; [|right; auto].
    left. apply (proj1 (proj2 (parse_entry_ok f (o, e) H))). exact S. }
  assert (BACK : forall o x, In (o, One x) vs0 -> shared o = false /\ In (o, One x) values).
  { clear ND K0 SUB. intros o x I. induction M as [|kv kv' l l' H M IH]; [destruct I|]. destruct (parse_entry_ok f kv H) as (P1 & P2 & P3). destruct I as [->|I].
    - cbn [fst snd] in *. destruct (shared (fst kv)) eqn:S; [destruct (P3 eq_refl) as (l0 & C); discriminate|]. rewrite <- (P2 eq_refl) in S |- *. split; [exact S|left; reflexivity].
    - destruct (IH I) as [A B]. split; [exact A|right; exact B]. }
  set (def := default_val f vs0).
  assert (G : forall ks d, (forall k, In k (flat_map subkeys (od_keys vs0)) -> od_get (fold_left (fun d k => if mem_str k (flat_map subkeys (od_keys vs0)) then d else od_set d k (One def)) ks d) k = od_get d k) /\
    forall k, ~ In k (flat_map subkeys (od_keys vs0)) -> In k ks \/ od_get d k = Some (One def) ->
      od_get (fold_left (fun d k => if mem_str k (flat_map subkeys (od_keys vs0)) then d else od_set d k (One def)) ks d) k = Some (One def)).
  { induction ks as [|k0 ks IH]; intros d; [split; [reflexivity|]; intros k _ [[]|H]; exact H|]. cbn [fold_left].
    destruct (mem_str k0 (flat_map subkeys (od_keys vs0))) eqn:M0; destruct (IH (if mem_str k0 (flat_map subkeys (od_keys vs0)) then d else od_set d k0 (One def))) as [A B]; rewrite M0 in A, B.
    - split; [exact A|]. intros k NI [[->|I]|H]; [apply mem_str_iff in M0; contradiction|apply B; auto|apply B; auto].
    - split.
      + intros k I. rewrite (A k I). apply od_get_set_ne. intros ->. apply mem_str_iff in I. congruence.
      + intros k NI H. apply B; [exact NI|]. destruct (string_dec k k0) as [->|NE]; [right; apply od_get_set_eq|].
        destruct H as [[->|I]|H]; [contradiction|left; exact I|right; rewrite od_get_set_ne by congruence; exact H]. }
  destruct (G (fd_keys f) vs0) as [A B]. split.
  - intros o e I S. rewrite A.
    + apply od_in_get; [rewrite K0; exact ND|apply SUB; assumption].
    + apply in_flat_map. exists o. split; [rewrite K0; apply in_map_iff; exists (o, e); auto|]. rewrite subkeys_unshared by exact S. left. reflexivity.
  - intros k I NI floats asked. rewrite K0 in *. rewrite (B k) by auto. unfold def, default_val.
    assert (FL : anyfloat f = true <-> floats).
    { unfold anyfloat, floats. rewrite existsb_exists. split; intros (v & Iv & H); exists v; (split; [exact Iv|]); [destruct (vs_vtype (fv_state v)) as [[| |]|]; try discriminate; reflexivity|rewrite H; reflexivity]. }
    assert (AS : existsb (fun e : fentry T => match e with One (FUnit 0%Z) => true | _ => false end) (od_vals vs0) = true <-> asked).
    { rewrite existsb_exists. unfold asked. split.
      - intros (e & Ie & H). destruct e as [[| | |z]|]; try discriminate. destruct z; try discriminate. unfold od_vals in Ie. apply in_map_iff in Ie. destruct Ie as ([o e] & E & Io). cbn in E. subst e.
        destruct (BACK o _ Io) as [S Iv]. exists o. auto.
      - intros (o & S & Iv). exists (One (FUnit 0%Z)). split; [|reflexivity]. unfold od_vals. apply in_map_iff. exists (o, One (FUnit 0%Z)). split; [reflexivity|]. apply SUB; assumption. }
    destruct (anyfloat f); destruct (existsb _ _); split; intros H; try reflexivity; exfalso; intuition discriminate.
Qed.

Lemma own_default_gen (f : field T) {TR : Trunc T} (lens : list (option T)) (vds vds' : list (dconf T)) (c : fconf T) un scale bound rs u :
  f_set_delta (fd_keys f) lens vds GNone un scale bound = Ok (c, vds') ->
  f_eval_delta f lens c vds' rs u = Ok match map (@dc_delta T) vds with
                                       | [DNone] => NoStep
                                       | [d] => OwnDelta d
                                       | _ => NoStep
                                       end.
Proof.
  intros E. cbn [f_set_delta] in E. injection E as <- <-. unfold f_eval_delta. cbn [fc_delta]. destruct vds as [|dc [|dc' l]]; try reflexivity.
  - cbn [map]. destruct (dc_delta dc); reflexivity.
  - cbn [map]. destruct (dc_delta dc); reflexivity.
Qed.
End LeftOut.
