(** Proofs about calls of conditional functions and explicit conditionals. *)
From Coq Require Import String Ascii ZArith Bool Arith Lia List.
From Verif Require Import Base OdLemmas Num Tensor Names Names_Spec Names_Proofs VariableModel FieldModel Field_Spec Field_Proofs ExprModel GibbsModel CFModel CF_Spec CF_Proofs.
Import ListNotations.
Set Implicit Arguments.
Local Open Scope bool_scope.
Local Open Scope list_scope.

Section P.
Context {T : Type} {N : Num T} {TR : Trunc T}.
Context {V : Type} (sub : V -> V -> V) (ustr : string -> V).
Implicit Types c : cfn T V.

(** ** What does not change *)

Definition alike c c' : Prop :=
  cf_bykey c' = cf_bykey c /\ f_spec (cf_func c') = f_spec (cf_func c) /\ f_maps (cf_func c') = f_maps (cf_func c) /\
  f_args (cf_func c') = f_args (cf_func c) /\ f_kwds (cf_func c') = f_kwds (cf_func c) /\ f_callable (cf_func c') = f_callable (cf_func c).

Lemma alike_refl c : alike c c.
Proof. repeat split. Qed.

Lemma alike_trans a b c : alike a b -> alike b c -> alike a c.
Proof. unfold alike. intros (A1 & A2 & A3 & A4 & A5 & A6) (B1 & B2 & B3 & B4 & B5 & B6). repeat split; congruence. Qed.

Lemma do_call_fn (f : func V) args kwds : let f' := fst (f_do_call sub f args kwds) in
  f_spec f' = f_spec f /\ f_maps f' = f_maps f /\ f_args f' = f_args f /\ f_kwds f' = f_kwds f /\ f_callable f' = f_callable f /\
  (f_index f = None -> f_index f' = None).
Proof.
  unfold f_do_call, f_target. destruct (f_index f) as [i|] eqn:Ei.
  - destruct (f_spec f) as [it|l] eqn:Es; [cbn; repeat split; auto; discriminate|].
    destruct (py_index (length l) i) as [p|]; [|cbn; repeat split; auto; discriminate].
    destruct (nth_error l p); cbn; repeat split; auto; discriminate.
  - cbn. repeat split; auto.
Qed.

Lemma do_call_state c args kwds : alike c (fst (cf_do_call sub ustr c args kwds)) /\ cf_unknown (fst (cf_do_call sub ustr c args kwds)) = None /\
  (f_index (cf_func c) = None -> f_index (cf_func (fst (cf_do_call sub ustr c args kwds))) = None).
Proof.
  unfold cf_do_call. set (kw := match cf_unknown c with None => kwds | Some k => _ end).
  pose proof (do_call_fn (cf_func c) args kw) as (H1 & H2 & H3 & H4 & H5 & H6).
  destruct (f_do_call sub (cf_func c) args kw) as [f r]. cbn in *. repeat split; auto.
Qed.

Lemma op_alike c o : alike c (cf_op sub ustr c o).
Proof.
  destruct o as [k|i|args kwds|args kwds]; cbn [cf_op].
  - unfold cf_key. destruct (cf_bykey c) eqn:B; [|apply alike_refl]. repeat split; cbn; auto.
  - unfold cf_index, f_getitem. destruct (f_ismulti (cf_func c)); cbn; repeat split.
  - apply do_call_state.
  - unfold cf_call. destruct (f_ismulti (cf_func c)); [apply alike_refl|apply do_call_state].
Qed.

Lemma run_alike ops c : alike c (cf_run sub ustr c ops).
Proof.
  revert c. induction ops as [|o ops IH]; intros c; [apply alike_refl|].
  exact (alike_trans (op_alike c o) (IH (cf_op sub ustr c o))).
Qed.

Lemma run_app c ops ops' : cf_run sub ustr c (ops ++ ops') = cf_run sub ustr (cf_run sub ustr c ops) ops'.
Proof. apply fold_left_app. Qed.

Lemma multi_of c c' : alike c c' -> f_ismulti (cf_func c') = f_ismulti (cf_func c).
Proof. intros (_ & H & _). unfold f_ismulti. rewrite H. reflexivity. Qed.

Lemma quiet_run ops c : Forall (fun o => no_call (f_ismulti (cf_func c)) o /\ ~ asks_key o) ops ->
  cf_unknown (cf_run sub ustr c ops) = cf_unknown c.
Proof.
  revert c. induction ops as [|o ops IH]; intros c H; [reflexivity|]. inversion H as [|o' ops' [H1 H2] H3]; subst.
  change (cf_run sub ustr c (o :: ops)) with (cf_run sub ustr (cf_op sub ustr c o) ops).
  rewrite IH.
  - destruct o as [k|i|args kwds|args kwds]; cbn [cf_op].
    + destruct (H2 I).
    + unfold cf_index. destruct (f_getitem (cf_func c) i). reflexivity.
    + destruct H1.
    + cbn in H1. unfold cf_call. rewrite H1. reflexivity.
  - rewrite (multi_of (op_alike c o)). exact H3.
Qed.

(** ** The name handed over *)

Lemma called_kwds (f : func V) args kwds id a kw : f_maps f = (None, None) ->
  snd (f_do_call sub f args kwds) = Ok (FOut (Called id a kw)) ->
  kw = od_update (snd (merge_dict args kwds)) (f_kwds f).
Proof.
  intros E. unfold f_do_call. destruct (f_target f) as [f' rt]. cbn [snd]. destruct rt as [t|e]; cbn [bind]; [|discriminate].
  destruct (negb (f_callable f)).
  - destruct (assert_ _); cbn [bind]; [|discriminate]. destruct t as [[id' k' n'|v' s']|]; discriminate.
  - rewrite (surjective_pairing (merge_dict args kwds)). rewrite E. cbn [fst snd no_map andb].
    destruct t as [[id' k' n'|v' s']|]; intros H; try discriminate. injection H as _ _ <-. reflexivity.
Qed.

Lemma od_get_update_out (d e : odict V) k : ~ In k (od_keys e) -> od_get (od_update d e) k = od_get d k.
Proof.
  unfold od_update. revert d. induction e as [|[k' v'] e IH]; cbn; intros d H; [reflexivity|].
  rewrite IH by tauto. apply od_get_set_ne. intros ->. tauto.
Qed.

Lemma merged args (kwds : odict V) k : silent k args [] -> od_get (snd (merge_dict args kwds)) k = od_get kwds k.
Proof.
  intros [_ H]. unfold merge_dict. destruct args as [|[v|d|] [|]]; cbn [snd]; try reflexivity.
  apply od_get_update_out. apply H. left. reflexivity.
Qed.

Lemma silent_get args (kwds : odict V) k stored : silent k args kwds -> ~ In k (od_keys stored) ->
  od_get (od_update (snd (merge_dict args kwds)) stored) k = None.
Proof.
  intros [H1 H2] H3. rewrite od_get_update_out by exact H3. rewrite merged; [apply od_get_none; exact H1|].
  split; [intros []|exact H2].
Qed.

Section History.
Variables (c : cfn T V) (pre post : list (cop V)).
Hypothesis Hkey : cf_bykey c = true.
Hypothesis Hmaps : f_maps (cf_func c) = (None, None).
Hypothesis Hkwds : ~ In "unknown"%string (od_keys (f_kwds (cf_func c))).
Hypothesis Hpost : Forall (fun o => no_call (f_ismulti (cf_func c)) o /\ ~ asks_key o) post.

Lemma after_key k : cf_unknown (cf_run sub ustr c (pre ++ OKey k :: post)) = Some k.
Proof.
  rewrite run_app. change (OKey k :: post) with ([OKey k] ++ post). rewrite run_app. set (c1 := cf_run sub ustr c pre).
  pose proof (run_alike pre c) as A. fold c1 in A. rewrite quiet_run.
  - cbn. unfold cf_key. destruct A as [-> _]. rewrite Hkey. reflexivity.
  - change (cf_run sub ustr c1 [OKey k]) with (cf_op sub ustr c1 (OKey k)). rewrite (multi_of (op_alike c1 (OKey k))), (multi_of A). exact Hpost.
Qed.

Lemma key_handed k args kwds id a kw : silent "unknown" args [] ->
  snd (cf_do_call sub ustr (cf_run sub ustr c (pre ++ OKey k :: post)) args kwds) = Ok (FOut (Called id a kw)) ->
  od_get kw "unknown" = Some (ustr k).
Proof.
  intros HS. pose proof (run_alike (pre ++ OKey k :: post) c) as A. pose proof (after_key k) as U.
  set (c1 := cf_run sub ustr c (pre ++ OKey k :: post)) in *. unfold cf_do_call. rewrite U.
  pose proof (@called_kwds (cf_func c1) args (od_set kwds "unknown" (ustr k)) id a kw) as Q.
  destruct (f_do_call sub (cf_func c1) args _) as [f r]. cbn [snd] in *. intros ->.
  destruct A as (_ & _ & A3 & _ & A5 & _). rewrite A3, A5 in Q. rewrite (Q Hmaps eq_refl).
  rewrite od_get_update_out by exact Hkwds. rewrite merged by exact HS. apply od_get_set_eq.
Qed.

Lemma nothing_left (o : cop V) : (match o with OHandle _ _ => True | OCall _ _ => f_ismulti (cf_func c) = false | _ => False end) ->
  cf_unknown (cf_run sub ustr c (pre ++ o :: post)) = None.
Proof.
  intros HO. rewrite run_app. change (o :: post) with ([o] ++ post). rewrite run_app. set (c1 := cf_run sub ustr c pre).
  pose proof (run_alike pre c) as A. fold c1 in A. pose proof (multi_of A) as M. rewrite quiet_run.
  - destruct o as [k|i|args kwds|args kwds]; try contradiction; cbn [cf_run fold_left cf_op].
    + apply do_call_state.
    + unfold cf_call. rewrite M. rewrite HO. apply do_call_state.
  - change (cf_run sub ustr c1 [o]) with (cf_op sub ustr c1 o). rewrite (multi_of (op_alike c1 o)), M. exact Hpost.
Qed.

Lemma not_handed c1 args kwds id a kw : alike c c1 -> cf_unknown c1 = None -> silent "unknown" args kwds ->
  snd (cf_do_call sub ustr c1 args kwds) = Ok (FOut (Called id a kw)) -> ~ In "unknown"%string (od_keys kw).
Proof.
  intros A U HS. unfold cf_do_call. rewrite U.
  pose proof (@called_kwds (cf_func c1) args kwds id a kw) as Q.
  destruct (f_do_call sub (cf_func c1) args _) as [f r]. cbn [snd] in *. intros ->.
  destruct A as (_ & _ & A3 & _ & A5 & _). rewrite A3, A5 in Q. rewrite (Q Hmaps eq_refl).
  apply od_get_none. apply silent_get; auto.
Qed.

End History.

Lemma last_key c pre k post args kwds id a kw :
  cf_bykey c = true -> f_maps (cf_func c) = (None, None) -> ~ In "unknown"%string (od_keys (f_kwds (cf_func c))) ->
  Forall (fun o => no_call (f_ismulti (cf_func c)) o /\ ~ asks_key o) post -> silent "unknown" args [] ->
  snd (cf_do_call sub ustr (cf_run sub ustr c (pre ++ OKey k :: post)) args kwds) = Ok (FOut (Called id a kw)) ->
  od_get kw "unknown" = Some (ustr k).
Proof. intros H1 H2 H3 H4. exact (@key_handed c pre post H1 H2 H3 H4 k args kwds id a kw). Qed.

Lemma leak c pre k post args kwds id a kw :
  cf_bykey c = true -> f_maps (cf_func c) = (None, None) -> ~ In "unknown"%string (od_keys (f_kwds (cf_func c))) ->
  Forall (fun o => no_call (f_ismulti (cf_func c)) o /\ ~ asks_key o) post -> silent "unknown" args kwds ->
  snd (cf_call sub ustr (cf_run sub ustr c (pre ++ OKey k :: post)) args kwds) = Ok (FOut (Called id a kw)) ->
  od_get kw "unknown" = Some (ustr k).
Proof.
  intros H1 H2 H3 H4 [_ HS]. unfold cf_call. destruct (f_ismulti (cf_func (cf_run sub ustr c (pre ++ OKey k :: post)))); [cbn [snd]; intros X; discriminate X|]. refine (@key_handed c pre post H1 H2 H3 H4 k args kwds id a kw _).
  split; [intros []|exact HS].
Qed.

Lemma handed_once c pre o post args kwds id a kw :
  f_maps (cf_func c) = (None, None) -> ~ In "unknown"%string (od_keys (f_kwds (cf_func c))) ->
  (match o with OHandle _ _ => True | OCall _ _ => f_ismulti (cf_func c) = false | _ => False end) ->
  Forall (fun o => no_call (f_ismulti (cf_func c)) o /\ ~ asks_key o) post -> silent "unknown" args kwds ->
  snd (cf_do_call sub ustr (cf_run sub ustr c (pre ++ o :: post)) args kwds) = Ok (FOut (Called id a kw)) ->
  ~ In "unknown"%string (od_keys kw).
Proof.
  intros H2 H3 HO H4 HS. apply (not_handed H2 H3 (run_alike _ _)); [|exact HS]. apply nothing_left; assumption.
Qed.

Lemma never_asked c ops args kwds id a kw : cf_unknown c = None ->
  f_maps (cf_func c) = (None, None) -> ~ In "unknown"%string (od_keys (f_kwds (cf_func c))) ->
  Forall (fun o => ~ asks_key o) ops -> silent "unknown" args kwds ->
  snd (cf_do_call sub ustr (cf_run sub ustr c ops) args kwds) = Ok (FOut (Called id a kw)) ->
  ~ In "unknown"%string (od_keys kw).
Proof.
  intros H1 H2 H3 H4 HS. apply (not_handed H2 H3 (run_alike _ _)); [|exact HS]. clear -H1 H4. revert c H1.
  induction ops as [|o ops IH]; intros c H1; [exact H1|]. inversion H4; subst.
  change (cf_run sub ustr c (o :: ops)) with (cf_run sub ustr (cf_op sub ustr c o) ops). apply IH; [assumption|].
  destruct o as [k|i|args' kwds'|args' kwds']; cbn [cf_op].
  - match goal with H : ~ _ |- _ => destruct (H I) end.
  - unfold cf_index. destruct (f_getitem (cf_func c) i). exact H1.
  - apply do_call_state.
  - unfold cf_call. destruct (f_ismulti (cf_func c)); [exact H1|apply do_call_state].
Qed.

(** ** Explicit conditionals *)

Variable apply : nat -> list (parg V) -> odict V -> result (V + odict V).

Lemma tuple_call_fails (f : func V) args kwds : f_ismulti f = true -> f_index f = None -> args <> [] ->
  exists e, snd (f_do_call sub f args kwds) = Err e.
Proof.
  intros M E NE. unfold f_do_call, f_target. rewrite E. unfold f_ismulti in M. destruct (f_spec f) as [it|l]; [discriminate|].
  cbn [snd bind]. destruct (negb (f_callable f)).
  - destruct args; [congruence|]. cbn. eauto.
  - destruct (merge_dict args kwds) as [a k]. destruct (_ && _); [eauto|]. destruct (mapped_call _ _ _ _ _); cbn; eauto.
Qed.

Lemma draw_state all keys c succ : f_index (cf_func c) = None ->
  let c' := fst (draw_keys sub ustr apply all keys c succ) in f_index (cf_func c') = None /\ alike c c'.
Proof.
  revert c succ. induction keys as [|k keys IH]; intros c succ E; cbn [draw_keys]; [split; [exact E|apply alike_refl]|].
  pose proof (op_alike c (OKey k)) as A1. cbn [cf_op] in A1. unfold cf_key in *.
  destruct (cf_bykey c); [|cbn; split; [exact E|apply alike_refl]]. cbn [fst] in A1.
  set (c1 := cf_set c (cf_func c) (Some k)) in *.
  pose proof (do_call_state c1 [PDict succ] []) as (A2 & _ & A3). specialize (A3 E).
  destruct (cf_do_call sub ustr c1 [PDict succ] []) as [c2 r]. cbn [fst] in *.
  destruct (let! o := r in let! y := result_of apply o in store all k succ y) as [s'|e].
  - destruct (IH c2 s' A3) as [B1 B2]. split; [exact B1|]. exact (alike_trans (alike_trans A1 A2) B2).
  - cbn. split; [exact A3|]. exact (alike_trans A1 A2).
Qed.

Lemma draw_fails all keys c succ : f_index (cf_func c) = None -> f_ismulti (cf_func c) = true -> keys <> [] ->
  exists e, snd (draw_keys sub ustr apply all keys c succ) = Err e.
Proof.
  intros E M NE. destruct keys as [|k keys]; [congruence|]. cbn [draw_keys]. unfold cf_key. destruct (cf_bykey c); [|cbn; eauto].
  unfold cf_do_call. cbn [cf_unknown cf_set cf_func].
  destruct (@tuple_call_fails (cf_func c) [PDict succ] (od_set [] "unknown" (ustr k)) M E ltac:(discriminate)) as (e & X).
  destruct (f_do_call sub (cf_func c) _ _) as [f r]. cbn [snd] in X. rewrite X. cbn. eauto.
Qed.

Lemma eval_fails c d ts pos rev values : f_index (cf_func c) = None ->
  snd (eval_explicit sub ustr apply c d ts pos rev values) = Ok values \/
  exists e, snd (eval_explicit sub ustr apply c d ts pos rev values) = Err e.
Proof.
  intros E. unfold eval_explicit. destruct (window_of _ _ _ _) as [keys pos']. destruct rev; [cbn; eauto|].
  destruct (f_ismulti (cf_func c)) eqn:M; cbn [negb]; [|cbn; eauto].
  destruct keys as [|k keys]; [cbn; eauto|]. right.
  destruct (@draw_fails (k :: keys) (k :: keys) c values E M ltac:(discriminate)) as (e & X).
  destruct (draw_keys _ _ _ _ _ _ _) as [c' r]. cbn in *. eauto.
Qed.

Lemma eval_index c d ts pos rev values : f_index (cf_func c) = None ->
  f_index (cf_func (fst (fst (eval_explicit sub ustr apply c d ts pos rev values)))) = None /\
  alike c (fst (fst (eval_explicit sub ustr apply c d ts pos rev values))).
Proof.
  intros E. unfold eval_explicit. destruct (window_of _ _ _ _) as [keys pos']. destruct rev; [cbn; split; [exact E|apply alike_refl]|].
  destruct (f_ismulti (cf_func c)) eqn:M; cbn [negb]; [|cbn; split; [exact E|apply alike_refl]].
  pose proof (draw_state keys keys c values E) as H. destruct (draw_keys _ _ _ _ _ _ _) as [c' r]. exact H.
Qed.

Lemma evals_nothing l : forall c d ts pos, f_index (cf_func c) = None ->
  Forall draws_nothing (evals sub ustr apply c d ts pos l).
Proof.
  induction l as [|[rev values] l IH]; intros c d ts pos E; cbn [evals]; [constructor|].
  pose proof (eval_fails c d ts pos rev values E) as H1. pose proof (eval_index c d ts pos rev values E) as [H2 _].
  destruct (eval_explicit _ _ _ _ _ _ _ _ _) as [[c' pos'] r]. cbn [fst snd] in *. constructor; [|apply IH; exact H2].
  unfold draws_nothing. cbn. tauto.
Qed.

Lemma evals_single l : forall c d ts pos, f_ismulti (cf_func c) = false ->
  Forall fails (evals sub ustr apply c d ts pos l).
Proof.
  induction l as [|[rev values] l IH]; intros c d ts pos E; cbn [evals]; [constructor|].
  unfold eval_explicit. destruct (window_of _ _ _ _) as [keys pos']. rewrite E. cbn [negb].
  destruct rev; constructor; try (apply IH; exact E); unfold fails; cbn; eauto.
Qed.

Lemma evals_all l : forall c d pos, f_index (cf_func c) = None -> d <> [] ->
  Forall fails (evals sub ustr apply c d None pos l).
Proof.
  induction l as [|[rev values] l IH]; intros c d pos E NE; cbn [evals]; [constructor|].
  pose proof (eval_index c d None pos rev values E) as [H2 _].
  assert (F : exists e, snd (eval_explicit sub ustr apply c d None pos rev values) = Err e).
  { unfold eval_explicit. cbn [window_of]. destruct rev; [cbn; eauto|].
    destruct (f_ismulti (cf_func c)) eqn:M; cbn [negb]; [|cbn; eauto].
    destruct (@draw_fails (od_keys d) (od_keys d) c values E M) as (e & X); [destruct d; [congruence|discriminate]|].
    destruct (draw_keys _ _ _ _ _ _ _) as [c' r]. cbn in *. eauto. }
  destruct (eval_explicit _ _ _ _ _ _ _ _ _) as [[c' pos'] r]. cbn [fst snd] in *. constructor; [exact F|]. apply IH; assumption.
Qed.

Lemma never_drawn o d (a : cfuncarg V) args kwds order delta c : d <> [] -> make_cf o (InOrd d) a args kwds order delta = Ok c ->
  forall l, (forall ts pos, Forall draws_nothing (evals sub ustr apply c d ts pos l)) /\
    (forall pos, Forall fails (evals sub ustr apply c d None pos l)) /\
    (f_ismulti (cf_func c) = false -> forall ts pos, Forall fails (evals sub ustr apply c d ts pos l)).
Proof.
  intros NE H l. apply make_cf_func in H as [H _]. apply set_func_parts in H.
  split; [|split].
  - intros ts pos. apply evals_nothing. exact H.
  - intros pos. apply evals_all; assumption.
  - intros M ts pos. apply evals_single. exact M.
Qed.

(** ** Copies of functions *)

Lemma copied (g : func V) id s args kwds order delta : make_func s args kwds order delta = Ok g ->
  cf_set_func (FaFunc g id) [] [] None None = Ok g.
Proof.
  intros H. pose proof (make_func_parts _ _ _ _ _ H) as (E1 & E2 & E3 & E4 & E5 & _).
  cbn [cf_set_func nilb noneb andb]. rewrite E1, E2, E3. unfold make_func in *.
  destruct (assert_ _); [|discriminate]. cbn [bind] in *. destruct (assert_ _); [|discriminate]. cbn [bind] in *.
  destruct (_ || _) eqn:P; [|discriminate]. cbn [assert_ bind] in H.
  assert (P' : (match fspec_items s with [] => false | it :: _ => item_callable it end) || (nilb args && nilb kwds && noneb (@None mapping) && noneb (@None mapping)) = true).
  { destruct (match fspec_items s with [] => false | it :: _ => item_callable it end); [reflexivity|]. cbn in *.
    destruct (nilb args), (nilb kwds); cbn in *; try discriminate. reflexivity. }
  rewrite P'. cbn [assert_ bind].
  destruct order as [o|], delta as [d|]; cbn [ExprModel.set_order ExprModel.set_delta fst snd bind f_maps] in *.
  - destruct (check_mapping o); discriminate.
  - destruct (check_mapping o) eqn:C; [|discriminate]. injection H as <-. cbn. rewrite C. reflexivity.
  - destruct (check_mapping d) eqn:C; [|discriminate]. injection H as <-. cbn. rewrite C. reflexivity.
  - injection H as <-. reflexivity.
Qed.

Lemma copied_calls (g : func V) id s fargs fkwds order delta o i c : make_func s fargs fkwds order delta = Ok g -> f_ismulti g = false ->
  make_cf o i (FaFunc g id) [] [] None None = Ok c ->
  forall args kwds, snd (cf_call sub ustr c args kwds) = snd (f_call sub g args kwds).
Proof.
  intros H M HC args kwds. apply make_cf_func in HC as [HC HU]. rewrite (copied id _ _ _ _ _ H) in HC. injection HC as HC.
  unfold cf_call, f_call. rewrite <- HC, M. unfold cf_do_call. rewrite HU, <- HC. destruct (f_do_call sub g args kwds). reflexivity.
Qed.

(** ** Losing the order *)

Lemma order_lost (f : field T) id n k v : 1 < length (fd_keys f) ->
  exists c c' : cfn T V,
    make_cf (CoRf f false) InNone (FaItems (FSingle (Fun id Named n))) [] [] (Some [(k, MInt 0)]) None = Ok c /\
    snd (cf_call sub ustr c [] [(k, v)]) = Ok (FOut (Called id [PVal v] [])) /\
    adopt f c = Ok c' /\ snd (cf_call sub ustr c' [] [(k, v)]) = Ok (FOut (Called id [] [(k, v)])).
Proof.
  intros L. apply Nat.ltb_lt in L.
  assert (S : set_inp (Some f) InNone = Ok (join "|" [join "," (map primed (fd_keys f)); join "," (fd_keys f)], HNone, false)).
  { cbn [set_inp]. rewrite L. reflexivity. }
  set (name := join "|" _) in S.
  exists (mkCF f HNone name false (mkFn (FSingle (Fun id Named n)) [] [] (Some [(k, MInt 0)], None) true None) None),
         (mkCF f HNone name false (mkFn (FSingle (Fun id Named n)) [] [] (None, None) true None) None).
  unfold adopt, make_cf. cbn [to_rf negb assert_ bind cf_inp cf_func]. rewrite S. cbn [bind cf_set_func f_spec f_args f_kwds].
  split; [reflexivity|]. split; [|split; reflexivity].
  unfold cf_call, cf_do_call. cbn [f_ismulti cf_func f_spec cf_unknown]. unfold f_do_call, f_target. cbn [f_index f_spec f_callable negb snd fst bind].
  cbn. unfold pop, od_getR. cbn. rewrite String.eqb_refl. cbn. reflexivity.
Qed.

(** ** Names *)

Lemma names f g (a : cfuncarg V) args kwds order delta c :
  make_cf (CoRf f false) (InObj (CoRf g false)) a args kwds order delta = Ok c -> cf_name c = given_name (fd_keys f) (fd_keys g) /\ cf_bykey c = false.
Proof.
  unfold make_cf. cbn [to_rf negb assert_ bind set_inp]. destruct (cf_set_func a args kwds order delta); cbn [bind]; [|discriminate].
  intros E. injection E as <-. split; reflexivity.
Qed.

Lemma names_self f (a : cfuncarg V) args kwds order delta c :
  make_cf (CoRf f false) InNone a args kwds order delta = Ok c ->
  1 < length (fd_keys f) /\ cf_name c = given_name (marked (fd_keys f)) (fd_keys f) /\ cf_bykey c = false.
Proof.
  unfold make_cf. cbn [to_rf negb assert_ bind set_inp]. destruct (1 <? length (fd_keys f)) eqn:L; cbn [assert_ bind]; [|discriminate].
  apply Nat.ltb_lt in L. destruct (cf_set_func a args kwds order delta); cbn [bind]; [|discriminate].
  intros E. injection E as <-. auto.
Qed.

End P.
