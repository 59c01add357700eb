(** Proofs about Distribution.lookup. *)
From Coq Require Import String Ascii ZArith Reals Bool Arith Lia Permutation List.
From Verif Require Import Base Num Tensor OdLemmas TensorLemmas RNumLemmas Names Names_Spec Names_Proofs PScales PScales_Spec
  Distr Distr_Spec Distr_Proofs PDModel PD_Spec PD_Sums PD_Make PD_Valid LookupModel Lookup_Spec.
Import ListNotations.
Local Open Scope bool_scope.
Local Open Scope list_scope.

Lemma same_axis_sym d k k' : same_axis d k k' = same_axis d k' k.
Proof. unfold same_axis. destruct (od_get (d_dims d) k) as [[i|]|], (od_get (d_dims d) k') as [[j|]|]; try reflexivity. apply Z.eqb_sym. Qed.

Lemma same_axis_trans d a b c : same_axis d a b = true -> same_axis d b c = true -> same_axis d a c = true.
Proof.
  unfold same_axis. destruct (od_get (d_dims d) a) as [[i|]|], (od_get (d_dims d) b) as [[j|]|], (od_get (d_dims d) c) as [[l|]|]; try discriminate.
  rewrite !Z.eqb_eq. congruence.
Qed.

Lemma asked_some (d : dist R) keys : keys <> [] -> asked_keys d keys = keys.
Proof. destruct keys; [contradiction|reflexivity]. Qed.

Section Lookup.
Variable d : dist R.
Variable keys : list string.
Let col := is_column d.
Let asked k := mem_str k keys.
Let group := together d keys.
Hypothesis ND : NoDup (d_keylist d).
Hypothesis Hitems : combine (d_keylist d) (d_aresing d) = map (fun k => (k, negb (col k))) (d_keylist d).
Hypothesis Hdim : forall k, col k = true -> exists j, od_get (d_dims d) k = Some (Some j).
Hypothesis Hcomma : forall k, In k (d_keylist d) -> asked k = true -> ~ occurs ","%char k.
Hypothesis NE : keys <> [].

Lemma col_arr k : col k = true -> exists a, od_get (d_vals d) k = Some (VArr a) /\ column_value d k = VArr (of_list 0%R (to_list a)).
Proof.
  intros C. unfold column_value. fold (col k). rewrite C. unfold col, is_column in C.
  destruct (od_get (d_vals d) k) as [v|]; [|discriminate]. destruct v as [x|s|l|a|]; try discriminate. exists a. auto.
Qed.

Lemma ravel_col k : col k = true -> (let! v := od_getR (d_vals d) k in ravel_value v) = Ok (column_value d k).
Proof.
  intros C. destruct (col_arr k C) as (a & G & E). assert (od_getR (d_vals d) k = Ok (VArr a)) as -> by (apply od_getR_ok; exact G).
  cbn. rewrite E. reflexivity.
Qed.

Lemma same_refl k : col k = true -> same_axis d k k = true.
Proof. intros C. destruct (Hdim k C) as (j & E). unfold same_axis. rewrite E. apply Z.eqb_refl. Qed.

Lemma dim_eqb_same k k' : col k = true -> col k' = true ->
  exists i j, od_getR (d_dims d) k = Ok i /\ od_getR (d_dims d) k' = Ok j /\ dim_eqb i j = same_axis d k k'.
Proof.
  intros C C'. destruct (Hdim k C) as (i & E). destruct (Hdim k' C') as (j & E'). exists (Some i), (Some j).
  split; [apply od_getR_ok; exact E|]. split; [apply od_getR_ok; exact E'|]. unfold same_axis. rewrite E, E'. reflexivity.
Qed.

Definition in_group k k' := asked k' && col k' && same_axis d k k'.

Lemma shared_ok k post : col k = true ->
  shared_keys d keys k (map (fun k => (k, negb (col k))) post) = Ok (k :: filter (in_group k) post).
Proof.
  intros C. unfold shared_keys. destruct (dim_eqb_same k k C C) as (i & _ & E & _). rewrite E. cbn [bind].
  match goal with |- context [fold_res ?f _ []] => set (g := f) end.
  assert (Q : forall l acc, fold_res g (map (fun k => (k, negb (col k))) l) acc = Ok (acc ++ filter (in_group k) l)).
  { induction l as [|x l IH]; intros acc; [cbn; rewrite app_nil_r; reflexivity|]. cbn [map fold_res]. unfold g at 1. cbn [fst snd].
    rewrite negb_involutive. cbn [filter]. unfold in_group at 1. unfold asked.
    destruct (mem_str x keys && col x) eqn:M.
    - apply andb_true_iff in M. destruct M as [_ Cx]. destruct (dim_eqb_same k x C Cx) as (i' & j & E' & Ej & Ed).
      assert (i' = i) by congruence. subst i'. rewrite Ej. cbn [bind]. rewrite Ed. rewrite IH. cbn [andb].
      destruct (same_axis d k x); [rewrite <- app_assoc|]; reflexivity.
    - cbn [bind andb]. apply IH. }
  rewrite Q. reflexivity.
Qed.

(** The first name in a key of the result. *)
Lemma answer_key k : In k (d_keylist d) -> leads d keys k = true -> hd ""%string (split_char ","%char (fst (answer d keys k))) = k.
Proof.
  intros I H. unfold leads in H. apply andb_true_iff in H. destruct H as [A H].
  assert (FR : hd ""%string (split_char ","%char k) = k) by (rewrite split_char_free by (apply Hcomma; assumption); reflexivity).
  unfold answer. fold (col k) in *. destruct (col k) eqn:C; [|exact FR].
  cbn [negb orb] in H. fold (group k) in *. destruct (group k) as [|k0 [|k1 l]] eqn:G; try exact FR. cbn [fst].
  apply String.eqb_eq in H. subst k0.
  rewrite (split_join ","%char (k :: k1 :: l)); [reflexivity|discriminate|].
  apply Forall_forall. intros s Is. rewrite <- G in Is. unfold group, together in Is. apply filter_In in Is. destruct Is as [Is M].
  apply andb_true_iff in M. destruct M as [M _]. apply andb_true_iff in M. apply Hcomma; tauto.
Qed.

Lemma answer_new pre k post : d_keylist d = pre ++ k :: post -> leads d keys k = true ->
  ~ In (fst (answer d keys k)) (od_keys (map (answer d keys) (filter (leads d keys) pre))).
Proof.
  intros E H C. unfold od_keys in C. rewrite map_map in C. apply in_map_iff in C. destruct C as (k' & Ek & I).
  apply filter_In in I. destruct I as [I H'].
  assert (Q : hd ""%string (split_char ","%char (fst (answer d keys k'))) = k') by (apply answer_key; [rewrite E; apply in_app_iff; auto|exact H']).
  rewrite Ek, answer_key in Q; [|rewrite E; apply in_elt|exact H]. subst k'.
  rewrite E in ND. apply NoDup_remove_2 in ND. apply ND, in_app_iff. auto.
Qed.

Lemma lookup_loop_ok post : forall pre seen vals, d_keylist d = pre ++ post ->
  (forall k, In k post -> asked k = true -> (In k seen <-> col k = true /\ exists k0, In k0 pre /\ in_group k k0 = true)) ->
  vals = map (answer d keys) (filter (leads d keys) pre) ->
  lookup_loop d keys (map (fun k => (k, negb (col k))) post) seen vals
  = Ok (map (answer d keys) (filter (leads d keys) (d_keylist d))).
Proof.
  induction post as [|k post IH]; intros pre seen vals E S ->.
  - rewrite app_nil_r in E. rewrite E. reflexivity.
  - assert (E' : d_keylist d = (pre ++ [k]) ++ post) by (rewrite <- app_assoc; exact E).
    assert (Ik : In k (d_keylist d)) by (rewrite E; apply in_elt).
    assert (Np : ~ In k post) by (rewrite E in ND; apply NoDup_remove_2 in ND; intros C; apply ND, in_app_iff; auto).
    assert (TG : group k = filter (in_group k) pre ++ (if in_group k k then [k] else []) ++ filter (in_group k) post).
    { unfold group, together. fold (asked). change (fun k' => mem_str k' keys && is_column d k' && same_axis d k k') with (in_group k).
      rewrite E, filter_app. cbn [filter]. destruct (in_group k k); reflexivity. }
    cbn [map lookup_loop]. fold (asked k).
    destruct (asked k) eqn:A; cbn [andb].
    2:{ apply (IH (pre ++ [k])); [exact E'| |].
        - intros k' I' A'. rewrite (S k' (or_intror I') A'). split; intros [C (k0 & I0 & G0)]; split; auto; exists k0; (split; [|exact G0]).
          + apply in_app_iff. auto.
          + apply in_app_iff in I0. destruct I0 as [I0|[<-|[]]]; [exact I0|]. unfold in_group in G0. rewrite A in G0. discriminate.
        - rewrite filter_app, map_app. cbn [filter]. unfold leads at 3. fold (asked k). rewrite A. cbn. rewrite app_nil_r. reflexivity. }
    destruct (mem_str k seen) eqn:M; cbn [negb].
    + apply mem_str_iff in M. apply (S k (or_introl eq_refl) A) in M. destruct M as [C (k0 & I0 & G0)].
      apply (IH (pre ++ [k])); [exact E'| |].
      * intros k' I' A'. rewrite (S k' (or_intror I') A'). split; intros [C' (k1 & I1 & G1)]; split; auto.
        -- exists k1. split; [apply in_app_iff; auto|exact G1].
        -- apply in_app_iff in I1. destruct I1 as [I1|[<-|[]]]; [eauto|]. exists k0. split; [exact I0|].
           unfold in_group in *. rewrite !andb_true_iff in *. destruct G0 as [[? ?] ?], G1 as [[? ?] ?]. repeat split; auto.
           eapply same_axis_trans; eauto.
      * rewrite filter_app, map_app. cbn [filter].
        assert (L : leads d keys k = false).
        { unfold leads. fold (asked k) (col k) (group k). rewrite A, C, TG. cbn [negb orb andb].
          assert (Q : In k0 (filter (in_group k) pre)) by (apply filter_In; auto).
          destruct (filter (in_group k) pre) as [|k1 l] eqn:Ef; [destruct Q|]. cbn [app].
          apply String.eqb_neq. intros ->. assert (Q1 : In k (filter (in_group k) pre)) by (rewrite Ef; left; reflexivity).
          apply filter_In in Q1. rewrite E in ND. apply NoDup_remove_2 in ND. apply ND, in_app_iff. tauto. }
        rewrite L. cbn. rewrite app_nil_r. reflexivity.
    + assert (NS : ~ In k seen) by (apply mem_str_false; exact M).
      destruct (col k) eqn:C; cbn [negb].
      * assert (F0 : filter (in_group k) pre = []).
        { destruct (filter (in_group k) pre) as [|k1 l] eqn:Ef; [reflexivity|]. exfalso. apply NS, (S k (or_introl eq_refl) A).
          split; [exact C|]. exists k1. apply filter_In. rewrite Ef. left. reflexivity. }
        assert (GK : in_group k k = true) by (unfold in_group; rewrite A, C, same_refl by exact C; reflexivity).
        rewrite F0, GK in TG. cbn [app] in TG.
        assert (L : leads d keys k = true).
        { unfold leads. fold (asked k) (col k) (group k). rewrite A, C, TG. cbn. apply String.eqb_refl. }
        rewrite shared_ok by exact C. cbn [bind].
        assert (IV : forall s', (forall x, In x s' <-> x = k \/ In x (filter (in_group k) post) \/ In x seen) ->
          forall k', In k' post -> asked k' = true -> (In k' s' <-> col k' = true /\ exists k0, In k0 (pre ++ [k]) /\ in_group k' k0 = true)).
        { intros s' Hs k' I' A'. rewrite Hs, filter_In, (S k' (or_intror I') A'). split.
          - intros [->|[[_ G]|[C' (k0 & I0 & G0)]]].
            + contradiction.
            + unfold in_group in G. rewrite !andb_true_iff in G. destruct G as [[_ C'] G]. split; [exact C'|]. exists k.
              split; [apply in_elt|]. unfold in_group. rewrite A, C, same_axis_sym, G. reflexivity.
            + split; [exact C'|]. exists k0. split; [apply in_app_iff; auto|exact G0].
          - intros [C' (k0 & I0 & G0)]. apply in_app_iff in I0. destruct I0 as [I0|[<-|[]]].
            + right. right. split; [exact C'|]. eauto.
            + right. left. split; [exact I'|]. unfold in_group in *. rewrite A', C', same_axis_sym. rewrite !andb_true_iff in G0.
              destruct G0 as [_ ->]. reflexivity. }
        assert (AN := answer_new pre k post E L).
        destruct (filter (in_group k) post) as [|k1 l] eqn:Ef.
        -- assert (RV := ravel_col k C). destruct (od_getR (d_vals d) k) as [v|]; cbn [bind] in *; [|discriminate].
           rewrite RV. cbn [bind]. apply (IH (pre ++ [k])); [exact E'| |].
           ++ apply IV. intros x. cbn. intuition congruence.
           ++ assert (AK : answer d keys k = (k, Single (column_value d k))).
              { unfold answer. fold (col k) (group k). rewrite C, TG. reflexivity. }
              rewrite AK in AN. rewrite filter_app, map_app. cbn [filter]. rewrite L. cbn [map]. rewrite AK. apply od_set_new. exact AN.
        -- rewrite (map_res_all _ (column_value d)).
           2:{ intros x Ix. apply ravel_col. destruct Ix as [<-|Ix]; [exact C|]. rewrite <- Ef in Ix. apply filter_In in Ix.
               destruct Ix as [_ Ix]. unfold in_group in Ix. rewrite !andb_true_iff in Ix. tauto. }
           cbn [bind]. apply (IH (pre ++ [k])); [exact E'| |].
           ++ apply IV. intros x. rewrite in_app_iff. cbn. intuition congruence.
           ++ assert (AK : answer d keys k = (join ","%string (k :: k1 :: l), Shared (map (column_value d) (k :: k1 :: l)))).
              { unfold answer. fold (col k) (group k). rewrite C, TG. reflexivity. }
              rewrite AK in AN. rewrite filter_app, map_app. cbn [filter]. rewrite L. cbn [map]. rewrite AK. apply od_set_new. exact AN.
      * assert (L : leads d keys k = true) by (unfold leads; fold (asked k) (col k); rewrite A, C; reflexivity).
        assert (AN := answer_new pre k post E L).
        assert (G : exists v, od_get (d_vals d) k = Some v) by (apply od_key_get; exact Ik). destruct G as (v & G).
        assert (od_getR (d_vals d) k = Ok v) as -> by (apply od_getR_ok; exact G). cbn [bind].
        assert (AK : answer d keys k = (k, Single v)).
        { unfold answer, column_value. fold (col k). rewrite C, G. destruct v; reflexivity. }
        rewrite AK in AN. apply (IH (pre ++ [k])); [exact E'| |].
        -- intros k' I' A'. cbn [In]. rewrite (S k' (or_intror I') A'). split.
           ++ intros [->|[C' (k0 & I0 & G0)]]; [contradiction|]. split; [exact C'|]. exists k0. split; [apply in_app_iff; auto|exact G0].
           ++ intros [C' (k0 & I0 & G0)]. right. split; [exact C'|]. apply in_app_iff in I0. destruct I0 as [I0|[<-|[]]]; [eauto|].
              exfalso. unfold in_group in G0. rewrite C, andb_false_r in G0. discriminate.
        -- rewrite filter_app, map_app. cbn [filter]. rewrite L. cbn [map]. rewrite AK. apply od_set_new. exact AN.
Qed.

Lemma lookup_ok : lookup d keys = Ok (map (answer d keys) (filter (leads d keys) (d_keylist d))).
Proof.
  unfold lookup. rewrite (asked_some d keys NE), Hitems.
  apply (lookup_loop_ok (d_keylist d) []); try reflexivity.
  intros k I A. split; [intros []|]. intros [_ (k1 & [] & _)].
Qed.
End Lookup.

(** *** Distributions that can be made *)
Lemma sing_not_column (v : value R) : issingleton v = true -> match v with VArr a => negb (ndim a =? 0)%nat | _ => false end = false.
Proof. destruct v as [x|s|l|a|]; try reflexivity. unfold issingleton, ndim. cbn. destruct (shape a); [reflexivity|discriminate]. Qed.

Local Notation cleaned vals := (map (fun kv => (fst kv, kept (snd kv))) vals).

Lemma made_items name vals dims d : NoDup (od_keys vals) -> vals <> [] -> make_dist name vals (Some dims) = Ok d ->
  NoDup (d_keylist d) /\ combine (d_keylist d) (d_aresing d) = map (fun k => (k, negb (is_column d k))) (d_keylist d) /\
  (forall k, is_column d k = true -> exists j, od_get (d_dims d) k = Some (Some j)).
Proof.
  intros NDv NEv M. assert (NA : naxes dims (ndim_of_dims dims)) by (apply naxes_iff; reflexivity).
  set (n := ndim_of_dims dims) in *.
  assert (DS : describes vals dims n) by (apply (proj1 (make_dist_iff name vals dims n NDv NEv NA)); eauto).
  destruct (make_dist_result name vals dims n d NDv NEv NA M) as (_ & K & _ & _ & _ & Hs & Hc & _).
  destruct DS as (_ & Dv & _).
  assert (AR : d_aresing d = map (fun kv => issingleton (snd kv)) (cleaned vals)).
  { unfold make_dist in M. destruct vals as [|kv0 vals0] eqn:EV; [contradiction|]. rewrite <- EV in *.
    destruct (clean_vals vals) as [vals1|] eqn:CV; cbn [bind] in M; [|discriminate].
    pose proof (clean_inv _ _ CV) as ->.
    destruct (fold_res _ _ _) as [st|] eqn:FR; cbn [bind] in M; [|discriminate].
    destruct (full_shape (s_shape st)) as [shp|] eqn:FS; cbn [bind] in M; [|discriminate]. injection M as <-. reflexivity. }
  assert (CL : forall k v, od_get vals k = Some v -> issingleton (kept v) = negb (is_column d k) /\
    (is_column d k = true -> exists j, od_get (d_dims d) k = Some (Some j))).
  { intros k v G. destruct (Dv k v G) as [[SV _]|(a & j & C & O)].
    - destruct (Hs k v G SV) as [E1 E2]. apply kept_sing in SV. unfold is_column. rewrite E1, SV.
      assert (Q := sing_not_column _ SV). destruct (kept v); cbn in *; try rewrite Q; split; try reflexivity; try discriminate.
    - destruct (Hc k a j C O) as (E1 & a' & E2 & E3 & _). destruct C as [G' OA]. assert (v = VArr a) by congruence. subst v.
      unfold is_column. rewrite E2. unfold ndim. rewrite E3. cbn [kept]. rewrite arr_not_singleton by apply OA.
      unfold along. rewrite app_length. cbn. replace (length (repeat 1 j) + S (length (repeat 1 (n - S j))) =? 0)%nat with false by (symmetry; apply Nat.eqb_neq; lia).
      split; [reflexivity|]. intros _. rewrite E1. destruct O as (z & O & _). eauto. }
  split; [rewrite K; exact NDv|]. split.
  - rewrite K, AR. clear -CL NDv.
    assert (Q : forall l, (forall k v, In (k, v) l -> od_get vals k = Some v) ->
      combine (od_keys l) (map (fun kv => issingleton (snd kv)) (cleaned l)) = map (fun k => (k, negb (is_column d k))) (od_keys l)).
    { induction l as [|[k v] l IH]; intros H; [reflexivity|]. cbn [od_keys map fst].
      cbn [snd combine].
      f_equal; [|apply IH; intros; apply H; right; assumption]. f_equal. apply CL, H. left. reflexivity. }
    apply Q. intros k v I. apply od_in_get; assumption.
  - intros k C. destruct (od_get vals k) as [v|] eqn:G; [apply (CL k v G), C|]. exfalso.
    unfold is_column in C. destruct (od_get (d_vals d) k) as [v|] eqn:G2; [|discriminate].
    apply od_get_some_key in G2. unfold d_keylist in K. rewrite K in G2. apply od_key_get in G2. destruct G2 as (w & G2). congruence.
Qed.

Lemma lookup_made name vals dims d keys : NoDup (od_keys vals) -> vals <> [] -> make_dist name vals (Some dims) = Ok d ->
  keys <> [] -> (forall k, In k (od_keys vals) -> In k keys -> ~ occurs ","%char k) ->
  lookup d keys = Ok (map (answer d keys) (filter (leads d keys) (d_keylist d))).
Proof.
  intros NDv NEv M NE HC. destruct (made_items name vals dims d NDv NEv M) as (H1 & H2 & H3).
  assert (K : d_keylist d = od_keys vals).
  { assert (NA : naxes dims (ndim_of_dims dims)) by (apply naxes_iff; reflexivity).
    apply (make_dist_result name vals dims _ d NDv NEv NA M). }
  apply lookup_ok; auto. intros k I A. apply HC; [rewrite <- K; exact I|apply mem_str_iff; exact A].
Qed.

Lemma of_list_id (l : list R) : to_list (of_list 0%R l) = l.
Proof.
  apply nth_ext with (d := 0%R) (d' := 0%R).
  - rewrite to_list_length. cbn. lia.
  - intros i H. rewrite to_list_length in H. rewrite to_list_nth by exact H. cbn in *.
    f_equal. pose proof (Nat.div_1_r i) as D. cbn in D. exact D.
Qed.

(** *** Well-formed probability distributions *)
Section Valid.
Context {F : Fmt R}.
Variable p : pd R.
Variable L : list string.
Hypothesis V : valid_pd p L.

Let d := p_d p.

Lemma column_iff k : In k (p_keylist p) -> (is_column d k = true <-> In k L).
Proof.
  intros K. destruct (vp_get p k K) as (v & G). unfold is_column. fold (p_vals p) in G. unfold p_vals in G. fold d in G. split.
  - rewrite G. intros C. apply (vp_sing_false p L V k v G). destruct v as [x|s|l|a|]; try discriminate.
    apply arr_not_singleton. unfold ndim in C. intros E. rewrite E in C. discriminate.
  - intros I. destruct (vp_axis p L V k I) as (a & G' & Sh & _). unfold p_vals in G'. fold d in G'. rewrite G'. unfold ndim. rewrite Sh.
    destruct (pos k L); reflexivity.
Qed.

Lemma valid_items : NoDup (d_keylist d) /\ combine (d_keylist d) (d_aresing d) = map (fun k => (k, negb (is_column d k))) (d_keylist d) /\
  (forall k, is_column d k = true -> exists j, od_get (d_dims d) k = Some (Some j)).
Proof.
  split; [apply (vp_keys _ _ V)|]. split.
  - unfold d at 2. rewrite (vp_aresing _ _ V). unfold d_keylist. change (d_vals d) with (p_vals p).
    assert (Q : forall l, (forall k v, In (k, v) l -> od_get (p_vals p) k = Some v) ->
      combine (od_keys l) (map (fun kv => issingleton (snd kv)) l) = map (fun k => (k, negb (is_column d k))) (od_keys l)).
    { induction l as [|[k v] l IH]; intros H; [reflexivity|]. cbn [od_keys map fst snd combine].
      f_equal; [|apply IH; intros; apply H; right; assumption]. f_equal.
      assert (G : od_get (p_vals p) k = Some v) by (apply H; left; reflexivity).
      assert (K : In k (p_keylist p)) by (eapply od_get_some_key; exact G).
      pose proof (column_iff k K) as A. pose proof (vp_sing p L V k v G) as B.
      destruct (is_column d k), (issingleton v); try reflexivity; exfalso.
      - apply (proj1 B eq_refl), A. reflexivity.
      - assert (Q : In k L \/ ~ In k L) by (destruct (in_dec string_dec k L); auto). destruct Q as [Q|Q]; [apply A in Q|apply B in Q]; discriminate. }
    apply Q. intros k v I. apply od_in_get; [apply (vp_keys _ _ V)|exact I].
  - intros k C. assert (K : In k (p_keylist p)).
    { unfold is_column in C. destruct (od_get (d_vals d) k) eqn:G; [|discriminate]. eapply od_get_some_key. exact G. }
    apply (column_iff k K) in C. destruct (vp_axis p L V k C) as (_ & _ & _ & _ & _ & _ & E). eauto.
Qed.

Lemma valid_alone keys k : In k (p_keylist p) -> In k L -> In k keys -> together d keys k = [k].
Proof.
  intros K I A. unfold together.
  assert (Q : forall l, NoDup l -> incl l (p_keylist p) ->
    filter (fun k' => mem_str k' keys && is_column d k' && same_axis d k k') l = if mem_str k l then [k] else []).
  { induction l as [|x l IH]; intros N1 Il; [reflexivity|]. cbn [filter]. inversion N1; subst. rewrite IH by (auto; intros y Y; apply Il; right; exact Y).
    assert (Kx : In x (p_keylist p)) by (apply Il; left; reflexivity).
    cbn [mem_str existsb]. fold (mem_str k l). destruct (String.eqb_spec k x) as [<-|Nx].
    - cbn [orb]. assert (M : mem_str k l = false) by (apply mem_str_false; assumption). rewrite M.
      assert (mem_str k keys = true) as -> by (apply mem_str_iff; exact A). assert (is_column d k = true) as -> by (apply column_iff; assumption).
      destruct (vp_axis p L V k I) as (_ & _ & _ & _ & _ & _ & E). unfold p_dims in E. fold d in E. unfold same_axis. rewrite E, Z.eqb_refl. reflexivity.
    - cbn [orb].
      assert (mem_str x keys && is_column d x && same_axis d k x = false) as ->; [|reflexivity].
      destruct (is_column d x) eqn:C; [|rewrite andb_false_r; reflexivity]. apply andb_false_iff. right.
      apply (column_iff x Kx) in C. destruct (vp_axis p L V k I) as (_ & _ & _ & _ & _ & _ & E). destruct (vp_axis p L V x C) as (_ & _ & _ & _ & _ & _ & E').
      unfold p_dims in E, E'. fold d in E, E'. unfold same_axis. rewrite E, E'. apply Z.eqb_neq. intros Q.
      apply Nat2Z.inj in Q. apply Nx. exact (pos_inj k x L I C Q). }
  change (d_keylist d) with (p_keylist p). rewrite Q; [|apply (vp_keys _ _ V)|apply incl_refl].
  assert (mem_str k (p_keylist p) = true) as -> by (apply mem_str_iff; exact K). reflexivity.
Qed.

Lemma valid_lookup keys : keys <> [] -> (forall k, In k (p_keylist p) -> In k keys -> ~ occurs ","%char k) ->
  exists vals, lookup d keys = Ok vals /\ od_keys vals = filter (fun k => mem_str k keys) (p_keylist p) /\
    forall k, In k (p_keylist p) -> In k keys -> exists v, od_get vals k = Some (Single v) /\ variable p k = Some (var_of v) /\
      (In k L -> exists l, v = VArr (of_list 0%R l)) /\ (~ In k L -> od_get (p_vals p) k = Some v).
Proof.
  intros NE HC. destruct valid_items as (H1 & H2 & H3).
  assert (LE : forall k, In k (p_keylist p) -> leads d keys k = mem_str k keys).
  { intros k K. unfold leads. destruct (mem_str k keys) eqn:M; [|reflexivity]. cbn [andb].
    destruct (is_column d k) eqn:C; [|reflexivity]. cbn [negb orb].
    rewrite valid_alone; [apply String.eqb_refl|exact K|apply column_iff; assumption|apply mem_str_iff; exact M]. }
  assert (AN : forall k, In k (p_keylist p) -> In k keys -> answer d keys k = (k, Single (column_value d k))).
  { intros k K A. unfold answer. destruct (is_column d k) eqn:C; [|reflexivity].
    rewrite valid_alone; [reflexivity|exact K|apply column_iff; assumption|exact A]. }
  exists (map (fun k => (k, Single (column_value d k))) (filter (fun k => mem_str k keys) (p_keylist p))). split; [|split].
  - rewrite (lookup_ok d keys H1 H2 H3); [|intros k K A; apply HC; [exact K|apply mem_str_iff; exact A]|exact NE]. f_equal.
    change (d_keylist d) with (p_keylist p).
    rewrite (filter_ext_in _ (fun k => mem_str k keys)) by exact LE. apply map_ext_in. intros k K. apply filter_In in K. destruct K as [K A].
    apply AN; [exact K|apply mem_str_iff; exact A].
  - unfold od_keys. rewrite map_map. apply map_id.
  - intros k K A. exists (column_value d k). split.
    + apply od_in_get.
      * unfold od_keys. rewrite map_map. cbn [fst]. rewrite map_id. apply NoDup_filter, (vp_keys _ _ V).
      * apply in_map_iff. exists k. split; [reflexivity|]. apply filter_In. split; [exact K|apply mem_str_iff; exact A].
    + destruct (vp_get p k K) as (v & G). unfold variable. rewrite G. unfold column_value. unfold p_vals in G. fold d in G. rewrite G.
      destruct (is_column d k) eqn:C.
      * apply (column_iff k K) in C. assert (exists a, v = VArr a) as (a & ->).
        { destruct (vp_axis p L V k C) as (a & G' & _). unfold p_vals in G'. fold d in G'. exists a. congruence. }
        split; [|split; [eauto|contradiction]]. destruct (vp_tsize p L V k a C G) as (_ & Sh & _). cbn [var_of].
        destruct (shape a) eqn:ES; [contradiction|]. cbn. do 2 f_equal. symmetry. apply of_list_id.
      * assert (NL : ~ In k L) by (intros I; apply (column_iff k K) in I; congruence).
        split; [destruct v; reflexivity|]. split; [contradiction|]. intros _. destruct v; reflexivity.
Qed.

(** Nothing asked for is everything asked for. *)
Lemma lookup_nothing : lookup d [] = lookup d (p_keylist p).
Proof. unfold lookup, asked_keys. change (d_keylist d) with (p_keylist p). destruct (p_keylist p) eqn:E; reflexivity. Qed.

End Valid.
