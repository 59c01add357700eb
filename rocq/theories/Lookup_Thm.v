(** Statements about looking up variables, and examples. *)
From Coq Require Import String Ascii ZArith Reals Lra Bool Arith Lia Permutation List.
From Verif Require Import Base Num Tensor OdLemmas TensorLemmas RNumLemmas Names Names_Spec Names_Proofs PScales PScales_Spec
  Distr Distr_Spec Distr_Proofs PDModel PD_Spec PD_Simple_Spec PD_Sums PD_Make PD_Valid PD_Simple PD_Examples LookupModel Lookup_Spec Lookup_Proofs.
Import ListNotations.
Local Open Scope bool_scope.
Local Open Scope list_scope.

Lemma valid_comma {F : Fmt R} (p : pd R) (L : list string) k : valid_pd p L -> In k (p_keylist p) -> ~ occurs ","%char k.
Proof.
  intros V K. apply (vp_key_iff p L V) in K.
  assert (E : exists e, In (k, e) (p_marg p ++ p_cond p)).
  { destruct K as [K|K]; apply in_map_iff in K; destruct K as ([k' e] & <- & K); exists e; apply in_app_iff; auto. }
  destruct E as (e & E). pose proof (vp_entries _ _ V) as G. rewrite Forall_forall in G. apply G in E. cbn in E.
  destruct E as [GE KE]. destruct (key_plain e k GE KE) as [Q _]. apply Q.
Qed.

Lemma parts_ok {F : Fmt R} (p : pd R) (L : list string) (which : string) (keys : list string) :
  valid_pd p L ->
  which = "marg"%string /\ keys = od_keys (p_marg p) \/ which = "cond"%string /\ keys = od_keys (p_cond p) ->
  keys <> [] ->
  exists vals, pd_parts p which = Ok vals /\ NoDup (od_keys vals) /\ (forall k, In k (od_keys vals) <-> In k keys) /\
    forall k, In k keys -> exists v, od_get vals k = Some (Single v) /\ variable p k = Some (var_of v) /\
      (In k L -> exists l, v = VArr (of_list 0%R l)) /\ (~ In k L -> od_get (p_vals p) k = Some v).
Proof.
  intros V W NE.
  assert (IK : forall k, In k keys -> In k (p_keylist p)).
  { intros k K. apply (vp_key_iff p L V). destruct W as [[_ ->]|[_ ->]]; auto. }
  destruct (valid_lookup p L V keys NE) as (vals & E & K & H); [intros k K _; exact (valid_comma p L k V K)|].
  exists vals. split.
  - unfold pd_parts. destruct W as [[-> ->]|[-> ->]]; exact E.
  - split; [rewrite K; apply NoDup_filter, (vp_keys _ _ V)|]. split.
    + intros k. rewrite K, filter_In, mem_str_iff. split; [tauto|]. intros I. split; [apply IK, I|exact I].
    + intros k I. apply H; [apply IK, I|exact I].
Qed.

Lemma fold_res_ext {A B} (f g : A -> B -> result A) : (forall x y, f x y = g x y) -> forall l x, fold_res f l x = fold_res g l x.
Proof. intros H l. induction l as [|y l IH]; intros x; [reflexivity|]. cbn. rewrite H. destruct (g x y); [apply IH|reflexivity]. Qed.

Lemma no_cond_parts {F : Fmt R} (p : pd R) (L : list string) :
  valid_pd p L -> p_cond p = [] ->
  pd_parts p "cond" = pd_parts p "marg" /\
  exists vals, pd_parts p "cond" = Ok vals /\ vals <> [] /\ forall k, In k (od_keys vals) <-> In k (od_keys (p_marg p)).
Proof.
  intros V C.
  assert (NE : od_keys (p_marg p) <> []).
  { intros E. apply (vp_some _ _ V). pose proof (vp_names _ _ V) as P. rewrite E, C in P. cbn in P. apply Permutation_nil in P. exact P. }
  assert (EQ : pd_parts p "cond" = lookup (p_d p) (p_keylist p)).
  { unfold pd_parts. cbn. rewrite C. cbn. apply lookup_nothing. }
  destruct (parts_ok p L "marg" (od_keys (p_marg p)) V (or_introl (conj eq_refl eq_refl)) NE) as (vals & E & _ & K & _).
  assert (EQ' : pd_parts p "cond" = pd_parts p "marg").
  { rewrite EQ. unfold pd_parts. cbn. unfold lookup. rewrite (asked_some _ (od_keys (p_marg p)) NE), (asked_some _ (p_keylist p) (vp_some _ _ V)).
    destruct (valid_items p L V) as (H1 & H2 & H3).
    assert (M : forall k, mem_str k (od_keys (p_marg p)) = mem_str k (p_keylist p)).
    { intros k. pose proof (vp_key_iff p L V k) as Q. rewrite C in Q. cbn in Q.
      destruct (mem_str k (od_keys (p_marg p))) eqn:M1, (mem_str k (p_keylist p)) eqn:M2; try reflexivity; exfalso.
      - apply mem_str_iff in M1. apply mem_str_false in M2. tauto.
      - apply mem_str_iff in M2. apply mem_str_false in M1. tauto. }
    generalize (combine (d_keylist (p_d p)) (d_aresing (p_d p))), (@nil string), (@nil (string * found R)).
    assert (SK : forall k l, shared_keys (p_d p) (p_keylist p) k l = shared_keys (p_d p) (od_keys (p_marg p)) k l).
    { intros k l. unfold shared_keys. destruct (od_getR (d_dims (p_d p)) k); [|reflexivity]. cbn [bind]. f_equal.
      apply fold_res_ext. intros acc [x b]. cbn [fst]. rewrite M. reflexivity. }
    induction l as [|[k b] l IH]; intros seen acc; [reflexivity|]. cbn [lookup_loop]. rewrite M, SK.
    destruct (mem_str k (p_keylist p) && negb (mem_str k seen)); [|apply IH]. destruct b.
    - destruct (od_getR (d_vals (p_d p)) k); [|reflexivity]. cbn [bind]. apply IH.
    - destruct (shared_keys (p_d p) (od_keys (p_marg p)) k l) as [[|x [|y s]]|]; cbn [bind]; try reflexivity.
      + apply IH.
      + destruct (od_getR (d_vals (p_d p)) k) as [v|]; [|reflexivity]. cbn [bind]. destruct (ravel_value v); [|reflexivity]. cbn [bind]. apply IH.
      + destruct (map_res _ _); [|reflexivity]. cbn [bind]. apply IH. }
  split; [exact EQ'|]. exists vals. rewrite EQ'. split; [exact E|]. split; [|exact K].
  intros ->. destruct (od_keys (p_marg p)) as [|k l]; [contradiction|]. apply (K k). left. reflexivity.
Qed.

(** *** As a distribution *)
Lemma filter_prefix (f : string -> bool) n : forall l, (forall j k, nth_error l j = Some k -> (f k = true <-> j < n)) -> filter f l = firstn n l.
Proof.
  induction n as [|n IH]; intros l H.
  - cbn. destruct (filter f l) as [|k m] eqn:E; [reflexivity|]. exfalso.
    assert (Q : In k (filter f l)) by (rewrite E; left; reflexivity). apply filter_In in Q. destruct Q as [I Fk].
    apply In_nth_error in I. destruct I as (j & I). apply (H j k I) in Fk. lia.
  - destruct l as [|k l]; [reflexivity|]. cbn [filter firstn].
    assert (f k = true) as -> by (apply (H 0 k eq_refl); lia). f_equal.
    assert (G : forall j k, nth_error l j = Some k -> (f k = true <-> j < n)) by (intros j k' E; rewrite (H (S j) k' E); lia).
    apply IH, G.
Qed.

Lemma prefix_filter (f : string -> bool) m l : NoDup l -> filter f l = firstn m l ->
  forall j k, nth_error l j = Some k -> f k = true -> forall i, i <= j -> exists k', nth_error l i = Some k' /\ f k' = true.
Proof.
  intros N1 E j k Ej Fk i Hi.
  assert (Jm : j < m).
  { assert (Q : In k (firstn m l)) by (rewrite <- E; apply filter_In; split; [eapply nth_error_In; eauto|exact Fk]).
    apply In_nth_error in Q. destruct Q as (j' & Q).
    assert (J' : j' < length (firstn m l)) by (apply nth_error_Some; congruence). rewrite firstn_length in J'.
    assert (Q' : nth_error l j' = Some k).
    { rewrite <- (firstn_skipn m l). rewrite nth_error_app1 by (rewrite firstn_length; lia). exact Q. }
    assert (j = j'). { eapply NoDup_nth_error; [exact N1| |congruence]. apply nth_error_Some. congruence. } lia. }
  assert (Il : i < length l) by (assert (j < length l) by (apply nth_error_Some; congruence); lia).
  destruct (nth_error l i) as [k'|] eqn:Ei; [|apply nth_error_None in Ei; lia]. exists k'. split; [reflexivity|].
  assert (Q : In k' (filter f l)).
  { rewrite E. apply nth_error_In with (n := i). rewrite <- (firstn_skipn m l) in Ei. rewrite nth_error_app1 in Ei; [exact Ei|]. rewrite firstn_length. lia. }
  apply filter_In in Q. tauto.
Qed.

Lemma as_dist_iff {F : Fmt R} (p : pd R) (L keys : list string) :
  valid_pd p L -> keys <> [] -> (exists k, In k keys /\ In k (p_keylist p)) ->
  ((exists q, lookup_dist (p_d p) keys = Ok q) <-> exists m, restrict keys L = firstn m L) /\
  forall q, lookup_dist (p_d p) keys = Ok q ->
    d_name q = join "," (restrict keys (p_keylist p)) /\ d_keylist q = restrict keys (p_keylist p) /\
    forall k, In k (d_keylist q) -> od_get (d_dims q) k = od_get (p_dims p) k /\
      exists v w, od_get (d_vals q) k = Some v /\ od_get (p_vals p) k = Some w /\ var_of v = var_of w.
Proof.
  intros V NE (k0 & K0 & K0').
  set (ks := restrict keys (p_keylist p)).
  set (val := fun k => match od_get (p_vals p) k with Some v => v | None => VOther end).
  set (dim := fun k => if mem_str k L then Some (Z.of_nat (pos k L)) else None).
  set (vals := map (fun k => (k, val k)) ks). set (dims := map (fun k => (k, dim k)) ks).
  assert (Iks : forall k, In k ks -> In k (p_keylist p)) by (intros k K; apply filter_In in K; tauto).
  assert (U : lookup_dist (p_d p) keys = make_dist (join "," ks) vals (Some dims)).
  { unfold lookup_dist. rewrite (asked_some _ keys NE). change (d_keylist (p_d p)) with (p_keylist p). fold (restrict keys (p_keylist p)). fold ks.
    rewrite (map_res_all _ (fun k => (k, val k))).
    2:{ intros k K. destruct (vp_get p k (Iks k K)) as (v & G). assert (od_getR (d_vals (p_d p)) k = Ok v) as -> by (apply od_getR_ok; exact G).
        cbn. unfold val. rewrite G. reflexivity. }
    cbn [bind]. rewrite (map_res_all _ (fun k => (k, dim k))).
    2:{ intros k K. pose proof (vp_dim p L V k (Iks k K)) as G. unfold p_dims in G. rewrite G. reflexivity. }
    reflexivity. }
  assert (NDk : NoDup ks) by (apply NoDup_filter, (vp_keys _ _ V)).
  assert (KV : od_keys vals = ks) by (unfold od_keys, vals; rewrite map_map; apply map_id).
  assert (NDv : NoDup (od_keys vals)) by (rewrite KV; exact NDk).
  assert (I0 : In k0 ks) by (apply filter_In; split; [exact K0'|apply mem_str_iff; exact K0]).
  assert (NEv : vals <> []) by (intros E; rewrite E in KV; cbn in KV; rewrite <- KV in I0; destruct I0).
  set (n := ndim_of_dims dims).
  assert (NA : naxes dims n) by (apply naxes_iff; reflexivity).
  assert (GV : forall k, In k ks -> od_get vals k = Some (val k) /\ od_get (p_vals p) k = Some (val k)).
  { intros k K. split; [apply od_in_get; [exact NDv|apply in_map_iff; eauto]|]. destruct (vp_get p k (Iks k K)) as (v & G). unfold val. rewrite G. reflexivity. }
  assert (GD : forall k, In k ks -> od_get dims k = Some (dim k)).
  { intros k K. apply od_in_get; [unfold od_keys, dims; rewrite map_map; cbn [fst]; rewrite map_id; exact NDk|apply in_map_iff; eauto]. }
  assert (KK : forall k v, od_get vals k = Some v -> In k ks /\ v = val k).
  { intros k v G. assert (K : In k ks) by (rewrite <- KV; eapply od_get_some_key; eauto). split; [exact K|]. destruct (GV k K). congruence. }
  assert (COL : forall k, In k ks -> In k L -> exists a, val k = VArr a /\ column vals k a /\ (pos k L < n -> on_axis n dims k (pos k L))).
  { intros k K I. destruct (vp_axis p L V k I) as (a & G & _). destruct (GV k K) as [G1 G2].
    assert (E : val k = VArr a) by congruence. destruct (vp_tsize p L V k a I G) as (_ & S1 & S2 & _).
    exists a. split; [exact E|]. split; [split; [congruence|split; assumption]|].
    intros J. exists (Z.of_nat (pos k L)). rewrite (GD k K). unfold dim. assert (mem_str k L = true) as -> by (apply mem_str_iff; exact I).
    split; [reflexivity|]. split; [left; lia|exact J]. }
  assert (SCA : forall k, In k ks -> ~ In k L -> scalar_value (val k) /\ od_get dims k = Some None).
  { intros k K I. destruct (GV k K) as [G1 G2]. split; [left; apply (vp_scalar _ _ V k (val k) G2 I)|].
    rewrite (GD k K). unfold dim. assert (mem_str k L = false) as -> by (apply mem_str_false; exact I). reflexivity. }
  assert (LT : forall k, In k ks -> In k L -> pos k L < n).
  { intros k K I. destruct NA as [A1 _]. assert (Q : In (k, Some (Z.of_nat (pos k L))) dims).
    { apply od_get_in. rewrite (GD k K). unfold dim. assert (mem_str k L = true) as -> by (apply mem_str_iff; exact I). reflexivity. }
    apply A1 in Q. lia. }
  assert (ON : forall k j, In k ks -> on_axis n dims k j -> In k L /\ j = pos k L).
  { intros k j K (z & G & Hz & J). rewrite (GD k K) in G. unfold dim in G. destruct (mem_str k L) eqn:M; [|discriminate].
    apply mem_str_iff in M. split; [exact M|]. injection G as <-. lia. }
  assert (DI : describes vals dims n <-> exists m, restrict keys L = firstn m L).
  { split.
    - intros (_ & _ & D). exists n. apply filter_prefix. intros j k Ej. rewrite mem_str_iff. split.
      + intros Kk. assert (I : In k L) by (eapply nth_error_In; eauto).
        assert (K : In k ks) by (apply filter_In; split; [apply (vp_incl _ _ V), I|apply mem_str_iff; exact Kk]).
        assert (pos k L = j) by (apply nth_pos; [apply (vp_axes _ _ V)|exact Ej]). specialize (LT k K I). lia.
      + intros J. destruct (D j J) as (k' & a & [C _] & O). destruct (KK k' _ C) as [K' _]. destruct (ON k' j K' O) as [I' P'].
        pose proof (pos_nth k' L I') as Q. rewrite <- P', Ej in Q. injection Q as ->. apply filter_In in K'. apply mem_str_iff. tauto.
    - intros (m & E). split; [|split].
      + intros k K. rewrite KV in K. apply (vp_reserved _ _ V), Iks, K.
      + intros k v G. destruct (KK k v G) as [K ->]. destruct (in_dec string_dec k L) as [I|I].
        * right. destruct (COL k K I) as (a & _ & C & O). exists a, (pos k L). split; [exact C|]. apply O, LT; assumption.
        * left. destruct (SCA k K I) as [A B]. split; [exact A|right; exact B].
      + intros j J. destruct NA as [_ [A|(k & z & A & B)]]; [lia|].
        assert (Q : In k ks /\ Some z = dim k). { apply in_map_iff in A. destruct A as (k1 & A & K1). injection A as <- A. auto. }
        destruct Q as [K Q]. unfold dim in Q. destruct (mem_str k L) eqn:M; [|discriminate]. apply mem_str_iff in M. injection Q as ->.
        destruct (prefix_filter (fun k => mem_str k keys) m L (vp_axes _ _ V) E (pos k L) k (pos_nth k L M)) with (i := j) as (k' & E' & M').
        * apply filter_In in K. tauto.
        * lia.
        * assert (I' : In k' L) by (eapply nth_error_In; eauto).
          assert (K' : In k' ks) by (apply filter_In; split; [apply (vp_incl _ _ V), I'|exact M']).
          assert (P' : pos k' L = j) by (apply nth_pos; [apply (vp_axes _ _ V)|exact E']).
          destruct (COL k' K' I') as (a & _ & C & O). exists k', a. split; [exact C|]. rewrite P' in O. apply O, J. }
  rewrite U. split; [rewrite <- DI; apply make_dist_iff; assumption|].
  intros q M. assert (DS : describes vals dims n) by (apply (proj1 (make_dist_iff (join "," ks) vals dims n NDv NEv NA)); eauto).
  destruct (make_dist_result _ vals dims n q NDv NEv NA M) as (N1 & K1 & _ & _ & _ & S1 & C1 & _).
  split; [exact N1|]. split; [congruence|]. intros k K. rewrite K1, KV in K. destruct (GV k K) as [G1 G2].
  assert (DP : od_get (p_dims p) k = Some (dim k)).
  { pose proof (vp_dim p L V k (Iks k K)) as Q. unfold od_getR in Q. destruct (od_get (p_dims p) k); [injection Q as ->; reflexivity|discriminate]. }
  destruct (in_dec string_dec k L) as [I|I].
  - destruct (COL k K I) as (a & E & C & O). destruct (C1 k a (pos k L) C (O (LT k K I))) as (E1 & a' & E2 & E3 & E4).
    split; [rewrite E1, (GD k K), DP; reflexivity|]. exists (VArr a'), (val k). split; [exact E2|]. split; [exact G2|].
    rewrite E. cbn. rewrite E3. unfold along. destruct (vp_tsize p L V k a I) as (_ & S2 & _); [congruence|].
    destruct (shape a) as [|s0 s1]; [contradiction|]. rewrite E4. destruct (pos k L); reflexivity.
  - destruct (SCA k K I) as [A B]. destruct (S1 k (val k) G1 A) as [E1 E2]. split.
    + rewrite E2, DP. unfold dim. assert (mem_str k L = false) as -> by (apply mem_str_false; exact I). reflexivity.
    + exists (kept (val k)), (val k). split; [exact E1|]. split; [exact G2|].
      assert (Sg : issingleton (val k) = true) by apply (vp_scalar _ _ V k (val k) G2 I).
      destruct (val k) as [x|s|[|[z|b|x| |] [|y l]]|a|]; try reflexivity. discriminate.
Qed.

(** *** Examples *)
Local Open Scope R_scope.
Definition ex_pair : odict (value R) :=
  [("t", VArr (of_list 0 [1; 2; 3])); ("u", VNum 5); ("x", VArr (of_list 0 [4; 5; 6])); ("y", VArr (of_list 0 [7; 8; 9])); ("z", VArr (of_list 0 [1; 2]))]%string.
Definition ex_pair_dims : odict (option Z) := [("t", Some 0%Z); ("u", None); ("x", Some 1%Z); ("y", Some 0%Z); ("z", Some 2%Z)]%string.

Lemma ex_pair_ok : exists d, make_dist "t,u,x,y,z" ex_pair (Some ex_pair_dims) = Ok d /\
  lookup d ["y"; "t"; "z"; "u"]%string =
    Ok [("t,y", Shared [VArr (of_list 0 [1; 2; 3]); VArr (of_list 0 [7; 8; 9])]); ("u", Single (VNum 5)); ("z", Single (VArr (of_list 0 [1; 2])))]%string.
Proof. eexists. split; vm_compute; reflexivity. Qed.

Lemma ex_parts : exists p, @valid_pd fmt_ex p ["x"; "y"; "z"]%string /\ od_keys (p_marg p) = ["x"; "y"; "w"]%string /\
  od_keys (p_cond p) = ["z"]%string /\ p_keylist p = ["x"; "y"; "w"; "z"]%string.
Proof. destruct ex_ok as (p & _ & V & K & M & C & _). exists p. auto. Qed.

Lemma ex_no_cond : exists p, @valid_pd fmt_ex p ["y"; "x"]%string /\ p_cond p = [].
Proof.
  destruct ext_ok as (p & _ & V & K & M & _). exists p. split; [exact V|].
  pose proof (vp_names _ _ V) as P. rewrite K, M in P. apply Permutation_length in P. rewrite app_length in P. cbn in P.
  destruct (p_cond p) as [|e l]; [reflexivity|]. cbn in P. lia.
Qed.

Lemma ex_as_dist : exists p, @valid_pd fmt_ex p ["x"; "y"; "z"]%string /\
  (exists q, lookup_dist (p_d p) ["x"; "w"]%string = Ok q) /\ ~ exists q, lookup_dist (p_d p) ["z"]%string = Ok q.
Proof.
  destruct ex_ok as (p & _ & V & K & _). exists p. split; [exact V|]. split.
  - apply (as_dist_iff p _ ["x"; "w"]%string V); [discriminate| |exists 1%nat; reflexivity]. exists "x"%string. rewrite K. cbn. auto.
  - intros E. apply (as_dist_iff p _ ["z"]%string V) in E; [|discriminate|exists "z"%string; rewrite K; cbn; auto 6].
    destruct E as ([|[|[|[|m]]]] & E); cbn in E; discriminate.
Qed.
