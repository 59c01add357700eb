(** Proofs about the perturbations of fields. *)
From Coq Require Import String Ascii ZArith Bool Arith Lia List Reals Lra.
From Verif Require Import Base OdLemmas Num Tensor Names RNumLemmas VariableModel FieldModel Expr_Proofs Lik_Slice
  Field_Spec Field_Proofs.
Import ListNotations.
Set Implicit Arguments.

(** *** lists *)

Lemma map_combine_fst {A B C} (h : A -> C) (l : list A) (m : list B) : length l = length m ->
  map (fun p => h (fst p)) (combine l m) = map h l.
Proof. revert m. induction l as [|a l IH]; intros [|b m] L; cbn in *; try discriminate; auto. rewrite IH by lia. auto. Qed.

Lemma map_combine_snd {A B C} (h : B -> C) (l : list A) (m : list B) : length l = length m ->
  map (fun p => h (snd p)) (combine l m) = map h m.
Proof. revert m. induction l as [|a l IH]; intros [|b m] L; cbn in *; try discriminate; auto. rewrite IH by lia. auto. Qed.

Lemma nth_seq_all {A} (u : list A) d : map (fun i => nth i u d) (seq 0 (length u)) = u.
Proof.
  assert (G : forall a, map (fun i => nth (i - a) u d) (seq a (length u)) = u).
  { induction u as [|x u IH]; intros a; cbn; [auto|]. rewrite Nat.sub_diag. f_equal.
    rewrite <- (IH (S a)) at 2. apply map_ext_in. intros i I. apply in_seq in I.
    destruct (i - a) eqn:E; [lia|]. f_equal. lia. }
  specialize (G 0). rewrite <- G at 2. apply map_ext. intros i. f_equal. lia.
Qed.

Lemma in_combine_seq {A} (l : list A) a i x : In (i, x) (combine (seq a (length l)) l) ->
  a <= i /\ nth_error l (i - a) = Some x.
Proof.
  revert a. induction l as [|y l IH]; intros a H; cbn in H; [destruct H|]. destruct H as [H|H].
  - inversion H; subst. rewrite Nat.sub_diag. cbn. auto.
  - apply IH in H. destruct H as [H1 H2]. split; [lia|]. replace (i - a) with (S (i - S a)) by lia. auto.
Qed.

Lemma filter_none {A} (P : A -> bool) l : (forall x, In x l -> P x = false) -> filter P l = [].
Proof. induction l as [|x l IH]; cbn; intros H; [auto|]. rewrite H by auto. auto. Qed.

Section Gen.
Context {T : Type} {N : Num T} {TR : Trunc T}.

Lemma spherise_all (keys : list string) (lens : list T) : NoDup keys -> length lens = length keys ->
  spherise keys (map Some lens) [] = Ok (combine keys lens).
Proof.
  intros ND L. unfold spherise.
  set (F := fun (all : list T) (d : odict T) (ik : nat * string) =>
      if od_mem ([] : odict T) (snd ik) then Ok d
      else let! x := finite (map Some all) (fst ik) in Ok (od_set d (snd ik) x)).
  assert (G : forall ks ls a d0 all, length ls = length ks -> NoDup (od_keys d0 ++ ks) ->
     (forall i, nth_error all (a + i) = nth_error ls i) ->
     fold_res (F all) (combine (seq a (length ks)) ks) d0 = Ok (d0 ++ combine ks ls)).
  { clear L ND. induction ks as [|k ks IH]; intros [|x ls] a d0 all L ND H; try discriminate.
    - cbn. rewrite app_nil_r. reflexivity.
    - assert (NI : ~ In k (od_keys d0)).
      { apply NoDup_remove_2 in ND. rewrite in_app_iff in ND. tauto. }
      assert (E : F all d0 (a, k) = Ok (d0 ++ [(k, x)])).
      { unfold F, finite. specialize (H 0). rewrite Nat.add_0_r in H. cbn in H.
        cbn [fst snd]. rewrite nth_error_map, H. cbn. rewrite od_set_new by auto. reflexivity. }
      cbn [length seq combine fold_res]. rewrite E. cbn [bind].
      rewrite IH with (ls := ls); [rewrite <- app_assoc; reflexivity|cbn in L; lia| |].
      + unfold od_keys in *. rewrite map_app. cbn. rewrite <- app_assoc. cbn. auto.
      + intros i. specialize (H (S i)). cbn [nth_error] in H. rewrite <- H. f_equal. lia. }
  exact (G keys lens 0 [] lens L ND (fun i => eq_refl)).
Qed.

Lemma spherise_keys (keys : list string) lens (un d : odict T) : spherise keys lens un = Ok d ->
  forall k, In k (od_keys d) -> od_mem un k = false.
Proof.
  unfold spherise.
  assert (G : forall iks d0, fold_res (fun (d : odict T) (ik : nat * string) =>
      if od_mem un (snd ik) then Ok d
      else let! x := finite lens (fst ik) in Ok (od_set d (snd ik) x)) iks d0 = Ok d ->
      (forall k, In k (od_keys d0) -> od_mem un k = false) -> forall k, In k (od_keys d) -> od_mem un k = false).
  { induction iks as [|[i k] iks IH]; intros d0 H K; cbn in H; [inversion H; subst; auto|].
    destruct (od_mem un k) eqn:M; [exact (IH _ H K)|].
    destruct (finite lens i) as [x|e]; cbn in H; [|discriminate]. apply (IH _ H).
    intros j J. apply od_keys_set_in in J. destruct J as [J|J]; [subst; auto|auto]. }
  intros H. apply (G _ _ H). intros k [].
Qed.

Lemma named_tuple_in {A} (d : odict A) : NoDup (od_keys d) -> named_tuple (od_keys d) d = Ok (od_vals d).
Proof.
  intros ND. unfold named_tuple.
  assert (E : seteq_str (od_keys d) (od_keys d) = true) by (apply seteq_str_iff; split; apply incl_refl). rewrite E.
  apply map_res_ok. unfold od_keys, od_vals.
  assert (G : forall d', (forall k x, In (k, x) d' -> In (k, x) d) ->
     Forall2 (fun k x => od_getR d k = Ok x) (map fst d') (map snd d')).
  { induction d' as [|[k x] d' IH]; intros S; cbn; constructor.
    - apply od_getR_ok. apply od_in_get; auto. apply S. left; auto.
    - apply IH. intros. apply S. right; auto. }
  apply G. auto.
Qed.

Lemma named_tuple_missing {A} (keys : list string) (d : odict A) k : In k keys -> ~ In k (od_keys d) ->
  named_tuple keys d = Err TypeError.
Proof.
  intros I NI. unfold named_tuple. destruct (seteq_str keys (od_keys d)) eqn:E; [|auto].
  apply seteq_str_iff in E. exfalso. apply NI. apply E. auto.
Qed.

Lemma combine_keys (keys : list string) (l : list T) : length l = length keys -> od_keys (combine keys l) = keys.
Proof. intros L. unfold od_keys. rewrite <- (map_id keys) at 2. rewrite <- (map_combine_fst (fun x => x) keys l) by auto. auto. Qed.

Lemma combine_vals (keys : list string) (l : list T) : length l = length keys -> od_vals (combine keys l) = l.
Proof. intros L. unfold od_vals. rewrite <- (map_id l) at 2. rewrite <- (map_combine_snd (fun x => x) keys l) by auto. auto. Qed.

End Gen.

Lemma keys_through {A B} (F : nat * (string * A) -> result (string * B)) (d : odict A) vals :
  Forall2 (fun p r => F p = Ok r) (combine (seq 0 (length d)) d) vals ->
  (forall i k x r, F (i, (k, x)) = Ok r -> fst r = k) ->
  od_keys vals = od_keys d.
Proof.
  intros H K. revert H. generalize 0. revert vals. induction d as [|[k x] d IH]; intros vals a H; inversion H; subst; [auto|].
  cbn. f_equal; [eapply K; eauto|]. fold (od_keys l') (od_keys d). eapply IH; eauto.
Qed.

(** *** spherical steps at R *)
Local Open Scope R_scope.

Lemma n_sum_sq (l : list R) : n_sum (map (fun y => n_mul y y) l) = sumsq l.
Proof. induction l as [|x l IH]; [reflexivity|]. change (x * x + n_sum (map (fun y => n_mul y y) l) = x * x + sumsq l). rewrite IH. reflexivity. Qed.

Lemma sumsq_cons x l : sumsq (x :: l) = x * x + sumsq l.
Proof. reflexivity. Qed.

Lemma sumsq_nonneg l : 0 <= sumsq l.
Proof. induction l as [|x l IH]; [cbn; lra|]. rewrite sumsq_cons. nra. Qed.

Lemma sumsq_pos l x : In x l -> x <> 0 -> 0 < sumsq l.
Proof.
  induction l as [|y l IH]; intros I NZ; [destruct I|]. rewrite sumsq_cons. pose proof (sumsq_nonneg l). destruct I as [->|I].
  - assert (0 < x * x) by nra. lra.
  - specialize (IH I NZ). nra.
Qed.

Lemma sumsq_scale t l : sumsq (map (fun y => t * y) l) = t * t * sumsq l.
Proof. induction l as [|x l IH]; [cbn; ring|]. cbn [map]. rewrite !sumsq_cons, IH. ring. Qed.

Section Sphere.
Context {TR : Trunc R}.

Lemma spherical_run (keys : list string) (lens u : list R) (c : fconf R) x :
  NoDup keys -> keys <> [] -> length lens = length keys -> length u = length keys ->
  fc_spherise c = combine keys lens ->
  spherical keys (map Some lens) c x u
  = Ok (map (fun ul => let v := fst ul * (if fc_scale c then x * sqrt (sumsq lens) else x) / sqrt (sumsq u) in
                       if fc_scale c then v * snd ul else v) (combine u lens)).
Proof.
  intros ND NE L Lu SPH. unfold spherical. rewrite SPH.
  assert (RS : n_sum (map (fun kl : string * R => n_mul (snd kl) (snd kl)) (combine keys lens)) = sumsq lens).
  { rewrite (map_combine_snd (fun y => n_mul y y) keys lens) by auto. apply n_sum_sq. }
  destruct (combine keys lens) as [|kl0 sph0] eqn:EC.
  { destruct keys; [congruence|]. destruct lens; discriminate. }
  rewrite <- EC. rewrite <- EC in RS. rewrite RS, n_sum_sq.
  set (r := if fc_scale c then _ else x).
  set (h := fun ul : R * R => let v := fst ul * r / sqrt (sumsq u) in if fc_scale c then v * snd ul else v).
  assert (LC : length (combine keys lens) = length keys) by (rewrite combine_length, L; apply Nat.min_id).
  rewrite map_res_all with (g := fun ikl : nat * (string * R) =>
     (fst (snd ikl), h (nth (fst ikl) u 0, snd (snd ikl)))).
  2:{ intros [i [k y]] I. rewrite LC in I. cbn [fst snd]. unfold h. cbn [fst snd].
      rewrite <- LC in I. apply in_combine_seq in I. destruct I as [_ I]. rewrite Nat.sub_0_r in I.
      assert (I2 : nth_error lens i = Some y).
      { clear -I L. revert i keys L I. induction lens as [|z lens IH]; intros i [|k' keys] L I; try discriminate;
          destruct i; cbn in *; try discriminate; [congruence|]. apply (IH i keys); auto. }
      destruct (fc_scale c); [|reflexivity]. rewrite nth_error_map, I2. reflexivity. }
  cbn [bind]. rewrite LC.
  assert (M : map (fun ikl : nat * (string * R) => (fst (snd ikl), h (nth (fst ikl) u 0, snd (snd ikl))))
                (combine (seq 0 (length keys)) (combine keys lens))
            = combine keys (map h (combine u lens))).
  { assert (G : forall ks ls us a all, length ls = length ks -> length us = length ks ->
       (forall i, nth (a + i) all 0 = nth i us 0) ->
       map (fun ikl : nat * (string * R) => (fst (snd ikl), h (nth (fst ikl) all 0, snd (snd ikl))))
                (combine (seq a (length ks)) (combine ks ls))
            = combine ks (map h (combine us ls))).
    { clear. induction ks as [|k ks IH]; intros [|y ls] [|z us] a all L1 L2 H; try discriminate; cbn; [auto|].
      f_equal.
      - specialize (H 0%nat). rewrite Nat.add_0_r in H. cbn in H. rewrite H. reflexivity.
      - apply IH; cbn in *; [lia|lia|]. intros i. specialize (H (S i)). cbn in H. rewrite <- H. f_equal. lia. }
    apply G; auto. }
  rewrite M.
  assert (LL : length (map h (combine u lens)) = length keys).
  { rewrite map_length, combine_length, L, Lu. apply Nat.min_id. }
  pose proof (named_tuple_in (combine keys (map h (combine u lens)))) as NT.
  rewrite combine_keys, combine_vals in NT by auto. exact (NT ND).
Qed.

Lemma set_sphere f lens u vds x scale bound : sphere_ok f lens u ->
  exists c, f_set_delta (fd_keys f) (map Some lens) vds (GTup x) [] scale bound = Ok (c, vds) /\
    fc_spherise c = combine (fd_keys f) lens /\ fc_delta c = STup x /\ fc_scale c = scale.
Proof.
  intros [ND [NE [L _]]]. unfold f_set_delta. rewrite spherise_all by auto. cbn [bind].
  eexists. split; [reflexivity|]. cbn. auto.
Qed.

Lemma sphere_unscaled f lens u vds x bound rs : sphere_ok f lens u ->
  exists c l, f_set_delta (fd_keys f) (map Some lens) vds (GTup x) [] false bound = Ok (c, vds) /\
    f_eval_delta f (map Some lens) c vds rs u = Ok (Sphere l) /\
    length l = length (fd_keys f) /\ sumsq l = x * x /\ exists t, l = map (fun y => t * y) u.
Proof.
  intros H. destruct (set_sphere vds x false bound H) as [c [S [SPH [D SC]]]].
  destruct H as [ND [NE [L [Lu [y [I NZ]]]]]].
  assert (P : 0 < sumsq u) by (eapply sumsq_pos; eauto).
  set (t := x / sqrt (sumsq u)).
  assert (EL : map (fun ul : R * R => let v := fst ul * x / sqrt (sumsq u) in v) (combine u lens) = map (fun y => t * y) u).
  { rewrite <- (map_combine_fst (fun y => t * y) u lens) by lia. apply map_ext. intros [a b]. cbn. unfold t, Rdiv. ring. }
  exists c, (map (fun y => t * y) u). split; [exact S|].
  unfold f_eval_delta. rewrite D, spherical_run by auto. rewrite SC. cbn [bind].
  split; [f_equal; f_equal; exact EL|]. split; [rewrite map_length; auto|]. split; [|exists t; auto].
  rewrite sumsq_scale. unfold t, Rdiv.
  assert (Q : sqrt (sumsq u) * sqrt (sumsq u) = sumsq u) by (apply sqrt_sqrt; lra).
  assert (0 < sqrt (sumsq u)) by (apply sqrt_lt_R0; auto).
  replace (x * / sqrt (sumsq u) * (x * / sqrt (sumsq u)) * sumsq u)
    with (x * x * (sumsq u * / (sqrt (sumsq u) * sqrt (sumsq u)))).
  - rewrite Q. field. lra.
  - field. lra.
Qed.

Lemma sphere_scaled f lens u vds x bound rs : sphere_ok f lens u ->
  exists c l, f_set_delta (fd_keys f) (map Some lens) vds (GTup x) [] true bound = Ok (c, vds) /\
    f_eval_delta f (map Some lens) c vds rs u = Ok (Sphere l) /\
    length l = length (fd_keys f) /\ sumsq l * sumsq u = x * x * sumsq lens * sumsq (prods u lens).
Proof.
  intros H. destruct (set_sphere vds x true bound H) as [c [S [SPH [D SC]]]].
  destruct H as [ND [NE [L [Lu [y [I NZ]]]]]].
  assert (P : 0 < sumsq u) by (eapply sumsq_pos; eauto).
  set (t := x * sqrt (sumsq lens) / sqrt (sumsq u)).
  assert (EL : map (fun ul : R * R => let v := fst ul * (x * sqrt (sumsq lens)) / sqrt (sumsq u) in v * snd ul) (combine u lens)
     = map (fun y => t * y) (prods u lens)).
  { unfold prods. rewrite map_map. apply map_ext. intros [a b]. cbn. unfold t, Rdiv. ring. }
  exists c, (map (fun y => t * y) (prods u lens)). split; [exact S|].
  unfold f_eval_delta. rewrite D, spherical_run by auto. rewrite SC. cbn [bind].
  split; [f_equal; f_equal; exact EL|]. split.
  { unfold prods. rewrite !map_length, combine_length, L, Lu. apply Nat.min_id. }
  rewrite sumsq_scale. unfold t, Rdiv.
  assert (Q : sqrt (sumsq u) * sqrt (sumsq u) = sumsq u) by (apply sqrt_sqrt; lra).
  assert (Q2 : sqrt (sumsq lens) * sqrt (sumsq lens) = sumsq lens) by (apply sqrt_sqrt; apply sumsq_nonneg).
  assert (0 < sqrt (sumsq u)) by (apply sqrt_lt_R0; auto).
  replace (x * sqrt (sumsq lens) * / sqrt (sumsq u) * (x * sqrt (sumsq lens) * / sqrt (sumsq u)) * sumsq (prods u lens) * sumsq u)
    with (x * x * (sqrt (sumsq lens) * sqrt (sumsq lens)) * sumsq (prods u lens) * (sumsq u * / (sqrt (sumsq u) * sqrt (sumsq u)))).
  - rewrite Q, Q2. field. lra.
  - field. lra.
Qed.

Lemma sphere_equal f L u vds x bound rs n : n = length (fd_keys f) -> sphere_ok f (repeat L n) u ->
  exists c l, f_set_delta (fd_keys f) (map Some (repeat L n)) vds (GTup x) [] true bound = Ok (c, vds) /\
    f_eval_delta f (map Some (repeat L n)) c vds rs u = Ok (Sphere l) /\
    sumsq l = INR n * (x * L * L) * (x * L * L).
Proof.
  intros En H. destruct (sphere_scaled vds x bound rs H) as [c [l [S [E [_ Q]]]]].
  exists c, l. split; [auto|]. split; [auto|].
  destruct H as [ND [NE [_ [Lu [y [I NZ]]]]]].
  assert (P : 0 < sumsq u) by (eapply sumsq_pos; eauto).
  assert (A : sumsq (repeat L n) = INR n * (L * L)).
  { clear. induction n as [|n IH]; cbn [repeat sumsq fold_right]; [cbn; ring|].
    change (L * L + sumsq (repeat L n) = INR (S n) * (L * L)). rewrite IH, S_INR. ring. }
  assert (B : prods u (repeat L n) = map (fun y => L * y) u).
  { rewrite En, <- Lu. clear. unfold prods. induction u as [|z u IH]; cbn; [auto|]. rewrite IH. f_equal. ring. }
  rewrite A, B, sumsq_scale in Q. apply (Rmult_eq_reg_r (sumsq u)); [|lra]. rewrite Q. ring.
Qed.

Lemma sphere_named (f : field R) lens un vds x scale bound c vds' k rs u :
  f_set_delta (fd_keys f) lens vds (GTup x) un scale bound = Ok (c, vds') ->
  In k (fd_keys f) -> od_mem un k = true ->
  exists e, f_eval_delta f lens c vds' rs u = Err e.
Proof.
  unfold f_set_delta. destruct (spherise (fd_keys f) lens un) as [sph|] eqn:SP; cbn [bind]; [|discriminate].
  intros H I M. inversion H; subst. clear H.
  assert (NI : ~ In k (od_keys sph)).
  { intros J. apply (spherise_keys _ _ _ SP) in J. congruence. }
  unfold f_eval_delta. cbn [fc_delta]. unfold spherical. cbn [fc_spherise fc_unscale fc_scale].
  destruct sph as [|kl sph0] eqn:ES.
  - destruct un as [|p un]; [discriminate|]. cbn. eauto.
  - rewrite <- ES. match goal with |- context [map_res ?F ?l] => destruct (map_res F l) as [vals|e] eqn:MR end; cbn [bind].
    2:{ eauto. }
    assert (K : od_keys vals = od_keys sph).
    { apply map_res_ok in MR. revert MR. intros MR. refine (@keys_through _ _ _ _ _ MR _). cbn beta iota.
      intros i k' y z E. destruct scale; [|inversion E; auto].
      destruct (nth_error lens i) as [[len|]|]; inversion E; auto. }
    rewrite (@named_tuple_missing _ _ _ k I) by (rewrite K, ES; exact NI). cbn. eauto.
Qed.

End Sphere.

(** *** dictionaries and numbers *)
Section Num.
Context {T : Type} {N : Num T} {TR : Trunc T}.
Local Open Scope nat_scope.

Lemma dict_ignored (f : field T) lens vds dd un scale bound c vds' rs u :
  f_set_delta (fd_keys f) lens vds (GDict dd) un scale bound = Ok (c, vds') ->
  vds' = vds /\
  f_eval_delta f lens c vds' rs u
  = let! l := map_res (fun ivd : nat * (fvar T * dconf T) =>
          let '(i, (v, dc)) := ivd in VariableModel.eval_delta (fv_state v) None dc DNone (rs i))
        (combine (seq 0 (length (fd_varlist f))) (combine (fd_varlist f) vds)) in
    Ok (Steps l).
Proof.
  unfold f_set_delta. destruct (named_tuple _ dd); cbn [bind]; [|discriminate].
  destruct (spherise _ _ _); cbn [bind]; [|discriminate]. intros H. inversion H; subst. split; [auto|]. reflexivity.
Qed.

Lemma dict_no_step (f : field T) lens dd un scale bound c vds' rs u (vds : list (dconf T)) :
  f_set_delta (fd_keys f) lens vds (GDict dd) un scale bound = Ok (c, vds') ->
  length vds = length (fd_varlist f) -> (forall dc, In dc vds -> dc_delta dc = DNone) ->
  f_eval_delta f lens c vds' rs u = Ok (Steps (repeat DNone (length (fd_varlist f)))).
Proof.
  intros H L A. destruct (@dict_ignored f lens vds dd un scale bound c vds' rs u H) as [_ ->].
  rewrite map_res_all with (g := fun _ => DNone).
  - cbn. do 2 f_equal. clear -L. revert L. generalize 0. revert vds. generalize (fd_varlist f) as vs.
    induction vs as [|v vs IH]; intros [|d vds] a L; try discriminate; cbn; [auto|]. f_equal. apply IH. cbn in L. lia.
  - intros [i [v dc]] I. apply in_combine_r in I. apply in_combine_r in I. unfold eval_delta. cbn [delta_or].
    rewrite (A dc I). reflexivity.
Qed.

Lemma number_step (f : field T) lens lengths vds x un (scale bound : bool) :
  NoDup (fd_keys f) -> length (fd_varlist f) = length (fd_keys f) ->
  NoDup (od_keys un) -> (forall k, In k (od_keys un) -> In k (fd_keys f)) ->
  length lens = length (fd_keys f) -> (scale = true -> lengths = map Some lens) ->
  exists c vds', f_set_delta (fd_keys f) lengths vds (GNum x) un scale bound = Ok (c, vds') /\
    forall rs u, f_eval_delta f lengths c vds' rs u
      = Ok (Steps (map (step_of un scale x) (combine (fd_keys f) lens))).
Proof.
  intros ND LV NU SU LL FIN. set (keys := fd_keys f) in *.
  set (g := fun k => match od_get un k with Some y => y | None => x end).
  assert (D : od_update (map (fun k => (k, x)) keys) un = map (fun k => (k, g k)) keys).
  { assert (K0 : od_keys (map (fun k => (k, x)) keys) = keys) by (unfold od_keys; rewrite map_map; cbn; apply map_id).
    assert (K1 : od_keys (map (fun k => (k, g k)) keys) = keys) by (unfold od_keys; rewrite map_map; cbn; apply map_id).
    assert (K2 : od_keys (od_update (map (fun k => (k, x)) keys) un) = keys).
    { rewrite od_update_keys_order by auto. rewrite K0.
      rewrite filter_none; [apply app_nil_r|]. intros k I. apply negb_false_iff. apply mem_str_iff. auto. }
    assert (GM : forall (h : string -> T) k, In k keys -> od_get (map (fun k => (k, h k)) keys) k = Some (h k)).
    { intros h k I. apply od_in_get; [unfold od_keys; rewrite map_map; cbn; rewrite map_id; auto|].
      apply in_map_iff. exists k. auto. }
    apply od_ext_eq; [rewrite K2; auto|congruence|]. intros k I. rewrite K2 in I.
    rewrite od_get_update by auto. rewrite (GM g k I), (GM (fun _ => x) k I). unfold g. destruct (od_get un k); auto. }
  set (z := fun kl : string * T => match od_get un (fst kl) with Some y => y | None => if scale then n_mul x (snd kl) else x end).
  set (dl := map (fun kl => DScal (PF (z kl))) (combine keys lens)).
  assert (LD : length dl = length keys) by (unfold dl; rewrite map_length, combine_length, LL; apply Nat.min_id).
  exists (mkFC (SDelta dl) scale bound un []), (map (fun d => mkDC d false bound) dl). split.
  - unfold f_set_delta. rewrite D. cbv zeta.
    rewrite map_res_all with (g := fun ikx : nat * (string * T) =>
       (fst (snd ikx), DScal (PF (z (fst (snd ikx), nth (fst ikx) lens n0))))).
    + cbn [bind].
      assert (M : map (fun ikx : nat * (string * T) => (fst (snd ikx), DScal (PF (z (fst (snd ikx), nth (fst ikx) lens n0)))))
                    (combine (seq 0 (length (map (fun k => (k, g k)) keys))) (map (fun k => (k, g k)) keys))
                  = combine keys dl).
      { rewrite map_length. unfold dl.
        assert (G : forall ks ls a all, length ls = length ks -> (forall i, i < length ls -> nth (a + i) all n0 = nth i ls n0) ->
          map (fun ikx : nat * (string * T) => (fst (snd ikx), DScal (PF (z (fst (snd ikx), nth (fst ikx) all n0)))))
            (combine (seq a (length ks)) (map (fun k => (k, g k)) ks))
          = combine ks (map (fun kl => DScal (PF (z kl))) (combine ks ls))).
        { clear. induction ks as [|k ks IH]; intros [|y ls] a all L H; try discriminate; cbn; [auto|].
          f_equal.
          - specialize (H 0). rewrite Nat.add_0_r in H. cbn in H. rewrite H by lia. reflexivity.
          - apply IH; [cbn in L; lia|]. intros i Hi. specialize (H (S i)). cbn in H. rewrite <- H by lia. f_equal. lia. }
        apply G; auto. }
      rewrite M.
      assert (CK : od_keys (combine keys dl) = keys).
      { unfold od_keys. rewrite <- (map_id keys) at 2. rewrite <- (map_combine_fst (fun y => y) keys dl) by auto. auto. }
      assert (CV : od_vals (combine keys dl) = dl).
      { unfold od_vals. rewrite <- (map_id dl) at 2. rewrite <- (map_combine_snd (fun y => y) keys dl) by auto. auto. }
      pose proof (named_tuple_in (combine keys dl)) as NT. rewrite CK, CV in NT. rewrite (NT ND). reflexivity.
    + intros [i [k y]] I. rewrite map_length in I. cbn [fst snd].
      assert (I2 : nth_error keys i = Some k /\ y = g k).
      { rewrite <- (map_length (fun k => (k, g k))) in I. apply in_combine_seq in I. destruct I as [_ I].
        rewrite Nat.sub_0_r, nth_error_map in I. destruct (nth_error keys i) as [k'|]; [|discriminate].
        cbn in I. inversion I; subst. auto. }
      destruct I2 as [I2 ->]. unfold z, g. cbn [fst snd].
      destruct (od_get un k) as [w|] eqn:G.
      * assert (X : od_mem un k = true) by (apply od_mem_iff; eapply od_get_some_key; eauto).
        rewrite X; cbn [negb]. rewrite andb_false_r. reflexivity.
      * assert (X : od_mem un k = false) by (apply od_mem_false; apply od_get_none; auto).
        cbn [fst]. rewrite X; cbn [negb]. rewrite andb_true_r. destruct scale; [|reflexivity].
        rewrite FIN by auto. unfold finite. rewrite nth_error_map.
        assert (NE : nth_error lens i = Some (nth i lens n0)).
        { apply nth_error_nth'. rewrite LL. apply nth_error_Some. congruence. }
        rewrite NE. reflexivity.
  - intros rs u. unfold f_eval_delta. cbn [fc_delta].
    assert (R : map_res (fun ivd : nat * (fvar T * dconf T) =>
          let '(i, (v, dc)) := ivd in eval_delta (fv_state v) None dc DNone (rs i))
        (combine (seq 0 (length (fd_varlist f))) (combine (fd_varlist f) (map (fun d => mkDC d false bound) dl)))
        = Ok (map (fun kl => DDelta (PF (z kl))) (combine keys lens))).
    { unfold dl. rewrite map_map. revert LV. generalize (fd_varlist f) as vs. clear D LD. intros vs LV.
      assert (LC : length (combine keys lens) = length vs) by (rewrite combine_length, LL, LV; apply Nat.min_id).
      clear LV. revert vs LC. generalize 0. generalize (combine keys lens) as kls.
      induction kls as [|kl kls IH]; intros a [|v vs] LC; try discriminate; [reflexivity|].
      cbn [length seq map combine map_res]. unfold eval_delta at 1. cbn [delta_or dc_delta dc_scale bind].
      rewrite andb_false_r. cbn [bind]. rewrite IH by (cbn in LC; lia). reflexivity. }
    rewrite R. reflexivity.
Qed.

End Num.
