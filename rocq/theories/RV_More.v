(** Proofs about random variables: steps, construction, Bernoulli variables. *)
From Coq Require Import String Ascii ZArith Reals Bool Arith List Lia Lra Sorted Permutation.
From Verif Require Import Base Num Tensor PScales PScales_Spec PScales_Proofs RNumLemmas PD_Spec Distr PDModel
  TensorBcast TensorLemmas Likelihoods Lik_Slice VariableModel Var_Spec Var_Proofs Var_Proofs2 RVModel RV_Spec RV_Proofs
  RV_Matrix.
Import ListNotations.
Local Open Scope R_scope.

Lemma holds_len a vec l : holds a vec l -> tsize a = length l.
Proof.
  destruct vec; cbn [holds].
  - intros ->. unfold tsize, of_list. cbn. lia.
  - intros (x & -> & ->). reflexivity.
Qed.

Lemma holds_list a vec l : holds a vec l -> to_list a = l.
Proof.
  destruct vec; cbn [holds].
  - intros ->. apply nth_ext with (d := PF 0) (d' := PF 0).
    + rewrite to_list_length. unfold tsize, of_list. cbn. lia.
    + intros k Hk. rewrite to_list_length in Hk. unfold tsize, of_list in Hk. cbn in Hk.
      rewrite to_list_nth by (unfold tsize, of_list; cbn; lia).
      unfold of_list. cbn [get shape unravel]. cbn [prod_list fold_right].
      rewrite Nat.div_1_r. reflexivity.
  - intros (x & -> & ->). reflexivity.
Qed.

Lemma merge_pair q p : merge_shape [1%nat; p] [q; 1%nat] = Ok [q; p].
Proof. cbn [merge_shape bind]. destruct q as [|[|q]], p as [|[|p]]; reflexivity. Qed.

Lemma tbin_pair {C} (f : pyval R -> pyval R -> C) nm pred succ idx vp vs ps ss :
  holds pred vp ps -> holds succ vs ss ->
  exists t, tbin f (st_pred (reshape_vals nm pred succ idx)) (st_succ (reshape_vals nm pred succ idx)) = Ok t /\
    shape t = pair_shape vs vp ss ps /\
    forall a b, (a < length ss)%nat -> (b < length ps)%nat ->
      get t (pair_at vs vp a b) = f (nth b ps (PF 0)) (nth a ss (PF 0)).
Proof.
  intros Hp Hs. pose proof (holds_list _ _ _ Hp) as Lp. pose proof (holds_list _ _ _ Hs) as Ls.
  pose proof (holds_len _ _ _ Hp) as Np. pose proof (holds_len _ _ _ Hs) as Ns.
  destruct vs, vp; cbn [holds] in Hp, Hs.
  - unfold reshape_vals. rewrite Ls, Lp, Ns, Np. subst pred succ. cbn [of_list shape st_pred st_succ].
    unfold tbin, bcast_shape. cbn [shape length Nat.max pad_shape]. cbn [Nat.sub repeat app].
    change (pad_shape 2 [1%nat; length ps]) with [1%nat; length ps].
    change (pad_shape 2 [length ss; 1%nat]) with [length ss; 1%nat].
    rewrite merge_pair. cbn [bind]. eexists. split; [reflexivity|]. split; [reflexivity|].
    intros a b Ha Hb. cbn [get pair_at app]. unfold bcast_idx. cbn [length Nat.sub skipn zip_with Nat.eqb].
    cbn [nth]. f_equal.
    + destruct (Nat.eqb_spec (length ps) 1) as [E|E]; auto. f_equal. lia.
    + destruct (Nat.eqb_spec (length ss) 1) as [E|E]; auto. f_equal. lia.
  - destruct Hp as (x & -> & ->). subst succ. unfold reshape_vals. cbn [of_list shape st_pred st_succ tscalar].
    unfold tbin, bcast_shape. cbn [shape length Nat.max pad_shape tscalar of_list]. unfold pad_shape. cbn.
    destruct (length ss) as [|[|n]] eqn:E; cbn; (eexists; split; [reflexivity|]; split; [rewrite ?E; reflexivity|]);
      intros a b Ha Hb; cbn in Hb; assert (b = 0)%nat by lia; subst b; cbn; try lia; auto.
    f_equal. f_equal. lia.
  - destruct Hs as (x & -> & ->). subst pred. unfold reshape_vals. cbn [of_list shape st_pred st_succ tscalar].
    unfold tbin, bcast_shape. cbn [shape length Nat.max pad_shape tscalar of_list]. unfold pad_shape. cbn.
    destruct (length ps) as [|[|n]] eqn:E; cbn; (eexists; split; [reflexivity|]; split; [rewrite ?E; reflexivity|]);
      intros a b Ha Hb; cbn in Ha; assert (a = 0)%nat by lia; subst a; cbn; try lia; auto.
    f_equal. f_equal. lia.
  - destruct Hs as (x & -> & ->). destruct Hp as (y & -> & ->). cbn.
    eexists. split; [reflexivity|]. split; [reflexivity|].
    intros a b Ha Hb. assert (a = 0)%nat by lia. assert (b = 0)%nat by lia. subst. reflexivity.
Qed.

(** The values of a step, read back. *)
Lemma reshape_lists nm pred succ idx vp vs ps ss : holds pred vp ps -> holds succ vs ss ->
  to_list (st_pred (reshape_vals nm pred succ idx)) = ps /\
  to_list (st_succ (reshape_vals nm pred succ idx)) = ss /\
  (shape (st_pred (reshape_vals nm pred succ idx)) = [] <-> vp = false) /\
  (shape (st_succ (reshape_vals nm pred succ idx)) = [] <-> vs = false) /\
  st_idx (reshape_vals nm pred succ idx) = idx.
Proof.
  intros Hp Hs. pose proof (holds_list _ _ _ Hp) as Lp. pose proof (holds_list _ _ _ Hs) as Ls.
  pose proof (holds_len _ _ _ Hp) as Np. pose proof (holds_len _ _ _ Hs) as Ns.
  destruct vs, vp; cbn [holds] in Hp, Hs.
  - unfold reshape_vals. rewrite Ls, Lp, Ns, Np. subst pred succ. cbn [of_list shape st_pred st_succ st_idx].
    assert (G : forall (l : list (pyval R)) sh (p : list nat -> nat), prod_list sh = length l ->
       (forall k, (k < length l)%nat -> p (unravel sh k) = k) ->
       to_list (mkT sh (fun ix => nth (p ix) l (PF n0))) = l).
    { clear. intros l sh p P H. apply nth_ext with (d := PF n0) (d' := PF n0).
      - rewrite to_list_length. exact P.
      - intros k Hk. rewrite to_list_length in Hk. rewrite to_list_nth by auto. cbn [get shape].
        unfold tsize in Hk. cbn [shape] in Hk. rewrite P in Hk. rewrite H; auto. }
    split; [|split; [|split; [|split]]]; try (split; discriminate); try reflexivity.
    + apply (G ps [1%nat; length ps] (fun ix => nth 1 ix 0%nat)).
      * cbn. lia.
      * intros k Hk. cbn [unravel nth]. change (prod_list []) with 1%nat. rewrite Nat.div_1_r. replace (prod_list [length ps]) with (length ps) by (unfold prod_list; cbn; lia). apply Nat.mod_small. lia.
    + apply (G ss [length ss; 1%nat] (fun ix => nth 0 ix 0%nat)).
      * cbn. lia.
      * intros k Hk. cbn [unravel nth]. change (prod_list [1%nat]) with 1%nat. apply Nat.div_1_r.
  - destruct Hp as (x & -> & ->). subst succ. unfold reshape_vals in *. cbn [of_list shape tscalar st_pred st_succ st_idx].
    repeat (split; [auto; try (split; congruence)|]). auto.
  - destruct Hs as (x & -> & ->). subst pred. unfold reshape_vals in *. cbn [of_list shape tscalar st_pred st_succ st_idx].
    repeat (split; [auto; try (split; congruence)|]). auto.
  - destruct Hs as (x & -> & ->). destruct Hp as (y & -> & ->). cbn. tauto.
Qed.

Lemma map_res_index vs (l : list (pyval R)) (f : pyval R -> nat) : increasing vs ->
  (forall x, In x l -> exists y, nth_error vs (f x) = Some y /\ num y = num x) ->
  map_res (val_index vs) l = Ok (map f l).
Proof.
  intros I. induction l as [|x l IH]; intros H; auto.
  cbn [map_res map]. destruct (H x) as (y & E & Ey); [left; auto|].
  rewrite (increasing_index vs (f x) y I E x) by auto. cbn [bind].
  rewrite IH by (intros; apply H; right; auto). reflexivity.
Qed.

(** C42: the conditional probabilities of given values are the entries of the matrix. *)
Lemma step_given {TR : Trunc R} (v : rv R) dc reverse r m l vs' pred succ vp vs ps ss (f : pyval R -> nat) n :
  matrix_of (rv_tran v) reverse m -> shape m = [n; n] ->
  vs_vset (rv_state v) = Some l -> Permutation vs' (vset_vals l) -> increasing vs' -> length (vset_vals l) = n ->
  holds pred vp ps -> holds succ vs ss ->
  (forall x, In x ps \/ In x ss -> exists y, nth_error vs' (f x) = Some y /\ num y = num x) ->
  exists st t, eval_step v dc pred (SVals succ) reverse r = Ok st /\ eval_tran v st reverse = Ok (Some t) /\
    shape t = pair_shape vs vp ss ps /\
    forall a b x y, nth_error ss a = Some x -> nth_error ps b = Some y ->
      get t (pair_at vs vp a b) = get m [f x; f y].
Proof.
  intros M Sm L P I Ln Hp Hs Hf.
  exists (reshape_vals (rv_name v) pred succ None).
  destruct (reshape_lists (rv_name v) pred succ None vp vs ps ss Hp Hs) as (Tp & Ts & Sp & Ss & Ix).
  assert (LK : exists t, lookup_square_matrix (st_pred (reshape_vals (rv_name v) pred succ None))
      (st_succ (reshape_vals (rv_name v) pred succ None)) m (vset_vals l) None None = Ok t /\
      shape t = pair_shape vs vp ss ps /\
      forall a b x y, nth_error ss a = Some x -> nth_error ps b = Some y ->
      get t (pair_at vs vp a b) = get m [f x; f y]).
  { unfold lookup_square_matrix, is_square. rewrite Sm, Nat.eqb_refl. cbn [assert_ bind nth].
    rewrite Ln, Nat.eqb_refl. cbn [assert_ bind]. rewrite (sort_vals_is _ _ P I).
    rewrite Tp, Ts. rewrite (map_res_index vs' ss f I) by (intros; apply Hf; auto). cbn [bind].
    rewrite (map_res_index vs' ps f I) by (intros; apply Hf; auto). cbn [bind].
    assert (NN : forall (l : list (pyval R)) k x, nth_error l k = Some x -> nth k (map f l) 0%nat = f x).
    { clear. intros l k x H. apply nth_error_nth. rewrite nth_error_map, H. auto. }
    destruct vs, vp.
    - destruct (shape (st_succ _)) eqn:E1; [exfalso; destruct Ss as [Ss _]; specialize (Ss eq_refl); discriminate|].
      destruct (shape (st_pred _)) eqn:E2; [exfalso; destruct Sp as [Sp _]; specialize (Sp eq_refl); discriminate|].
      eexists. split; [reflexivity|]. split; [cbn; rewrite !map_length; auto|].
      intros a b x y Hx Hy. cbn [get pair_at app nth]. rewrite (NN _ _ _ Hx), (NN _ _ _ Hy). auto.
    - destruct (shape (st_succ _)) eqn:E1; [exfalso; destruct Ss as [Ss _]; specialize (Ss eq_refl); discriminate|].
      rewrite (proj2 Sp eq_refl).
      eexists. split; [reflexivity|]. split; [cbn; rewrite !map_length; auto|].
      intros a b x y Hx Hy. cbn [get pair_at app nth].
      destruct Hp as (z & -> & _). destruct b as [|[|b]]; cbn in Hy; try discriminate.
      rewrite (NN _ _ _ Hx), (NN [z] 0%nat y) by auto. auto.
    - rewrite (proj2 Ss eq_refl).
      destruct (shape (st_pred _)) eqn:E2; [exfalso; destruct Sp as [Sp _]; specialize (Sp eq_refl); discriminate|].
      eexists. split; [reflexivity|]. split; [cbn; rewrite !map_length; auto|].
      intros a b x y Hx Hy. cbn [get pair_at app nth].
      destruct Hs as (z & -> & _). destruct a as [|[|a]]; cbn in Hx; try discriminate.
      rewrite (NN _ _ _ Hy), (NN [z] 0%nat x) by auto. auto.
    - rewrite (proj2 Ss eq_refl), (proj2 Sp eq_refl).
      eexists. split; [reflexivity|]. split; [reflexivity|].
      intros a b x y Hx Hy. cbn [get pair_at app nth tscalar].
      destruct Hs as (z & -> & _). destruct a as [|[|a]]; cbn in Hx; try discriminate.
      destruct Hp as (z' & -> & _). destruct b as [|[|b]]; cbn in Hy; try discriminate.
      rewrite (NN [z] 0%nat x), (NN [z'] 0%nat y) by auto. auto. }
  destruct LK as (t & E & St & Gt). exists t. split; [|split; [|auto]].
  - unfold eval_step. cbn [bind]. destruct (rv_tran v); cbn in M; try contradiction; reflexivity.
  - unfold eval_tran. destruct (rv_tran v) eqn:Tr; cbn in M; try contradiction;
      rewrite L, Ix; subst m; rewrite E; reflexivity.
Qed.

(** C42: a step that samples reports the entry it was sampled with. *)
Lemma step_sampled (v : rv R) dc reverse r m l vs j x px n :
  matrix_of (rv_tran v) reverse m -> shape m = [n; n] ->
  vs_vset (rv_state v) = Some l -> Permutation vs (vset_vals l) -> increasing vs -> length (vset_vals l) = n ->
  nth_error vs j = Some x -> num px = num x ->
  (forall k, (k < n)%nat -> 0 <= get m [k; j]) -> 0 <= r_unif (sr_eval r) 0%nat ->
  exists i y st, eval_step v dc (tscalar px) (SUnit (UInt 0)) reverse r = Ok st /\
    st_succ st = tscalar y /\ nth_error vs i = Some y /\
    eval_tran v st reverse = Ok (Some (tscalar (get m [i; j]))) /\
    cumulative m j i <= r_unif (sr_eval r) 0%nat /\
    (r_unif (sr_eval r) 0%nat < cumulative m j (S i) \/ (i = n - 1)%nat).
Proof.
  intros M Sm L P I Ln J Px Pos Pu.
  destruct (sample_exact m n (vset_vals l) vs j x px _ Sm P I Ln J Px Pos Pu) as (i & y & E & N & _ & Li & A & B).
  exists i, y, (reshape_vals (rv_name v) (tscalar px) (tscalar y) (Some (j, i))).
  split; [|split; [|split; [|split; [|split]]]]; auto.
  - unfold eval_step. cbn [bind]. rewrite L.
    destruct (rv_tran v); cbn in M; try contradiction; subst m; rewrite E; reflexivity.
  - unfold eval_tran. rewrite L.
    assert (K : lookup_square_matrix (st_pred (reshape_vals (rv_name v) (tscalar px) (tscalar y) (Some (j, i))))
       (st_succ (reshape_vals (rv_name v) (tscalar px) (tscalar y) (Some (j, i)))) m (vset_vals l) (Some j) (Some i)
       = Ok (tscalar (get m [i; j]))).
    { unfold lookup_square_matrix, is_square. rewrite Sm, Nat.eqb_refl. cbn [assert_ bind nth].
      rewrite Ln, Nat.eqb_refl. reflexivity. }
    change (st_idx (reshape_vals (rv_name v) (tscalar px) (tscalar y) (Some (j, i)))) with (Some (j, i)).
    destruct (rv_tran v); cbn in M; try contradiction; subst m; cbn [bind] in *; rewrite K; reflexivity.
Qed.

(** C43 *)
Lemma vtype_alone nm t prob given : valid_name nm = true ->
  make_rv (T := R) nm ANone (AType t) prob given = Err AssertionError.
Proof.
  intros V. unfold make_rv, make_variable, set_name. rewrite V. cbn [bind].
  cbn. reflexivity.
Qed.

Lemma v_true_bool b : v_true (T := R) (PB b) = b.
Proof.
  unfold v_true. cbn [as_num]. destruct b.
  - rewrite (proj2 (Reqb_false_iff n1 n0)); auto. rewrite n1_R, n0_R. lra.
  - rewrite Reqb_refl. auto.
Qed.

Lemma vtype_positional nm t : valid_name nm = true ->
  exists v, make_rv (T := R) nm (AType t) ANone PANone PSNone = Ok v /\ rv_name v = nm /\
    rv_state v = mkVS (Some t) (Some (default_vset t)).
Proof.
  intros V.
  assert (E : make_variable (T := R) (Some nm) ANone (AType t) = Ok (nm, mkVS (Some t) (Some (default_vset t)))).
  { unfold make_variable, set_name. rewrite V. cbn [bind]. destruct t; cbn; rewrite ?v_true_bool; reflexivity. }
  assert (D : exists x, default_prob (T := R) (mkVS (Some t) (Some (default_vset t))) (Lin 1) = Ok x).
  { destruct t.
    - destruct (default_prob_ok both _ 2 (Lin 1) both_set npz_le_2 good_one) as (x & H & _); [|exists x; exact H].
      intros _. destruct one_scale as [F _]. cbn [spec_of]. rewrite F. pose proof npi_big. lra.
    - destruct (default_prob_ok (discrete VInt [PI 0; PI 1]) _ _ (Lin 1) (fs_int _)) as (x & H & _);
        [cbn; pose proof npz_le_2; lra|apply good_one| |exists x; exact H].
      intros _. destruct one_scale as [F _]. cbn [spec_of]. rewrite F. cbn. pose proof npi_big. lra.
    - eexists. reflexivity. }
  destruct D as (x & D).
  unfold make_rv. rewrite E. cbn [bind]. unfold rv_set_prob.
  assert (P : new_pscale (T := R) PSNone PSNone = Ok (Lin 1)).
  { unfold new_pscale. cbn. rewrite n1_R. reflexivity. }
  rewrite P. cbn [bind]. rewrite D. cbn [bind]. eexists. split; [reflexivity|]. auto.
Qed.

(** C73 *)
Lemma array_prob_never (v : rv R) l vals : rv_prob v = RPArray l -> eval_prob v vals = Err AssertionError.
Proof. intros E. unfold eval_prob. rewrite E. reflexivity. Qed.

Lemma array_call_never {F : Fmt R} nm vset vt l given v a r q :
  make_rv nm vset vt (PAArray l) given = Ok v -> rv_call v a r <> Ok q.
Proof.
  intros M H. destruct (make_rv_inv _ _ _ _ _ _ M) as (_ & _ & _ & Pr).
  unfold rv_call in H. destruct (rv_evaluate v a r) as [vals|]; [|discriminate]. cbn [bind] in H.
  rewrite (array_prob_never v l vals Pr) in H. discriminate.
Qed.

(** C74 *)
Lemma prob_scale_never (p : rprob R) vals given t : given <> PSNone ->
  prob_call p vals given = Ok t -> ps_true given = false /\ prob_call p vals PSNone = Ok t.
Proof.
  intros _ H. unfold prob_call in *.
  destruct (match p with RPScalar x => Ok (tscalar x) | RPBern b => _ | RPArray l => _ | RPFun f => _ end);
    [|discriminate].
  cbn [bind] in *. destruct (ps_true given); [discriminate|]. auto.
Qed.

Lemma log_scale_ignored nm vset vt prob :
  make_rv (T := R) nm vset vt prob (PSCplx 0 0) = make_rv nm vset vt prob PSNone.
Proof.
  unfold make_rv. destruct (make_variable (Some nm) vt vset) as [[n s]|]; [|reflexivity]. cbn [bind].
  unfold rv_set_prob. unfold new_pscale. cbn [ps_true].
  rewrite (proj2 (Reqb_iff 0 n0)) by (symmetry; apply n0_R). reflexivity.
Qed.

(** C76 *)
Lemma uniform_tran {TR : Trunc R} (v : rv R) dc reverse r x pred succ vp vs ps ss :
  rv_tran v = TRScalar x -> holds pred vp ps -> holds succ vs ss ->
  exists st t, eval_step v dc pred (SVals succ) reverse r = Ok st /\ eval_tran v st reverse = Ok (Some t) /\
    shape t = pair_shape vs vp ss ps /\
    forall a b, (a < length ss)%nat -> (b < length ps)%nat ->
      get t (pair_at vs vp a b) =
        if inside_b (rv_state v) (nth b ps (PF 0)) && inside_b (rv_state v) (nth a ss (PF 0)) then x else 0.
Proof.
  intros Tr Hp Hs. exists (reshape_vals (rv_name v) pred succ None).
  destruct (tbin_pair (fun p q => (if inside_b (rv_state v) p then x else 0) *
                                  (if inside_b (rv_state v) q then 1 else 0)) (rv_name v) pred succ None vp vs ps ss Hp Hs)
    as (t & E & Sh & G).
  exists t. split; [|split; [|split; [exact Sh|]]].
  - unfold eval_step. rewrite Tr. reflexivity.
  - unfold eval_tran. rewrite Tr. unfold uniform_prob. cbn [eval_pscale bind is_log uniform_rest].
    unfold uniform1. cbn [n_mul RNum]. rewrite n0_R, n1_R.
    unfold tbin, tmap in *. cbn [shape get].
    destruct (bcast_shape _ _); [|discriminate]. cbn [bind] in *. injection E as <-. reflexivity.
  - intros a b Ha Hb. rewrite G by auto.
    destruct (inside_b _ (nth b ps (PF 0))), (inside_b _ (nth a ss (PF 0))); cbn [andb]; ring.
Qed.

(** A default probability that is set on an existing variable sets the transition. *)
Lemma set_default_tran (v v' : rv R) a : rv_def v = true -> rv_set_vset v a = (v', Ok tt) ->
  exists x, default_prob (rv_state v') (rv_pscale v) = Ok x /\ rv_tran v' = TRScalar x /\ rv_prob v' = RPScalar x /\
    rv_pscale v' = rv_pscale v /\ rv_name v' = rv_name v /\ rv_def v' = true /\ set_vset (rv_state v) a = (rv_state v', Ok tt).
Proof.
  intros D H. unfold rv_set_vset in H. destruct (set_vset (rv_state v) a) as [s [[]|e]] eqn:S; [|discriminate].
  rewrite D in H. destruct (default_prob s (rv_pscale v)) as [x|] eqn:P; [|discriminate].
  injection H as <-. cbn. exists x. auto 8.
Qed.

Lemma reassign_uniform (v v' : rv R) a mem len :
  eval_pscale (spec_of (rv_pscale v)) = Ok (rv_pscale v) ->
  rv_def v = true -> rv_set_vset v a = (v', Ok tt) ->
  finite_set (rv_state v') mem len -> npz <= len ->
  good_scale (spec_of (rv_pscale v)) ->
  (log_kind (spec_of (rv_pscale v)) = false -> / len / factor (spec_of (rv_pscale v)) <= npi) ->
  set_vset (rv_state v) a = (rv_state v', Ok tt) /\ rv_pscale v' = rv_pscale v /\
  forall vals, exists t, eval_prob v' vals = Ok t /\ shape t = shape vals /\
    forall idx,
      (mem (num (get vals idx)) -> denote (spec_of (rv_pscale v)) (get t idx) = / len) /\
      (~ mem (num (get vals idx)) ->
         get t idx = if log_kind (spec_of (rv_pscale v)) then nni else 0).
Proof.
  intros EP D H FS L G B.
  destruct (set_default_tran v v' a D H) as (x & Dx & _ & Pr & Ps & _ & _ & SV).
  destruct (default_prob_ok _ _ _ (rv_pscale v) FS L G B) as (x' & Dx' & X). rewrite Dx in Dx'. injection Dx' as <-.
  split; auto. split; auto. intros vals.
  destruct (eval_scalar v' x vals Pr) as (t & E & Sh & Gt); [rewrite Ps; exact EP|].
  exists t. split; auto. split; auto. intros idx. rewrite Gt.
  pose proof (inside_set _ _ _ FS (get vals idx)) as I. rewrite Ps, (is_log_kind _ EP).
  split; intros Q.
  - rewrite (proj2 I Q). exact X.
  - destruct (inside_b (rv_state v') (get vals idx)); [tauto|auto].
Qed.

Lemma default_step (v v' : rv R) a mem len dc reverse r pred succ vp vs ps ss c :
  rv_def v = true -> rv_set_vset v a = (v', Ok tt) -> rv_pscale v = Lin c ->
  finite_set (rv_state v') mem len -> npz <= len ->
  good_scale (PSFloat c) -> c <> 0 -> / len / c <= npi ->
  holds pred vp ps -> holds succ vs ss ->
  exists st t, eval_step v' dc pred (SVals succ) reverse r = Ok st /\ eval_tran v' st reverse = Ok (Some t) /\
    shape t = pair_shape vs vp ss ps /\
    forall i k x y, nth_error ss i = Some x -> nth_error ps k = Some y ->
      (mem (num x) -> mem (num y) -> denote (spec_of (rv_pscale v')) (get t (pair_at vs vp i k)) = / len) /\
      (~ mem (num x) \/ ~ mem (num y) -> denote (spec_of (rv_pscale v')) (get t (pair_at vs vp i k)) = 0).
Proof.
  intros D H Pc FS L G NC B Hp Hs.
  destruct (set_default_tran v v' a D H) as (x & Dx & Tr & _ & Ps & _).
  rewrite Pc in *.
  assert (FC : factor (PSFloat c) = c /\ log_kind (PSFloat c) = false).
  { cbn. destruct (Req_EM_T c 0); [contradiction|auto]. }
  destruct FC as [FC LK].
  destruct (default_prob_ok _ _ _ (Lin c) FS L G) as (x' & Dx' & X); [intros _; cbn [spec_of]; rewrite FC; exact B|].
  rewrite Dx in Dx'. injection Dx' as <-.
  destruct (uniform_tran v' dc reverse r x pred succ vp vs ps ss Tr Hp Hs) as (st & t & E1 & E2 & Sh & Gt).
  exists st, t. split; auto. split; auto. split; auto.
  intros i k y z Hy Hz.
  assert (Li : (i < length ss)%nat) by (apply nth_error_Some; congruence).
  assert (Lk : (k < length ps)%nat) by (apply nth_error_Some; congruence).
  rewrite Gt by auto. rewrite (nth_error_nth _ _ (PF 0) Hy), (nth_error_nth _ _ (PF 0) Hz).
  pose proof (inside_set _ _ _ FS y) as Iy. pose proof (inside_set _ _ _ FS z) as Iz. rewrite Ps.
  split.
  - intros My Mz. rewrite (proj2 Iy My), (proj2 Iz Mz). exact X.
  - intros Q. assert (E0 : inside_b (rv_state v') z && inside_b (rv_state v') y = false).
    { rewrite andb_false_iff. destruct Q as [Q|Q]; [right|left]; match goal with |- ?b = false => destruct b end; tauto. }
    rewrite E0. cbn [spec_of]. unfold denote. rewrite FC, LK. ring.
Qed.

Lemma default_step_log (v v' : rv R) a mem len dc reverse r pred succ vp vs ps ss i k x y :
  rv_def v = true -> rv_set_vset v a = (v', Ok tt) -> rv_pscale v = Log 0 0 ->
  finite_set (rv_state v') mem len ->
  holds pred vp ps -> holds succ vs ss ->
  nth_error ss i = Some x -> nth_error ps k = Some y -> ~ mem (num x) \/ ~ mem (num y) ->
  exists st t, eval_step v' dc pred (SVals succ) reverse r = Ok st /\ eval_tran v' st reverse = Ok (Some t) /\
      denote (spec_of (rv_pscale v')) (get t (pair_at vs vp i k)) = 1.
Proof.
  intros D H Pc FS Hp Hs Hy Hz Q.
  destruct (set_default_tran v v' a D H) as (p & Dx & Tr & _ & Ps & _).
  destruct (uniform_tran v' dc reverse r p pred succ vp vs ps ss Tr Hp Hs) as (st & t & E1 & E2 & Sh & Gt).
  exists st, t. split; auto. split; auto.
  assert (Li : (i < length ss)%nat) by (apply nth_error_Some; congruence).
  assert (Lk : (k < length ps)%nat) by (apply nth_error_Some; congruence).
  rewrite Gt by auto. rewrite (nth_error_nth _ _ (PF 0) Hy), (nth_error_nth _ _ (PF 0) Hz).
  pose proof (inside_set _ _ _ FS x) as Iy. pose proof (inside_set _ _ _ FS y) as Iz. rewrite Ps, Pc.
  assert (E0 : inside_b (rv_state v') y && inside_b (rv_state v') x = false).
  { rewrite andb_false_iff. destruct Q as [Q|Q]; [right|left]; match goal with |- ?b = false => destruct b end; tauto. }
  rewrite E0. cbn [spec_of]. rewrite denote_log. apply exp_0.
Qed.

(** C77 *)
Lemma float_unit_never (v : rv R) dc pred u reverse r st :
  (forall f, rv_tran v <> TRFun f) -> (forall f g, rv_tran v <> TRFuns f g) ->
  eval_step v dc pred (SUnit (UFloat u)) reverse r <> Ok st.
Proof.
  intros N1 N2 H. unfold eval_step in H. cbn [bind] in H.
  destruct (rv_tran v) as [|p|m|f b|f|f g]; try (destruct (is_float (rv_state v)); discriminate).
  - destruct (vs_vset (rv_state v)) as [l|]; [|discriminate].
    destruct (matrix_cond_sample pred (UFloat u) m (vset_vals l) (r_unif (sr_eval r) 0)) as [o|] eqn:E; [|discriminate].
    revert E. apply sample_other_sets. discriminate.
  - destruct (vs_vset (rv_state v)) as [l|]; [|discriminate].
    destruct (matrix_cond_sample pred (UFloat u) _ (vset_vals l) (r_unif (sr_eval r) 0)) as [o|] eqn:E; [|discriminate].
    revert E. apply sample_other_sets. discriminate.
  - exact (N1 f eq_refl).
  - exact (N2 f g eq_refl).
Qed.

Lemma int_unit_never (v : rv R) dc pred n reverse r st m :
  matrix_of (rv_tran v) reverse m -> n <> 0%Z ->
  eval_step v dc pred (SUnit (UInt n)) reverse r <> Ok st.
Proof.
  intros M Nn H. unfold eval_step in H. cbn [bind] in H.
  destruct (rv_tran v) as [|p|a|f b|f|f g]; cbn in M; try contradiction;
    (destruct (vs_vset (rv_state v)) as [l|]; [|discriminate];
     match type of H with context [matrix_cond_sample ?p ?q ?m ?l ?u] =>
       destruct (matrix_cond_sample p q m l u) as [o|] eqn:E; [|discriminate] end;
     revert E; apply sample_other_sets; congruence).
Qed.

(** C79: Bernoulli probabilities in linear scale. *)
Lemma bern_linear nm vset vt given v p :
  make_rv nm vset vt (PAScalar p) given = Ok v -> rv_state v = both -> rv_pscale v = Lin 1 ->
  exists t, eval_prob v two = Ok t /\ shape t = [2%nat] /\ get t [1%nat] = p /\
    (Rabs (p - / 2) > / 100000000 + / 200000 -> get t [0%nat] = 1 - p) /\
    (Rabs (p - / 2) <= / 100000000 + / 200000 -> get t [0%nat] = p).
Proof.
  intros M S P. destruct (make_rv_inv _ _ _ _ _ _ M) as (_ & _ & PS & Pr).
  rewrite S in Pr. unfold bernoullise, is_bool, both, discrete in Pr. cbn [vs_vtype] in Pr. cbn [andb] in Pr.
  destruct (close_half p) eqn:C; cbn [negb] in Pr.
  - destruct (eval_scalar v p two Pr) as (t & E & Sh & G); [eapply new_pscale_idem; eauto|].
    exists t. split; auto. split; [exact Sh|]. rewrite !G, S.
    pose proof (inside_set _ _ _ both_set (PB false)) as I0. pose proof (inside_set _ _ _ both_set (PB true)) as I1.
    change (get two [1%nat]) with (PB true : pyval R). change (get two [0%nat]) with (PB false : pyval R).
    rewrite (proj2 I0), (proj2 I1); cbn; auto. apply close_half_iff in C. split; auto. split; auto. intros; lra.
  - destruct (eval_bern v p Pr) as (t & E & Sh & G0 & G1). exists t. split; auto. split; auto. split; auto. split; auto.
    intros Q. apply close_half_iff in Q. congruence.
Qed.

Lemma bern_log nm vset vt given v b :
  make_rv nm vset vt (PAScalar b) given = Ok v -> rv_state v = both -> rv_pscale v = Log 0 0 -> b <= 0 ->
  exists t, eval_prob v two = Ok t /\
    denote (spec_of (rv_pscale v)) (get t [1%nat]) = exp b /\
    denote (spec_of (rv_pscale v)) (get t [0%nat]) = exp (1 - b) /\ exp 1 <= exp (1 - b).
Proof.
  intros M S P B. destruct (make_rv_inv _ _ _ _ _ _ M) as (_ & _ & PS & Pr).
  rewrite S in Pr. unfold bernoullise, is_bool, both, discrete in Pr. cbn [vs_vtype] in Pr. cbn [andb] in Pr.
  assert (C : close_half b = false).
  { destruct (close_half b) eqn:C; auto. apply close_half_iff in C. rewrite Rabs_left in C by lra. lra. }
  rewrite C in Pr. cbn [negb] in Pr.
  destruct (eval_bern v b Pr) as (t & E & Sh & G0 & G1). exists t. split; auto.
  rewrite P. cbn [spec_of]. rewrite !denote_log, G0, G1. split; auto. split; auto.
  destruct (Req_dec b 0) as [-> | NE]; [rewrite Rminus_0_r; lra|]. left. apply exp_increasing. lra.
Qed.

(** Draws of a Bernoulli variable are True with the probability p: exactly when
    the uniform number is below p. *)
Lemma bern_draw (v : rv R) b n r : is_bool (rv_state v) = true -> rv_prob v = RPBern b -> (n <= 0)%Z ->
  exists a, rv_evaluate v (VSet n) r = Ok a /\
    shape a = (if Z.eq_dec n 0 then [] else [Z.to_nat (- n)]) /\
    forall i, (i < tsize a)%nat -> exists d, nth_error (to_list a) i = Some (PB d) /\
      (d = true <-> r_unif r i < b).
Proof.
  intros B P Nn. unfold rv_evaluate. rewrite B, P. destruct n as [|p|p]; [| lia |].
  - eexists. split; [reflexivity|]. split; [destruct (Z.eq_dec 0 0); [reflexivity|lia]|].
    intros i Hi. cbn in Hi. assert (i = 0)%nat by lia. subst i. eexists. split; [reflexivity|]. apply Rltb_iff.
  - eexists. split; [reflexivity|]. split.
    { destruct (Z.eq_dec (Z.neg p) 0); [discriminate|]. unfold of_list. cbn [shape]. rewrite map_length, seq_length. reflexivity. }
    intros i Hi.
    match goal with |- context [of_list ?d ?l] =>
      assert (HL : holds (of_list d l) true l) by reflexivity; pose proof (holds_list _ _ _ HL) as TL;
      pose proof (holds_len _ _ _ HL) as LL end.
    rewrite TL. rewrite LL, map_length, seq_length in Hi.
    eexists. split.
    { rewrite nth_error_map. rewrite (nth_error_nth' _ 0%nat) by (rewrite seq_length; auto).
      rewrite seq_nth by auto. reflexivity. }
    apply Rltb_iff.
Qed.

(** C80 *)
Lemma sampled_within (v : rv R) dc tf px e0 e1 L U n reverse r :
  (exists f, rv_tran v = TRFun f) \/ (exists f g, rv_tran v = TRFuns f g) ->
  rv_tfun v = Some tf -> vs_vset (rv_state v) = Some [e0; e1] ->
  atom_of e0 = AV L -> atom_of e1 = AV U ->
  (forall i, 0 <= r_unif (sr_eval r) i < 1) ->
  tf_cdf tf (num px) (AV L) < tf_cdf tf (num px) (AV U) ->
  (forall p q, tf_cdf tf (num px) (AV L) <= p <= q -> q <= tf_cdf tf (num px) (AV U) ->
     tf_icdf tf (num px) p <= tf_icdf tf (num px) q) ->
  tf_icdf tf (num px) (tf_cdf tf (num px) (AV L)) = num L ->
  tf_icdf tf (num px) (tf_cdf tf (num px) (AV U)) = num U ->
  exists st, eval_step v dc (tscalar px) (SUnit (UInt n)) reverse r = Ok st /\
    tsize (st_succ st) = Nat.max 1 (Z.abs_nat n) /\
    forall y, In y (to_list (st_succ st)) -> num L <= num y <= num U.
Proof.
  intros TR TF VS E0 E1 RU C M I0 I1.
  set (a := tf_cdf tf (num px) (AV L)) in *. set (b := tf_cdf tf (num px) (AV U)) in *.
  assert (W : forall o, uniform (T := R) (n_min a b) (n_max a b) (Some n) (is_tup e0) (is_tup e1) (r_unif (sr_eval r)) = o ->
    match o with UScalar x => n = 0%Z /\ a <= x <= b
               | UArray l => n <> 0%Z /\ length l = Z.abs_nat n /\ Forall (fun x => a <= x <= b) l end).
  { intros o <-. rewrite n_min_R, n_max_R. rewrite Rmin_left, Rmax_right by lra.
    destruct n as [|p|p].
    - pose proof (uniform_random a b (Some 0%Z) (is_tup e0) (is_tup e1) _ C RU (Z.le_refl 0)) as H.
      destruct (uniform a b (Some 0%Z) _ _ _); [split; [auto|lra]|]. destruct H as [(z & Ez & Lz & _) _]. injection Ez as <-. lia.
    - pose proof (fun x => uniform_within a b p (is_tup e0) (is_tup e1) (r_unif (sr_eval r)) x (Rlt_not_eq _ _ C)) as H.
      destruct (uniform a b (Some (Z.pos p)) _ _ _) as [x|l] eqn:Q; [discriminate|].
      split; [lia|]. split.
      + destruct (le_lt_dec 2 (Pos.to_nat p + b1 (is_tup e0) + b1 (is_tup e1))) as [G|G].
        * rewrite uniform_grid in Q by lia. injection Q as <-. rewrite map_length, seq_length. lia.
        * pose proof (Pos2Nat.is_pos p).
          assert (p = 1%positive) by lia. subst p. destruct (is_tup e0), (is_tup e1); cbn in G; try lia.
          rewrite uniform_one in Q. injection Q as <-. reflexivity.
      + apply Forall_forall. intros x Hx. destruct (H x Hx) as [S|[[-> _]|[-> _]]]; try lra.
        unfold strictly_between in S. rewrite Rmin_left, Rmax_right in S by lra. lra.
    - pose proof (uniform_random a b (Some (Z.neg p)) (is_tup e0) (is_tup e1) _ C RU (Pos2Z.neg_is_nonpos p)) as H.
      destruct (uniform a b (Some (Z.neg p)) _ _ _) as [x|l]; [destruct H as [[?|?] _]; discriminate|].
      destruct H as [(z & Ez & Lz & Len) Fl]. injection Ez as <-. split; [lia|]. split; [lia|].
      eapply Forall_impl; [|exact Fl]. cbn. intros; lra. }
  assert (S1 : exists st, eval_step v dc (tscalar px) (SUnit (UInt n)) reverse r = Ok st /\
     st = reshape_vals (rv_name v) (tscalar px)
        (tmap (fun y => PF (tf_icdf tf (num px) (as_num y)))
           (out_tensor (out_map (fun y => y)
              (uniform (n_min a b) (n_max a b) (Some n) (is_tup e0) (is_tup e1) (r_unif (sr_eval r)))))) None).
  { eexists. split; [|reflexivity]. unfold eval_step. cbn [bind].
    destruct TR as [(f & TR)|(f & g & TR)]; rewrite TR, TF, VS; cbn [tscalar shape get bind];
      rewrite E0, E1, as_num_num; reflexivity. }
  destruct S1 as (st & ES & ->). eexists. split; [exact ES|].
  specialize (W _ eq_refl).
  assert (K : forall x, a <= x <= b -> num L <= tf_icdf tf (num px) x <= num U).
  { intros x Hx. rewrite <- I0, <- I1. split; apply M; lra. }
  destruct (uniform _ _ _ _ _ _) as [x|l].
  - destruct W as [-> Hx]. cbn [out_map out_tensor].
    split; [reflexivity|]. intros y Hy. cbn in Hy. destruct Hy as [<- | []]. cbn [num]. apply K. exact Hx.
  - destruct W as (Nz & Ll & Fl). cbn [out_map out_tensor].
    set (s := tmap _ _).
    assert (Ss : shape s = [length l]) by (unfold s, tmap, of_list; cbn; rewrite map_length; auto).
    assert (R1 : st_succ (reshape_vals (rv_name v) (tscalar px) s None) = s).
    { unfold reshape_vals. rewrite Ss. reflexivity. }
    rewrite R1. split; [unfold tsize; rewrite Ss; unfold prod_list; cbn [fold_right]; assert (Z.abs_nat n <> 0)%nat by lia; lia|].
    intros y Hy. unfold to_list in Hy. apply in_map_iff in Hy. destruct Hy as (k & <- & Hk).
    unfold s. cbn [tmap get num of_list]. apply K.
    apply in_seq in Hk. unfold tsize in Hk. rewrite Ss in *.
    assert (Hk' : (k < length l)%nat) by (cbn in Hk; lia).
    assert (HU : hd 0%nat (unravel (shape (tmap (fun y : pyval R => PF (tf_icdf tf (num px) (as_num y)))
       (of_list (PF n0) (map (fun x : R => PF x) l)))) k) = k).
    { cbn [tmap of_list shape unravel hd]. change (prod_list []) with 1%nat. apply Nat.div_1_r. }
    rewrite HU.
    rewrite (nth_indep _ (PF n0) (PF 0)) by (rewrite map_length; auto).
    rewrite (map_nth (fun x => PF x)). cbn [as_num]. rewrite Forall_forall in Fl. apply Fl. apply nth_In. auto.
Qed.

(** ** Instances *)

Lemma default_scale : new_pscale (T := R) PSNone PSNone = Ok (Lin 1).
Proof. unfold new_pscale. cbn. rewrite n1_R. reflexivity. Qed.

Lemma list_variable nm (vs : list Z) : valid_name nm = true -> vs <> [] ->
  make_variable (T := R) (Some nm) ANone (AList (map (fun z => Bare (AV (PI z))) vs))
  = Ok (nm, discrete VInt (map (fun z => PI z) vs)).
Proof.
  intros V NE. unfold make_variable, set_name. rewrite V. cbn [bind is_container init_state truth].
  destruct vs as [|z vs]; [contradiction|]. cbn [map].
  cbn [set_vset new_state vs_vtype]. cbn [cast_loop bind cast vtype_of].
  assert (C : forall vs, cast_loop (T := R) None (Some VInt) (map (fun z => Bare (AV (PI z))) vs)
              = Ok (map (fun z => Bare (AV (PI z))) vs, Some VInt)).
  { clear. induction vs as [|z vs IH]; [reflexivity|]. cbn [map cast_loop bind cast vtype_of vtype_eqb].
    rewrite IH. reflexivity. }
  rewrite C. cbn [bind eval_vlims].
  assert (T : forall vs, existsb (is_tup (T := R)) (map (fun z => Bare (AV (PI z))) vs) = false).
  { clear. induction vs; auto. }
  cbn [existsb is_tup]. rewrite T. cbn [orb andb]. unfold discrete. cbn [map]. rewrite map_map. reflexivity.
Qed.

Lemma int_variable nm (vs : list Z) : valid_name nm = true -> vs <> [] ->
  exists v, make_rv (T := R) nm (AList (map (fun z => Bare (AV (PI z))) vs)) ANone PANone PSNone = Ok v /\
    rv_state v = discrete VInt (map (fun z => PI z) vs) /\ rv_pscale v = Lin 1 /\ rv_def v = true.
Proof.
  intros V NE. unfold make_rv. rewrite list_variable by auto. cbn [bind]. unfold rv_set_prob. rewrite default_scale.
  cbn [bind].
  assert (L1 : 1 <= INR (length (map (fun z => PI z) vs : list (pyval R)))).
  { destruct vs; [contradiction|]. cbn [map length]. rewrite S_INR. pose proof (pos_INR (length (map (fun z => PI z) vs : list (pyval R)))). lra. }
  destruct (default_prob_ok (discrete VInt (map (fun z => PI z) vs)) _ _ (Lin 1) (fs_int _)) as (x & -> & _).
  - pose proof npz_lt_1. lra.
  - apply good_one.
  - intros _. destruct one_scale as [F _]. cbn [spec_of]. rewrite F. pose proof npi_big.
    assert (/ INR (length (map (fun z => PI z) vs : list (pyval R))) <= / 1) by (apply Rinv_le_contravar; lra). lra.
  - cbn [bind]. eexists. split; [reflexivity|]. auto.
Qed.

Lemma die :
  exists v, make_rv (T := R) "d" (AList [Bare (AV (PI 1)); Bare (AV (PI 2)); Bare (AV (PI 3))]) ANone PANone PSNone = Ok v /\
    rv_state v = discrete VInt [PI 1; PI 2; PI 3] /\
    finite_set (rv_state v) (fun x => In x [1; 2; 3]) 3 /\ npz <= 3 /\ rv_pscale v = Lin 1 /\
    good_scale (spec_of (rv_pscale v)) /\ / 3 / factor (spec_of (rv_pscale v)) <= npi.
Proof.
  destruct (int_variable "d" [1; 2; 3]%Z) as (v & E & S & P & D); [reflexivity|discriminate|].
  exists v. split; [exact E|]. split; [exact S|]. rewrite S. split.
  { pose proof (fs_int [PI 1; PI 2; PI 3]) as H. cbn [map num length] in H.
    replace (INR 3) with 3 in H by (cbn; lra). exact H. }
  split; [pose proof npz_lt_1; lra|]. split; auto. rewrite P. cbn [spec_of]. split; [apply good_one|].
  destruct one_scale as [F _]. rewrite F. pose proof npi_big. lra.
Qed.

Lemma both_variable nm : valid_name nm = true -> make_variable (T := R) (Some nm) ANone ANone = Ok (nm, both).
Proof.
  intros V. unfold make_variable, set_name. rewrite V. cbn. rewrite !v_true_bool. reflexivity.
Qed.

Lemma bool_log_variable :
  exists v, make_rv (T := R) "b" ANone ANone PANone (PSStr "log") = Ok v /\ rv_state v = both /\ rv_pscale v = Log 0 0.
Proof.
  unfold make_rv. rewrite both_variable by reflexivity. cbn [bind]. unfold rv_set_prob.
  assert (P : new_pscale (T := R) (PSStr "log") PSNone = Ok (Log 0 0)).
  { unfold new_pscale. reflexivity. }
  rewrite P. cbn [bind].
  destruct (default_prob_ok both _ 2 (Log 0 0) both_set npz_le_2) as (x & -> & _).
  - apply log_scale_good.
  - cbn. discriminate.
  - cbn [bind]. eexists. split; [reflexivity|]. auto.
Qed.

Lemma array_variable :
  exists v, make_rv (T := R) "d" (AList [Bare (AV (PI 1)); Bare (AV (PI 2))]) ANone (PAArray [1/4; 3/4]) PSNone = Ok v.
Proof.
  unfold make_rv. pose proof (list_variable "d" [1; 2]%Z eq_refl ltac:(discriminate)) as E. cbn [map] in E. rewrite E.
  cbn [bind]. unfold rv_set_prob. rewrite default_scale. cbn [bind]. eexists. reflexivity.
Qed.

Lemma scale_call :
  PSCplx (T := R) 0 0 <> PSNone /\
  prob_call (RPFun (fun x : R => x)) (Some (tscalar (PF (1/2)))) (PSFloat 1) = Err KeyError.
Proof.
  split; [discriminate|]. unfold prob_call. cbn [bind ps_true].
  rewrite (proj2 (Reqb_false_iff 1 n0)); [reflexivity|]. rewrite n0_R. lra.
Qed.

Lemma die_reassigned :
  exists v v', make_rv (T := R) "d" (AList [Bare (AV (PI 1)); Bare (AV (PI 2)); Bare (AV (PI 3))]) ANone PANone PSNone = Ok v /\
    rv_def v = true /\ rv_set_vset v (AList [Bare (AV (PI 4)); Bare (AV (PI 5))]) = (v', Ok tt) /\
    rv_pscale v = Lin 1 /\ eval_pscale (spec_of (rv_pscale v)) = Ok (rv_pscale v) /\
    finite_set (rv_state v') (fun x => In x [4; 5]) 2 /\ good_scale (PSFloat 1) /\ / 2 / 1 <= npi /\
    holds (of_list (PF 0) [PI 4; PI 5]) true [PI 4; PI 5] /\ ~ In (num (PI 7)) [4; 5].
Proof.
  destruct (int_variable "d" [1; 2; 3]%Z) as (v & E & S & P & D); [reflexivity|discriminate|].
  exists v. unfold rv_set_vset. rewrite S, D, P.
  assert (SV : set_vset (discrete VInt (map (fun z => PI z) [1; 2; 3]%Z)) (AList [Bare (AV (PI 4)); Bare (AV (PI 5))])
               = (discrete VInt [PI 4; PI 5], Ok tt)) by reflexivity.
  rewrite SV.
  destruct (default_prob_ok (discrete VInt [PI 4; PI 5]) _ _ (Lin 1) (fs_int _)) as (x & Dx & _).
  - cbn. pose proof npz_le_2. lra.
  - apply good_one.
  - intros _. destruct one_scale as [F _]. cbn [spec_of]. rewrite F. cbn. pose proof npi_big. lra.
  - rewrite Dx. eexists. split; [exact E|]. split; auto. split; [reflexivity|]. split; auto.
    split; [rewrite <- P; eapply new_pscale_idem; destruct (make_rv_inv _ _ _ _ _ _ E) as (_ & _ & Q & _); exact Q|].
    split.
    { cbn [rv_state]. pose proof (fs_int [PI 4; PI 5]) as H. cbn [map num length] in H.
      replace (INR 2) with 2 in H by (cbn; lra). exact H. }
    split; [apply good_one|]. split; [pose proof npi_big; lra|]. split; [reflexivity|].
    cbn. intros [H|[H|[]]]; lra.
Qed.

Lemma coin :
  exists v, make_rv (T := R) "b" ANone ANone (PAScalar (1/4)) PSNone = Ok v /\ rv_state v = both /\
    rv_pscale v = Lin 1 /\ rv_prob v = RPBern (1/4) /\ is_bool (rv_state v) = true.
Proof.
  unfold make_rv. rewrite both_variable by reflexivity. cbn [bind]. unfold rv_set_prob. rewrite default_scale. cbn [bind].
  eexists. split; [reflexivity|]. cbn [rv_state rv_pscale rv_prob]. split; auto. split; auto. split; [|reflexivity].
  unfold bernoullise. cbn [is_bool both discrete vs_vtype andb].
  assert (C : close_half (1 / 4) = false).
  { destruct (close_half (1 / 4)) eqn:C; auto. apply close_half_iff in C. rewrite Rabs_left in C by lra. lra. }
  rewrite C. reflexivity.
Qed.
