(** sorted (pd.py 464-493). *)
From Coq Require Import Ascii String ZArith Reals Lra Bool Arith Lia Permutation Sorted List.
From Verif Require Import Base Num Tensor TensorBcast OdLemmas TensorLemmas RNumLemmas PScales PScales_Spec Names Names_Spec
  Names_Proofs Distr Distr_Spec Distr_Proofs PDModel PD_Spec PD_Make PD_Valid PD_MakeGen PD_Sort_Spec.
Import ListNotations.
Local Open Scope nat_scope.

Section Sort.
Context {F : Fmt R}.

(** Distributions with own axes. *)
Lemma valid_laid_out (p : pd R) (L : list string) : valid_pd p L -> laid_out p (length L).
Proof.
  intros V.
  assert (AX : forall j k, nth_error L j = Some k -> exists a, od_get (p_vals p) k = Some (VArr a) /\ (j < length L) /\
     od_get (p_dims p) k = Some (Some (Z.of_nat j)) /\ nth_error (p_shape p) j = Some (tsize a) /\ one_axis a).
  { intros j k J. destruct (vp_column _ _ V j k J) as (a & m & A1 & A2 & A3 & A4 & A5).
    exists a. assert (tsize a = m) by (unfold tsize; rewrite A3; apply prod_axis).
    split; [exact A1|]. split; [apply nth_error_Some; congruence|]. split; [exact A5|]. split; [congruence|].
    split; [rewrite A3; destruct j; discriminate|]. rewrite H, A3. symmetry. apply list_max_axis, A2. }
  assert (DL : forall k d, od_get (p_dims p) k = Some (Some d) -> exists j, nth_error L j = Some k /\ d = Z.of_nat j).
  { intros k d G. assert (Kk : In k (p_keylist p)) by (apply (vp_dims _ _ V); eapply od_get_some_key; eauto).
    destruct (in_dec string_dec k L) as [I|I].
    - destruct (In_nth_error _ _ I) as (j & J). destruct (AX j k J) as (a & _ & _ & D & _). exists j. split; [exact J|congruence].
    - rewrite (vp_dim_scalar p L V k Kk I) in G. discriminate. }
  assert (ON : forall j k, nth_error L j = Some k -> on_axis (length L) (p_dims p) k j).
  { intros j k J. destruct (AX j k J) as (a & _ & A2 & A3 & _). exists (Z.of_nat j). split; [exact A3|]. split; [left; lia|exact A2]. }
  constructor; try apply V.
  - split.
    + intros k d I. apply od_in_get in I; [|apply (vp_dims _ _ V)]. apply DL in I. destruct I as (j & J & ->).
      destruct (AX j k J) as (a & _ & A2 & _). lia.
    + destruct (length L) as [|n] eqn:En; [left; reflexivity|right].
      destruct (nth_error L n) as [k|] eqn:J; [|apply nth_error_None in J; lia].
      destruct (AX n k J) as (a & _ & _ & A3 & _). exists k, (Z.of_nat n). split; [apply od_get_in, A3|lia].
  - intros k d G. apply DL in G. destruct G as (j & _ & ->). lia.
  - intros k Kk C. pose proof (vp_dim p L V k Kk) as D. apply od_getR_ok in D. congruence.
  - split; [intros k K; apply (vp_reserved _ _ V k K)|]. split.
    + intros k v G. destruct (in_dec string_dec k L) as [I|I].
      * right. destruct (In_nth_error _ _ I) as (j & J). destruct (AX j k J) as (a & A1 & _ & _ & _ & A5).
        exists a, j. split; [split; auto|auto].
      * left. destruct (vp_scalar _ _ V k v G I) as [S1 S2]. split; [left; exact S1|right; exact S2].
    + intros j J. destruct (nth_error L j) as [k|] eqn:E; [|apply nth_error_None in E; lia].
      destruct (AX j k E) as (a & A1 & _ & _ & _ & A5). exists k, a. split; [split; auto|auto].
  - intros k G. destruct (in_dec string_dec k L) as [I|I].
    + destruct (In_nth_error _ _ I) as (j & J). destruct (AX j k J) as (a & A1 & _). congruence.
    + destruct (vp_scalar _ _ V k _ G I) as [S1 S2]. discriminate.
  - intros k a j [G _] (d & D & O & J). destruct (DL k d D) as (j' & J' & ->).
    assert (j' = j) by lia. subst j'. destruct (AX j k J') as (a' & A1 & _ & _ & A4 & _). congruence.
  - intros k a [G C]. destruct (in_dec string_dec k L) as [I|I].
    + destruct (In_nth_error _ _ I) as (j & J). destruct (vp_column _ _ V j k J) as (a' & m & A1 & A2 & A3 & _).
      assert (a' = a) by congruence. subst a'. unfold tsize. rewrite A3, prod_axis. exact A2.
    + destruct (vp_scalar _ _ V k _ G I) as [S1 S2]. destruct C as [C _]. rewrite arr_not_singleton in S1 by exact C. discriminate.
  - intros k v e G S E. apply (vp_rendered _ _ V k v e G); auto. apply (vp_sing p L V k v G), S.
Qed.

Lemma make_dist_dims name (vals : odict (value R)) dims d : (forall k, In k (od_keys vals) -> od_get dims k <> None) ->
  make_dist name vals (Some dims) = Ok d -> d_dims d = dims.
Proof.
  intros HD H. unfold make_dist in H. destruct vals as [|kv0 vals0] eqn:EV; [injection H as <-; reflexivity|]. rewrite <- EV in *.
  destruct (clean_vals vals) as [vals1|] eqn:CV; cbn [bind] in H; [|discriminate].
  pose proof (clean_inv _ _ CV) as ->.
  destruct (fold_res _ _ _) as [st|] eqn:FR; cbn [bind] in H; [|discriminate].
  destruct (full_shape (s_shape st)); cbn [bind] in H; [|discriminate]. injection H as <-. cbn [d_dims].
  revert FR. apply (fold_res_inv _ (fun _ st => s_dims st = dims)); [reflexivity|].
  intros pre [k v] post s1 s2 E I Hs.
  assert (Ik : In k (od_keys vals)).
  { rewrite <- (cleaned_keys vals). rewrite E. unfold od_keys. rewrite map_app. apply in_elt. }
  unfold dims_step in Hs. cbn [fst snd] in Hs. destruct (issingleton v).
  - rewrite I in Hs. destruct (od_get dims k) as [[z|]|] eqn:G; try discriminate; [|destruct (HD k Ik G)].
    injection Hs as <-. exact I.
  - destruct v as [| | |b|]; try discriminate. destruct (tsize b =? list_max (shape b)); cbn [assert_ bind] in Hs; [|discriminate].
    destruct (od_mem (s_dims s1) k); cbn [assert_ bind] in Hs; [|discriminate].
    destruct (od_get (s_dims s1) k) as [[z|]|]; try discriminate.
    destruct (py_indexR (length (s_shape s1)) z); cbn [bind] in Hs; [|discriminate].
    destruct (py_indexR (s_ndim s1) z) as [j|]; cbn [bind] in Hs; [|discriminate].
    match type of Hs with (bind ?x _ = _) => destruct x; cbn [bind] in Hs; [|discriminate] end.
    injection Hs as <-. exact I.
Qed.

Lemma make_pd_name_is name (vals : odict (value R)) dims t ps q : make_pd name vals dims t ps = Ok q ->
  p_name q = margcond_str (od_vals (p_marg q)) (od_vals (p_cond q)).
Proof.
  unfold make_pd. intros H. destruct (str_margcond name) as [[m0 c0]|]; cbn [bind] in H; [|discriminate].
  destruct (make_dist name vals dims) as [d|]; cbn [bind] in H; [|discriminate].
  destruct (override_names _ _) as [[m c]|]; cbn [bind] in H; [|discriminate].
  destruct (eval_pscale ps) as [s|]; cbn [bind] in H; [|discriminate].
  destruct (check_prob _ _); cbn [bind] in H; [|discriminate]. injection H as <-. reflexivity.
Qed.

(** The constructor on the values of p with some of its columns replaced. *)
Lemma remake (p : pd R) (n : nat) (vals : odict (value R)) (t : tensor R) (ps : pspec R) (psc : pscale R) : laid_out p n ->
  od_keys vals = p_keylist p ->
  (forall k v, od_get (p_vals p) k = Some v -> issingleton v = true -> od_get vals k = Some v) ->
  (forall k a, column (p_vals p) k a -> exists a', column vals k a' /\ tsize a' = tsize a) ->
  shape t = p_shape p -> eval_pscale ps = Ok psc -> eval_pscale (spec_of psc) = Ok psc ->
  exists q, make_pd (p_name p) vals (Some (p_dims p)) (Some t) ps = Ok q /\
    laid_out q n /\ p_keylist q = p_keylist p /\ p_dims q = p_dims p /\ p_shape q = p_shape p /\
    p_marg q = p_marg p /\ p_cond q = p_cond p /\ p_prob q = Some t /\ p_pscale q = psc /\
    (forall k, In k (p_keylist p) -> variable q k = option_map var_of (od_get vals k)).
Proof.
  intros V KV HS HC ST EP EI.
  assert (SC : forall k v, od_get (p_vals p) k = Some v -> (issingleton v = true /\ no_axis (p_dims p) k) \/
     exists a j, v = VArr a /\ column (p_vals p) k a /\ on_axis n (p_dims p) k j).
  { intros k v G. destruct (lo_described _ _ V) as (_ & D & _). destruct (D k v G) as [[[S|S] N]|(a & j & C & O)]; [left; auto| |].
    - exfalso. subst v. apply (lo_kept _ _ V k G).
    - right. exists a, j. split; [|auto]. destruct C as [C _]. congruence. }
  assert (ND : NoDup (od_keys vals)) by (rewrite KV; apply V).
  assert (NE : vals <> []) by (intros C; apply (lo_some _ _ V); rewrite <- KV, C; reflexivity).
  assert (GV : forall k v, od_get vals k = Some v -> exists w, od_get (p_vals p) k = Some w).
  { intros k v G. apply od_key_get. change (In k (p_keylist p)). rewrite <- KV. eapply od_get_some_key; eauto. }
  assert (De : describes vals (p_dims p) n).
  { destruct (lo_described _ _ V) as (D1 & D2 & D3). split; [rewrite KV; exact D1|]. split.
    - intros k v G. destruct (GV k v G) as (w & Gw). destruct (SC k w Gw) as [[S N]|(a & j & -> & C & O)].
      + left. rewrite (HS k w Gw S) in G. injection G as <-. split; [left; exact S|exact N].
      + right. destruct (HC k a C) as (a' & C' & _). exists a', j. auto.
    - intros j J. destruct (D3 j J) as (k & a & C & O). destruct (HC k a C) as (a' & C' & _). exists k, a'. auto. }
  destruct (make_pd_gen vals (p_dims p) n (p_marg p) (p_cond p) ps psc ND NE (lo_axes _ _ V) De (lo_entries _ _ V)) as (d & Ed & Hok & _).
  { rewrite KV. apply (lo_names _ _ V). } { exact EP. }
  destruct (make_dist_result _ vals (p_dims p) n d ND NE (lo_axes _ _ V) Ed) as (_ & Kd & Nd & Ls & _ & Rs & Rc & Rx).
  assert (SH : d_shape d = p_shape p).
  { apply nth_ext with (d := 0) (d' := 0); [rewrite (lo_shape _ _ V); exact Ls|].
    intros j J. rewrite Ls in J. destruct (Rx j J) as (k & a & C & O & E & _).
    assert (Gk : In k (od_keys vals)) by (destruct C as [C _]; eapply od_get_some_key; eauto).
    rewrite KV in Gk. destruct (od_key_get _ _ Gk) as (w & Gw). destruct (SC k w Gw) as [[S N]|(b & j' & -> & Cb & Ob)].
    - destruct C as [C [C2 _]]. rewrite (HS k w Gw S) in C. injection C as ->. rewrite arr_not_singleton in S by exact C2. discriminate.
    - destruct (HC k b Cb) as (b' & Cb' & Tb). assert (b' = a) by (destruct C as [C _], Cb' as [C' _]; congruence). subst b'.
      pose proof (lo_size _ _ V k b j Cb O) as E2. rewrite <- Tb in E2.
      rewrite (nth_error_nth _ _ _ E), (nth_error_nth _ _ _ E2). reflexivity. }
  destruct (Hok t) as (q & Eq & Q1 & Q2 & Q3 & Q4 & Q5 & Q6 & Q7); [rewrite SH; exact ST|].
  (* the values kept *)
  assert (VS : forall k v, od_get (p_vals p) k = Some v -> issingleton v = true -> od_get (p_vals q) k = Some v /\ od_get (p_dims q) k = Some None).
  { intros k v G S. destruct (Rs k v (HS k v G S) (or_introl S)) as [R1 R2]. rewrite Q1, Q2, R1, R2. split; [|reflexivity].
    f_equal. destruct v as [| |[|[] [|]]| |]; try reflexivity; discriminate. }
  assert (VC : forall k a j, column (p_vals p) k a -> on_axis n (p_dims p) k j -> exists a' b, column vals k a' /\
     od_get (p_vals q) k = Some (VArr b) /\ shape b = along n j (tsize a) /\ to_list b = to_list a' /\ od_get (p_dims q) k = od_get (p_dims p) k).
  { intros k a j C O. destruct (HC k a C) as (a' & C' & Ta). destruct (Rc k a' j C' O) as (R1 & b & R2 & R3 & R4).
    exists a', b. rewrite Q1, Q2, <- Ta. auto. }
  assert (Kq : p_keylist q = p_keylist p).
  { unfold p_keylist, d_keylist. change (d_vals (p_d q)) with (p_vals q). rewrite Q1. change (od_keys (d_vals d)) with (d_keylist d). rewrite Kd. exact KV. }
  assert (RN : forall m, incl m (p_marg p ++ p_cond p) -> map (render (d_vals d) (cols_of (d_vals d))) m = m).
  { assert (NDq : NoDup (od_keys (d_vals d))) by (change (NoDup (d_keylist d)); rewrite Kd; exact ND).
    assert (NE2 : NoDup (od_keys (p_marg p ++ p_cond p))).
    { unfold od_keys. rewrite map_app. eapply Permutation_NoDup; [apply Permutation_sym, (lo_names _ _ V)|apply V]. }
    intros m Hm. rewrite <- (map_id m) at 2. apply map_ext_in. intros [k e] I. unfold render. cbn [fst snd]. f_equal.
    destruct (mem_str k (cols_of (d_vals d))) eqn:M; [reflexivity|]. apply mem_str_false in M.
    destruct (od_get (d_vals d) k) as [v|] eqn:G; [|reflexivity].
    apply (cols_of_iff _ _ _ NDq G) in M. symmetry.
    assert (Gk : In k (p_keylist p)) by (rewrite <- KV, <- Kd; eapply od_get_some_key; exact G).
    destruct (od_key_get _ _ Gk) as (w & Gw).
    assert (w = v).
    { destruct (SC k w Gw) as [[S N]|(b & j' & -> & Cb & Ob)].
      - destruct (VS k w Gw S) as [X _]. rewrite Q1 in X. congruence.
      - destruct (VC k b j' Cb Ob) as (a' & b' & _ & X & Y & _). rewrite Q1 in X. rewrite X in G. injection G as <-.
        rewrite arr_not_singleton in M by (rewrite Y; unfold along; destruct j'; discriminate). discriminate. }
    subst w. apply (lo_rendered _ _ V k v e Gw M). apply od_in_get; auto. }
  rewrite (RN (p_marg p)) in Q4 by (intros x Hx; apply in_or_app; auto).
  rewrite (RN (p_cond p)) in Q5 by (intros x Hx; apply in_or_app; auto).
  assert (DP : p_dims q = p_dims p).
  { rewrite Q2. apply (make_dist_dims (margcond_str (od_vals (p_marg p)) (od_vals (p_cond p))) vals); [|exact Ed].
    rewrite KV. apply (lo_dims _ _ V). }
  assert (GQ : forall k v, od_get (p_vals q) k = Some v -> exists w, od_get (p_vals p) k = Some w).
  { intros k v G. apply od_key_get. change (In k (p_keylist p)). rewrite <- Kq. eapply od_get_some_key; exact G. }
  exists q. rewrite (lo_name _ _ V). split; [exact Eq|].
  assert (XX : p_shape q = p_shape p) by congruence.
  split; [|do 7 (split; [assumption|])].
  - constructor; rewrite ?Kq, ?DP, ?XX, ?Q4, ?Q5; try apply V.
    + destruct (lo_described _ _ V) as (D1 & D2 & D3). split; [change (od_keys (p_vals q)) with (p_keylist q); rewrite Kq; exact D1|].
      assert (CC : forall k a j, column (p_vals p) k a -> on_axis n (p_dims p) k j -> exists b, column (p_vals q) k b).
      { intros k a j C O. destruct (VC k a j C O) as (a' & b & [_ Ca'] & Gb & Sb & Tb & _). exists b. split; [exact Gb|].
        split; [rewrite Sb; unfold along; destruct j; discriminate|].
        assert (Ta : tsize b = tsize a) by (unfold tsize at 1; rewrite Sb; apply prod_axis). rewrite Ta, Sb. unfold along.
        symmetry. apply list_max_axis, (lo_nonempty _ _ V k a C). }
      split.
      * intros k v G. destruct (GQ k v G) as (w & Gw). destruct (SC k w Gw) as [[S N]|(a & j & -> & C & O)].
        -- left. destruct (VS k w Gw S) as [X _]. rewrite X in G. injection G as <-. split; [left; exact S|exact N].
        -- right. destruct (CC k a j C O) as (b & C'). exists b, j. auto.
      * intros j J. destruct (D3 j J) as (k & a & C & O). destruct (CC k a j C O) as (b & C'). exists k, b. auto.
    + intros k G. destruct (GQ k _ G) as (w & Gw). destruct (SC k w Gw) as [[S N]|(a & j & -> & C & O)].
      * destruct (VS k w Gw S) as [X _]. rewrite X in G. injection G as ->. discriminate.
      * destruct (VC k a j C O) as (a' & b & _ & Gb & _). congruence.
    + intros k b j C O. destruct C as [G C]. destruct (GQ k _ G) as (w & Gw). destruct (SC k w Gw) as [[S N]|(a & j' & -> & Ca & O')].
      * destruct (VS k w Gw S) as [X _]. rewrite X in G. injection G as ->. destruct C as [C _]. rewrite arr_not_singleton in S by exact C. discriminate.
      * destruct (VC k a j Ca O) as (a' & b' & _ & Gb & Sb & _). assert (b' = b) by congruence. subst b'.
        rewrite (lo_size _ _ V k a j Ca O). unfold tsize at 2. rewrite Sb. unfold along. rewrite prod_axis. reflexivity.
    + intros k b C. destruct C as [G C]. destruct (GQ k _ G) as (w & Gw). destruct (SC k w Gw) as [[S N]|(a & j & -> & Ca & O)].
      * destruct (VS k w Gw S) as [X _]. rewrite X in G. injection G as ->. destruct C as [C _]. rewrite arr_not_singleton in S by exact C. discriminate.
      * destruct (VC k a j Ca O) as (a' & b' & _ & Gb & Sb & _). assert (b' = b) by congruence. subst b'.
        unfold tsize. rewrite Sb. unfold along. rewrite prod_axis. apply (lo_nonempty _ _ V k a Ca).
    + exists t. split; [exact Q6|exact ST].
    + rewrite Q7. exact EI.
    + intros k v e G S E. destruct (GQ k _ G) as (w & Gw). destruct (SC k w Gw) as [[S' N]|(a & j' & -> & Ca & O')].
      * destruct (VS k w Gw S') as [X _]. rewrite X in G. injection G as ->. apply (lo_rendered _ _ V k v e Gw S' E).
      * destruct (VC k a j' Ca O') as (a' & b & _ & Gb & Sb & _). rewrite Gb in G. injection G as <-.
        rewrite arr_not_singleton in S by (rewrite Sb; unfold along; destruct j'; discriminate). discriminate.
    + rewrite <- Q4, <- Q5. apply (make_pd_name_is _ _ _ _ _ _ Eq).
  - intros k Hk. destruct (od_key_get _ _ Hk) as (w & Gw). unfold variable. destruct (SC k w Gw) as [[S N]|(a & j & -> & C & O)].
    + destruct (VS k w Gw S) as [X _]. rewrite X, (HS k w Gw S). reflexivity.
    + destruct (VC k a j C O) as (a' & b & [Ga' [Ca' _]] & Gb & Sb & Tb & _). rewrite Gb, Ga'. cbn [option_map var_of].
      rewrite Sb, Tb. unfold along. destruct j; cbn [repeat app]; destruct (shape a'); congruence.
Qed.

Lemma pick_length l ix : length (pick l ix) = length ix.
Proof. apply map_length. Qed.

Lemma take_raveled (a : tensor R) ix : Forall (fun i => i < tsize a) ix ->
  shape (take_axis (traveled a) 0 ix) = [length ix] /\ to_list (take_axis (traveled a) 0 ix) = pick (to_list a) ix.
Proof.
  intros H. split; [reflexivity|].
  apply nth_ext with (d := 0%R) (d' := 0%R); [rewrite to_list_length, pick_length; unfold tsize; cbn; lia|].
  intros i Hi. rewrite to_list_length in Hi. unfold tsize in Hi. cbn in Hi. rewrite Nat.mul_1_r in Hi.
  rewrite to_list_nth by (unfold tsize; cbn; lia). unfold pick.
  rewrite (nth_indep _ 0%R (nth 0 (to_list a) 0%R)) by (rewrite map_length; exact Hi).
  rewrite (map_nth (fun i => nth i (to_list a) 0%R) ix 0 i).
  rewrite Forall_forall in H. specialize (H (nth i ix 0) (nth_In _ _ Hi)).
  rewrite to_list_nth by exact H. change (shape (take_axis (traveled a) 0 ix)) with [length ix]. cbn [unravel].
  change (prod_list []) with 1. rewrite Nat.div_1_r. reflexivity.
Qed.

(** The scalar case: the distribution itself. *)
Lemma sorted_scalar (p : pd R) (n : nat) (key : string) (ix : list nat) : laid_out p n ->
  In key (p_keylist p) -> od_get (p_dims p) key = Some None ->
  exists q, sorted p key ix = Ok q /\ laid_out q n /\ p_keylist q = p_keylist p /\ p_dims q = p_dims p /\ p_shape q = p_shape p /\
    p_marg q = p_marg p /\ p_cond q = p_cond p /\ p_pscale q = p_pscale p /\
    (forall k, In k (p_keylist p) -> variable q k = variable p k) /\ (forall idx, prob_pos q idx = prob_pos p idx).
Proof.
  intros V K D. destruct (lo_prob _ _ V) as (t & Et & St).
  destruct (remake p n (p_vals p) t (spec_of (p_pscale p)) (p_pscale p) V) as (q & Eq & Vq & Q1 & Q2 & Q3 & Q4 & Q5 & Q6 & Q7 & Q8); auto.
  - intros k a C. exists a. auto.
  - apply V.
  - apply V.
  - exists q. unfold sorted, od_getR. rewrite D. cbn [bind]. rewrite Et. split; [exact Eq|].
    do 7 (split; [assumption|]). split.
    + intros k Hk. rewrite Q8 by exact Hk. unfold variable. destruct (od_get (p_vals p) k); reflexivity.
    + intros idx. unfold prob_pos. rewrite Q6, Q7, Et. reflexivity.
Qed.

Lemma sorted_column (p : pd R) (n : nat) (key : string) (j : nat) (l : list R) (ix : list nat) : laid_out p n ->
  variable p key = Some (Col l) -> on_axis n (p_dims p) key j -> argsort l ix ->
  exists q, sorted p key ix = Ok q /\ laid_out q n /\ p_keylist q = p_keylist p /\ p_dims q = p_dims p /\ p_shape q = p_shape p /\
    p_marg q = p_marg p /\ p_cond q = p_cond p /\ p_pscale q = p_pscale p /\
    (forall k m, variable p k = Some (Col m) -> on_axis n (p_dims p) k j -> variable q k = Some (Col (pick m ix))) /\
    (forall k, In k (p_keylist p) -> ~ on_axis n (p_dims p) k j -> variable q k = variable p k) /\
    (forall idx, in_range (p_shape p) idx -> prob_pos q idx = prob_pos p (moved j (nth (nth j idx 0) ix 0) idx)).
Proof.
  intros V Vk On [PI SI]. destruct (lo_prob _ _ V) as (t & Et & St).
  assert (CV : forall k m, variable p k = Some (Col m) -> exists a, od_get (p_vals p) k = Some (VArr a) /\ shape a <> [] /\ m = to_list a).
  { intros k m H. unfold variable in H. destruct (od_get (p_vals p) k) as [[| | |a|]|]; try discriminate. cbn in H.
    exists a. destruct (shape a) eqn:E; [discriminate|]. split; [reflexivity|]. split; [discriminate|]. congruence. }
  assert (CC : forall k a, od_get (p_vals p) k = Some (VArr a) -> shape a <> [] -> column (p_vals p) k a).
  { intros k a G N. destruct (lo_described _ _ V) as (_ & D & _). destruct (D k _ G) as [[[S|S] _]|(a' & j' & C & _)].
    - rewrite arr_not_singleton in S by exact N. discriminate.
    - discriminate.
    - destruct C as [G' C]. assert (a' = a) by congruence. subst. split; auto. }
  assert (OZ : forall k j', on_axis n (p_dims p) k j' -> od_get (p_dims p) k = Some (Some (Z.of_nat j')) /\ j' < n).
  { intros k j' (d & D & O & J). split; [|exact J]. pose proof (lo_natural _ _ V k d D). rewrite D. f_equal. f_equal. lia. }
  assert (ZO : forall k, od_get (p_dims p) k = Some (Some (Z.of_nat j)) -> on_axis n (p_dims p) k j).
  { intros k D. exists (Z.of_nat j). split; [exact D|]. split; [left; lia|apply (OZ key j On)]. }
  destruct (OZ key j On) as [Dk Jn]. destruct (CV key l Vk) as (ak & Gk & Nk & El).
  pose proof (lo_size _ _ V key ak j (CC key ak Gk Nk) On) as Sz.
  assert (Ll : length l = tsize ak) by (rewrite El; apply to_list_length).
  assert (Lix : length ix = length l) by (rewrite (Permutation_length PI), seq_length; reflexivity).
  assert (Bix : Forall (fun i => i < length l) ix).
  { apply Forall_forall. intros i I. apply (Permutation_in _ PI), in_seq in I. lia. }
  set (f := fun kv : string * value R =>
    match od_get (p_dims p) (fst kv) with
    | Some (Some dz') => if Z.eqb dz' (Z.of_nat j) then match snd kv with VArr a => (fst kv, VArr (take_axis (traveled a) 0 ix)) | _ => kv end else kv
    | _ => kv end).
  set (vals := map f (p_vals p)).
  assert (Kf : forall kv, fst (f kv) = fst kv).
  { intros [k v]. unfold f. cbn [fst snd]. destruct (od_get (p_dims p) k) as [[z|]|]; auto. destruct (Z.eqb z (Z.of_nat j)); auto. destruct v; auto. }
  assert (KV : od_keys vals = p_keylist p).
  { unfold vals, od_keys. rewrite map_map. apply map_ext. exact Kf. }
  assert (AX : forall k a, column (p_vals p) k a -> exists j', on_axis n (p_dims p) k j').
  { intros k a [G C]. destruct (lo_described _ _ V) as (_ & D & _). destruct (D k _ G) as [[[S|S] _]|(a' & j' & _ & O)].
    - destruct C as [C _]. rewrite arr_not_singleton in S by exact C. discriminate.
    - discriminate.
    - exists j'. exact O. }
  assert (GV : forall k v, od_get (p_vals p) k = Some v -> od_get vals k = Some (snd (f (k, v)))).
  { intros k v G. apply od_in_get; [rewrite KV; apply V|]. apply od_get_in in G. unfold vals.
    replace (k, snd (f (k, v))) with (f (k, v)); [apply in_map, G|]. rewrite <- (Kf (k, v)) at 2. apply surjective_pairing. }
  assert (GA : forall k a, column (p_vals p) k a -> on_axis n (p_dims p) k j ->
     od_get vals k = Some (VArr (take_axis (traveled a) 0 ix)) /\ tsize a = length ix).
  { intros k a C O. split.
    - rewrite (GV k _ (proj1 C)). unfold f. cbn [fst snd]. rewrite (proj1 (OZ k j O)), Z.eqb_refl. reflexivity.
    - pose proof (lo_size _ _ V k a j C O). rewrite Lix, Ll. congruence. }
  assert (GN : forall k v, od_get (p_vals p) k = Some v -> ~ on_axis n (p_dims p) k j -> od_get vals k = Some v).
  { intros k v G O. rewrite (GV k v G). unfold f. cbn [fst snd]. destruct (od_get (p_dims p) k) as [[z|]|] eqn:D; auto.
    destruct (Z.eqb_spec z (Z.of_nat j)) as [->|]; auto. destruct (O (ZO k D)). }
  assert (Sj : shape (take_axis t j ix) = p_shape p).
  { cbn. rewrite St. rewrite Lix, Ll. apply nth_error_nth with (d := 0) in Sz. rewrite <- Sz.
    clear. revert j. induction (p_shape p) as [|x s IH]; intros [|j]; cbn; auto. f_equal. apply IH. }
  destruct (remake p n vals (take_axis t j ix) (spec_of (p_pscale p)) (p_pscale p) V KV) as (q & Eq & Vq & Q1 & Q2 & Q3 & Q4 & Q5 & Q6 & Q7 & Q8).
  - intros k v G S. apply GN; [exact G|]. intros O.
    destruct (lo_described _ _ V) as (_ & D & _). destruct (D k v G) as [[_ N]|(a & j' & [G' [C _]] & _)].
    + destruct (OZ k j O) as [Z _]. destruct N as [N|N]; congruence.
    + assert (v = VArr a) by congruence. subst v. rewrite arr_not_singleton in S by exact C. discriminate.
  - intros k a C. destruct (AX k a C) as (j' & O). destruct (Nat.eq_dec j' j) as [->|Nj].
    + destruct (GA k a C O) as [E T]. exists (take_axis (traveled a) 0 ix). split.
      * split; [exact E|]. split; [discriminate|]. cbn. unfold tsize. cbn. lia.
      * unfold tsize at 1. cbn. lia.
    + exists a. split; [|reflexivity]. split; [|apply C]. apply GN; [apply C|]. intros O'.
      destruct (OZ k j O') as [Z1 _], (OZ k j' O) as [Z2 _]. apply Nj. apply Nat2Z.inj. congruence.
  - exact Sj.
  - apply V.
  - apply V.
  - exists q. split.
    { unfold sorted, od_getR. rewrite Dk. cbn [bind]. rewrite (lo_shape _ _ V), py_indexR_nat by exact Jn. cbn [bind].
      unfold p_probR. rewrite Et. cbn [bind].
      rewrite (map_res_all _ f).
      - cbn [bind]. exact Eq.
      - intros [k v] I. apply od_in_get in I; [|apply V]. unfold f. cbn [fst snd].
        destruct (od_get (p_dims p) k) as [[z|]|] eqn:D; cbn [bind]; [|reflexivity|].
        + destruct (Z.eqb_spec z (Z.of_nat j)) as [->|]; [|reflexivity].
          destruct (lo_described _ _ V) as (_ & Dd & _). destruct (Dd k v I) as [[_ [N|N]]|(a & j' & [G' [C _]] & _)]; [congruence|congruence|].
          assert (v = VArr a) by congruence. subst v. reflexivity.
        + exfalso. apply (lo_dims _ _ V k); [|exact D]. eapply od_get_some_key. exact I. }
    split; [exact Vq|]. do 6 (split; [assumption|]). split; [|split].
    + intros k m Hm O. destruct (CV k m Hm) as (a & G & N & ->). destruct (GA k a (CC k a G N) O) as [E T].
      rewrite Q8 by (eapply od_get_some_key; exact G). rewrite E. cbn [option_map var_of].
      destruct (take_raveled a ix) as [T1 T2]; [eapply Forall_impl; [|exact Bix]; intros i Hi; cbn in Hi; lia|].
      rewrite T1, T2. reflexivity.
    + intros k Hk O. destruct (od_key_get _ _ Hk) as (v & G). rewrite Q8 by exact Hk. rewrite (GN k v G O). unfold variable. 
      change (d_vals (p_d p)) with (p_vals p) in G. rewrite G. reflexivity.
    + intros idx I. unfold prob_pos. rewrite Q6, Q7, Et. reflexivity.
Qed.
End Sort.
