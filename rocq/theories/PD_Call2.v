(** Lemmas about slices that keep the axis: keepdims, and values that occur several times. *)
From Coq Require Import Ascii String ZArith Reals Lra Bool Arith Lia Permutation Sorted List.
From Verif Require Import Base Num Tensor TensorBcast OdLemmas TensorLemmas RNumLemmas PScales
  PScales_Spec PScales_Proofs Names Names_Spec Names_Proofs Distr Distr_Spec Distr_Proofs PDModel PD_Spec PD_Make PD_Sums
  PD_Valid PD_Marg PD_Simple_Spec PD_Rekey PD_MakeGen PD_Sort_Spec PD_Sort PD_ProdThm PD_Call_Spec PD_Call.
Import ListNotations.
Local Open Scope nat_scope.

Lemma matches_in (a : tensor R) x i : In i (matches a x) <-> i < tsize a /\ nth i (to_list a) 0%R = x.
Proof. unfold matches. rewrite filter_In, in_seq. rewrite n_eqb_R. cbn. intuition lia. Qed.

Lemma matches_sorted (a : tensor R) x : StronglySorted lt (matches a x).
Proof.
  unfold matches. generalize (tsize a) 0. intros n. induction n as [|n IH]; intros s; cbn; [constructor|].
  destruct (n_eqb _ _); [|apply IH]. constructor; [apply IH|]. apply Forall_forall. intros i I. apply filter_In in I. destruct I as [I _].
  apply in_seq in I. lia.
Qed.

Section Gen.
Context {F : Fmt R}.
Variable p : pd R.
Variable L : list string.
Hypothesis V : valid_pd p L.
Variable k : string.
Variable x : R.
Variable keepdims : bool.
Variable a : tensor R.
Hypothesis KL : In k L.
Hypothesis Ga : od_get (p_vals p) k = Some (VArr a).
Let ms := matches a x.
Hypothesis NE : ms <> [].
Hypothesis AP : keepdims = true \/ length ms <> 1.

Definition bracketed : string := (k ++ "=" ++ "[]")%string.

Definition st0 : kstate := mkKS (p_marg p) (p_cond p) (p_dims p) (p_vals p) (repeat IxFull (p_ndim p)) 0%Z.
Definition st1 (v : value R) : kstate :=
  mkKS (if od_mem (p_marg p) k then od_set (p_marg p) k bracketed else p_marg p)
       (if od_mem (p_marg p) k then p_cond p else od_set (p_cond p) k bracketed)
       (p_dims p) (od_set (p_vals p) k v) (set_nth (pos k L) (IxArr ms) (repeat IxFull (p_ndim p))) 0%Z.

(** Columns other than k are left alone. *)
Lemma other_step st k' v s : In (k', v, s) (p_items p) -> k' <> k -> k_dims st = p_dims p -> k_delta st = 0%Z ->
  call_step p [(k, x)] keepdims st (k', v, s) = Ok st.
Proof.
  intros I N D Z. destruct (vp_in_items p L V k' v s I) as (G & -> & Kk). unfold call_step.
  destruct (mem_str k' L) eqn:M; cbn [negb]; [|reflexivity].
  rewrite (vp_dim p L V k' Kk), M. cbn [bind od_get]. apply String.eqb_neq in N. rewrite N.
  destruct st as [m c d vs sl dl]. cbn in *. subst. rewrite Z.sub_0_r. rewrite od_set_same; [reflexivity|].
  apply mem_str_iff in M. destruct (vp_axis p L V k' M) as (a' & _ & _ & _ & _ & _ & D). exact D.
Qed.

Lemma other_step_ok st k' v s : In (k', v, s) (p_items p) -> k' <> k -> exists st', call_step p [(k, x)] keepdims st (k', v, s) = Ok st'.
Proof.
  intros I N. destruct (vp_in_items p L V k' v s I) as (G & -> & Kk). unfold call_step.
  destruct (mem_str k' L) eqn:M; cbn [negb]; [|eauto].
  rewrite (vp_dim p L V k' Kk), M. cbn [bind od_get]. apply String.eqb_neq in N. rewrite N. eauto.
Qed.

Lemma same_axis_none vals0 : fold_res (fun (vals : odict (value R)) kv =>
   let! dk := od_getR (p_dims p) (fst kv) in
   match dk with
   | Some dz' => if Z.eqb (Z.of_nat (pos k L)) dz' && negb (od_mem [(k, x)] (fst kv))
                 then let! w := take_first (snd kv) ms in Ok (od_set vals (fst kv) w) else Ok vals
   | None => Ok vals
   end) (p_vals p) vals0 = Ok vals0.
Proof.
  assert (H : forall l : odict (value R), incl (od_keys l) (p_keylist p) -> forall vals0, fold_res (fun (vals : odict (value R)) kv =>
   let! dk := od_getR (p_dims p) (fst kv) in
   match dk with
   | Some dz' => if Z.eqb (Z.of_nat (pos k L)) dz' && negb (od_mem [(k, x)] (fst kv))
                 then let! w := take_first (snd kv) ms in Ok (od_set vals (fst kv) w) else Ok vals
   | None => Ok vals
   end) l vals0 = Ok vals0).
  { induction l as [|[k' v] l IH]; intros I vs; [reflexivity|]. cbn [fold_res fst snd].
    rewrite (vp_dim p L V k') by (apply I; cbn; auto). cbn [bind].
    assert (I' : incl (od_keys l) (p_keylist p)) by (intros y Hy; apply I; cbn; auto).
    destruct (mem_str k' L) eqn:M; [|cbn [bind]; apply IH, I']. apply mem_str_iff in M.
    assert (E : (Z.of_nat (pos k L) =? Z.of_nat (pos k' L))%Z && negb (od_mem [(k, x)] k') = false).
    { destruct (Z.eqb_spec (Z.of_nat (pos k L)) (Z.of_nat (pos k' L))) as [E|]; [|reflexivity]. apply Nat2Z.inj, pos_inj in E; auto. subst k'.
      unfold od_mem. cbn. rewrite String.eqb_refl. reflexivity. }
    rewrite E. cbn [bind]. apply IH, I'. }
  apply H. apply incl_refl.
Qed.

Lemma key_step : call_step p [(k, x)] keepdims st0 (k, VArr a, false) = let! v := take_first (VArr a) ms in Ok (st1 v).
Proof.
  assert (Kk : In k (p_keylist p)) by (apply (vp_incl _ _ V), KL).
  assert (PN : p_ndim p = length L) by (unfold p_ndim; rewrite (vp_ndim _ _ V); reflexivity).
  unfold call_step. rewrite (vp_dim p L V k Kk), (proj2 (mem_str_iff k L) KL). cbn [bind od_get]. rewrite String.eqb_refl.
  rewrite PN, py_indexR_nat by (apply pos_lt, KL). cbn [bind]. fold ms. cbn zeta.
  assert (B : od_mem (p_marg p) k = false -> od_mem (p_cond p) k = true).
  { apply (vp_key_iff p L V) in Kk as [H|H]; apply od_mem_iff in H; congruence. }
  pose proof same_axis_none as SA.
  destruct ms as [|m ms'] eqn:Em; [congruence|].
  assert (G : (let! v' := take_first (VArr a) (m :: ms') in
     let! vals := fold_res (fun vals kv =>
        let! dk := od_getR (p_dims p) (fst kv) in
        match dk with
        | Some dz' => if Z.eqb (Z.of_nat (pos k L)) dz' && negb (od_mem [(k, x)] (fst kv))
                      then let! w := take_first (snd kv) (m :: ms') in Ok (od_set vals (fst kv) w) else Ok vals
        | None => Ok vals
        end) (p_vals p) (od_set (k_vals st0) k v') in
     Ok ((fun (s : string) (st' : kstate) =>
          if od_mem (k_marg st') k
          then mkKS (od_set (k_marg st') k (k ++ "=" ++ s)%string) (k_cond st') (k_dims st') (k_vals st') (k_slices st') (k_delta st')
          else if od_mem (k_cond st') k
          then mkKS (k_marg st') (od_set (k_cond st') k (k ++ "=" ++ s)%string) (k_dims st') (k_vals st') (k_slices st') (k_delta st')
          else st') "[]"%string
         (mkKS (k_marg st0) (k_cond st0) (k_dims st0) vals (set_nth (pos k L) (IxArr (m :: ms')) (k_slices st0)) (k_delta st0))))
    = let! v := take_first (VArr a) (m :: ms') in Ok (st1 v)).
  { destruct (take_first (VArr a) (m :: ms')) as [v'|]; [|reflexivity]. cbn [bind]. rewrite SA. cbn [bind].
    unfold st0, st1, bracketed. cbn [k_marg k_cond k_vals k_dims k_slices k_delta]. rewrite <- Em. fold ms.
    destruct (od_mem (p_marg p) k) eqn:Mm; [reflexivity|]. rewrite (B eq_refl). reflexivity. }
  destruct ms' as [|m2 ms2].
  - destruct AP as [->|C]; [|cbn in C; congruence]. exact G.
  - exact G.
Qed.

Lemma key_item : In (k, VArr a, false) (p_items p).
Proof.
  rewrite (vp_items p L V). apply in_map_iff. exists (k, VArr a). split; [|apply od_get_in, Ga]. cbn [snd].
  f_equal. apply (vp_sing_false p L V k (VArr a) Ga), KL.
Qed.

Lemma arr_loop_ok v : take_first (VArr a) ms = Ok v -> fold_res (call_step p [(k, x)] keepdims) (p_items p) st0 = Ok (st1 v).
Proof.
  intros T. destruct (@fold_res_ok _ _ (call_step p [(k, x)] keepdims) (fun pre st => st = if mem_str k (names pre) then st1 v else st0)
     (p_items p) st0) as (st & E & H).
  - reflexivity.
  - intros pre [[k' v'] s] post st E ->. destruct (items_split p L V _ _ _ _ _ E) as (G & Es & Kpre & Klist & Kk).
    assert (I : In (k', v', s) (p_items p)) by (rewrite E; apply in_or_app; cbn; auto).
    rewrite names_app. cbn [names map fst]. 
    assert (MS : mem_str k (names pre ++ [k']) = mem_str k (names pre) || String.eqb k k') by (unfold mem_str; rewrite existsb_app; cbn; rewrite orb_false_r; reflexivity).
    rewrite MS. destruct (String.eqb_spec k k') as [<-|N].
    + apply mem_str_false in Kpre. rewrite Kpre. cbn [orb].
      assert (v' = VArr a) by congruence. subst v'. assert (Ef : s = false) by (rewrite Es, (proj2 (mem_str_iff k L) KL); reflexivity).
      rewrite Ef, key_step, T. cbn [bind]. eauto.
    + rewrite orb_false_r. eexists. split; [|reflexivity]. apply other_step; auto; destruct (mem_str k (names pre)); reflexivity.
  - rewrite E, H. rewrite (names_items p L V).
    assert (M : mem_str k (p_keylist p) = true) by (apply mem_str_iff, (vp_incl _ _ V), KL). rewrite M. reflexivity.
Qed.

(** What np_index does with one array and full slices. *)
Lemma np_index_arr (t : tensor R) n : shape t = map (size_of p) L -> n = length L ->
  exists u, np_index t (set_nth (pos k L) (IxArr ms) (repeat IxFull n)) = Ok u /\
    shape u = map (fun k' => if String.eqb k' k then length ms else size_of p k') L /\
    (forall b, b k < length ms -> get u (map b L) = get t (map (upd b k (nth (b k) ms 0)) L)).
Proof.
  intros St ->. set (ixs := set_nth (pos k L) (IxArr ms) (repeat IxFull (length L))).
  assert (EX : ixs = map (fun k' => if String.eqb k' k then IxArr ms else IxFull) L).
  { unfold ixs. replace (repeat IxFull (length L)) with (map (fun _ : string => IxFull) L) by (clear; induction L; cbn; congruence).
    rewrite <- (set_nth_map_ix (fun _ => IxFull) (fun k' => if String.eqb k' k then IxArr ms else IxFull) L k (vp_axes _ _ V) KL).
    - rewrite String.eqb_refl. reflexivity.
    - intros k' N. apply String.eqb_neq in N. rewrite N. reflexivity. }
  rewrite EX. clear ixs EX. pose proof (vp_axes _ _ V) as ND. clear NE AP.
  set (ix := fun k' => if String.eqb k' k then IxArr ms else IxFull).
  assert (FULL : forall l, ~ In k l -> map ix l = map (fun _ => IxFull) l).
  { intros l N. apply map_ext_in. intros y Hy. unfold ix. destruct (String.eqb_spec y k); [subst; contradiction|reflexivity]. }
  assert (DEC : exists l1 l2, L = l1 ++ k :: l2 /\ ~ In k l1 /\ ~ In k l2).
  { destruct (in_split _ _ KL) as (l1 & l2 & E). exists l1, l2. split; [exact E|]. rewrite E in ND. apply NoDup_remove_2 in ND.
    rewrite in_app_iff in ND. tauto. }
  destruct DEC as (l1 & l2 & E & N1 & N2).
  assert (EM : map ix L = map (fun _ => IxFull) l1 ++ IxArr ms :: map (fun _ => IxFull) l2).
  { rewrite E, map_app. cbn [map]. rewrite (FULL l1 N1), (FULL l2 N2). unfold ix. rewrite String.eqb_refl. reflexivity. }
  rewrite EM. unfold np_index.
  assert (F0 : forall l : list string, existsb is_arr (map (fun _ => IxFull) l) = false) by (induction l; cbn; auto).
  assert (F1 : forall l : list string, existsb is_adv (map (fun _ => IxFull) l) = false) by (induction l; cbn; auto).
  rewrite existsb_app. cbn [existsb is_arr]. rewrite orb_true_r. cbn [orb].
  assert (AL : adv_length (map (fun _ => IxFull) l1 ++ IxArr ms :: map (fun _ => IxFull) l2) = Some (length ms)).
  { unfold adv_length. rewrite fold_left_app.
    assert (FL : forall (l : list string) o, fold_left (fun acc ix0 => match acc with
                           | None => None
                           | Some n => match ix0 with
                               | IxArr l0 => if length l0 =? n then Some n else if n =? 1 then Some (length l0) else if length l0 =? 1 then Some n else None
                               | _ => Some n end end) (map (fun _ => IxFull) l) o = o).
    { induction l as [|y l IH]; intros o; [reflexivity|]. cbn [map fold_left]. destruct o; apply IH. }
    rewrite FL. cbn [fold_left]. rewrite FL. destruct (length ms =? 1) eqn:E1; [apply Nat.eqb_eq in E1; congruence|reflexivity]. }
  rewrite AL.
  assert (AC : adv_contig (map (fun _ => IxFull) l1 ++ IxArr ms :: map (fun _ => IxFull) l2) = true).
  { assert (C2 : adv_contig_in (map (fun _ => IxFull) l2) = true).
    { destruct l2 as [|y l2']; [reflexivity|]. cbn. unfold adv_run_ended. rewrite F1. reflexivity. }
    clear - C2. induction l1 as [|y l IH]; cbn; [exact C2|exact IH]. }
  rewrite AC.
  assert (FA : first_adv (map (fun _ => IxFull) l1 ++ IxArr ms :: map (fun _ => IxFull) l2) = length l1).
  { clear. induction l1; cbn; congruence. }
  rewrite FA. eexists. split; [reflexivity|].
  assert (FU : forall l : list string, ~ In k l -> map (fun k' => if String.eqb k' k then length ms else size_of p k') l = map (size_of p) l).
  { intros l N. apply map_ext_in. intros y Hy. destruct (String.eqb_spec y k); [subst; contradiction|reflexivity]. }
  assert (SS : forall m sh, slice_shape (map (fun _ => IxFull) l1 ++ m) (map (size_of p) l1 ++ sh) = map (size_of p) l1 ++ slice_shape m sh).
  { clear. intros m sh. induction l1 as [|y l IH]; [reflexivity|]. cbn. rewrite IH. reflexivity. }
  assert (S2 : forall l, slice_shape (map (fun _ => IxFull) l) (map (size_of p) l) = map (size_of p) l).
  { clear. induction l as [|y l IH]; [reflexivity|]. cbn. rewrite IH. reflexivity. }
  split.
  - cbn [shape]. rewrite St, E, !map_app. cbn [map]. rewrite SS. cbn [slice_shape]. rewrite S2, FU, FU by assumption.
    rewrite String.eqb_refl. unfold insert_nth.
    replace (length l1) with (length (map (size_of p) l1) + 0) by (rewrite map_length; lia).
    rewrite firstn_app_2, skipn_app, skipn_all2 by lia. cbn [firstn app]. rewrite app_nil_r.
    replace (length (map (size_of p) l1) + 0 - length (map (size_of p) l1)) with 0 by lia. reflexivity.
  - intros b Hb. cbn [get]. f_equal. rewrite E, !map_app. cbn [map].
    assert (NTH : nth (length l1) (map b l1 ++ b k :: map b l2) 0 = b k).
    { rewrite app_nth2 by (rewrite map_length; lia). rewrite map_length, Nat.sub_diag. reflexivity. }
    rewrite NTH.
    assert (RST : firstn (length l1) (map b l1 ++ b k :: map b l2) ++ skipn (S (length l1)) (map b l1 ++ b k :: map b l2) = map b l1 ++ map b l2).
    { replace (length l1) with (length (map b l1) + 0) at 1 by (rewrite map_length; lia).
      rewrite firstn_app_2. cbn [firstn]. rewrite app_nil_r. f_equal.
      rewrite skipn_app, skipn_all2 by (rewrite map_length; lia). rewrite map_length.
      replace (S (length l1) - length l1) with 1 by lia. reflexivity. }
    rewrite RST.
    assert (UN : forall l, ~ In k l -> map (upd b k (nth (b k) ms 0)) l = map b l).
    { intros l N. apply map_ext_in. intros y Hy. apply upd_other. intros ->. contradiction. }
    rewrite (UN l1 N1), (UN l2 N2), upd_same.
    assert (A2 : forall l nn kk, adv_idx nn kk (map (fun _ => IxFull) l) (map b l) = map b l).
    { clear. induction l as [|y l IH]; intros; [reflexivity|]. cbn. rewrite IH. reflexivity. }
    assert (A1 : forall nn kk m r, adv_idx nn kk (map (fun _ => IxFull) l1 ++ m) (map b l1 ++ r) = map b l1 ++ adv_idx nn kk m r).
    { clear. intros. induction l1 as [|y l IH]; [reflexivity|]. cbn. rewrite IH. reflexivity. }
    rewrite A1. f_equal. cbn [adv_idx is_adv]. rewrite A2. f_equal. cbn [adv_pos].
    destruct (length ms =? 1) eqn:E1; [|reflexivity]. apply Nat.eqb_eq in E1. replace (b k) with 0 by lia. reflexivity.
Qed.

Lemma matches_lt : Forall (fun i => i < tsize a) ms.
Proof. apply Forall_forall. intros i I. apply matches_in in I. tauto. Qed.

(** Along the first axis. *)
Lemma arr_first : pos k L = 0 -> simple_key k ->
  exists q, call p [(k, x)] keepdims = Ok q /\ valid_pd q L /\ p_keylist q = p_keylist p /\
    od_keys (p_marg q) = od_keys (p_marg p) /\ od_keys (p_cond q) = od_keys (p_cond p) /\ p_pscale q = p_pscale p /\
    variable q k = Some (Col (repeat x (length ms))) /\
    (forall k', k' <> k -> variable q k' = variable p k') /\
    (forall b, in_bounds q L b -> prob_at q L b = prob_at p L (upd b k (nth (b k) ms 0))).
Proof.
  intros P0 SK. assert (Kk : In k (p_keylist p)) by (apply (vp_incl _ _ V), KL).
  destruct (vp_axis p L V k KL) as (a' & Ga' & Sa & Ta & Pz & _ & Dk). assert (a' = a) by congruence. subst a'.
  rewrite P0 in Sa, Dk. cbn [repeat app] in Sa.
  assert (TF : take_first (VArr a) ms = Ok (VArr (take_axis a 0 ms))).
  { unfold take_first. rewrite Sa. assert (FB : forallb (fun i => i <? size_of p k) ms = true).
    { apply forallb_forall. intros i I. apply Nat.ltb_lt. rewrite <- Ta. pose proof matches_lt as M. rewrite Forall_forall in M. apply M, I. }
    rewrite FB. reflexivity. }
  unfold call. assert (SB : subset_str (od_keys [(k, x)]) (p_keylist p) = true).
  { apply subset_str_iff. intros y [<-|[]]. exact Kk. }
  rewrite SB. cbn [negb]. fold st0. rewrite (arr_loop_ok _ TF). cbn [bind].
  destruct (vp_prob_get p L V) as (t & Pt & Rt & St). rewrite Rt. cbn [bind].
  unfold st1 at 1. cbn [k_slices].
  assert (PN : p_ndim p = length L) by (unfold p_ndim; rewrite (vp_ndim _ _ V); reflexivity).
  destruct (np_index_arr t (p_ndim p) St PN) as (u & Eu & Su & Gu). rewrite Eu. cbn [bind].
  set (v' := VArr (take_axis a 0 ms)).
  destruct (vp_marg_cond p L V) as (NM & NC & DJ).
  set (vals := od_set (p_vals p) k v').
  assert (KV : od_keys vals = p_keylist p) by (apply od_keys_set_old; exact Kk).
  assert (GVk : od_get vals k = Some v') by apply od_get_set_eq.
  assert (GVo : forall y, y <> k -> od_get vals y = od_get (p_vals p) y) by (intros y N; apply od_get_set_ne; exact N).
  assert (Lm : 0 < length ms) by (destruct ms; [congruence|cbn; lia]).
  assert (S' : shape (take_axis a 0 ms) = length ms :: repeat 1 (length L - 1)) by (cbn; rewrite Sa; reflexivity).
  assert (T' : tsize (take_axis a 0 ms) = length ms) by (unfold tsize; rewrite S'; apply (prod_axis 0)).
  assert (KMC : od_keys (k_marg (st1 v')) = od_keys (p_marg p) /\ od_keys (k_cond (st1 v')) = od_keys (p_cond p)).
  { unfold st1. cbn [k_marg k_cond]. destruct (od_mem (p_marg p) k) eqn:M.
    - apply od_mem_iff in M. split; [apply od_keys_set_old, M|reflexivity].
    - split; [reflexivity|]. apply od_keys_set_old. apply (vp_key_iff p L V) in Kk as [H|H]; [apply od_mem_iff in H; congruence|exact H]. }
  destruct KMC as [KM KC].
  assert (BG : good_entry bracketed /\ key_of bracketed k).
  { apply good_join; [exact SK|]. unfold good_entry, occurs. cbn. repeat split; try discriminate; intuition discriminate. }
  assert (EN : forall ke, In ke (k_marg (st1 v') ++ k_cond (st1 v')) -> ke = (k, bracketed) \/ In ke (p_marg p ++ p_cond p)).
  { intros ke I. unfold st1 in I. cbn [k_marg k_cond] in I. apply in_app_or in I. rewrite in_app_iff.
    assert (OS : forall (m : odict string) , In ke (od_set m k bracketed) -> ke = (k, bracketed) \/ In ke m).
    { clear. intros m. induction m as [|[y e] m IH]; cbn; [intuition|]. destruct (String.eqb_spec k y); cbn; [subst; intuition|]. intros [H|H]; auto.
      destruct (IH H); auto. }
    destruct (od_mem (p_marg p) k); destruct I as [I|I]; auto; apply OS in I; tauto. }
  assert (EV : forall ke, In ke (p_marg p ++ p_cond p) -> good_entry (snd ke) /\ key_of (snd ke) (fst ke)).
  { intros ke I. pose proof (vp_entries _ _ V) as X. rewrite Forall_forall in X. apply X, I. }
  destruct (make_pd_ok vals (p_dims p) L (k_marg (st1 v')) (k_cond (st1 v')) u (spec_of (p_pscale p)) (p_pscale p))
    as (q & Eq & Vq & Kq & Mq & Cq & Pq & Sq & Wq).
  - rewrite KV. apply V.
  - intros C. apply (vp_some _ _ V). rewrite <- KV, C. reflexivity.
  - rewrite KV. apply V.
  - apply V.
  - rewrite KV. apply V.
  - intros y v G N. assert (y <> k) by (intros ->; contradiction). rewrite GVo in G by assumption.
    destruct (vp_scalar _ _ V y v G N). auto.
  - intros j y J. assert (IY : In y L) by (eapply nth_error_In; eauto). rewrite Su, nth_error_map, J. cbn [option_map].
    pose proof (nth_pos y L j (vp_axes _ _ V) J) as PY.
    destruct (String.eqb_spec y k) as [->|N].
    + exists (take_axis a 0 ms). split; [exact GVk|]. split; [rewrite S'; discriminate|].
      split; [rewrite T', S'; symmetry; apply (list_max_axis 0), Lm|]. split; [lia|]. split; [rewrite Dk; f_equal; f_equal; lia|]. congruence.
    + destruct (vp_axis p L V y IY) as (a2 & G2 & _ & T2 & _ & _ & D2). destruct (vp_tsize p L V y a2 IY G2) as (T3 & T4 & T5 & T6).
      exists a2. rewrite GVo by exact N. rewrite T2 in *. repeat (split; [assumption|]). split; [rewrite D2, PY; reflexivity|reflexivity].
  - rewrite KV. apply V.
  - apply V.
  - rewrite Su. apply map_length.
  - apply Forall_forall. intros ke I. destruct (EN ke I) as [->|I']; [exact BG|apply EV, I'].
  - apply Forall_forall. intros ke I. apply in_map_iff in I. destruct I as ([y e] & <- & I). unfold render. cbn [fst snd].
    destruct (mem_str y L) eqn:M.
    + destruct (EN _ I) as [C|I']; [injection C as -> ->; exact BG|apply (EV _ I')].
    + apply mem_str_false in M. assert (N : y <> k) by (intros ->; contradiction). rewrite GVo by exact N.
      destruct (EN _ I) as [C|I']; [injection C as -> ->; contradiction|].
      assert (Ky : In y (p_keylist p)).
      { apply (vp_key_iff p L V). apply in_app_or in I'. destruct I' as [I'|I']; [left|right]; apply (in_map fst) in I'; exact I'. }
      destruct (od_key_get (p_vals p) y Ky) as (w & Gw). rewrite Gw.
      assert (Ge : od_get (p_marg p ++ p_cond p) y = Some e).
      { apply od_in_get; [|exact I']. unfold od_keys. rewrite map_app. apply nodup_app_iff. auto. }
      rewrite <- (vp_rendered _ _ V y w e Gw M Ge). apply (EV _ I').
  - rewrite KV, KM, KC. apply V.
  - apply V.
  - apply V.
  - exists q. split; [exact Eq|]. split; [exact Vq|]. split; [congruence|]. split; [rewrite Mq, render_keys; exact KM|].
    split; [rewrite Cq, render_keys; exact KC|]. split; [exact Sq|].
    assert (Vk : variable q k = Some (Col (repeat x (length ms)))).
    { rewrite Wq, GVk. unfold v', var_of. rewrite S'. f_equal. f_equal.
      apply nth_ext with (d := 0%R) (d' := 0%R); [rewrite to_list_length, repeat_length; exact T'|].
      intros i Hi. rewrite to_list_length in Hi. rewrite (@to_list_nth R) by exact Hi. rewrite T' in Hi. rewrite S'.
      rewrite nth_indep with (l := repeat x (length ms)) (d' := x) by (rewrite repeat_length; exact Hi). rewrite nth_repeat.
      cbn [unravel take_axis get set_nth nth]. change (prod_list (repeat 1 (length L - 1))) with (prod_list (repeat 1 (length L - 1))).
      rewrite prod_ones, Nat.div_1_r, Nat.mod_1_r.
      assert (Im : In (nth i ms 0) ms) by (apply nth_In; exact Hi). apply matches_in in Im as [I1 I2].
      rewrite <- I2 at 1. rewrite (@to_list_nth R) by exact I1. rewrite Sa. cbn [unravel].
      rewrite prod_ones, Nat.div_1_r, Nat.mod_1_r. reflexivity. }
    split; [exact Vk|]. split.
    + intros y N. rewrite Wq, GVo by exact N. reflexivity.
    + intros b Bb. unfold prob_at. rewrite Pq, Pt, Sq. rewrite Gu; [reflexivity|].
      specialize (Bb k KL). unfold size_of in Bb. rewrite Vk, repeat_length in Bb. exact Bb.
Qed.

(** Along any other axis. *)
Lemma make_pd_shape name vals dims t ps q : make_pd name vals dims (Some t) ps = Ok q -> shape t <> [] ->
  exists d, make_dist name vals dims = Ok d /\ shape t = d_shape d.
Proof.
  unfold make_pd. destruct (str_margcond name) as [[m0 c0]|]; [cbn [bind]|discriminate].
  destruct (make_dist name vals dims) as [d|]; [cbn [bind]|discriminate].
  destruct (override_names _ _) as [[m1 c1]|]; [cbn [bind]|discriminate].
  destruct (eval_pscale ps); [cbn [bind]|discriminate]. unfold check_prob. cbn [d_issing d_shape d_ndim].
  intros H NS. exists d. split; [reflexivity|].
  assert (Q : forall l m, list_eqb Nat.eqb l m = true -> m = l).
  { induction l as [|y l IH]; intros [|z m]; cbn; try discriminate; auto.
    rewrite andb_true_iff, Nat.eqb_eq. intros [-> E]. f_equal. apply IH, E. }
  destruct (d_issing d) as [[]|].
  - unfold ndim in H. destruct (shape t); [congruence|]. cbn in H. discriminate.
  - destruct (negb (ndim t =? 0)); [cbn [assert_ bind] in H|discriminate].
    destruct (match d_ndim d with Some n => n =? ndim t | None => false end); [cbn [assert_ bind] in H|discriminate].
    destruct (list_eqb Nat.eqb (d_shape d) (shape t)) eqn:E; [|discriminate]. apply Q, E.
  - destruct (negb (ndim t =? 0)); [cbn [assert_ bind] in H|discriminate].
    destruct (match d_ndim d with Some n => n =? ndim t | None => false end); [cbn [assert_ bind] in H|discriminate].
    destruct (list_eqb Nat.eqb (d_shape d) (shape t)) eqn:E; [|discriminate]. apply Q, E.
Qed.

Lemma key_step_err e : take_first (VArr a) ms = Err e -> forall st, call_step p [(k, x)] keepdims st (k, VArr a, false) = Err e.
Proof.
  intros TF st. assert (Kk : In k (p_keylist p)) by (apply (vp_incl _ _ V), KL).
  assert (PN : p_ndim p = length L) by (unfold p_ndim; rewrite (vp_ndim _ _ V); reflexivity).
  unfold call_step. rewrite (vp_dim p L V k Kk), (proj2 (mem_str_iff k L) KL). cbn [bind od_get]. rewrite String.eqb_refl.
  rewrite PN, py_indexR_nat by (apply pos_lt, KL). cbn [bind]. fold ms. cbn zeta.
  destruct ms as [|m ms'] eqn:Em; [congruence|]. destruct ms' as [|m2 ms2].
  - destruct AP as [->|C]; [|cbn in C; congruence]. rewrite TF. reflexivity.
  - rewrite TF. reflexivity.
Qed.

Lemma arr_other : pos k L <> 0 -> 1 < size_of p k -> exists e, call p [(k, x)] keepdims = Err e.
Proof.
  intros P0 Sz. assert (Kk : In k (p_keylist p)) by (apply (vp_incl _ _ V), KL).
  destruct (vp_axis p L V k KL) as (a' & Ga' & Sa & Ta & Pz & _ & Dk). assert (a' = a) by congruence. subst a'.
  unfold call. assert (SB : subset_str (od_keys [(k, x)]) (p_keylist p) = true).
  { apply subset_str_iff. intros y [<-|[]]. exact Kk. }
  rewrite SB. cbn [negb]. fold st0.
  destruct (take_first (VArr a) ms) as [v|e] eqn:TF.
  - rewrite (arr_loop_ok _ TF). cbn [bind].
    destruct (vp_prob_get p L V) as (t & Pt & Rt & St). rewrite Rt. cbn [bind].
    unfold st1 at 1. cbn [k_slices].
    assert (PN : p_ndim p = length L) by (unfold p_ndim; rewrite (vp_ndim _ _ V); reflexivity).
    destruct (np_index_arr t (p_ndim p) St PN) as (u & Eu & Su & Gu). rewrite Eu. cbn [bind].
    destruct (pos k L) as [|j'] eqn:EP; [congruence|].
    unfold take_first in TF. rewrite Sa in TF. cbn [repeat app] in TF.
    destruct (forallb (fun i => i <? 1) ms) eqn:FB; [|discriminate].
    assert (M0 : ms = [0]).
    { pose proof (matches_sorted a x) as SS. fold ms in SS. rewrite forallb_forall in FB.
      destruct ms as [|m [|m2 mm]]; [congruence| |].
      - f_equal. specialize (FB m (or_introl eq_refl)). apply Nat.ltb_lt in FB. lia.
      - inversion SS as [|? ? _ FA]; subst. inversion FA; subst. specialize (FB m2 (or_intror (or_introl eq_refl))).
        apply Nat.ltb_lt in FB. lia. }
    injection TF as <-. 
    match goal with |- exists e, make_pd ?nm ?vs ?ds ?uu ?ps = Err e => destruct (make_pd nm vs ds uu ps) as [q|e] eqn:EQ end; [exfalso|eauto].
    apply make_pd_shape in EQ.
    2:{ rewrite Su. destruct L; [destruct KL|discriminate]. }
    destruct EQ as (d & Ed & HD).
    unfold st1 in Ed. cbn [k_vals k_dims] in Ed. set (v' := VArr (take_axis a 0 ms)) in *.
    set (vals := od_set (p_vals p) k v') in *.
    pose proof (valid_laid_out p L V) as LO.
    assert (KV : od_keys vals = p_keylist p) by (apply od_keys_set_old; exact Kk).
    assert (NV : NoDup (od_keys vals)) by (rewrite KV; apply V).
    assert (NEv : vals <> []) by (intros C; apply (vp_some _ _ V); rewrite <- KV, C; reflexivity).
    destruct (make_dist_result _ vals (p_dims p) (length L) d NV NEv (lo_axes _ _ LO) Ed) as (_ & _ & _ & Ld & _ & _ & Hc & Hax).
    assert (Jl : S j' < length L) by (rewrite <- EP; apply pos_lt, KL).
    destruct (Hax (S j') Jl) as (y & ay & [Cy1 Cy2] & (dy & Dy & Oy & _) & Ny & _).
    assert (IY : In y L).
    { destruct (mem_str y L) eqn:M; [apply mem_str_iff, M|]. apply mem_str_false in M.
      assert (Ky : In y (p_keylist p)) by (apply (vp_dims _ _ V); eapply od_get_some_key; eauto).
      rewrite (vp_dim_scalar p L V y Ky M) in Dy. discriminate. }
    destruct (vp_axis p L V y IY) as (a2 & G2 & _ & _ & _ & _ & D2).
    assert (y = k).
    { assert (dy = Z.of_nat (pos y L)) by congruence. subst dy. apply (pos_inj y k L IY KL). rewrite EP. lia. }
    subst y. unfold vals in Cy1. rewrite od_get_set_eq in Cy1. injection Cy1 as <-.
    assert (T' : tsize (take_axis a 0 ms) = size_of p k).
    { unfold tsize. cbn [take_axis shape]. rewrite Sa, M0. cbn [repeat app set_nth length]. 
      change (1 :: repeat 1 j' ++ size_of p k :: repeat 1 (length L - S (S j'))) with (repeat 1 (S j') ++ size_of p k :: repeat 1 (length L - S (S j'))).
      apply prod_axis. }
    rewrite <- HD, Su, nth_error_map in Ny. pose proof (pos_nth k L KL) as PK. rewrite EP in PK. rewrite PK in Ny. cbn [option_map] in Ny.
    rewrite String.eqb_refl, T', M0 in Ny. change (length [0]) with 1 in Ny. assert (1 = size_of p k) by congruence. lia.
  - rewrite (fold_res_raises (call_step p [(k, x)] keepdims) e).
    + cbn. eauto.
    + intros s [[k' v] sg] I. destruct (String.eqb_spec k' k) as [->|N]; [|left; apply other_step_ok; auto].
      right. destruct (vp_in_items p L V k v sg I) as (G & Sg & _). assert (v = VArr a) by congruence. subst v.
      rewrite Sg, (proj2 (mem_str_iff k L) KL). apply key_step_err, TF.
    + exists (k, VArr a, false). split; [apply key_item|]. apply key_step_err, TF.
Qed.
End Gen.
