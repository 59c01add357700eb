(** Lemmas about the redistribution of probabilities over a grid. *)
From Coq Require Import Ascii String ZArith Reals Lra Bool Arith Lia Permutation List.
From Verif Require Import Base Num Tensor TensorBcast OdLemmas TensorLemmas RNumLemmas PScales
  PScales_Spec PScales_Proofs Names Names_Spec Names_Proofs Distr PDModel PD_Spec PD_Make PD_Sums
  PD_Valid PD_Marg PD_Move PD_Simple_Spec PD_Rekey PD_Remarg_Spec.
Import ListNotations.
Local Open Scope R_scope.

(** *** cells *)

Lemma count_prefix (f : R -> bool) l :
  (forall i j, (i < j < length l)%nat -> f (nth j l 0) = true -> f (nth i l 0) = true) ->
  (count f l <= length l)%nat /\ forall i, (i < length l)%nat -> (f (nth i l 0) = true <-> (i < count f l)%nat).
Proof.
  unfold count. induction l as [|x l IH]; intros H; cbn [filter length]; [split; [lia|intros i Hi; lia]|].
  destruct IH as [C IH].
  { intros i j Hij. apply (H (S i) (S j)). cbn [length]. lia. }
  destruct (f x) eqn:E; cbn [length].
  - split; [lia|]. intros [|i] Hi; cbn [nth]; [rewrite E; split; [lia|reflexivity]|].
    rewrite IH by (cbn in Hi; lia). lia.
  - split; [lia|]. assert (Z : filter f l = []).
    { destruct (filter f l) as [|y m] eqn:Ef; auto. exfalso.
      assert (I : In y (filter f l)) by (rewrite Ef; cbn; auto). apply filter_In in I. destruct I as [I Fy].
      destruct (In_nth _ _ 0 I) as (j & Hj & Ej). specialize (H 0%nat (S j)). cbn [nth length] in H. rewrite Ej in H.
      rewrite H in E; [discriminate|lia|exact Fy]. }
    intros [|i] Hi; cbn [nth].
    + rewrite E, Z. cbn. split; [discriminate|lia].
    + rewrite IH by (cbn in Hi; lia). rewrite Z. cbn. lia.
Qed.

Lemma nondecr_iff (l : list R) : nondecr l = true <-> ascending l.
Proof.
  unfold ascending. induction l as [|x [|y l] IH].
  - split; [intros _ i j H; cbn in H; lia|reflexivity].
  - split; [intros _ i j H; cbn in H; lia|reflexivity].
  - change (nondecr (x :: y :: l)) with (n_leb x y && nondecr (y :: l)). rewrite andb_true_iff, IH.
    change (n_leb x y) with (Rleb x y). rewrite Rleb_iff. split.
    + intros [A B] i j H. destruct j as [|j]; [lia|]. destruct i as [|i].
      * cbn [nth]. destruct j as [|j]; [exact A|]. apply Rle_trans with y; [exact A|]. apply (B 0%nat (S j)). cbn in *. lia.
      * apply (B i j). cbn in *. lia.
    + intros H. split; [apply (H 0%nat 1%nat); cbn; lia|]. intros i j Hij. apply (H (S i) (S j)). cbn in *. lia.
Qed.

Lemma nonincr_iff (l : list R) : nonincr l = true <-> descending l.
Proof.
  unfold descending. induction l as [|x [|y l] IH].
  - split; [intros _ i j H; cbn in H; lia|reflexivity].
  - split; [intros _ i j H; cbn in H; lia|reflexivity].
  - change (nonincr (x :: y :: l)) with (n_leb y x && nonincr (y :: l)). rewrite andb_true_iff, IH.
    change (n_leb y x) with (Rleb y x). rewrite Rleb_iff. split.
    + intros [A B] i j H. destruct j as [|j]; [lia|]. destruct i as [|i].
      * cbn [nth]. destruct j as [|j]; [exact A|]. apply Rle_trans with y; [|exact A]. apply (B 0%nat (S j)). cbn in *. lia.
      * apply (B i j). cbn in *. lia.
    + intros H. split; [apply (H 0%nat 1%nat); cbn; lia|]. intros i j Hij. apply (H (S i) (S j)). cbn in *. lia.
Qed.

Lemma n_ltb_R (x y : R) : n_ltb x y = true <-> x < y.
Proof.
  unfold n_ltb. change (n_leb y x) with (Rleb y x). destruct (Rleb y x) eqn:E; cbn.
  - apply Rleb_iff in E. split; [discriminate|lra].
  - split; [intros _|reflexivity]. destruct (Rlt_dec x y); auto. exfalso. assert (Rleb y x = true) by (apply Rleb_iff; lra). congruence.
Qed.

Lemma cell_index_iff (l : list R) (x : R) (i : nat) : l <> [] ->
  (cell_index l x = Ok i <-> in_cell l x i).
Proof.
  intros NE. assert (Ln : (0 < length l)%nat) by (destruct l; [congruence|cbn; lia]).
  unfold cell_index, digitize. destruct (nondecr l) eqn:E1.
  - pose proof (proj1 (nondecr_iff l) E1) as A. cbn [bind].
    destruct (count_prefix (fun b => n_leb b x) l) as [C P].
    { intros a b Hab. change (n_leb (nth b l 0) x) with (Rleb (nth b l 0) x).
      change (n_leb (nth a l 0) x) with (Rleb (nth a l 0) x). rewrite !Rleb_iff. intros H. specialize (A a b Hab). lra. }
    set (c := count (fun b => n_leb b x) l) in *. 
    assert (P' : forall k, (k < length l)%nat -> (nth k l 0 <= x <-> (k < c)%nat)).
    { intros k Hk. rewrite <- P by exact Hk. change (n_leb (nth k l 0) x) with (Rleb (nth k l 0) x). rewrite Rleb_iff. reflexivity. }
    unfold in_cell. split.
    + intros H. assert (H' : Nat.min (length l - 1) (c - 1) = i) by congruence. split; [lia|]. left. split; [exact A|]. split.
      * destruct (Nat.eq_dec i 0); [left; auto|right]. apply P'; lia.
      * destruct (Nat.eq_dec (S i) (length l)); [left; auto|right]. apply Rnot_le_lt. rewrite P' by lia. lia.
    + intros (Hi & [(_ & B1 & B2)|(NA & _)]); [|contradiction]. f_equal.
      assert (B1' : i = 0%nat \/ (i < c)%nat) by (destruct B1 as [B1|B1]; [auto|right; apply P'; auto]).
      assert (B2' : S i = length l \/ (c <= S i)%nat).
      { destruct B2 as [B2|B2]; [auto|]. destruct (Nat.eq_dec (S i) (length l)); [auto|right].
        apply Nat.nlt_ge. rewrite <- P' by lia. lra. }
      lia.
  - assert (NA : ~ ascending l) by (rewrite <- nondecr_iff; congruence).
    destruct (nonincr l) eqn:E2.
    + pose proof (proj1 (nonincr_iff l) E2) as A. cbn [bind].
      destruct (count_prefix (fun b => n_ltb x b) l) as [C P].
      { intros a b Hab. rewrite !n_ltb_R. intros H. specialize (A a b Hab). lra. }
      set (c := count (fun b => n_ltb x b) l) in *. 
      assert (P' : forall k, (k < length l)%nat -> (x < nth k l 0 <-> (k < c)%nat)).
      { intros k Hk. rewrite <- P by exact Hk. rewrite n_ltb_R. reflexivity. }
      unfold in_cell. split.
      * intros H. assert (H' : Nat.min (length l - 1) (c - 1) = i) by congruence. split; [lia|]. right. split; [exact NA|]. split; [exact A|]. split.
        -- destruct (Nat.eq_dec i 0); [left; auto|right]. apply P'; lia.
        -- destruct (Nat.eq_dec (S i) (length l)); [left; auto|right]. apply Rnot_lt_le. rewrite P' by lia. lia.
      * intros (Hi & [(CA & _)|(_ & _ & B1 & B2)]); [contradiction|]. f_equal.
        assert (B1' : i = 0%nat \/ (i < c)%nat) by (destruct B1 as [B1|B1]; [auto|right; apply P'; auto]).
        assert (B2' : S i = length l \/ (c <= S i)%nat).
        { destruct B2 as [B2|B2]; [auto|]. destruct (Nat.eq_dec (S i) (length l)); [auto|right].
          apply Nat.nlt_ge. rewrite <- P' by lia. lra. }
        lia.
    + cbn [bind]. split; [discriminate|]. intros (_ & [(CA & _)|(_ & CD & _)]); [contradiction|].
      apply nonincr_iff in CD. congruence.
Qed.

Lemma cell_index_ok (l : list R) (x : R) : ascending l \/ descending l -> exists i, cell_index l x = Ok i.
Proof.
  intros H. unfold cell_index, digitize. destruct (nondecr l) eqn:E1; [cbn [bind]; eauto|].
  destruct (nonincr l) eqn:E2; [cbn [bind]; eauto|].
  exfalso. destruct H as [H|H]; [apply nondecr_iff in H|apply nonincr_iff in H]; congruence.
Qed.

(** The cell of a value. *)
Definition cellf (l : list R) (x : R) : nat := match cell_index l x with Ok i => i | Err _ => 0%nat end.

Lemma cellf_ok l x : ascending l \/ descending l -> cell_index l x = Ok (cellf l x).
Proof. intros H. destruct (cell_index_ok l x H) as (i & E). unfold cellf. rewrite E. reflexivity. Qed.

Lemma cellf_iff l x i : l <> [] -> ascending l \/ descending l -> (cellf l x = i <-> in_cell l x i).
Proof.
  intros NE H. rewrite <- cell_index_iff by exact NE. rewrite cellf_ok by exact H. split; [intros ->; reflexivity|congruence].
Qed.

Lemma cellf_lt l x : l <> [] -> ascending l \/ descending l -> (cellf l x < length l)%nat.
Proof. intros NE H. apply (proj1 (cellf_iff l x _ NE H) eq_refl). Qed.

Lemma one_cell l x : l <> [] -> ascending l \/ descending l -> exists! i, in_cell l x i.
Proof.
  intros NE H. exists (cellf l x). split; [apply (cellf_iff l x); auto|].
  intros j J. apply (cellf_iff l x); auto.
Qed.

(** *** sums over positions *)

Lemma sum_n_split n m f : (0 < m)%nat -> sum_n (n * m) f = sum_n n (fun i => sum_n m (fun j => f (i * m + j)%nat)).
Proof.
  intros Hm. induction n as [|n IH]; [reflexivity|]. cbn [sum_n]. rewrite <- IH. rewrite Nat.mul_succ_l.
  generalize m at 2 4. intros m'. induction m' as [|m' IHm]; cbn [sum_n]; [rewrite Nat.add_0_r; lra|].
  rewrite Nat.add_succ_r. cbn [sum_n]. rewrite IHm. lra.
Qed.

Section Flat.
Variable sz : string -> nat.

Lemma flat_sum (g : list nat -> R) (L : list string) : NoDup L -> forall a,
  sum_over (map (fun k => (k, sz k)) L) (fun b => g (map b L)) a =
  sum_n (prod_list (map sz L)) (fun i => g (unravel (map sz L) i)).
Proof.
  revert g. induction L as [|k L IH]; intros g ND a.
  - cbn. lra.
  - inversion ND as [|? ? N1 N2]; subst. cbn [map sum_over].
    change (prod_list (sz k :: map sz L)) with (sz k * prod_list (map sz L))%nat.
    destruct (Nat.eq_dec (prod_list (map sz L)) 0) as [Z|NZ].
    + rewrite Z, Nat.mul_0_r. cbn [sum_n]. transitivity (sum_n (sz k) (fun _ => 0)); [|apply sum_n_zero].
      apply sum_n_ext. intros i Hi. transitivity (sum_over (map (fun k0 => (k0, sz k0)) L) (fun b => (fun l => g (i :: l)) (map b L)) (upd a k i)).
      * apply sum_over_in_range; [rewrite map_map; cbn [fst]; rewrite map_id; exact N2|].
        intros b _ Hx. rewrite Hx; [rewrite upd_same; reflexivity|]. rewrite map_map. cbn [fst]. rewrite map_id. exact N1.
      * rewrite (IH (fun l => g (i :: l)) N2). rewrite Z. reflexivity.
    + rewrite sum_n_split by lia. apply sum_n_ext. intros i Hi.
      transitivity (sum_over (map (fun k0 => (k0, sz k0)) L) (fun b => (fun l => g (i :: l)) (map b L)) (upd a k i)).
      * apply sum_over_in_range; [rewrite map_map; cbn [fst]; rewrite map_id; exact N2|].
        intros b _ Hx. rewrite Hx; [rewrite upd_same; reflexivity|]. rewrite map_map. cbn [fst]. rewrite map_id. exact N1.
      * rewrite (IH (fun l => g (i :: l)) N2). apply sum_n_ext. intros j Hj. cbn [unravel].
        rewrite Nat.div_add_l, Nat.div_small, Nat.add_0_r by lia.
        rewrite Nat.add_comm, Nat.mod_add, Nat.mod_small by lia. reflexivity.
Qed.
End Flat.

Lemma list_eqb_nat_iff (l m : list nat) : list_eqb Nat.eqb l m = true <-> l = m.
Proof.
  revert m. induction l as [|x l IH]; intros [|y m]; cbn; try (split; congruence).
  rewrite andb_true_iff, Nat.eqb_eq, IH. split; [intros [-> ->]; reflexivity|intros H; inversion H; auto].
Qed.

(** What adding values one by one leaves in an entry. *)
Lemma fold_tadd (idxs : nat -> list nat) (f : nat -> R) n (t : tensor R) :
  let r := fold_left (fun acc ix => tadd_at acc (idxs (fst ix)) (snd ix)) (map (fun i => (i, f i)) (seq 0 n)) t in
  shape r = shape t /\
  forall j, get r j = get t j + sum_n n (fun i => if list_eqb Nat.eqb j (idxs i) then f i else 0).
Proof.
  cbn zeta. induction n as [|n [IH1 IH2]]; [cbn; split; [reflexivity|intros; lra]|].
  rewrite seq_S, map_app, fold_left_app. cbn [map fold_left Nat.add fst snd]. split; [exact IH1|].
  intros j. cbn [tadd_at get sum_n]. rewrite IH2. rn. destruct (list_eqb Nat.eqb j (idxs n)); lra.
Qed.

Section Main.
Context {F : Fmt R}.

Lemma shapes_agree_refl s : shapes_agree s s = true.
Proof.
  assert (H : forall l, list_eqb Nat.eqb l l = true) by (intros l; apply list_eqb_nat_iff; reflexivity).
  destruct s as [|x [|y s]]; cbn [shapes_agree]; auto. cbn. rewrite Nat.eqb_refl. reflexivity.
Qed.

Lemma in_range_nth sh idx : in_range sh idx -> forall j n, nth_error sh j = Some n -> (nth j idx 0 < n)%nat.
Proof.
  induction 1 as [|i n' idx sh H HF IH]; intros [|j] n E; try discriminate; cbn in *; [congruence|apply IH, E].
Qed.

Lemma set_nth_map {A} (f : string -> A) (G : list string) j k x : NoDup G -> nth_error G j = Some k ->
  set_nth j x (map f G) = map (fun k' => if String.eqb k' k then x else f k') G.
Proof.
  revert j. induction G as [|g G IH]; intros [|j] ND H; try discriminate; inversion ND as [|? ? N1 N2]; subst; cbn in *.
  - inversion H; subst. rewrite String.eqb_refl. f_equal. apply map_ext_in. intros y Hy.
    destruct (String.eqb_spec y k); [subst; contradiction|reflexivity].
  - rewrite (IH j N2 H). destruct (String.eqb_spec g k); [subst; apply nth_error_In in H; contradiction|reflexivity].
Qed.

Section Sec.
Variable p : pd R.
Variable L : list string.
Hypothesis V : valid_pd p L.
Hypothesis FS : fine_scale p.
Variable d : dist R.
Variable G : list string.
Hypothesis GR : grid d G.
Variable vals : odict (tensor R).
Hypothesis HV : forall k, In k G -> exists v, od_get vals k = Some v /\ shape v = map (size_of p) L.
Hypothesis HK : incl (od_keys vals) (od_keys (d_dims d)).
Hypothesis HN : NoDup (od_keys vals).

Lemma grid_edges k : In k G -> exists a, od_get (d_vals d) k = Some (VArr a) /\ edges d k = to_list a /\
  edges d k <> [] /\ (ascending (edges d k) \/ descending (edges d k)) /\ length (edges d k) = tsize a.
Proof.
  intros K. destruct (In_nth_error _ _ K) as (j & J). destruct (g_column _ _ GR j k J) as (a & A1 & _ & _ & A4 & _ & _ & A7).
  exists a. unfold edges. rewrite A1. assert (X : length (to_list a) = tsize a) by (unfold to_list; rewrite map_length, seq_length; reflexivity).
  repeat split; auto. destruct (to_list a); [cbn in X; lia|discriminate].
Qed.

Definition cells (k : string) : list nat :=
  match od_get vals k with Some v => map (cellf (edges d k)) (to_list v) | None => [] end.

Lemma indices_ok n : remarg_indices d vals n = Ok (map cells G).
Proof.
  unfold remarg_indices. rewrite (g_shape _ _ GR).
  set (f := fun (indices : list (list nat)) (kd : string * option Z) => _).
  assert (H : forall D, NoDup (od_keys D) -> incl D (d_dims d) -> forall done : string -> bool,
     fold_res f D (map (fun k => if done k then cells k else []) G) =
     Ok (map (fun k => if done k || mem_str k (od_keys D) then cells k else []) G)).
  { intros D. induction D as [|[k dim] D IH]; intros ND ID done.
    - cbn [fold_res od_keys map]. f_equal. apply map_ext. intros k. rewrite orb_comm. reflexivity.
    - cbn [fold_res]. inversion ND as [|? ? N1 N2]; subst.
      assert (Gd : od_get (d_dims d) k = Some dim) by (apply od_in_get; [apply (g_dims _ _ GR)|apply ID; cbn; auto]).
      destruct (mem_str k G) eqn:MG.
      + apply mem_str_iff in MG. destruct (In_nth_error _ _ MG) as (j & J).
        destruct (g_column _ _ GR j k J) as (a & A1 & _ & _ & _ & A5 & _ & A7).
        assert (dim = Some (Z.of_nat j)) by congruence. subst dim. unfold f at 1. cbn [fst snd].
        rewrite A1. destruct (HV k MG) as (v & Hv & _). rewrite Hv.
        destruct (grid_edges k MG) as (a' & B1 & B2 & B3 & B4 & _). assert (a' = a) by congruence. subst a'.
        rewrite (@map_res_all _ _ (cell_index (to_list a)) (cellf (edges d k)) (to_list v)).
        2:{ intros x _. rewrite B2 in B4 |- *. apply cellf_ok, B4. }
        cbn [bind]. rewrite map_length. rewrite py_indexR_nat by (apply nth_error_Some; congruence). cbn [bind].
        rewrite (set_nth_map _ G j k _ (g_axes _ _ GR) J).
        replace (map (fun k' => if String.eqb k' k then map (cellf (edges d k)) (to_list v) else if done k' then cells k' else []) G)
          with (map (fun k' => if String.eqb k' k || done k' then cells k' else []) G).
        * rewrite (IH N2) with (done := fun k' => String.eqb k' k || done k') by (intros x Hx; apply ID; cbn; auto).
          f_equal. apply map_ext. intros x. cbn [od_keys map fst mem_str existsb]. 
          change (mem_str x (k :: od_keys D)) with (String.eqb x k || mem_str x (od_keys D)).
          destruct (String.eqb x k), (done x); reflexivity.
        * apply map_ext. intros x. destruct (String.eqb_spec x k); [|reflexivity]. subst. cbn [orb]. unfold cells. rewrite Hv. reflexivity.
      + apply mem_str_false in MG.
        assert (dim = None).
        { assert (Kk : In k (od_keys (d_vals d))) by (apply (g_dims _ _ GR); eapply od_get_some_key; eauto).
          destruct (od_key_get (d_vals d) k Kk) as (v & Ev).
          destruct (g_scalar _ _ GR k v Ev MG) as (_ & E & _). congruence. }
        subst dim. unfold f at 1. cbn [snd bind]. rewrite IH; [|exact N2|intros x Hx; apply ID; cbn; auto].
        f_equal. apply map_ext_in. intros x Hx.
        change (mem_str x (od_keys ((k, None) :: D))) with (String.eqb x k || mem_str x (od_keys D)).
        destruct (String.eqb_spec x k); [subst; contradiction|reflexivity]. }
  specialize (H (d_dims d) (proj2 (g_dims _ _ GR)) (incl_refl _) (fun _ => false)).
  replace (repeat [] (length G)) with (map (fun k => if (fun _ : string => false) k then cells k else []) G).
  - rewrite H. f_equal. apply map_ext_in. intros k K. cbn [orb].
    destruct (In_nth_error _ _ K) as (j & J). destruct (g_column _ _ GR j k J) as (a & _ & _ & _ & _ & A5 & _).
    assert (M : mem_str k (od_keys (d_dims d)) = true) by (apply mem_str_iff; eapply od_get_some_key; eauto).
    rewrite M. reflexivity.
  - cbn beta iota. clear. induction G; cbn; congruence.
Qed.

(** The cell of a position of p. *)
Definition cell_at (i : nat) : list nat :=
  map (fun k => match od_get vals k with Some v => cellf (edges d k) (get v (unravel (map (size_of p) L) i)) | None => 0%nat end) G.

Lemma cells_nth i : (i < prod_list (map (size_of p) L))%nat -> map (fun l => nth i l 0%nat) (map cells G) = cell_at i.
Proof.
  intros Hi. unfold cell_at. rewrite map_map. apply map_ext_in. intros k K. unfold cells.
  destruct (HV k K) as (v & Hv & Sv). rewrite Hv.
  assert (Hl : (i < tsize v)%nat) by (unfold tsize; rewrite Sv; exact Hi).
  rewrite (nth_indep _ 0%nat (cellf (edges d k) 0)) by (rewrite map_length; unfold to_list; rewrite map_length, seq_length; exact Hl).
  rewrite map_nth. f_equal. rewrite (@to_list_nth R) by exact Hl. rewrite Sv. reflexivity.
Qed.

Lemma cell_at_in i : in_range (d_shape d) (cell_at i).
Proof.
  unfold in_range, cell_at. assert (X : d_shape d = map (fun k => length (edges d k)) G).
  { apply nth_ext with (d := 0%nat) (d' := 0%nat); [rewrite map_length; apply (g_shape _ _ GR)|].
    intros j Hj. rewrite (g_shape _ _ GR) in Hj. destruct (nth_error G j) as [k|] eqn:J; [|apply nth_error_None in J; lia].
    destruct (g_column _ _ GR j k J) as (a & A1 & _ & _ & _ & _ & A6 & _). apply nth_error_nth with (d := 0%nat) in A6. rewrite A6.
    rewrite nth_indep with (d' := length (edges d ""%string)) by (rewrite map_length; exact Hj).
    rewrite map_nth with (f := fun k => length (edges d k)). apply nth_error_nth with (d := ""%string) in J as J'. rewrite J'.
    destruct (grid_edges k (nth_error_In _ _ J)) as (a' & B1 & _ & _ & _ & B5). assert (a' = a) by congruence. subst. auto. }
  rewrite X. assert (Y : forall l, incl l G -> Forall2 lt
    (map (fun k => match od_get vals k with Some v => cellf (edges d k) (get v (unravel (map (size_of p) L) i)) | None => 0%nat end) l)
    (map (fun k => length (edges d k)) l)).
  { induction l as [|k l IH]; intros I; cbn; constructor; [|apply IH; intros x Hx; apply I; cbn; auto].
    assert (K : In k G) by (apply I; cbn; auto). destruct (grid_edges k K) as (a & B1 & _ & B3 & B4 & _).
    destruct (HV k K) as (v & Hv & _). rewrite Hv. apply cellf_lt; auto. }
  apply Y, incl_refl.
Qed.

(** The entries of the name. *)
Definition gentry (kv : string * value R) : string :=
  match snd kv with
  | VNum x => (fst kv ++ "=" ++ fmt x)%string
  | VStr s => (fst kv ++ "=" ++ s)%string
  | _ => (fst kv ++ "=[]")%string
  end.
Definition gmarg : odict string := map (fun kv => (fst kv, gentry kv)) (d_vals d).

Lemma gmarg_keys : od_keys gmarg = od_keys (d_vals d).
Proof. unfold gmarg, od_keys. rewrite map_map. reflexivity. Qed.

Lemma gentry_good kv : In kv (d_vals d) -> good_entry (gentry kv) /\ key_of (gentry kv) (fst kv).
Proof.
  intros I. destruct kv as [k v]. assert (K : In k (od_keys (d_vals d))) by (apply in_map_iff; exists (k, v); auto).
  destruct (g_plain _ _ GR k K) as [SK _]. pose proof (od_in_get _ _ _ (g_keys _ _ GR) I) as Gk.
  assert (B : good_entry (k ++ "=" ++ "[]")%string /\ key_of (k ++ "=" ++ "[]")%string k).
  { apply good_join; [exact SK|]. unfold good_entry, occurs. cbn. repeat split; try discriminate; intuition discriminate. }
  destruct (mem_str k G) eqn:M.
  - apply mem_str_iff in M. destruct (grid_edges k M) as (a & A1 & _). assert (v = VArr a) by congruence. subst v.
    unfold gentry. cbn [snd fst]. exact B.
  - apply mem_str_false in M. destruct (g_scalar _ _ GR k v Gk M) as (_ & _ & Ge).
    unfold gentry. cbn [snd fst]. destruct v; try exact B; apply good_join; auto; cbn [fmt_value] in Ge; eapply good_tail; exact Ge.
Qed.

Lemma name_ok : p_cond p = [] -> remarg_name d (p_name p) = margcond_str (od_vals gmarg) (od_vals (@nil (string * string))).
Proof.
  intros PC. unfold remarg_name.
  assert (NB : has_char "|" (p_name p) = false).
  { apply has_char_false. rewrite (vp_name _ _ V), PC. unfold margcond_str. cbn [od_vals map join]. rewrite String.eqb_refl.
    apply join_free; [apply occurs_comma; discriminate|].
    pose proof (vp_entries _ _ V) as E. rewrite PC, app_nil_r in E. unfold od_vals. apply Forall_forall. intros e I.
    apply in_map_iff in I. destruct I as (ke & <- & I). rewrite Forall_forall in E. apply (E ke I). }
  rewrite NB. unfold margcond_str. cbn [od_vals map join]. rewrite String.eqb_refl. unfold od_vals, gmarg. rewrite map_map. reflexivity.
Qed.

Lemma sum_n_delta n i x : (i < n)%nat -> sum_n n (fun j => if Nat.eqb j i then x else 0) = x.
Proof.
  induction n as [|n IH]; intros H; [lia|]. cbn [sum_n]. destruct (Nat.eqb_spec n i).
  - subst. rewrite (sum_n_ext i _ (fun _ => 0)); [rewrite sum_n_zero; lra|]. intros j Hj. destruct (Nat.eqb_spec j i); [lia|reflexivity].
  - rewrite IH by lia. lra.
Qed.

(** The sum that ends up in the cell j. *)
Definition gathered (j : list nat) : R :=
  sum_n (prod_list (map (size_of p) L)) (fun i => if list_eqb Nat.eqb j (cell_at i)
     then match p_prob p with Some t => denote (spec_of (p_pscale p)) (get t (unravel (map (size_of p) L) i)) | None => 0 end else 0).

Definition rest (rem : tensor R) : result (pd R) :=
  let! vd := fold_res (fun acc key =>
               let! v := od_getR (p_vals p) key in
               let! dim := od_getR (p_dims p) key in
               Ok (od_set (fst acc) key v, od_set (snd acc) key dim))
               (od_keys (p_cond p)) (d_vals d, d_dims d) in
  let! prob := rescale rem one_ps (spec_of (p_pscale p)) in
  make_pd (remarg_name d (p_name p)) (fst vd) (Some (snd vd)) (Some prob) (spec_of (p_pscale p)).

Lemma remarg_front : L <> [] ->
  (log_scaled p -> forall b, in_bounds p L b -> prob_at p L b <= npi) ->
  exists rem, shape rem = d_shape d /\ (forall j, get rem j = gathered j) /\ remarginalise p d vals = rest rem.
Proof.
  intros NE LR. unfold remarginalise.
  assert (A0 : (match p_issing p with Some true => false | _ => true end) = true).
  { change (p_issing p) with (d_issing (p_d p)). rewrite (vp_issing _ _ V). destruct L as [|k0 L0] eqn:EL; [congruence|].
    destruct (forallb (fun kv => issingleton (snd kv)) (p_vals p)) eqn:E; [|reflexivity]. exfalso.
    destruct (vp_column _ _ V 0%nat k0 eq_refl) as (a & n & A1 & A2 & A3 & _).
    rewrite forallb_forall in E. specialize (E _ (od_get_in _ _ A1)). cbn [snd] in E.
    rewrite arr_not_singleton in E by (rewrite A3; discriminate). discriminate. }
  rewrite A0. cbn [assert_ bind].
  assert (PS : p_shape p = map (size_of p) L) by (apply (vp_shape_sizes p L V)).
  rewrite (@map_res_all _ _ _ (fun _ : string * tensor R => tt)).
  2:{ intros [k v] I. cbn [fst snd].
      assert (Kv : In k (od_keys vals)) by (apply in_map_iff; exists (k, v); auto).
      destruct (od_key_get (d_dims d) k (HK _ Kv)) as (dim & Ed). rewrite (proj2 (od_getR_ok _ _ _) Ed). cbn [bind].
      destruct dim as [z|]; [|reflexivity].
      assert (Kd : In k (od_keys (d_vals d))) by (apply (g_dims _ _ GR), HK, Kv).
      apply od_mem_iff in Kd as Md. rewrite Md.
      destruct (mem_str k G) eqn:M.
      - apply mem_str_iff in M. destruct (HV k M) as (v' & Hv & Sv). rewrite (od_in_get _ _ _ HN I) in Hv.
        inversion Hv; subst v'. rewrite PS, Sv, shapes_agree_refl. reflexivity.
      - apply mem_str_false in M. destruct (od_key_get (d_vals d) k Kd) as (w & Gw).
        destruct (g_scalar _ _ GR k w Gw M) as (_ & E & _). congruence. }
  cbn [bind]. destruct (vp_prob_get p L V) as (t & Pt & PR & St). rewrite PR. cbn [bind].
  rewrite indices_ok. cbn [bind].
  destruct (to_unit p L V FS t) as (t1 & E1 & S1 & G1). rewrite E1. cbn [bind].
  assert (S1' : shape t1 = map (size_of p) L) by congruence.
  assert (Lr : length (to_list t1) = prod_list (map (size_of p) L)).
  { unfold to_list. rewrite map_length, seq_length. unfold tsize. rewrite S1'. reflexivity. }
  assert (FB : forallb (fun l => length (to_list t1) <=? length l)%nat (map cells G) = true).
  { apply forallb_forall. intros l I. apply in_map_iff in I. destruct I as (k & <- & K). unfold cells.
    destruct (HV k K) as (v & Hv & Sv). rewrite Hv, map_length, Lr. unfold to_list. rewrite map_length, seq_length. unfold tsize. rewrite Sv.
    apply Nat.leb_refl. }
  rewrite FB. cbn [bind].
  set (n := prod_list (map (size_of p) L)) in *.
  set (rem := fold_left _ _ _).
  assert (RM : shape rem = d_shape d /\ forall j, get rem j = gathered j).
  { assert (C : combine (seq 0 (length (to_list t1))) (to_list t1) = map (fun i => (i, nth i (to_list t1) 0)) (seq 0 n)).
    { rewrite Lr. rewrite <- combine_map_self. f_equal. apply nth_ext with (d := 0) (d' := 0).
      - rewrite map_length, seq_length. exact Lr.
      - intros i Hi. rewrite Lr in Hi. rewrite nth_indep with (d' := nth 0 (to_list t1) 0) (n := i) (l := map _ _) by (rewrite map_length, seq_length; exact Hi).
        rewrite map_nth with (f := fun i => nth i (to_list t1) 0). rewrite seq_nth by exact Hi. reflexivity. }
    unfold rem. rewrite C.
    destruct (fold_tadd (fun i => map (fun l => nth i l 0%nat) (map cells G)) (fun i => nth i (to_list t1) 0) n (mkT (d_shape d) (fun _ => n0))) as [R1 R2].
    split; [exact R1|]. intros j. rewrite R2. cbn [get]. change (@n0 R RNum) with 0. rewrite Rplus_0_l. unfold gathered. fold n.
    apply sum_n_ext. intros i Hi. rewrite cells_nth by exact Hi. destruct (list_eqb Nat.eqb j (cell_at i)); [|reflexivity].
    rewrite Pt. rewrite (@to_list_nth R) by (unfold tsize; rewrite S1'; exact Hi). rewrite S1'. apply G1. intros LS.
    specialize (LR LS (fun k => nth (pos k L) (unravel (map (size_of p) L) i) 0%nat)).
    assert (IR : in_range (map (size_of p) L) (unravel (map (size_of p) L) i)) by (apply unravel_in_range; exact Hi).
    assert (MU : map (fun k => nth (pos k L) (unravel (map (size_of p) L) i) 0%nat) L = unravel (map (size_of p) L) i).
    { apply nth_ext with (d := 0%nat) (d' := 0%nat); rewrite map_length; [apply Forall2_length in IR; rewrite map_length in IR; lia|].
      intros m Hm. destruct (nth_error L m) as [k|] eqn:J; [|apply nth_error_None in J; lia].
      rewrite nth_indep with (d' := nth (pos ""%string L) (unravel (map (size_of p) L) i) 0%nat) by (rewrite map_length; exact Hm).
      rewrite map_nth with (f := fun k => nth (pos k L) (unravel (map (size_of p) L) i) 0%nat).
      apply nth_error_nth with (d := ""%string) in J as J'. rewrite J'. rewrite (nth_pos k L m (vp_axes _ _ V) J). reflexivity. }
    unfold prob_at in LR. rewrite Pt, MU in LR. apply LR.
    intros k K. pose proof (pos_nth k L K) as J. apply (in_range_nth _ _ IR (pos k L)) with (n := size_of p k). rewrite nth_error_map, J. reflexivity. }
  exists rem. destruct RM as [Rs Rg]. split; [exact Rs|]. split; [exact Rg|]. reflexivity.
Qed.

Lemma remarg_gen : p_cond p = [] -> L <> [] ->
  (log_scaled p -> forall b, in_bounds p L b -> prob_at p L b <= npi) ->
  exists q, remarginalise p d vals = Ok q /\ valid_pd q G /\ p_keylist q = od_keys (d_vals d) /\
    od_keys (p_marg q) = od_keys (d_vals d) /\ p_cond q = [] /\ p_pscale q = p_pscale p /\
    (forall k, variable q k = match od_get (d_vals d) k with Some v => Some (var_of v) | None => None end) /\
    (forall a, in_bounds q G a -> (log_scaled p -> npz <= gathered (map a G)) -> prob_at q G a = gathered (map a G)).
Proof.
  intros PC NE LR. destruct (remarg_front NE LR) as (rem & Rs & Rg & Er). rewrite Er. unfold rest.
  rewrite name_ok by exact PC. rewrite PC. cbn [od_keys map fold_res bind fst snd].
  destruct (from_unit p L V FS rem) as (w & Ew & Sw & Gw). rewrite Ew. cbn [bind].
  destruct (make_pd_ok (d_vals d) (d_dims d) G gmarg [] w (spec_of (p_pscale p)) (p_pscale p)) as
    (q & Eq & Vq & Kq & Mq & Cq & Pq & Sq & Wq).
  - apply GR.
  - apply GR.
  - intros k K. apply (g_plain _ _ GR k K).
  - apply GR.
  - apply GR.
  - intros k v Gk M. destruct (g_scalar _ _ GR k v Gk M) as (B1 & B2 & _). auto.
  - intros j k J. destruct (g_column _ _ GR j k J) as (a & B1 & B2 & B3 & B4 & B5 & B6 & _). exists a. rewrite Sw, Rs. repeat split; assumption.
  - apply GR.
  - apply GR.
  - rewrite Sw, Rs. apply GR.
  - rewrite app_nil_r. apply Forall_forall. intros ke I. unfold gmarg in I. apply in_map_iff in I. destruct I as (kv & <- & I).
    cbn [fst snd]. apply gentry_good, I.
  - rewrite app_nil_r. apply Forall_forall. intros ke I. apply in_map_iff in I. destruct I as (ke' & <- & I).
    unfold gmarg in I. apply in_map_iff in I. destruct I as ([k v] & <- & I). unfold render. cbn [fst snd].
    pose proof (od_in_get _ _ _ (g_keys _ _ GR) I) as Gk.
    destruct (mem_str k G) eqn:M; [apply (gentry_good (k, v)), I|]. rewrite Gk. apply mem_str_false in M.
    destruct (g_scalar _ _ GR k v Gk M) as (_ & _ & Ge). apply good_join; [|eapply good_tail; exact Ge].
    apply (g_plain _ _ GR). eapply od_get_some_key; eauto.
  - rewrite gmarg_keys, app_nil_r. apply Permutation_refl.
  - apply V.
  - apply V.
  - exists q. split; [exact Eq|]. split; [exact Vq|]. split; [exact Kq|].
    split; [rewrite Mq, render_keys; apply gmarg_keys|]. split; [rewrite Cq; reflexivity|]. split; [exact Sq|]. split; [exact Wq|].
    intros a Ba LS. unfold prob_at. rewrite Pq, Sq, Gw; [apply Rg|]. rewrite Rg. exact LS.
Qed.
End Sec.
End Main.
