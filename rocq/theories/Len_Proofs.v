(** Proofs about lengths and membership. *)
From Coq Require Import String ZArith Bool Arith Lia List Reals Lra Permutation Sorted.
From Verif Require Import Base Num RNumLemmas VariableModel Var_Spec Var_Proofs FieldModel Field_Spec Field_Delta LenModel Len_Spec.
Import ListNotations.
Set Implicit Arguments.

(** ** Lengths *)

Lemma len_of_iff (v : lvar R) x : len_of v = Some x <-> has_length v x.
Proof.
  unfold len_of, has_length. destruct (vlength (fst v) (snd v)) as [[p|]|e].
  - rewrite as_num_num. split; [intros H; injection H as <-; eauto|]. intros (q & Q & <-). congruence.
  - split; [discriminate|]. intros (q & Q & _). congruence.
  - split; [discriminate|]. intros (q & Q & _). congruence.
Qed.

Lemma lens_some vs lens : Forall2 has_length vs lens -> map (len_of (T := R)) vs = map Some lens.
Proof. induction 1 as [|v x vs l H _ IH]; [reflexivity|]. cbn [map]. rewrite IH. f_equal. apply len_of_iff. exact H. Qed.

Lemma all_some_map {A} (l : list A) : all_some (map Some l) = Some l.
Proof. induction l as [|x l IH]; [reflexivity|]. cbn. rewrite IH. reflexivity. Qed.
Lemma all_some_none {A} (l : list (option A)) : all_some l = None <-> In None l.
Proof.
  induction l as [|[x|] l IH]; cbn; [split; [discriminate|tauto]| |tauto].
  destruct (all_some l) as [r|]; split; try discriminate.
  - intros [C|C]; [discriminate|]. apply IH in C. discriminate.
  - intros _. right. apply IH. reflexivity.
  - reflexivity.
Qed.

Lemma length_value (f : lfield R) lens : Forall2 has_length (lf_vars f) lens -> snd (eval_length f) = Some (root_sum_squares lens).
Proof. intros H. cbn [eval_length snd]. rewrite (lens_some H), all_some_map. reflexivity. Qed.

Lemma length_none (f : lfield R) : snd (eval_length f) = None <-> exists v, In v (lf_vars f) /\ forall x, ~ has_length v x.
Proof.
  cbn [eval_length snd]. transitivity (all_some (map (len_of (T := R)) (lf_vars f)) = None).
  { destruct (all_some _); cbn; split; congruence. }
  rewrite all_some_none, in_map_iff. split; intros (v & A & B).
  - exists v. split; [exact B|]. intros x H. apply len_of_iff in H. congruence.
  - exists v. split; [|exact A]. destruct (len_of v) as [x|] eqn:L; [|reflexivity]. apply len_of_iff in L. destruct (B x L).
Qed.

Lemma refreshed (f : lfield R) c f' : refreshes c -> l_change f c = Ok f' -> lf_lens f' = map (len_of (T := R)) (lf_vars f').
Proof. intros [->|(n & v & ->)] H; cbn in H; injection H as <-; reflexivity. Qed.

Lemma not_refreshed (f : lfield R) c f' : ~ refreshes c -> l_change f c = Ok f' -> lf_lens f' = lf_lens f /\ lf_names f' = lf_names f.
Proof.
  intros NR H. destruct c as [i a|i u| |n v]; cbn in H.
  - destruct (lupd _ _ _); cbn [bind] in H; [|discriminate]. injection H as <-. split; reflexivity.
  - destruct (lupd _ _ _); cbn [bind] in H; [|discriminate]. injection H as <-. split; reflexivity.
  - exfalso. apply NR. left. reflexivity.
  - exfalso. apply NR. right. eauto.
Qed.

Lemma kept_lens h : forall f f' : lfield R, (forall c, In c h -> ~ refreshes c) -> l_run f h = Ok f' -> lf_lens f' = lf_lens f /\ lf_names f' = lf_names f.
Proof.
  induction h as [|c h IH]; intros f f' NR H.
  - injection H as <-. split; reflexivity.
  - unfold l_run in H. cbn [fold_res] in H. destruct (l_change f c) as [f1|x] eqn:C; cbn [bind] in H; [|discriminate].
    destruct (IH f1 f') as (A & B); [intros d I; apply NR; right; exact I|exact H|].
    destruct (@not_refreshed f c f1) as (A1 & B1); [apply NR; left; reflexivity|exact C|]. split; congruence.
Qed.

(** A field's scaled step uses the lengths the field knows. *)
Lemma step_known (f0 f f' : lfield R) c h lens (g : field R) vds x bound : refreshes c -> l_change f0 c = Ok f ->
  (forall d, In d h -> ~ refreshes d) -> l_run f h = Ok f' -> Forall2 has_length (lf_vars f) lens ->
  fd_keys g = lf_names f' -> NoDup (fd_keys g) -> length (fd_varlist g) = length (fd_keys g) -> length lens = length (fd_keys g) ->
  exists cf vds', f_set_delta (fd_keys g) (lf_lens f') vds (GNum x) [] true bound = Ok (cf, vds') /\
    forall rs u, f_eval_delta g (lf_lens f') cf vds' rs u = Ok (Steps (map (fun l => DDelta (PF (x * l)%R)) lens)).
Proof.
  intros RF C NR H HL K ND LV LL. destruct (@kept_lens h _ _ NR H) as (A & B). rewrite (@refreshed _ _ _ RF C), (lens_some HL) in A.
  destruct (@number_step R _ _ g lens (lf_lens f') vds x [] true bound) as (cf & vds' & E1 & E2); auto.
  { constructor. } { intros k []. }
  exists cf, vds'. split; [exact E1|]. intros rs u. rewrite E2. do 2 f_equal.
  rewrite (map_ext _ (fun kl => DDelta (PF (x * snd kl)%R))) by reflexivity.
  apply (map_combine_snd (fun l => DDelta (PF (x * l)%R))). symmetry. exact LL.
Qed.

(** ** len(x) *)

Lemma len_iff (v : lvar R) n : py_len v = Ok n <->
  exists l t, vs_vset (fst v) = Some l /\ vs_vtype (fst v) = t /\ t <> Some VFloat /\ n = if match t with Some VBool => true | _ => false end then 2%Z else Z.of_nat (length l).
Proof.
  unfold py_len, vlength. destruct (vs_vset (fst v)) as [l|].
  - destruct (vs_vtype (fst v)) as [[| |]|].
    + split; [intros H; injection H as <-|intros (l' & t & E & <- & _ & ->); reflexivity]. exists l, (Some VBool). repeat split; congruence.
    + split; [intros H; injection H as <-|intros (l' & t & E & <- & _ & ->); injection E as ->; reflexivity]. exists l, (Some VInt). repeat split; congruence.
    + split; [|intros (l' & t & _ & <- & C & _); congruence].
      destruct l as [|e0 [|e1 [|]]]; try discriminate. repeat match goal with |- context [u_image ?u ?a] => destruct (u_image u a) end; discriminate.
    + split; [intros H; injection H as <-|intros (l' & t & E & <- & _ & ->); injection E as ->; reflexivity]. exists l, None. repeat split; congruence.
  - split; [discriminate|]. intros (l & t & C & _). discriminate.
Qed.

Lemma len_real (v : lvar R) : vs_vtype (fst v) = Some VFloat -> py_len v = Err TypeError /\ py_bool v = Err TypeError.
Proof.
  intros F. assert (L : py_len v = Err TypeError).
  { unfold py_len, vlength. destruct (vs_vset (fst v)) as [l|]; [|reflexivity]. rewrite F.
    destruct l as [|e0 [|e1 [|]]]; try reflexivity. repeat match goal with |- context [u_image ?u ?a] => destruct (u_image u a) end; reflexivity. }
  split; [exact L|]. unfold py_bool. rewrite L. reflexivity.
Qed.

(** ** Sorting *)

Definition lt_pair (a b : nat * R) : Prop := (snd a < snd b)%R \/ (snd a = snd b /\ fst a < fst b).

Lemma ins_perm (a : nat * R) l : Permutation (a :: l) (ins a l).
Proof.
  induction l as [|b l IH]; cbn [ins]; [reflexivity|]. destruct (n_leb (snd a) (snd b)); [reflexivity|].
  rewrite perm_swap. constructor. exact IH.
Qed.
Lemma sort_perm (l : list (nat * R)) : Permutation l (stable_sort l).
Proof. induction l as [|a l IH]; [reflexivity|]. cbn [stable_sort fold_right]. rewrite <- ins_perm. constructor. exact IH. Qed.

Lemma lt_pair_trans a b c : lt_pair a b -> lt_pair b c -> lt_pair a c.
Proof. unfold lt_pair. intros [A|[A A']] [B|[B B']]; [left; lra|left; lra|left; lra|right; split; [lra|lia]]. Qed.

Lemma ins_sorted (a : nat * R) l : StronglySorted lt_pair l -> (forall b, In b l -> fst a < fst b) -> StronglySorted lt_pair (ins a l).
Proof.
  intros S. induction S as [|b l S IH F]; intros H; cbn [ins]; [repeat constructor|].
  assert (HB : fst a < fst b) by (apply H; left; reflexivity).
  destruct (n_leb (snd a) (snd b)) eqn:L.
  - apply Rleb_iff in L. assert (AB : lt_pair a b) by (unfold lt_pair; destruct (Rle_lt_or_eq_dec _ _ L); [left; assumption|right; auto]).
    constructor; [constructor; assumption|]. constructor; [exact AB|].
    eapply Forall_impl; [|exact F]. intros c. apply lt_pair_trans. exact AB.
  - assert (BA : (snd b < snd a)%R).
    { apply Rnot_le_lt. intros C. apply Rleb_iff in C. change (n_leb (snd a) (snd b) = true) in C. congruence. }
    constructor; [apply IH; intros c I; apply H; right; exact I|].
    apply (Permutation_Forall (ins_perm a l)). constructor; [left; exact BA|exact F].
Qed.

Lemma sort_sorted : forall l a, StronglySorted lt_pair (stable_sort (combine (seq a (length l)) l)).
Proof.
  induction l as [|x l IH]; intros a; [constructor|]. cbn [length seq combine stable_sort fold_right].
  apply ins_sorted; [apply IH|]. intros b I.
  apply (Permutation_in _ (Permutation_sym (sort_perm _))) in I. destruct b as [i y]. apply in_combine_l in I. apply in_seq in I. cbn. lia.
Qed.

(** In a sorted list an element equals the next exactly if it equals any later one. *)
Lemma flags_iff l i : StronglySorted lt_pair l -> (put_back (same_as_next l) i = true <-> exists j x, i < j /\ In (i, x) l /\ In (j, x) l).
Proof.
  unfold put_back. intros S. induction S as [|[k y] l S IH F].
  - cbn. split; [discriminate|]. intros (j & x & _ & [] & _).
  - cbn [same_as_next existsb fst snd]. rewrite orb_true_iff, IH, andb_true_iff, Nat.eqb_eq.
    assert (NK : forall z, In (k, z) l -> z <> y).
    { intros z I ->. rewrite Forall_forall in F. destruct (F _ I) as [C|[_ C]]; cbn in C; [lra|lia]. }
    split.
    + intros [[<- H]|(j & x & A & B & C)]; [|exists j, x; split; [exact A|split; right; assumption]].
      destruct l as [|[j z] l]; [discriminate|]. apply Reqb_iff in H. subst z.
      inversion F as [|? ? LT _]; subst. destruct LT as [C|[_ C]]; cbn in C; [lra|].
      exists j, y. split; [exact C|]. split; [left; reflexivity|right; left; reflexivity].
    + intros (j & x & A & B & C). destruct B as [B|B].
      * injection B as <- <-. destruct C as [C|C]; [injection C as <-; lia|]. left. split; [reflexivity|].
        destruct l as [|[m z] l]; [destruct C|]. apply Reqb_iff.
        rewrite Forall_forall in F. inversion S as [|? ? S' F']; subst. rewrite Forall_forall in F'.
        destruct (F (m, z) (or_introl eq_refl)) as [D|[D _]]; cbn in D; [|exact D].
        destruct C as [C|C]; [injection C as -> ->; lra|]. destruct (F' _ C) as [D'|[D' _]]; cbn in D'; lra.
      * destruct C as [C|C].
        -- injection C as <- <-. rewrite Forall_forall in F. destruct (F _ B) as [D|[_ D]]; cbn in D; [lra|lia].
        -- right. exists j, x. auto.
Qed.

Lemma in_index (l : list R) i x : In (i, x) (combine (seq 0 (length l)) l) <-> nth_error l i = Some x.
Proof.
  assert (G : forall a, In (i, x) (combine (seq a (length l)) l) <-> a <= i /\ nth_error l (i - a) = Some x).
  { induction l as [|y l IH]; intros a; cbn [length seq combine In].
    - split; [intros []|]. intros (_ & C). destruct (i - a); discriminate.
    - rewrite IH. split.
      + intros [E|(A & B)]; [injection E as -> ->; rewrite Nat.sub_diag; auto|].
        split; [lia|]. replace (i - a) with (S (i - S a)) by lia. exact B.
      + intros (A & B). destruct (Nat.eq_dec i a) as [->|NE]; [rewrite Nat.sub_diag in B; cbn in B; left; congruence|].
        right. split; [lia|]. replace (i - a) with (S (i - S a)) in B by lia. exact B. }
  rewrite G, Nat.sub_0_r. intuition lia.
Qed.

Lemma sorted_isin (xs vset : list R) i b : nth_error (isin Sort xs vset) i = Some b ->
  (b = true <-> (exists x, nth_error xs i = Some x /\ In x vset) \/ again_later xs i).
Proof.
  intros H. unfold isin in H. cbn zeta in H. rewrite nth_error_map in H.
  destruct (nth_error (seq 0 (length xs)) i) as [k|] eqn:N; [|discriminate]. cbn in H. injection H as <-.
  assert (LI : i < length xs) by (rewrite <- (seq_length (length xs) 0); apply nth_error_Some; congruence).
  assert (k = i) as ->. { apply nth_error_nth with (d := 0) in N. rewrite seq_nth in N by exact LI. cbn in N. auto. }
  rewrite flags_iff by apply sort_sorted.
  assert (P : forall j x, In (j, x) (stable_sort (combine (seq 0 (length (xs ++ vset))) (xs ++ vset))) <-> nth_error (xs ++ vset) j = Some x).
  { intros j x. rewrite <- in_index. split; apply Permutation_in; [symmetry|]; apply sort_perm. }
  split.
  - intros (j & x & A & B & C). apply P in B. apply P in C. rewrite nth_error_app1 in B by exact LI.
    destruct (lt_dec j (length xs)) as [LJ|LJ].
    + right. rewrite nth_error_app1 in C by exact LJ. exists j, x. auto.
    + left. rewrite nth_error_app2 in C by lia. exists x. split; [exact B|]. eapply nth_error_In. exact C.
  - intros [(x & B & I)|(j & x & A & B & C)].
    + apply In_nth_error in I as (m & M). exists (length xs + m), x. split; [lia|].
      split; apply P; [rewrite nth_error_app1 by exact LI; exact B|].
      rewrite nth_error_app2 by lia. replace (length xs + m - length xs) with m by lia. exact M.
    + assert (LJ : j < length xs) by (apply nth_error_Some; congruence). exists j, x. split; [exact A|].
      split; apply P; rewrite nth_error_app1 by assumption; assumption.
Qed.

Lemma isin_length w (xs vset : list R) : length (isin w xs vset) = length xs.
Proof. destruct w; cbn [isin]; rewrite map_length, ?seq_length; reflexivity. Qed.

Lemma exact_isin w (xs vset : list R) i b : w <> Sort -> nth_error (isin w xs vset) i = Some b ->
  (b = true <-> exists x, nth_error xs i = Some x /\ In x vset).
Proof.
  intros NW H. assert (E : isin w xs vset = map (fun x => existsb (n_eqb x) vset) xs) by (destruct w; [reflexivity|reflexivity|congruence]).
  rewrite E, nth_error_map in H. destruct (nth_error xs i) as [x|]; [|discriminate]. cbn in H. injection H as <-.
  rewrite existsb_exists. split.
  - intros (y & I & Q). apply Reqb_iff in Q. subst y. eauto.
  - intros (y & Q & I). injection Q as <-. exists x. split; [exact I|]. apply Reqb_refl.
Qed.

(** ** Membership *)

Lemma vset_discrete (vals : list (pyval R)) : vset_vals (map (fun v => Bare (AV v)) vals) = vals.
Proof. unfold vset_vals. induction vals as [|v l IH]; [reflexivity|]. cbn. rewrite IH. reflexivity. Qed.

Lemma inside_all_discrete w t vals (xs : list (pyval R)) : t <> VFloat ->
  inside_all w (discrete t vals) xs = Some (isin w (map num xs) (map num vals)).
Proof.
  intros NF. unfold inside_all, discrete. cbn [vs_vset vs_vtype]. rewrite vset_discrete.
  rewrite (map_ext _ _ as_num_num xs), (map_ext _ _ as_num_num vals). destruct t; [reflexivity|reflexivity|congruence].
Qed.

Lemma member_exact w t vals (xs : list (pyval R)) : t <> VFloat -> w <> Sort \/ NoDup (map num xs) ->
  exists bs, inside_all w (discrete t vals) xs = Some bs /\ length bs = length xs /\
    forall i b x, nth_error bs i = Some b -> nth_error xs i = Some x -> (b = true <-> In (num x) (map num vals)).
Proof.
  intros NF H. exists (isin w (map num xs) (map num vals)). split; [apply inside_all_discrete; exact NF|].
  split; [rewrite isin_length, map_length; reflexivity|]. intros i b x B X.
  assert (X' : nth_error (map num xs) i = Some (num x)) by (rewrite nth_error_map, X; reflexivity).
  assert (DW : {w = Sort} + {w <> Sort}) by decide equality. destruct DW as [->|NW].
  - destruct H as [H|H]; [congruence|]. rewrite (sorted_isin _ _ _ B). split.
    + intros [(y & Y & I)|(j & y & A & Y & Z)]; [congruence|]. exfalso.
      assert (i = j); [|lia]. apply (proj1 (NoDup_nth_error _) H); [apply nth_error_Some; congruence|congruence].
    + intros I. left. eauto.
  - rewrite (exact_isin _ _ _ NW B). split; [intros (y & Y & I); congruence|eauto].
Qed.

Lemma member_sorted t vals (xs : list (pyval R)) : t <> VFloat ->
  exists bs, inside_all Sort (discrete t vals) xs = Some bs /\ length bs = length xs /\
    forall i b x, nth_error bs i = Some b -> nth_error xs i = Some x ->
      (b = true <-> In (num x) (map num vals) \/ again_later (map num xs) i).
Proof.
  intros NF. exists (isin Sort (map num xs) (map num vals)). split; [apply inside_all_discrete; exact NF|].
  split; [rewrite isin_length, map_length; reflexivity|]. intros i b x B X.
  assert (X' : nth_error (map num xs) i = Some (num x)) by (rewrite nth_error_map, X; reflexivity).
  rewrite (sorted_isin _ _ _ B). split; (intros [H|H]; [left|right; exact H]); [destruct H as (y & Y & I); congruence|eauto].
Qed.

Lemma prob_sorted t vals (xs : list (pyval R)) p z : t <> VFloat ->
  exists ps, uniform_all Sort (discrete t vals) p z xs = Some ps /\ length ps = length xs /\
    forall i x, nth_error xs i = Some x -> ~ In (num x) (map num vals) ->
      (again_later (map num xs) i -> nth_error ps i = Some p) /\ (~ again_later (map num xs) i -> nth_error ps i = Some z).
Proof.
  intros NF. destruct (member_sorted vals xs NF) as (bs & E & L & H). unfold uniform_all. rewrite E. cbn [option_map].
  eexists. split; [reflexivity|]. split; [rewrite map_length; exact L|]. intros i x X NI. rewrite nth_error_map.
  destruct (nth_error bs i) as [b|] eqn:B.
  - specialize (H i b x B X). cbn [option_map]. split; intros A.
    + assert (b = true) as -> by tauto. reflexivity.
    + assert (b = false) as ->; [|reflexivity]. destruct b; [|reflexivity]. exfalso. apply A. destruct H as [H _]. destruct (H eq_refl); tauto.
  - exfalso. apply nth_error_None in B. assert (i < length xs) by (apply nth_error_Some; congruence). lia.
Qed.

Lemma in_discrete w t vals (x : pyval R) : t <> VFloat ->
  exists b, contains w (discrete t vals) [x] = Ok b /\ (b = true <-> In (num x) (map num vals)).
Proof.
  intros NF. destruct (@member_exact w t vals [x] NF) as (bs & E & L & H); [right; repeat constructor; intros []|].
  unfold contains. rewrite E. destruct bs as [|b [|]]; try discriminate. exists b. split; [reflexivity|].
  apply (H 0); reflexivity.
Qed.

Lemma in_interval w e0 e1 (x : pyval R) :
  exists b, contains w (interval e0 e1) [x] = Ok b /\ (b = true <-> over e0 (num x) /\ under e1 (num x)).
Proof.
  destruct (inside_interval e0 e1 x) as (b & E & H). exists b. split; [|exact H].
  unfold contains, inside_all. cbn [vs_vset vs_vtype interval map all_some]. fold (interval e0 e1). rewrite E. reflexivity.
Qed.

Lemma in_array w s (xs : list (pyval R)) : 2 <= length xs -> (exists t vals, t <> VFloat /\ s = discrete t vals) \/ (exists e0 e1, s = interval e0 e1) ->
  contains w s xs = Err ValueError.
Proof.
  intros L [(t & vals & NF & ->)|(e0 & e1 & ->)].
  - unfold contains. rewrite inside_all_discrete by exact NF.
    pose proof (isin_length w (map num xs) (map num vals)) as IL. rewrite map_length in IL.
    destruct (isin w _ _) as [|b [|c l]]; cbn in IL; [lia|lia|reflexivity].
  - unfold contains, inside_all. cbn [vs_vset vs_vtype interval]. fold (interval e0 e1).
    assert (A : exists bs, all_some (map (inside (interval e0 e1)) xs) = Some bs /\ length bs = length xs).
    { clear L. induction xs as [|x xs (bs & E & L)]; [exists []; split; reflexivity|].
      destruct (inside_interval e0 e1 x) as (b & I & _). cbn [map all_some]. rewrite I, E. exists (b :: bs). split; [reflexivity|cbn; congruence]. }
    destruct A as (bs & -> & LB). destruct bs as [|b [|c l]]; cbn in LB; [lia|lia|reflexivity].
Qed.

Lemma step_outdated (f0 f f' : lfield R) c h lens (g : field R) vds x bound : refreshes c -> l_change f0 c = Ok f ->
  (forall d, In d h -> ~ refreshes d) -> l_run f h = Ok f' -> Forall2 has_length (lf_vars f) lens ->
  fd_keys g = lf_names f' -> NoDup (fd_keys g) -> length (fd_varlist g) = length (fd_keys g) -> length lens = length (fd_keys g) ->
  exists cf vds', f_set_delta (fd_keys g) (lf_lens f') vds (GNum x) [] true bound = Ok (cf, vds') /\
    (forall rs u, f_eval_delta g (lf_lens f') cf vds' rs u = Ok (Steps (map (fun l => DDelta (PF (x * l)%R)) lens))) /\
    (forall i v l y, nth_error (lf_vars f') i = Some v -> has_length v y -> nth_error lens i = Some l -> l <> y -> x <> 0%R ->
       nth_error (map (fun l => DDelta (PF (x * l)%R)) lens) i <> Some (DDelta (PF (x * y)%R))).
Proof.
  intros RF C NR H HL K ND LV LL. destruct (@step_known f0 f f' c h lens g vds x bound) as (cf & vds' & A & B); auto.
  exists cf, vds'. split; [exact A|]. split; [exact B|]. intros i v l y _ _ N NE NX. rewrite nth_error_map, N. cbn.
  intros E. injection E as E. apply NE. apply (Rmult_eq_reg_l x); assumption.
Qed.

Lemma in_no_set w (s : vstate R) xs : vs_vset s = None -> contains w s xs = Ok false.
Proof. intros H. unfold contains, inside_all. rewrite H. reflexivity. Qed.

Lemma lupd_ok (h : lvar R -> result (lvar R)) l i l' : lupd l i h = Ok l' ->
  exists v v', nth_error l i = Some v /\ h v = Ok v' /\ nth_error l' i = Some v' /\ forall j, j <> i -> nth_error l' j = nth_error l j.
Proof.
  revert i l'. induction l as [|v l IH]; intros [|i] l' H; cbn in H; try discriminate.
  - destruct (h v) as [v'|] eqn:E; [|discriminate]. injection H as <-. exists v, v'. repeat split; auto. intros [|j] NE; [congruence|reflexivity].
  - destruct (lupd l i h) as [r|] eqn:E; [|discriminate]. injection H as <-. destruct (IH _ _ E) as (u & u' & A & B & C & D).
    exists u, u'. repeat split; auto. intros [|j] NE; [reflexivity|]. cbn. apply D. congruence.
Qed.
Lemma lupd_total (h : lvar R -> result (lvar R)) l i v v' : nth_error l i = Some v -> h v = Ok v' -> exists l', lupd l i h = Ok l'.
Proof.
  revert i. induction l as [|x l IH]; intros [|i] N H; cbn in N; try discriminate.
  - injection N as ->. cbn. rewrite H. eexists. reflexivity.
  - destruct (IH _ N H) as (l' & E). cbn. rewrite E. eexists. reflexivity.
Qed.

Lemma transformed_iff (f : lfield R) i u :
  (exists f', l_change f (LUfun i u) = Ok f') <-> exists v, nth_error (lf_vars f) i = Some v /\ vs_vtype (fst v) = Some VFloat.
Proof.
  cbn [l_change]. split.
  - intros (f' & H). destruct (lupd _ _ _) as [l'|] eqn:E; [|discriminate]. destruct (lupd_ok _ _ _ E) as (v & v' & A & B & _).
    exists v. split; [exact A|]. unfold transform in B. destruct (vs_vtype (fst v)) as [[| |]|]; try discriminate. reflexivity.
  - intros (v & N & TY). destruct (@lupd_total (transform u) (lf_vars f) i v (fst v, Some u)) as (l' & E); [exact N|unfold transform; rewrite TY; reflexivity|].
    rewrite E. eexists. reflexivity.
Qed.
Lemma transformed_only (f f' : lfield R) i u : l_change f (LUfun i u) = Ok f' -> exists v, nth_error (lf_vars f) i = Some v /\
  nth_error (lf_vars f') i = Some (fst v, Some u) /\ lf_names f' = lf_names f /\ forall j, j <> i -> nth_error (lf_vars f') j = nth_error (lf_vars f) j.
Proof.
  cbn [l_change]. destruct (lupd _ _ _) as [l'|] eqn:E; [|discriminate]. intros H. injection H as <-.
  destruct (lupd_ok _ _ _ E) as (v & v' & A & B & C & D). exists v. cbn. split; [exact A|]. split; [|auto].
  unfold transform in B. destruct (vs_vtype (fst v)) as [[| |]|]; try discriminate. injection B as <-. exact C.
Qed.
