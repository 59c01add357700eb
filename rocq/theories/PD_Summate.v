(** Concatenation of samples. *)
From Coq Require Import Ascii String ZArith Reals Lra Bool Arith Lia Permutation List.
From Verif Require Import Base Num Tensor TensorBcast OdLemmas TensorLemmas RNumLemmas PScales Names Names_Spec
  Names_Proofs Distr Distr_Spec Distr_Proofs PDModel PDUtils PD_Spec PD_Simple_Spec PD_Summate_Spec PD_Make PD_Sums
  PD_Valid PD_Simple PD_MakeGen.
Import ListNotations.

Section Summate.
Context {F : Fmt R}.

Definition cnt (k : string) (p : pd R) : Z :=
  match od_get (p_vals p) k with Some (VSet [SEint z]) => z | _ => 0%Z end.
Definition numv (k : string) (p : pd R) : R :=
  match od_get (p_vals p) k with Some (VNum x) => x | Some (VArr a) => get a [] | _ => 0%R end.
Definition zsum (l : list Z) : Z := fold_right Z.add 0%Z l.
Definition pscal (p : pd R) : R := match p_prob p with Some t => get t [] | None => 0%R end.

Lemma zsum_snoc l z : zsum (l ++ [z]) = (zsum l + z)%Z.
Proof. induction l; cbn in *; [lia|]. unfold zsum in *. rewrite IHl. lia. Qed.

Lemma num_eq_refl (ps : pscale R) : num_eq (spec_of ps) (spec_of ps) = true.
Proof. unfold num_eq. destruct ps; cbn [spec_of cval]; rewrite !Reqb_refl; reflexivity. Qed.

Variables (args : list (pd R)) (M C cs : list string) (ps : pscale R).
Hypothesis Hs : samples args M C cs ps.

Definition col (pre : list (pd R)) (k : string) : column :=
  if mem_str k cs then ColCount (zsum (map (cnt k) pre)) else ColList (map (numv k) pre).

Lemma keys_perm p : In p args -> Permutation (M ++ C) (od_keys (p_vals p)).
Proof. intros I. destruct (Hs p I) as (V & EM & EC & _). rewrite <- EM, <- EC. apply (vp_names _ _ V). Qed.

Lemma keys_nodup p : In p args -> NoDup (M ++ C).
Proof.
  intros I. eapply Permutation_NoDup; [apply Permutation_sym; apply (keys_perm p I)|].
  destruct (Hs p I) as (V & _). apply (vp_keys _ _ V).
Qed.

Lemma col_cases p k v : In p args -> od_get (p_vals p) k = Some v ->
  isunitsetint v = mem_str k cs /\
  (if mem_str k cs then set_int v = Ok (cnt k p) else num_of v = Ok (numv k p)).
Proof.
  intros I G. destruct (Hs p I) as (V & _ & _ & _ & H1 & H2).
  assert (K : In k (M ++ C)).
  { eapply Permutation_in; [apply Permutation_sym; apply (keys_perm p I)|]. eapply od_get_some_key; eauto. }
  destruct (mem_str k cs) eqn:E.
  - apply mem_str_iff in E. destruct (H1 k K E) as (z & Hz). unfold holds_count in Hz.
    unfold cnt. rewrite G. rewrite G in Hz. injection Hz as ->. split; reflexivity.
  - apply mem_str_false in E. destruct (H2 k K E) as (x & [Hx|(a & Ha & Sa & Ga)]); unfold numv; rewrite G.
    + rewrite G in Hx. injection Hx as ->. split; reflexivity.
    + rewrite G in Ha. injection Ha as ->. cbn. rewrite Sa. split; reflexivity.
Qed.

Lemma cols0_ok p : In p args ->
  fold_res (fun cols k => let! v := od_getR (p_vals p) k in
              Ok (od_set cols k (if isunitsetint v then ColCount 0 else ColList []))) (M ++ C) []
  = Ok (map (fun k => (k, col [] k)) (M ++ C)).
Proof.
  intros I. pose proof (keys_nodup p I) as ND.
  destruct (@fold_res_ok _ _ (fun cols k => let! v := od_getR (p_vals p) k in
              Ok (od_set cols k (if isunitsetint v then @ColCount R 0 else ColList [])))
             (fun pre (cols : odict column) => cols = map (fun k => (k, col [] k)) pre) (M ++ C) []) as (s & E1 & E2).
  - reflexivity.
  - intros pre k post s1 E ->.
    assert (K : In k (od_keys (p_vals p))).
    { eapply Permutation_in; [apply (keys_perm p I)|]. rewrite E. apply in_elt. }
    apply od_key_get in K. destruct K as (v & G). exists (map (fun k => (k, col [] k)) (pre ++ [k])).
    split; [|reflexivity]. rewrite (proj2 (od_getR_ok _ _ _) G). cbn [bind].
    destruct (col_cases p k v I G) as [U _]. rewrite U.
    rewrite od_set_new.
    + rewrite map_app. cbn [map]. replace (if mem_str k cs then ColCount 0 else ColList []) with (col [] k); [reflexivity|].
      unfold col. destruct (mem_str k cs); reflexivity.
    + unfold od_keys. rewrite map_map. cbn. rewrite map_id. rewrite E in ND. apply NoDup_remove in ND.
      rewrite in_app_iff in ND. tauto.
  - rewrite E1, E2. reflexivity.
Qed.

Lemma add_sample_ok pre p : In p args ->
  add_sample (map (fun k => (k, col pre k)) (M ++ C)) p = Ok (map (fun k => (k, col (pre ++ [p]) k)) (M ++ C)).
Proof.
  intros I. pose proof (keys_nodup p I) as ND. destruct (Hs p I) as (V & _).
  pose proof (vp_keys _ _ V) as NDv. unfold p_keylist, d_keylist in NDv. change (d_vals (p_d p)) with (p_vals p) in NDv.
  unfold add_sample.
  assert (KM : forall q, od_keys (map (fun k => (k, col q k)) (M ++ C)) = M ++ C).
  { intros q. unfold od_keys. rewrite map_map. cbn. apply map_id. }
  assert (GM : forall q k, In k (M ++ C) -> od_get (map (fun k => (k, col q k)) (M ++ C)) k = Some (col q k)).
  { intros q k K. apply od_in_get; [rewrite KM; exact ND|]. apply in_map_iff. exists k. auto. }
  edestruct (@fold_res_ok _ _ (fun cols kv =>
              match od_get cols (fst kv) with
              | None => Err KeyError
              | Some (ColCount z) =>
                  let! _ := assert_ (isunitsetint (snd kv)) in
                  let! zv := set_int (snd kv) in
                  Ok (od_set cols (fst kv) (ColCount (z + zv)))
              | Some (ColList l) =>
                  let! _ := assert_ (negb (isunitsetint (snd kv))) in
                  let! x := num_of (snd kv) in
                  Ok (od_set cols (fst kv) (ColList (l ++ [x])))
              end)
             (fun (vs : odict (value R)) (cols : odict column) => od_keys cols = M ++ C /\
                forall k, In k (M ++ C) -> od_get cols k = Some (if mem_str k (od_keys vs) then col (pre ++ [p]) k else col pre k))
             (p_vals p) (map (fun k => (k, col pre k)) (M ++ C))) as (s & E1 & E2 & E3).
  - split; [apply KM|]. intros k K. cbn. apply GM. exact K.
  - intros vs [k v] post s1 E [H1 H2]. cbn [fst snd].
    assert (G : od_get (p_vals p) k = Some v) by (apply od_in_get; [exact NDv|rewrite E; apply in_elt]).
    assert (K : In k (M ++ C)).
    { eapply Permutation_in; [apply Permutation_sym; apply (keys_perm p I)|]. eapply od_get_some_key; eauto. }
    assert (NK : mem_str k (od_keys vs) = false).
    { apply mem_str_false. rewrite E in NDv. unfold od_keys in NDv. rewrite map_app in NDv. cbn in NDv.
      apply NoDup_remove in NDv. rewrite in_app_iff in NDv. tauto. }
    rewrite (H2 k K), NK. unfold col at 1.
    destruct (col_cases p k v I G) as [U W]. rewrite U.
    assert (N2 : forall k', mem_str k' (od_keys (vs ++ [(k, v)])) = (k =? k')%string || mem_str k' (od_keys vs)).
    { intros k'. apply eq_true_iff_eq. rewrite orb_true_iff, !mem_str_iff. unfold od_keys. rewrite map_app, in_app_iff.
      cbn. rewrite String.eqb_eq. tauto. }
    assert (FIN : forall c, c = col (pre ++ [p]) k ->
      od_keys (od_set s1 k c) = M ++ C /\
      forall k', In k' (M ++ C) -> od_get (od_set s1 k c) k' =
         Some (if mem_str k' (od_keys (vs ++ [(k, v)])) then col (pre ++ [p]) k' else col pre k')).
    { intros c ->. split.
      - rewrite od_keys_set_old; [exact H1|]. rewrite H1. exact K.
      - intros k' K'. rewrite N2, od_get_set. destruct (String.eqb_spec k k') as [<-|NE]; [rewrite String.eqb_refl; reflexivity|]. cbn [orb].
        destruct (String.eqb_spec k' k) as [<-|_]; [contradiction|]. apply H2. exact K'. }
    destruct (mem_str k cs) eqn:MC; cbn [assert_ negb bind]; rewrite W; cbn [bind]; eexists; (split; [reflexivity|]); apply FIN;
      unfold col; rewrite MC, map_app; cbn [map]; [rewrite zsum_snoc|]; reflexivity.
  - rewrite E1. apply (f_equal Ok). apply od_ext_eq.
    + rewrite E2. exact ND.
    + rewrite E2, KM. reflexivity.
    + intros k K. rewrite E2 in K. rewrite (E3 k K), (GM _ k K).
      assert (X : mem_str k (od_keys (p_vals p)) = true).
      { apply mem_str_iff. eapply Permutation_in; [apply (keys_perm p I)|]. exact K. }
      rewrite X. reflexivity.
Qed.

Lemma add_all : forall post pre, incl post args ->
  fold_res add_sample post (map (fun k => (k, col pre k)) (M ++ C)) = Ok (map (fun k => (k, col (pre ++ post) k)) (M ++ C)).
Proof.
  induction post as [|p post IH]; intros pre I; cbn [fold_res].
  - rewrite app_nil_r. reflexivity.
  - rewrite add_sample_ok by (apply I; left; reflexivity). cbn [bind]. rewrite IH by (intros x X; apply I; right; exact X).
    rewrite <- app_assoc. reflexivity.
Qed.

Lemma zsum_counts k : In k (M ++ C) -> In k cs -> forall l, incl l args -> counts_to k l (zsum (map (cnt k) l)).
Proof.
  intros K Kc. induction l as [|p l IH]; intros I; cbn [map zsum fold_right]; constructor.
  - destruct (Hs p) as (_ & _ & _ & _ & H & _); [apply I; left; reflexivity|]. destruct (H k K Kc) as (z & Hz).
    unfold cnt. unfold holds_count in *. rewrite Hz. reflexivity.
  - apply IH. intros x X. apply I. right. exact X.
Qed.

Lemma numv_holds k p : In p args -> In k (M ++ C) -> ~ In k cs -> holds_number p k (numv k p).
Proof.
  intros I K N. destruct (Hs p I) as (_ & _ & _ & _ & _ & H). destruct (H k K N) as (x & Hx).
  unfold numv. destruct Hx as [Hx|(a & Ha & Sa & Ga)].
  - rewrite Hx. left. exact Hx.
  - rewrite Ha. right. exists a. auto.
Qed.

Lemma join_empty k l : join "," (k :: l) = ""%string -> k = ""%string.
Proof. cbn. destruct l; [auto|]. destruct k; cbn; [auto|discriminate]. Qed.

Lemma sum_name_is p : In p args ->
  match C with [] => join "," M | _ => (join "," M ++ "|" ++ join "," C)%string end = margcond_str M C.
Proof.
  intros I. destruct (Hs p I) as (V & EM & EC & _). unfold margcond_str.
  destruct C as [|k l]; [reflexivity|].
  destruct (String.eqb_spec (join "," (k :: l)) "") as [E|E]; [|reflexivity]. exfalso.
  apply join_empty in E. pose proof (vp_entries _ _ V) as VE. rewrite Forall_forall in VE.
  assert (J : In k (od_keys (p_cond p))) by (rewrite EC; left; reflexivity).
  unfold od_keys in J. apply in_map_iff in J. destruct J as ([k' e] & X & J). cbn in X. subst k'.
  specialize (VE (k, e)). cbn in VE. destruct VE as [G1 G2]; [apply in_app_iff; auto|].
  destruct (key_plain e k G1 G2) as [G _]. subst k. destruct G as (G & _). contradiction.
Qed.

Definition sum_vals : odict (value R) :=
  map (fun kc : string * column => (fst kc, match snd kc with ColCount z => VSet [SEint z] | ColList l => VArr (of_list n0 l) end))
      (map (fun k => (k, col args k)) (M ++ C)).
Definition sum_dims : odict (option Z) :=
  map (fun kc : string * column => (fst kc, match snd kc with ColCount _ => None | ColList _ => Some 0%Z end))
      (map (fun k => (k, col args k)) (M ++ C)).

Lemma summate_is : args <> [] ->
  summate args = let! r := make_pd (margcond_str M C) sum_vals (Some sum_dims) (Some (of_list n0 (map pscal args))) (spec_of ps) in
                 Ok (Some r).
Proof.
  intros NE. destruct args as [|a0 rest] eqn:EA; [contradiction|]. unfold summate.
  assert (I0 : In a0 args) by (rewrite EA; left; reflexivity). rewrite EA in I0.
  destruct (Hs a0 I0) as (_ & E1 & E2 & E3 & _). rewrite E1, E2, E3.
  assert (A1 : forallb (fun a : pd R => num_eq (spec_of ps) (spec_of (p_pscale a))) rest = true).
  { apply forallb_forall. intros x I. destruct (Hs x) as (_ & _ & _ & Q & _); [right; exact I|]. rewrite Q. apply num_eq_refl. }
  assert (A2 : forallb (fun a : pd R => list_eqb String.eqb M (od_keys (p_marg a)) && list_eqb String.eqb C (od_keys (p_cond a))) rest = true).
  { apply forallb_forall. intros x I. destruct (Hs x) as (_ & Q1 & Q2 & _); [right; exact I|]. rewrite Q1, Q2.
    apply andb_true_iff. split; apply list_eqb_str; reflexivity. }
  assert (A3 : forallb (fun a : pd R => match p_issing a with Some true => true | _ => false end) (a0 :: rest) = true).
  { apply forallb_forall. intros x I. destruct (Hs x I) as (V & _). unfold p_issing.
    rewrite (vp_issing _ _ V).
    assert (Q : forallb (fun kv => issingleton (snd kv)) (p_vals x) = true); [|rewrite Q; reflexivity].
    apply forallb_forall. intros [k v] Ik. cbn. apply od_in_get in Ik; [|apply (vp_keys _ _ V)].
    apply (vp_scalar _ _ V k v Ik). intros []. }
  rewrite A1, A2, A3. cbn [assert_ bind]. cbv zeta. rewrite <- EA in *.
  rewrite (cols0_ok a0 I0). cbn [bind].
  rewrite (add_all args []) by (intros x X; exact X). cbn [bind]. rewrite app_nil_l.
  rewrite (map_res_all _ pscal).
  - cbn [bind]. rewrite (sum_name_is a0 I0). reflexivity.
  - intros x I. destruct (Hs x I) as (V & _). destruct (vp_prob _ _ V) as (t & Et & _).
    unfold p_probR, pscal. rewrite Et. reflexivity.
Qed.

Lemma sum_vals_keys : od_keys sum_vals = M ++ C.
Proof. unfold sum_vals, od_keys. rewrite !map_map. cbn. apply map_id. Qed.

Lemma sum_vals_in k v : In (k, v) sum_vals -> In k (M ++ C) /\
  v = if mem_str k cs then VSet [SEint (zsum (map (cnt k) args))] else VArr (of_list n0 (map (numv k) args)).
Proof.
  unfold sum_vals. rewrite map_map. intros I. apply in_map_iff in I. destruct I as (x & E & I). cbn in E.
  unfold col in E. destruct (mem_str x cs) eqn:Q; injection E as <- <-; rewrite Q; auto.
Qed.

Lemma sum_vals_get p k : In p args -> In k (M ++ C) -> od_get sum_vals k =
  Some (if mem_str k cs then VSet [SEint (zsum (map (cnt k) args))] else VArr (of_list n0 (map (numv k) args))).
Proof.
  intros I K. apply od_in_get; [rewrite sum_vals_keys; apply (keys_nodup p I)|].
  unfold sum_vals. rewrite map_map. apply in_map_iff. exists k. split; [|exact K]. cbn. unfold col. destruct (mem_str k cs); reflexivity.
Qed.

Lemma sum_dims_get p k : In p args -> In k (M ++ C) -> od_get sum_dims k = Some (if mem_str k cs then None else Some 0%Z).
Proof.
  intros I K. apply od_in_get.
  - unfold sum_dims, od_keys. rewrite !map_map. cbn. rewrite map_id. apply (keys_nodup p I).
  - unfold sum_dims. rewrite map_map. apply in_map_iff. exists k. split; [|exact K]. cbn. unfold col. destruct (mem_str k cs); reflexivity.
Qed.

Lemma sum_dims_in k d : In (k, Some d) sum_dims -> d = 0%Z /\ In k (M ++ C) /\ ~ In k cs.
Proof.
  unfold sum_dims. rewrite map_map. intros I. apply in_map_iff in I. destruct I as (x & E & I). cbn in E.
  unfold col in E. destruct (mem_str x cs) eqn:Q; [discriminate|]. injection E as <- <-. apply mem_str_false in Q. auto.
Qed.

Lemma unravel1 n i : unravel [n] i = [i].
Proof. cbn [unravel]. change (prod_list []) with 1. rewrite Nat.div_1_r. reflexivity. Qed.

Definition numbered : Prop := exists k, In k (M ++ C) /\ ~ In k cs.

Lemma sum_naxes p : In p args -> numbered -> naxes sum_dims 1.
Proof.
  intros I (k & K & N). split.
  - intros k' d J. apply sum_dims_in in J. lia.
  - right. exists k, 0%Z. split; [|reflexivity]. apply od_get_in. rewrite (sum_dims_get p k I K).
    apply mem_str_false in N. rewrite N. reflexivity.
Qed.

Lemma sum_naxes0 : ~ numbered -> naxes sum_dims 0.
Proof.
  intros N. split; [|left; reflexivity]. intros k d J. apply sum_dims_in in J. exfalso. apply N. exists k. tauto.
Qed.

Lemma one_axis_list (l : list R) : one_axis (of_list n0 l).
Proof. split; [discriminate|]. unfold tsize. cbn. rewrite Nat.mul_1_r, Nat.max_0_r. reflexivity. Qed.

Lemma sum_describes p n : In p args -> (forall k, In k (M ++ C) -> ~ In k cs -> n = 1) -> (n = 1 -> numbered) -> (n <= 1) ->
  describes sum_vals sum_dims n.
Proof.
  intros I H1 H2 H3. destruct (Hs p I) as (V & _).
  assert (ON : forall k, In k (M ++ C) -> ~ In k cs -> on_axis 1 sum_dims k 0).
  { intros k K N. exists 0%Z. rewrite (sum_dims_get p k I K). apply mem_str_false in N. rewrite N.
    split; [reflexivity|]. split; [left; lia|lia]. }
  assert (CO : forall k, In k (M ++ C) -> ~ In k cs -> Distr_Spec.column sum_vals k (of_list n0 (map (numv k) args))).
  { intros k K N. split; [|apply one_axis_list]. rewrite (sum_vals_get p k I K). apply mem_str_false in N. rewrite N. reflexivity. }
  split; [|split].
  - intros k K. rewrite sum_vals_keys in K. apply (vp_reserved _ _ V). eapply Permutation_in; [apply (keys_perm p I)|exact K].
  - intros k v G. assert (K : In k (M ++ C)) by (rewrite <- sum_vals_keys; eapply od_get_some_key; eauto).
    destruct (in_dec string_dec k cs) as [Kc|Kc].
    + left. rewrite (sum_vals_get p k I K) in G. apply mem_str_iff in Kc. rewrite Kc in G. injection G as <-.
      split; [left; reflexivity|]. right. rewrite (sum_dims_get p k I K), Kc. reflexivity.
    + right. exists (of_list n0 (map (numv k) args)), 0%nat. rewrite (H1 k K Kc). auto.
  - intros j J. assert (n = 1) by lia. destruct (H2 H) as (k & K & N). exists k, (of_list n0 (map (numv k) args)).
    assert (j = 0) by lia. subst. auto.
Qed.

Lemma self_good p : In p args ->
  Forall (fun ke => good_entry (snd ke) /\ key_of (snd ke) (fst ke)) (self_named M ++ self_named C).
Proof.
  intros I. destruct (Hs p I) as (V & EM & EC & _).
  apply Forall_forall. intros [k e] J.
  assert (Q : k = e /\ In k (od_keys (p_marg p ++ p_cond p))).
  { unfold od_keys. rewrite map_app. rewrite in_app_iff in *. unfold od_keys in *. rewrite EM, EC. unfold self_named in J.
    destruct J as [J|J]; apply in_map_iff in J; destruct J as (x & X & J); injection X as <- <-; auto. }
  destruct Q as [<- J']. unfold od_keys in J'. apply in_map_iff in J'. destruct J' as ([k' e'] & X & J'). cbn in X. subst k'.
  pose proof (vp_entries _ _ V) as VE. rewrite Forall_forall in VE. apply VE in J'. destruct J' as [J1 J2].
  cbn [fst snd] in *. exact (key_plain e' k J1 J2).
Qed.

Lemma sum_make p n : In p args -> naxes sum_dims n -> describes sum_vals sum_dims n ->
  exists d, make_dist (margcond_str M C) sum_vals (Some sum_dims) = Ok d /\
   (forall t, shape t = d_shape d -> exists q,
      make_pd (margcond_str M C) sum_vals (Some sum_dims) (Some t) (spec_of ps) = Ok q /\
      p_vals q = d_vals d /\ p_dims q = d_dims d /\ p_shape q = d_shape d /\
      od_keys (p_marg q) = M /\ od_keys (p_cond q) = C /\ p_prob q = Some t /\ p_pscale q = ps) /\
   (forall t, shape t <> d_shape d ->
      make_pd (margcond_str M C) sum_vals (Some sum_dims) (Some t) (spec_of ps) = Err AssertionError).
Proof.
  intros I NA De. destruct (Hs p I) as (V & EM & EC & EP & _).
  destruct (make_pd_gen sum_vals sum_dims n (self_named M) (self_named C) (spec_of ps) ps) as (d & H1 & H2 & H3).
  - rewrite sum_vals_keys. apply (keys_nodup p I).
  - intros E. pose proof sum_vals_keys as K. rewrite E in K. cbn in K.
    pose proof (keys_perm p I) as P. rewrite <- K in P. apply Permutation_nil in P. exact (vp_some _ _ V P).
  - exact NA.
  - exact De.
  - apply (self_good p I).
  - rewrite !self_keys, sum_vals_keys. apply Permutation_refl.
  - rewrite <- EP. apply (vp_pscale _ _ V).
  - rewrite !self_vals in *. exists d. split; [exact H1|]. split; [|exact H3].
    intros t St. destruct (H2 t St) as (q & Q1 & Q2 & Q3 & Q4 & Q5 & Q6 & Q7 & Q8). exists q.
    rewrite Q5, Q6, !render_keys, !self_keys. auto 10.
Qed.
End Summate.

Section Main.
Context {F : Fmt R}.

Lemma summate_ok args M C cs ps : args <> [] -> samples args M C cs ps -> (exists k, In k (M ++ C) /\ ~ In k cs) ->
  exists q, summate args = Ok (Some q) /\ p_keylist q = M ++ C /\ od_keys (p_marg q) = M /\ od_keys (p_cond q) = C /\
    p_pscale q = ps /\
    (forall k, In k (M ++ C) -> In k cs -> od_get (p_dims q) k = Some None /\
       exists z, counts_to k args z /\ holds_count q k z) /\
    (forall k, In k (M ++ C) -> ~ In k cs -> od_get (p_dims q) k = Some (Some 0%Z) /\
       exists a, od_get (p_vals q) k = Some (VArr a) /\ shape a = [length args] /\
         forall i p, nth_error args i = Some p -> holds_number p k (get a [i])) /\
    exists t, p_prob q = Some t /\ shape t = [length args] /\
      forall i p, nth_error args i = Some p -> exists u, p_prob p = Some u /\ get t [i] = get u [].
Proof.
  intros NE HS NU. rewrite (summate_is args M C cs ps HS NE).
  assert (E0 : exists p, In p args) by (destruct args as [|p ?]; [contradiction|exists p; left; reflexivity]).
  destruct E0 as (p & I).
  pose proof (sum_naxes args M C cs ps HS p I NU) as NA.
  assert (De : describes (sum_vals args M C cs) (sum_dims args M C cs) 1)
   by (apply (sum_describes args M C cs ps HS p); auto).
  assert (ND : NoDup (od_keys (sum_vals args M C cs))) by (rewrite sum_vals_keys; apply (keys_nodup args M C cs ps HS p I)).
  assert (NE' : sum_vals args M C cs <> []).
  { intros E. pose proof (sum_vals_keys args M C cs) as K. rewrite E in K. destruct NU as (k & K' & _). rewrite <- K in K'. destruct K'. }
  destruct (sum_make args M C cs ps HS p 1 I NA De) as (d & D1 & D2 & _).
  destruct (make_dist_result _ _ _ _ _ ND NE' NA D1) as (_ & Kd & _ & Ls & _ & Rs & Rc & Rx).
  assert (Sh : d_shape d = [length args]).
  { destruct (Rx 0) as (k & a & [Ca _] & _ & N & _); [lia|].
    apply od_get_in in Ca. apply sum_vals_in in Ca. destruct Ca as [_ Ca]. destruct (mem_str k cs); [discriminate|].
    injection Ca as ->. destruct (d_shape d) as [|s [|? ?]]; try discriminate. injection N as ->. unfold tsize. cbn.
    rewrite map_length, Nat.mul_1_r. reflexivity. }
  destruct (D2 (of_list n0 (map pscal args))) as (q & Q1 & Q2 & Q3 & Q4 & Q5 & Q6 & Q7 & Q8).
  { rewrite Sh. cbn. rewrite map_length. reflexivity. }
  exists q. rewrite Q1. cbn [bind]. split; [reflexivity|].
  split; [unfold p_keylist, d_keylist; change (d_vals (p_d q)) with (p_vals q); rewrite Q2; rewrite <- (sum_vals_keys args M C cs), <- Kd; reflexivity|].
  do 3 (split; [assumption|]). split; [|split].
  - intros k K Kc. destruct (Rs k (VSet [SEint (zsum (map (cnt k) args))])) as [R1 R2].
    + rewrite (sum_vals_get args M C cs ps HS p k I K). apply mem_str_iff in Kc. rewrite Kc. reflexivity.
    + left. reflexivity.
    + rewrite Q3. split; [exact R2|]. exists (zsum (map (cnt k) args)). split.
      * apply (zsum_counts args M C cs ps HS k K Kc). intros x X. exact X.
      * unfold holds_count. rewrite Q2. exact R1.
  - intros k K N. apply mem_str_false in N.
    assert (Od : od_get (sum_dims args M C cs) k = Some (Some 0%Z)) by (rewrite (sum_dims_get args M C cs ps HS p k I K), N; reflexivity).
    destruct (Rc k (of_list n0 (map (numv k) args)) 0) as (R1 & a' & R2 & R3 & R4).
    + split; [|apply one_axis_list]. rewrite (sum_vals_get args M C cs ps HS p k I K), N. reflexivity.
    + exists 0%Z. split; [exact Od|]. split; [left; lia|lia].
    + rewrite Q3, R1, Od. split; [reflexivity|]. exists a'. rewrite Q2. split; [exact R2|].
      assert (S' : shape a' = [length args]).
      { rewrite R3. unfold along, tsize. cbn. rewrite map_length, Nat.mul_1_r. reflexivity. }
      split; [exact S'|]. intros i x X.
      assert (Li : i < length args) by (apply nth_error_Some; congruence).
      assert (G : get a' [i] = numv k x).
      { assert (P1 : nth i (to_list a') 0%R = get a' [i]).
        { rewrite to_list_nth by (unfold tsize; rewrite S'; cbn; lia). rewrite S'.
          apply f_equal. apply unravel1. }
        rewrite <- P1, R4, to_list_nth by (unfold tsize; cbn; rewrite map_length; lia).
        cbn [of_list shape]. rewrite unravel1. cbn. apply nth_error_nth. rewrite nth_error_map, X. reflexivity. }
      rewrite G. apply (numv_holds args M C cs ps HS); [eapply nth_error_In; eauto|exact K|apply mem_str_false; exact N].
  - exists (of_list n0 (map pscal args)). split; [exact Q7|]. split; [cbn; rewrite map_length; reflexivity|].
    intros i x X. destruct (HS x) as (V & _); [eapply nth_error_In; eauto|]. destruct (vp_prob _ _ V) as (u & Eu & _).
    exists u. split; [exact Eu|]. cbn. apply nth_error_nth. rewrite nth_error_map, X. cbn. unfold pscal. rewrite Eu. reflexivity.
Qed.

Lemma summate_counts args M C cs ps : args <> [] -> samples args M C cs ps -> incl (M ++ C) cs ->
  summate args = Err AssertionError.
Proof.
  intros NE HS IN. rewrite (summate_is args M C cs ps HS NE).
  assert (E0 : exists p, In p args) by (destruct args as [|p ?]; [contradiction|exists p; left; reflexivity]).
  destruct E0 as (p & I).
  assert (NU : ~ numbered M C cs) by (intros (k & K & N); apply N; apply IN; exact K).
  pose proof (sum_naxes0 args M C cs NU) as NA.
  assert (De : describes (sum_vals args M C cs) (sum_dims args M C cs) 0).
  { apply (sum_describes args M C cs ps HS p); auto; try lia. intros k K N. exfalso. apply NU. exists k. auto. }
  assert (ND : NoDup (od_keys (sum_vals args M C cs))) by (rewrite sum_vals_keys; apply (keys_nodup args M C cs ps HS p I)).
  destruct (sum_make args M C cs ps HS p 0 I NA De) as (d & D1 & _ & D3).
  assert (NE' : sum_vals args M C cs <> []).
  { intros E. pose proof (sum_vals_keys args M C cs) as K. rewrite E in K. cbn in K.
    destruct (HS p I) as (V & _). pose proof (keys_perm args M C cs ps HS p I) as P. rewrite <- K in P.
    apply Permutation_nil in P. exact (vp_some _ _ V P). }
  destruct (make_dist_result _ _ _ _ _ ND NE' NA D1) as (_ & _ & _ & Ls & _).
  rewrite D3; [reflexivity|]. intros E. cbn in E. rewrite map_length in E. rewrite <- E in Ls. discriminate.
Qed.
End Main.
