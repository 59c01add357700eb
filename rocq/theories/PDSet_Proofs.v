(** Proofs about assignments to the members of a distribution. *)
From Coq Require Import Ascii String ZArith Reals Lra Bool Arith Lia Permutation List.
From Verif Require Import Base Num Tensor TensorBcast OdLemmas TensorLemmas RNumLemmas PScales PScales_Spec PScales_Proofs PScales_Prod
  Names Names_Spec Names_Proofs Distr Distr_Spec Distr_Proofs PDModel PD_Spec PD_Make PD_MakeGen PD_Marg PD_Sort_Spec PD_Sort PD_Examples PD_SortEx
  PDSetModel PDSet_Spec.
Import ListNotations.
Local Open Scope R_scope.

Section Set_.
Context {F : Fmt R}.

Lemma made_flags name (vals : odict (value R)) dims n pr ps p :
  NoDup (od_keys vals) -> vals <> [] -> naxes dims n -> make_pd name vals (Some dims) pr ps = Ok p ->
  d_ndim (p_d p) = Some n /\ d_issing (p_d p) = Some (n =? 0)%nat.
Proof.
  intros ND NE NA H. unfold make_pd in H.
  destruct (str_margcond name) as [[m0 c0]|]; cbn [bind] in H; [|discriminate].
  destruct (make_dist name vals (Some dims)) as [d|] eqn:Ed; cbn [bind] in H; [|discriminate].
  destruct (override_names _ _) as [[m c]|]; cbn [bind] in H; [|discriminate].
  destruct (eval_pscale ps) as [s|]; cbn [bind] in H; [|discriminate].
  destruct (check_prob _ _) as [[]|]; cbn [bind] in H; [|discriminate]. injection H as <-. cbn.
  destruct (make_dist_result _ vals dims n d ND NE NA Ed) as (_ & K & Nd & Ls & _ & Hs & Hc & Hax).
  destruct (make_dist_sing _ vals dims n d ND NE NA Ed) as [Sa Si].
  assert (De : describes vals dims n) by (apply (make_dist_iff name); eauto).
  assert (ND' : NoDup (od_keys (d_vals d))) by (change (NoDup (d_keylist d)); rewrite K; exact ND).
  split; [exact Nd|]. rewrite Si. f_equal.
  destruct n as [|n]; cbn [Nat.eqb].
  - apply forallb_forall. intros b I. apply in_map_iff in I. destruct I as ([k v] & <- & I). cbn.
    apply od_in_get in I; [|exact ND'].
    assert (Hk : In k (od_keys vals)) by (rewrite <- K; eapply od_get_some_key; eauto).
    apply od_key_get in Hk. destruct Hk as (w & G). destruct De as (_ & D & _).
    destruct (D k w G) as [[SV _]|(a & j & C & O)].
    + destruct (Hs k w G SV) as [Q _]. assert (v = kept w) by congruence. subst v. apply kept_sing. exact SV.
    + destruct O as (z & _ & _ & O). lia.
  - apply not_true_is_false. intros C. rewrite forallb_forall in C.
    destruct (Hax 0%nat) as (k & a & Ca & O & _); [lia|].
    destruct (Hc k a 0%nat Ca O) as (_ & a' & Q1 & Q2 & _). apply od_get_in in Q1.
    assert (X : In (issingleton (VArr a')) (map (fun kv => issingleton (snd kv)) (d_vals d))).
    { apply in_map_iff. exists (k, VArr a'). auto. }
    apply C in X. rewrite arr_not_singleton in X; [discriminate|]. rewrite Q2. unfold along. discriminate.
Qed.

Lemma check_prob_iff (p : pd R) n t : ready p n ->
  check_prob (p_d p) (Some t) = (if list_eqb Nat.eqb (p_shape p) (shape t) then Ok tt else Err AssertionError).
Proof.
  intros (V & Nd & Si). pose proof (lo_shape _ _ V) as Ls. unfold check_prob. rewrite Si, Nd. unfold ndim, p_shape in *.
  destruct (list_eqb Nat.eqb (d_shape (p_d p)) (shape t)) eqn:Q.
  - pose proof Q as Q0. apply list_eqb_nat in Q. rewrite <- Q, Ls. destruct (Nat.eqb_spec n 0) as [->|N0]; cbn [negb assert_ bind].
    + reflexivity.
    + rewrite Nat.eqb_refl. cbn [assert_ bind]. reflexivity.
  - destruct (Nat.eqb_spec n 0) as [->|N0].
    + destruct (Nat.eqb_spec (length (shape t)) 0) as [E0|E0]; [|reflexivity].
      exfalso. destruct (d_shape (p_d p)); [|discriminate]. destruct (shape t); [|discriminate]. discriminate.
    + destruct (Nat.eqb_spec (length (shape t)) 0) as [E0|E0]; [reflexivity|]. cbn [negb assert_ bind].
      destruct (Nat.eqb_spec n (length (shape t))); reflexivity.
Qed.

(** Another array and another scale, everything else as before. *)
Lemma ready_with (p : pd R) n t psc : ready p n -> shape t = p_shape p -> eval_pscale (spec_of psc) = Ok psc ->
  ready (mkPD (p_d p) (p_marg p) (p_cond p) (Some t) psc) n.
Proof.
  intros (V & Nd & Si) St Ep. split; [|split; assumption]. destruct V. constructor; try assumption. exists t. auto.
Qed.

Lemma prob_assigned (p : pd R) n t : ready p n ->
  exists q e, set_prob p (Some t) = (q, e) /\ p_prob q = Some t /\ p_pscale q = p_pscale p /\ same_space p q /\
    (e = None <-> shape t = p_shape p) /\ (e = None -> ready q n).
Proof.
  intros V. unfold set_prob. rewrite (check_prob_iff p n t V).
  destruct (list_eqb Nat.eqb (p_shape p) (shape t)) eqn:Q; eexists _, _; (split; [reflexivity|]); cbn [p_prob p_pscale];
    (split; [reflexivity|]); (split; [reflexivity|]); (split; [split; [reflexivity|split; reflexivity]|]).
  - apply list_eqb_nat in Q. split; [split; [congruence|reflexivity]|]. intros _. apply ready_with; [exact V|congruence|apply V].
  - split; [split; [discriminate|]|discriminate]. intros E. rewrite E, (proj2 (list_eqb_nat _ _) eq_refl) in Q. discriminate.
Qed.

Lemma prob_refused (p : pd R) n t : ready p n -> shape t <> p_shape p ->
  exists q, set_prob p (Some t) = (q, Some AssertionError) /\ p_prob q = Some t /\ q <> p /\ ~ laid_out q n.
Proof.
  intros V Ne. unfold set_prob. rewrite (check_prob_iff p n t V).
  destruct (list_eqb Nat.eqb (p_shape p) (shape t)) eqn:Q; [apply list_eqb_nat in Q; congruence|].
  eexists. split; [reflexivity|]. split; [reflexivity|].
  destruct (lo_prob _ _ (proj1 V)) as (u & Eu & Su).
  split.
  - intros C. assert (X : p_prob p = Some t) by (rewrite <- C; reflexivity). congruence.
  - intros L. destruct (lo_prob _ _ L) as (w & Ew & Sw). cbn [p_prob] in Ew. injection Ew as <-. apply Ne. exact Sw.
Qed.

Lemma prob_removed (p : pd R) n : ready p n ->
  exists q, set_prob p None = (q, None) /\ p_prob q = None /\ same_space p q /\
    forall ks r, marginalise q ks <> Ok r.
Proof.
  intros V. unfold set_prob. cbn [check_prob]. eexists. split; [reflexivity|]. split; [reflexivity|].
  split; [split; [reflexivity|split; reflexivity]|]. intros ks r H. unfold marginalise in H.
  destruct (keys_marginal _ _); cbn [bind] in H; [|discriminate].
  destruct (fold_res _ _ _) as [st|]; cbn [bind] in H; [|discriminate]. discriminate.
Qed.

Lemma is_scale_iff (s : pspec R) : (exists psc, eval_pscale s = Ok psc) <-> is_scale s.
Proof.
  split; [|apply eval_valid]. intros (psc & H). destruct s; cbn in *; auto; try discriminate.
  destruct (String.eqb_spec s "log"); [auto|]. destruct (String.eqb_spec s "ln"); [auto|]. cbn in H. discriminate.
Qed.

Lemma scale_assigned (p : pd R) n s : ready p n ->
  (is_scale s -> exists q, set_pscale p s = (q, None) /\ ready q n /\ p_prob q = p_prob p /\ same_space p q /\
     eval_pscale s = Ok (p_pscale q)) /\
  (~ is_scale s -> exists e, set_pscale p s = (p, Some e)).
Proof.
  intros V. unfold set_pscale. split.
  - intros I. destruct (eval_valid s I) as (psc & E). rewrite E. eexists. split; [reflexivity|].
    destruct (lo_prob _ _ (proj1 V)) as (u & Eu & Su).
    split; [rewrite Eu; apply ready_with; auto; eapply eval_idem; eauto|].
    split; [reflexivity|]. split; [split; [reflexivity|split; reflexivity]|reflexivity].
  - intros I. destruct (eval_pscale s) eqn:E; [exfalso; apply I, is_scale_iff; eauto|]. eauto.
Qed.

Lemma scale_meaning (p : pd R) n s q t idx : ready p n -> ~ unit_log s -> set_pscale p s = (q, None) -> p_prob p = Some t ->
  prob_pos p idx = denote (spec_of (p_pscale p)) (get t idx) /\ prob_pos q idx = denote s (get t idx).
Proof.
  intros V U H Et. unfold set_pscale in H. destruct (eval_pscale s) as [psc|] eqn:E; [|discriminate]. injection H as <-.
  unfold prob_pos. cbn [p_prob p_pscale]. rewrite Et. split; [reflexivity|]. apply (eval_denote s psc); assumption.
Qed.

Lemma scale_ratio (p : pd R) n s q idx : ready p n -> ~ unit_log s -> set_pscale p s = (q, None) ->
  log_kind s = log_kind (spec_of (p_pscale p)) ->
  prob_pos q idx * factor (spec_of (p_pscale p)) = prob_pos p idx * factor s.
Proof.
  intros V U H K. destruct (lo_prob _ _ (proj1 V)) as (t & Et & _).
  destruct (scale_meaning p n s q t idx V U H Et) as [-> ->]. unfold denote. rewrite K. ring.
Qed.

Lemma scale_changes (p : pd R) n s q idx : ready p n -> ~ unit_log s -> set_pscale p s = (q, None) ->
  log_kind s = log_kind (spec_of (p_pscale p)) -> prob_pos p idx <> 0 ->
  (prob_pos q idx = prob_pos p idx <-> factor s = factor (spec_of (p_pscale p))).
Proof.
  intros V U H K P. pose proof (scale_ratio p n s q idx V U H K) as Q. split; intros E.
  - rewrite E in Q. apply Rmult_eq_reg_l in Q; [congruence|exact P].
  - rewrite E in Q. apply Rmult_eq_reg_r in Q; [exact Q|]. intros Z. rewrite Z in *.
    apply P. destruct (lo_prob _ _ (proj1 V)) as (t & Et & _).
    destruct (scale_meaning p n s q t idx V U H Et) as [-> _]. unfold denote. rewrite Z. ring.
Qed.

Lemma runs_ready l : forall (p : pd R) n q es, ready p n -> Forall of_prob l -> acts_do p l = (q, es) ->
  Forall (fun e => e = None) es -> ready q n /\ same_space p q.
Proof.
  induction l as [|a l IH]; cbn; intros p n q es V Fa H He.
  - injection H as <- <-. split; [exact V|split; [reflexivity|split; reflexivity]].
  - destruct (act_do p a) as [q1 e] eqn:E1. destruct (acts_do q1 l) as [r es'] eqn:E2. injection H as <- <-.
    inversion Fa as [|? ? Fa1 Fa2]; subst. inversion He as [|? ? He1 He2]; subst.
    assert (S1 : ready q1 n /\ same_space p q1).
    { destruct a as [[t|]|s|]; cbn in Fa1; try contradiction; cbn in E1.
      - destruct (prob_assigned p n t V) as (q' & e' & E & _ & _ & S & _ & R). rewrite E in E1. injection E1 as -> ->. auto.
      - destruct (scale_assigned p n s V) as [A B]. unfold set_pscale in *. destruct (eval_pscale s) as [psc|] eqn:Es; [|discriminate].
        destruct A as (q' & E & R & _ & S & _); [apply is_scale_iff; eauto|]. injection E1 as <-. injection E as <-. auto. }
    destruct S1 as [R1 (A1 & A2 & A3)]. destruct (IH _ _ _ _ R1 Fa2 E2 He2) as [R (B1 & B2 & B3)].
    split; [exact R|]. split; [congruence|split; congruence].
Qed.

Lemma runs_last l : forall (p : pd R) q es, acts_do p l = (q, es) -> p_prob q = last_prob (p_prob p) l /\ p_shape q = p_shape p /\ p_vals q = p_vals p /\ p_dims q = p_dims p.
Proof.
  induction l as [|a l IH]; cbn; intros p q es H.
  - injection H as <- <-. auto.
  - destruct (act_do p a) as [q1 e] eqn:E1. destruct (acts_do q1 l) as [r es'] eqn:E2. injection H as <- <-.
    destruct (IH _ _ _ E2) as (P & S & W & D). unfold last_prob in *. cbn [fold_left]. rewrite P, S, W, D.
    destruct a as [t|s|m]; cbn in E1.
    + unfold set_prob in E1. destruct (check_prob _ _); injection E1 as <- <-; auto.
    + unfold set_pscale in E1. destruct (eval_pscale s); injection E1 as <- <-; auto.
    + unfold set_name in E1. destruct (str_margcond m) as [[? ?]|]; injection E1 as <- <-; auto.
Qed.

(** *** Names *)

Lemma name_assigned (p : pd R) n ms cs dm dc : ready p n -> Forall good_entry ms -> Forall good_entry cs ->
  entries_dict ms dm -> entries_dict cs dc -> NoDup (map fst dm) -> NoDup (map fst dc) ->
  exists q, set_name p (margcond_str ms cs) = (q, None) /\
    p_name q = margcond_str ms cs /\ p_marg q = dm /\ p_cond q = dc /\
    p_vals q = p_vals p /\ p_dims q = p_dims p /\ p_shape q = p_shape p /\ p_prob q = p_prob p /\ p_pscale q = p_pscale p /\
    (laid_out q n <-> Permutation (map fst dm ++ map fst dc) (p_keylist p) /\ shows_scalars p (dm ++ dc)).
Proof.
  intros V G1 G2 E1 E2 N1 N2. unfold set_name. rewrite (name_round_trip_spec ms cs dm dc) by assumption.
  eexists. split; [reflexivity|]. do 8 (split; [reflexivity|]). split.
  - intros L. split; [exact (lo_names _ _ L)|exact (lo_rendered _ _ L)].
  - intros (P & S). destruct V as (V & _). destruct V.
    constructor; try assumption; cbn.
    + apply Forall_app. split.
      * apply Forall_forall. intros [k e] I. destruct E1 as [E1 K1]. rewrite Forall_forall in K1. split; [|apply (K1 _ I)].
        rewrite Forall_forall in G1. apply G1. rewrite <- E1. apply (in_map snd) in I. exact I.
      * apply Forall_forall. intros [k e] I. destruct E2 as [E2 K2]. rewrite Forall_forall in K2. split; [|apply (K2 _ I)].
        rewrite Forall_forall in G2. apply G2. rewrite <- E2. apply (in_map snd) in I. exact I.
    + destruct E1 as [<- _], E2 as [<- _]. reflexivity.
Qed.

Lemma occurs_app c s t : occurs c (s ++ t) <-> occurs c s \/ occurs c t.
Proof.
  unfold occurs. induction s as [|a s IH]; cbn; [intuition|]. rewrite IH. intuition.
Qed.

Lemma split_cons c s : exists x l, split_char c s = x :: l.
Proof.
  induction s as [|a s IH]; cbn; eauto. destruct (Ascii.eqb a c); eauto. destruct IH as (x & l & ->). eauto.
Qed.

Lemma split_length c s t : length (split_char c (s ++ String c t)) = (length (split_char c s) + length (split_char c t))%nat.
Proof.
  induction s as [|a s IH]; cbn; [rewrite Ascii.eqb_refl; reflexivity|].
  destruct (Ascii.eqb a c); cbn; [rewrite IH; reflexivity|].
  destruct (split_cons c s) as (x & l & E). destruct (split_cons c (s ++ String c t)) as (y & m & E').
  rewrite E, E' in *. cbn in *. exact IH.
Qed.

Lemma name_refused (p : pd R) a b c : 
  (forall s, In s [a; b; c] -> ~ occurs "(" s /\ ~ occurs ")" s) ->
  exists q, set_name p (a ++ "|" ++ b ++ "|" ++ c) = (q, Some AssertionError) /\
    p_name q = (a ++ "|" ++ b ++ "|" ++ c)%string /\ p_marg q = p_marg p /\ p_cond q = p_cond p.
Proof.
  intros H. set (nm := (a ++ "|" ++ b ++ "|" ++ c)%string).
  assert (Ha := H a (or_introl eq_refl)). assert (Hb := H b (or_intror (or_introl eq_refl))).
  assert (Hc := H c (or_intror (or_intror (or_introl eq_refl)))).
  assert (P : paren_slice nm = Ok nm).
  { apply paren_free; unfold nm; rewrite !occurs_app; unfold occurs at 2 4; cbn; intuition discriminate. }
  assert (B : has_char "|" nm = true).
  { destruct (has_char "|" nm) eqn:E; [reflexivity|]. apply has_char_false in E. exfalso. apply E. unfold nm. rewrite occurs_app.
    right. rewrite occurs_app. left. cbn. auto. }
  assert (L : (3 <= length (split_char "|" nm))%nat).
  { unfold nm. change ("|" ++ b ++ "|" ++ c)%string with (String "|" (b ++ String "|" c)). rewrite !split_length.
    destruct (split_cons "|" a) as (? & ? & ->). destruct (split_cons "|" b) as (? & ? & ->). destruct (split_cons "|" c) as (? & ? & ->).
    cbn. lia. }
  assert (S : str_margcond nm = Err AssertionError).
  { unfold str_margcond. destruct (String.eqb_spec nm "") as [E|_].
    { exfalso. rewrite E in L. cbn in L. lia. }
    rewrite P. cbn [bind]. rewrite B. destruct (split_char "|" nm) as [|? [|? [|? ?]]]; cbn in L; try lia. reflexivity. }
  unfold set_name. rewrite S. eexists. split; [reflexivity|]. auto.
Qed.

(** *** Axes *)

Lemma dims_assigned (p : pd R) n dims m : ready p n -> naxes dims m ->
  ((exists q, set_dims p (Some dims) = Ok q) <-> describes (p_vals p) dims m) /\
  (forall q, set_dims p (Some dims) = Ok q ->
     p_prob q = p_prob p /\ p_pscale q = p_pscale p /\ p_marg q = p_marg p /\ p_cond q = p_cond p /\ p_name q = p_name p /\
     p_keylist q = p_keylist p /\ (forall k, variable q k = variable p k) /\ length (p_shape q) = m /\
     (forall k d, od_get dims k = Some d -> In k (p_keylist p) -> od_get (p_dims q) k = Some d) /\
     (forall j, (j < m)%nat -> exists k a, column (p_vals p) k a /\ on_axis m dims k j /\ nth_error (p_shape q) j = Some (tsize a))).
Proof.
  intros (V & _ & _) NA.
  assert (ND : NoDup (od_keys (p_vals p))) by apply V.
  assert (NE : p_vals p <> []).
  { intros C. apply (lo_some _ _ V). unfold p_keylist, d_keylist. change (d_vals (p_d p)) with (p_vals p). rewrite C. reflexivity. }
  assert (NS : forall k v, od_get (p_vals p) k = Some v -> scalar_value v -> issingleton v = true).
  { intros k v G [S|S]; [exact S|]. subst v. destruct (lo_kept _ _ V k G). }
  assert (X : forall d, make_dist (p_name p) (p_vals p) (Some dims) = Ok d ->
     set_dims p (Some dims) = Ok (mkPD (with_name d (p_name p)) (p_marg p) (p_cond p) (p_prob p) (p_pscale p))).
  { intros d Ed. unfold set_dims. rewrite Ed. cbn [bind].
    destruct (make_dist_result _ _ dims m d ND NE NA Ed) as (_ & K & Nd & Ls & _ & Rs & Rc & Hax).
    destruct (make_dist_sing _ _ dims m d ND NE NA Ed) as [Sa Si].
    assert (De : describes (p_vals p) dims m) by (apply (make_dist_iff (p_name p)); eauto).
    assert (ND' : NoDup (od_keys (d_vals d))) by (change (NoDup (d_keylist d)); rewrite K; exact ND).
    rewrite Sa, (override_names_ok (d_vals d) (cols_of (d_vals d)) (p_marg p) (p_cond p)); [|exact ND'| |].
    2: { intros k v G. apply cols_of_iff; assumption. }
    2: { change (od_keys (d_vals d)) with (d_keylist d). rewrite K. apply V. }
    cbn [bind].
    assert (NE2 : NoDup (od_keys (p_marg p ++ p_cond p))).
    { unfold od_keys. rewrite map_app. eapply Permutation_NoDup; [apply Permutation_sym, (lo_names _ _ V)|apply V]. }
    assert (RN : forall l, incl l (p_marg p ++ p_cond p) -> map (render (d_vals d) (cols_of (d_vals d))) l = l).
    { intros l Hl. rewrite <- (map_id l) at 2. apply map_ext_in. intros [k e] I. unfold render. cbn [fst snd]. f_equal.
      destruct (mem_str k (cols_of (d_vals d))) eqn:M; [reflexivity|]. apply mem_str_false in M.
      destruct (od_get (d_vals d) k) as [v|] eqn:G; [|reflexivity].
      apply (cols_of_iff _ _ _ ND' G) in M. symmetry.
      assert (Gk : In k (od_keys (p_vals p))) by (rewrite <- K; eapply od_get_some_key; exact G).
      destruct (od_key_get _ _ Gk) as (w & Gw). destruct De as (_ & D & _).
      destruct (D k w Gw) as [[SV N]|(a & j & C & O)].
      - destruct (Rs k w Gw SV) as [Y _]. assert (H0 : v = kept w) by congruence. pose proof (NS k w Gw SV) as S.
        assert (Hk : kept w = w) by (destruct w as [| |[|[] [|]]| |]; try reflexivity; discriminate).
        rewrite H0, Hk in *. clear H0.
        apply (lo_rendered _ _ V k _ e Gw S). apply od_in_get; [exact NE2|apply Hl; exact I].
      - destruct (Rc k a j C O) as (_ & b & Y & Sh & _). rewrite Y in G. injection G as <-.
        rewrite arr_not_singleton in M by (rewrite Sh; unfold along; destruct j; discriminate). discriminate. }
    rewrite (RN (p_marg p)) by (intros x Hx; apply in_or_app; auto).
    rewrite (RN (p_cond p)) by (intros x Hx; apply in_or_app; auto).
    rewrite <- (lo_name _ _ V). reflexivity. }
  split.
  - rewrite <- (make_dist_iff (p_name p) (p_vals p) dims m ND NE NA). split; intros (q & H).
    + unfold set_dims in H. destruct (make_dist (p_name p) (p_vals p) (Some dims)) as [d|]; [eauto|discriminate].
    + rewrite (X q H). eauto.
  - intros q H. destruct (make_dist (p_name p) (p_vals p) (Some dims)) as [d|] eqn:Ed.
    2: { unfold set_dims in H. rewrite Ed in H. discriminate. }
    rewrite (X d eq_refl) in H. injection H as <-.
    destruct (make_dist_result _ _ dims m d ND NE NA Ed) as (_ & K & Nd & Ls & _ & Rs & Rc & Hax).
    assert (De : describes (p_vals p) dims m) by (apply (make_dist_iff (p_name p)); eauto).
    do 5 (split; [reflexivity|]). split; [exact K|]. split.
    { intros k. unfold variable. change (p_vals (mkPD (with_name d (p_name p)) (p_marg p) (p_cond p) (p_prob p) (p_pscale p))) with (d_vals d).
      destruct (od_get (p_vals p) k) as [w|] eqn:Gw.
      - destruct De as (_ & D & _). destruct (D k w Gw) as [[SV N]|(a & j & C & O)].
        + destruct (Rs k w Gw SV) as [Y _]. rewrite Y. pose proof (NS k w Gw SV) as S.
          replace (kept w) with w by (destruct w as [| |[|[] [|]]| |]; try reflexivity; discriminate). reflexivity.
        + destruct (Rc k a j C O) as (_ & b & Y & Sh & Tl). rewrite Y. destruct C as [C [C1 _]].
          rewrite C in Gw. injection Gw as <-. unfold var_of.
          destruct (shape a); [destruct C1; reflexivity|]. rewrite Sh. unfold along. destruct j; cbn; rewrite Tl; reflexivity.
      - assert (I : ~ In k (d_keylist d)).
        { rewrite K. intros I. apply od_key_get in I. destruct I as (w & G). congruence. }
        apply od_get_none in I. rewrite I. reflexivity. }
    split; [exact Ls|]. split.
    { intros k z Gz I. change (p_dims (mkPD (with_name d (p_name p)) (p_marg p) (p_cond p) (p_prob p) (p_pscale p))) with (d_dims d).
      destruct (od_key_get _ _ I) as (w & Gw). destruct De as (_ & D & _). destruct (D k w Gw) as [[SV [N|N]]|(a & j & C & O)].
      - congruence.
      - destruct (Rs k w Gw SV) as [_ Y]. congruence.
      - destruct (Rc k a j C O) as (Y & _). congruence. }
    intros j J. destruct (Hax j J) as (k & a & C & O & E & _). exists k, a. auto.
Qed.

Lemma get_exchanged dims k : od_get (exchanged dims) k = option_map (option_map (fun d => 1 - d)%Z) (od_get dims k).
Proof.
  unfold exchanged. induction dims as [|[k' o] dims IH]; cbn; [reflexivity|].
  match goal with |- context [if ?b then _ else _] => destruct b end; [reflexivity|exact IH].
Qed.

Lemma on_axis_exchanged (p : pd R) k j : laid_out p 2 -> (j < 2)%nat ->
  on_axis 2 (p_dims p) k j -> on_axis 2 (exchanged (p_dims p)) k (1 - j).
Proof.
  intros V J (d & G & A & _). pose proof (lo_natural _ _ V _ _ G). exists (1 - d)%Z. rewrite get_exchanged, G. split; [reflexivity|].
  split; [|lia]. left. lia.
Qed.

Lemma on_axis_exchanged_inv (p : pd R) k j : laid_out p 2 -> 
  on_axis 2 (exchanged (p_dims p)) k j -> on_axis 2 (p_dims p) k (1 - j).
Proof.
  intros V (d & G & A & J). rewrite get_exchanged in G. destruct (od_get (p_dims p) k) as [[z|]|] eqn:Gz; try discriminate.
  assert (Ed : d = (1 - z)%Z) by (cbn [option_map] in G; congruence). clear G. pose proof (lo_natural _ _ V _ _ Gz).
  assert (z < 2)%Z. { apply (proj1 (lo_axes _ _ V) k). apply od_get_in. exact Gz. }
  exists z. split; [exact Gz|]. split; [|lia]. left. lia.
Qed.

Lemma dims_exchanged (p : pd R) a b : ready p 2 -> NoDup (od_keys (p_dims p)) -> p_shape p = [a; b] ->
  exists q t, set_dims p (Some (exchanged (p_dims p))) = Ok q /\ p_shape q = [b; a] /\ p_prob q = Some t /\ shape t = [a; b].
Proof.
  intros V ND Sh. pose proof (proj1 V) as W. destruct (lo_described _ _ W) as (D1 & D2 & D3).
  assert (AX0 : exists k a0, column (p_vals p) k a0 /\ on_axis 2 (p_dims p) k 0) by (apply D3; lia).
  assert (NA : naxes (exchanged (p_dims p)) 2).
  { split.
    - intros k d I. unfold exchanged in I. apply in_map_iff in I. destruct I as ([k' o] & E & I). cbn [fst snd] in E.
      assert (Ek : k' = k) by congruence. assert (Eo : option_map (fun d0 => 1 - d0)%Z o = Some d) by congruence. subst k'.
      destruct o as [z|]; [|discriminate]. assert (Ez : d = (1 - z)%Z) by (cbn [option_map] in Eo; congruence).
      assert (0 <= z)%Z; [|lia]. apply (lo_natural _ _ W k). apply od_in_get; assumption.
    - right. destruct AX0 as (k & a0 & _ & O). exists k, 1%Z.
      destruct O as (d & G & A & _). pose proof (lo_natural _ _ W _ _ G). split; [|lia].
      apply od_get_in. rewrite get_exchanged, G. assert (d = 0%Z) by lia. subst d. reflexivity. }
  assert (De : describes (p_vals p) (exchanged (p_dims p)) 2).
  { split; [exact D1|]. split.
    - intros k v G. destruct (D2 k v G) as [[S N]|(c & j & C & O)].
      + left. split; [exact S|]. unfold no_axis in *. rewrite get_exchanged. destruct N as [-> | ->]; auto.
      + right. exists c, (1 - j)%nat. split; [exact C|]. apply on_axis_exchanged; auto. destruct O as (? & _ & _ & J). exact J.
    - intros j J. destruct (D3 (1 - j)%nat) as (k & c & C & O); [lia|]. exists k, c. split; [exact C|].
      replace j with (1 - (1 - j))%nat by lia. apply on_axis_exchanged; auto. lia. }
  destruct (dims_assigned p 2 _ 2 V NA) as [A B]. destruct (proj2 A De) as (q & Eq).
  destruct (B q Eq) as (P & _ & _ & _ & _ & _ & _ & Ls & _ & Hx).
  destruct (lo_prob _ _ W) as (t & Et & St). exists q, t. split; [exact Eq|]. split; [|split; congruence].
  assert (X : forall j, (j < 2)%nat -> nth_error (p_shape q) j = nth_error [b; a] j).
  { intros j J. destruct (Hx j J) as (k & c & C & O & ->). apply on_axis_exchanged_inv in O; [|exact W].
    rewrite <- (lo_size _ _ W k c _ C O), Sh. destruct j as [|[|j]]; [reflexivity|reflexivity|lia]. }
  destruct (p_shape q) as [|x [|y [|? ?]]]; try discriminate.
  pose proof (X 0%nat ltac:(lia)) as X0. pose proof (X 1%nat ltac:(lia)) as X1. cbn in X0, X1. congruence.
Qed.

(** *** Values *)

Lemma item_assigned (p : pd R) n k a j b : ready p n -> column (p_vals p) k a -> on_axis n (p_dims p) k j -> one_axis b ->
  p_shape (set_item p k (VArr b)) = p_shape p /\ p_prob (set_item p k (VArr b)) = p_prob p /\
  variable (set_item p k (VArr b)) k = Some (Col (to_list b)) /\
  (forall k', k' <> k -> variable (set_item p k (VArr b)) k' = variable p k') /\
  (laid_out (set_item p k (VArr b)) n <-> tsize b = tsize a).
Proof.
  intros (V & _ & _) C O B. split; [reflexivity|]. split; [reflexivity|].
  assert (G : forall k', od_get (p_vals (set_item p k (VArr b))) k' = if String.eqb k' k then Some (VArr b) else od_get (p_vals p) k').
  { intros k'. change (p_vals (set_item p k (VArr b))) with (od_set (p_vals p) k (VArr b)).
    destruct (String.eqb_spec k' k) as [->|Nk]; [apply od_get_set_eq|apply od_get_set_ne; auto]. }
  assert (Cb : column (p_vals (set_item p k (VArr b))) k b) by (split; [rewrite G, String.eqb_refl; reflexivity|exact B]).
  assert (Co : forall k' c, k' <> k -> column (p_vals (set_item p k (VArr b))) k' c <-> column (p_vals p) k' c).
  { intros k' c Nk. unfold column. rewrite G. destruct (String.eqb_spec k' k); [contradiction|reflexivity]. }
  assert (KL : p_keylist (set_item p k (VArr b)) = p_keylist p).
  { unfold p_keylist, d_keylist. cbn. apply od_keys_set_old. destruct C as [C _]. eapply od_get_some_key; exact C. }
  split.
  { unfold variable. rewrite G, String.eqb_refl. unfold var_of. destruct B as [B _]. destruct (shape b); [contradiction|reflexivity]. }
  split.
  { intros k' Nk. unfold variable. rewrite G. destruct (String.eqb_spec k' k); [contradiction|reflexivity]. }
  split.
  - intros L. pose proof (lo_size _ _ L k b j Cb O) as X. pose proof (lo_size _ _ V k a j C O) as Y.
    change (p_shape (set_item p k (VArr b))) with (p_shape p) in X. congruence.
  - intros T. pose proof (lo_described _ _ V) as (D1 & D2 & D3). pose proof V as V0. destruct V0.
    constructor; rewrite ?KL; try assumption.
    + split; [|split].
      * change (od_keys (p_vals (set_item p k (VArr b)))) with (p_keylist (set_item p k (VArr b))). rewrite KL. exact D1.
      * intros k' v Gv. destruct (string_dec k' k) as [->|Nk].
        -- right. exists b, j. auto.
        -- rewrite G in Gv. destruct (String.eqb_spec k' k); [contradiction|]. destruct (D2 k' v Gv) as [?|(c & i & Cc & Oc)]; [auto|].
           right. exists c, i. split; [apply Co; assumption|exact Oc].
      * intros i I. destruct (D3 i I) as (k' & c & Cc & Oc). destruct (string_dec k' k) as [->|Nk].
        -- exists k, b. auto.
        -- exists k', c. split; [apply Co; assumption|exact Oc].
    + intros k' Gk. rewrite G in Gk. destruct (String.eqb_spec k' k); [discriminate|]. exact (lo_kept k' Gk).
    + intros k' c i Cc Oc. change (p_shape (set_item p k (VArr b))) with (p_shape p). destruct (string_dec k' k) as [->|Nk].
      * destruct Cc as [Cc _]. rewrite G, String.eqb_refl in Cc. injection Cc as <-. rewrite T. apply (lo_size k a i C Oc).
      * apply Co in Cc; [|exact Nk]. apply (lo_size k' c i Cc Oc).
    + intros k' c Cc. destruct (string_dec k' k) as [->|Nk].
      * destruct Cc as [Cc _]. rewrite G, String.eqb_refl in Cc. injection Cc as <-. rewrite T. apply (lo_nonempty k a C).
      * apply Co in Cc; [|exact Nk]. apply (lo_nonempty k' c Cc).
    + intros k' v e Gv S Ge. rewrite G in Gv. destruct (String.eqb_spec k' k) as [->|Nk].
      * injection Gv as <-. rewrite arr_not_singleton in S by apply B. discriminate.
      * apply (lo_rendered k' v e Gv S Ge).
Qed.
End Set_.
