(** Calling and proposing from a field of independent random variables. *)
From Coq Require Import String Ascii ZArith Reals Lra Bool Arith Lia Permutation List.
From Verif Require Import Base Num Tensor OdLemmas RNumLemmas PScales PScales_Spec
  PScales_Proofs Names Names_Spec Distr PDModel PDUtils PD_Spec PD_Simple_Spec PD_Sums PD_Align
  VariableModel RVModel FieldModel Field_Spec Field_Proofs Field_Dims RFModel RF_Spec RF_Proofs.
Import ListNotations.
Local Open Scope list_scope.

Lemma app_empty (s : string) : (s ++ "")%string = s.
Proof. induction s as [|c s IH]; cbn; [|rewrite IH]; reflexivity. Qed.

Lemma map_app_empty (l : list string) : map (fun k => (k ++ "")%string) l = l.
Proof. rewrite <- (map_id l) at 2. apply map_ext. apply app_empty. Qed.

Lemma rk_empty {B} (d : odict B) : map (fun kv => ((fst kv ++ "")%string, snd kv)) d = d.
Proof. rewrite <- (map_id d) at 2. apply map_ext. intros [k v]. cbn. rewrite app_empty. reflexivity. Qed.

(** *** Renaming by a suffix *)
Lemma suffixed_ok {B} suf (d : odict B) : NoDup (od_keys d) ->
  (forall k k', In k (od_keys d) -> In k' (od_keys d) -> (k ++ suf)%string <> k') ->
  suffixed suf (od_keys d) d = map (fun kv => ((fst kv ++ suf)%string, snd kv)) d.
Proof.
  intros ND DJ.
  assert (G : forall rest done : odict B, NoDup (od_keys rest) ->
    (forall k, In k (od_keys rest) -> ~ In k (od_keys done) /\ ~ In (k ++ suf)%string (od_keys done) /\ ~ In (k ++ suf)%string (od_keys rest)) ->
    (forall k k', In k (od_keys rest) -> In k' (od_keys rest) -> (k ++ suf)%string = (k' ++ suf)%string -> k = k') ->
    suffixed suf (od_keys rest) (rest ++ done) = done ++ map (fun kv => ((fst kv ++ suf)%string, snd kv)) rest).
  { unfold suffixed. induction rest as [|[k v] rest IH]; intros done N H IJ; [rewrite app_nil_r; reflexivity|].
    cbn [od_keys map fst] in N, H, IJ |- *. fold (od_keys rest) in *. inversion N as [|? ? N1 N2]; subst.
    cbn [fold_left app od_get fst]. rewrite String.eqb_refl.
    destruct (H k (or_introl eq_refl)) as (H1 & H2 & H3).
    assert (DL : od_del ((k, v) :: rest ++ done) k = rest ++ done).
    { cbn [od_del]. rewrite String.eqb_refl. reflexivity. }
    rewrite DL. rewrite od_set_new by (unfold od_keys; rewrite map_app, in_app_iff; cbn in H3; tauto).
    rewrite <- app_assoc. rewrite IH.
    - rewrite <- app_assoc. reflexivity.
    - exact N2.
    - intros k' I'. destruct (H k' (or_intror I')) as (J1 & J2 & J3). unfold od_keys. rewrite map_app, !in_app_iff. cbn [map fst In].
      cbn [In] in J3, H3. split; [|split; [|tauto]].
      + intros [C|[C|[]]]; [exact (J1 C)|]. apply H3. right. rewrite C. exact I'.
      + intros [C|[C|[]]]; [exact (J2 C)|]. apply IJ in C; [subst; contradiction|left; reflexivity|right; exact I'].
    - intros a b Ia Ib. apply IJ; right; assumption. }
  rewrite <- (app_nil_r d) at 2. rewrite G; auto.
  - intros k I. split; [intros []|]. split; [intros []|]. intros C. apply (DJ k _ I C). reflexivity.
  - intros k k' _ _ E. eapply app_tail_inj; exact E.
Qed.

(** *** From positions to names *)
Lemma pos_name (vs : list (rv R)) i v : NoDup (names_of vs) -> nth_error vs i = Some v -> pos (rv_name v) (names_of vs) = i.
Proof.
  intros N I. assert (J : nth_error (names_of vs) i = Some (rv_name v)) by (unfold names_of; rewrite nth_error_map, I; reflexivity).
  pose proof (nth_error_In _ _ J) as IN.
  apply (proj1 (NoDup_nth_error _) N); [apply pos_lt; exact IN|]. rewrite pos_nth by exact IN. symmetry. exact J.
Qed.

Lemma zip_map2 {B C D} (f : B -> C -> D) (g : B -> D) (l : list B) (m : list C) : length l = length m ->
  (forall i b, nth_error l i = Some b -> exists c, nth_error m i = Some c /\ f b c = g b) -> zip_with f l m = map g l.
Proof.
  revert m. induction l as [|b l IH]; intros [|c m] E H; try discriminate; [reflexivity|].
  cbn. destruct (H 0 b eq_refl) as (c' & J & <-). injection J as <-. f_equal. apply IH; [cbn in E; congruence|].
  intros i b' Hb. apply (H (S i) b' Hb).
Qed.

Lemma list_choice {B} (P : nat -> B -> Prop) n : (forall i, i < n -> exists b, P i b) ->
  exists l, length l = n /\ forall i b, nth_error l i = Some b -> P i b.
Proof.
  induction n as [|n IH]; intros H.
  - exists []. split; [reflexivity|]. intros [|i] b; discriminate.
  - destruct IH as (l & E & Q); [intros i Hi; apply H; lia|]. destruct (H n) as (b & Hb); [lia|].
    exists (l ++ [b]). split; [rewrite app_length; cbn; lia|]. intros i c Hc.
    destruct (Nat.lt_ge_cases i (length l)) as [Lt|Ge].
    + rewrite nth_error_app1 in Hc by exact Lt. apply Q. exact Hc.
    + assert (i = n). { assert (i < length (l ++ [b])) by (apply nth_error_Some; congruence). rewrite app_length in H0. cbn in H0. lia. }
      subst i. rewrite nth_error_app2 in Hc by lia. rewrite E, Nat.sub_diag in Hc. injection Hc as <-. exact Hb.
Qed.

Section Joint.
Context {F : Fmt R} {TR : Trunc R}.
Variables (vs : list (rv R)) (values : odict (fentry R)).
Variables (x : nat -> fval R) (a : nat -> values_in R) (r : nat -> rnd R) (A : nat -> tensor (pyval R)).
Hypothesis PR : printable F.
Hypothesis NE : vs <> [].
Hypothesis NA : named_apart (names_of vs).
Hypothesis SC : scales_ok vs.
Hypothesis CA : forall v, In v vs -> callable v.
Hypothesis NDv : NoDup (od_keys values).
Hypothesis INv : incl (od_keys values) (names_of vs).
Hypothesis HE : forall i v, nth_error vs i = Some v -> evaluates v values (x i) (a i) (r i) (A i).

Let x' k := x (pos k (names_of vs)).
Let a' k := a (pos k (names_of vs)).
Let A' k := A (pos k (names_of vs)).
Let L := filter (needs_axis values) (names_of vs).

Lemma HE' i v : nth_error vs i = Some v -> evaluates v values (x' (rv_name v)) (a' (rv_name v)) (r i) (A' (rv_name v)).
Proof. intros I. unfold x', a', A'. rewrite (pos_name vs i v (proj1 NA) I). apply HE. exact I. Qed.

Lemma owns : exists own, length own = length vs /\ forall i v, nth_error vs i = Some v ->
  exists q, nth_error own i = Some q /\ rv_call v (a i) (r i) = Ok q /\ valid_pd q (filter (needs_axis values) [rv_name v]) /\
    variable q (rv_name v) = Some (var_of (to_value (A' (rv_name v)))) /\ p_pscale q = rv_pscale v /\
    forall s, prob_at q (filter (needs_axis values) [rv_name v]) s = at_ values A' s v.
Proof.
  destruct (list_choice (fun i q => forall v, nth_error vs i = Some v -> rv_call v (a i) (r i) = Ok q /\ valid_pd q (filter (needs_axis values) [rv_name v]) /\
    variable q (rv_name v) = Some (var_of (to_value (A' (rv_name v)))) /\ p_pscale q = rv_pscale v /\
    forall s, prob_at q (filter (needs_axis values) [rv_name v]) s = at_ values A' s v) (length vs)) as (own & Lo & HO).
  - intros i Hi. apply nth_error_Some in Hi. destruct (nth_error vs i) as [v|] eqn:Iv; [|congruence].
    destruct (own_ok vs values x' a' r A' NA HE' PR CA SC i v Iv) as (q & E & V1 & V2 & V4 & V3).
    exists q. intros w Hw. injection Hw as <-. unfold a' in E. rewrite (pos_name vs i v (proj1 NA) Iv) in E. auto.
  - exists own. split; [exact Lo|]. intros i v Iv.
    assert (Hi : i < length own) by (rewrite Lo; apply nth_error_Some; congruence). apply nth_error_Some in Hi.
    destruct (nth_error own i) as [q|] eqn:Iq; [|congruence]. exists q. split; [reflexivity|]. apply (HO i q Iq v Iv).
Qed.

Lemma joint_all suf : named_apart (map (fun k => (k ++ suf)%string) (names_of vs)) ->
  (suf = ""%string \/ forall k k', In k (names_of vs) -> In k' (names_of vs) -> (k ++ suf)%string <> k') ->
  exists f p own, make_rf vs = Ok f /\ rf_propose f values suf r = Ok p /\ (suf = ""%string -> rf_call f values r = Ok p) /\
    length own = length vs /\
    valid_pd p (map (fun k => (k ++ suf)%string) L) /\
    od_keys (p_marg p) = map (fun k => (k ++ suf)%string) (names_of vs) /\ p_cond p = [] /\
    (forall i v, nth_error vs i = Some v -> exists q, nth_error own i = Some q /\ rv_call v (a i) (r i) = Ok q /\
       valid_pd q (filter (needs_axis values) [rv_name v]) /\
       variable p (rv_name v ++ suf)%string = variable q (rv_name v)) /\
    ((exists ps, natural vs ps (p_pscale p)) /\ (forall k, In k (names_of vs) -> variable p (k ++ suf)%string = Some (var_of (to_value (A' k)))) /\
     forall k, In k L -> od_get (p_marg p) (k ++ suf)%string = Some (fname (k ++ suf) (x' k))) /\
    forall s, in_bounds p (map (fun k => (k ++ suf)%string) L) s -> floored values vs own (fun k => s (k ++ suf)%string) ->
      prob_at p (map (fun k => (k ++ suf)%string) L) s = joint_of values vs own (fun k => s (k ++ suf)%string).
Proof.
  intros NS DJ. destruct (make_rf_ok vs NE (proj1 NA) SC) as (f & ps & q & EF & Kf & Vf & NT).
  destruct (parts vs values x' a' r A' NE NA NDv INv HE' PR CA SC f q ps suf Vf Kf NT NS)
    as (vals & dims & t & p & E1 & E2 & E3 & E4 & NK & IK & DK & VP & _ & MP & CP & SP & VV & EN & PP).
  destruct owns as (own & Lo & HO).
  exists (mkRF vs f q), p, own. split; [exact EF|].
  assert (NM : map (@rv_name R) (rf_rvs (mkRF vs f q)) = names_of vs) by (unfold rf_rvs; cbn [rf_all rf_fld]; rewrite pick_all by exact Vf; reflexivity).
  split.
  { unfold rf_propose. cbn [rf_fld rf_all rf_pscale]. rewrite E1. cbn [bind]. rewrite E2. cbn [bind]. rewrite E3. cbn [bind]. rewrite NM.
    destruct (String.eqb_spec suf "") as [->|NEs].
    - rewrite !rk_empty in E4. exact E4.
    - destruct DJ as [C|DJ]; [contradiction|].
      assert (KO : od_keys (out_vals vals) = od_keys vals) by (unfold od_keys, out_vals; rewrite map_map; reflexivity).
      rewrite suffixed_ok.
      2:{ rewrite KO. exact NK. }
      2:{ rewrite KO. intros k k' I I'. apply DJ; apply IK; assumption. }
      assert (KD : od_keys (out_dims dims) = od_keys dims) by (unfold od_keys, out_dims; rewrite map_map; reflexivity).
      assert (SD : suffixed suf (od_keys (out_vals vals)) (out_dims dims) = map (fun kv => ((fst kv ++ suf)%string, snd kv)) (out_dims dims)).
      { rewrite KO. destruct DK as [-> | DK].
        - cbn. unfold suffixed. cbn. clear. induction (od_keys vals); [reflexivity|assumption].
        - rewrite <- DK, <- KD. apply suffixed_ok; rewrite KD, DK; [exact NK|]. intros k k' I I'. apply DJ; apply IK; assumption. }
      rewrite SD. exact E4. }
  split.
  { intros ->. unfold rf_call. cbn [rf_fld rf_all rf_pscale]. rewrite E1. cbn [bind]. rewrite E2. cbn [bind]. rewrite E3. cbn [bind]. rewrite NM.
    rewrite !rk_empty in E4. exact E4. }
  split; [exact Lo|]. split; [exact VP|]. split; [exact MP|]. split; [exact CP|]. split.
  { intros i v Iv. destruct (HO i v Iv) as (q' & J & J1 & J2 & J3 & _). exists q'. split; [exact J|]. split; [exact J1|]. split; [exact J2|].
    rewrite J3. apply VV. apply in_map. eapply nth_error_In; eauto. }
  split; [split; [exists ps; rewrite SP; exact NT|]; split; [exact VV|exact EN]|].
  intros s IB FL. rewrite PP.
  - unfold joint_of. f_equal. symmetry. apply zip_map2; [congruence|]. intros i v Iv. destruct (HO i v Iv) as (q' & J & _ & _ & _ & _ & J4).
    exists q'. split; [exact J|]. apply J4.
  - exact IB.
  - intros C v Iv K. apply In_nth_error in Iv. destruct Iv as (i & Iv). destruct (HO i v Iv) as (q' & J & _ & _ & _ & J3 & J4).
    rewrite <- J4. refine (FL _ i v q' Iv J _).
    + apply existsb_exists in C. destruct C as (sc & Isc & C). apply in_map_iff in Isc. destruct Isc as (w & <- & Iw). apply In_nth_error in Iw. destruct Iw as (j & Iw).
      destruct (HO j w Iw) as (qw & Jw & _ & _ & _ & Jw3 & _). exists qw. split; [eapply nth_error_In; eauto|].
      unfold log_scaled. rewrite Jw3. unfold scale_of in C. destruct (rv_pscale w); [discriminate|reflexivity].
    + unfold log_scaled. rewrite J3. unfold scale_of in K. congruence.
Qed.
End Joint.
