(** Statements about fields of independent variables, and examples. *)
From Coq Require Import String Ascii ZArith Reals Lra Bool Arith Lia Permutation List.
From Verif Require Import Base Num Tensor OdLemmas TensorLemmas RNumLemmas PScales PScales_Spec PScales_Proofs PScales_Prod
  Names Names_Spec Names_Proofs Distr PDModel PDUtils PD_Spec PD_Simple_Spec PD_Make PD_Valid PD_Simple PD_Examples PD_ProdThm
  VariableModel Var_Spec RVModel RV_Spec FieldModel Field_Spec RFModel RF_Spec RF_Proofs RF_Joint RF_Step.
Import ListNotations.
Local Open Scope R_scope.

(** *** Calls *)
Lemma call_joint {F : Fmt R} {TR : Trunc R} (vs : list (rv R)) (values : odict (fentry R))
    (x : nat -> fval R) (a : nat -> values_in R) (r : nat -> rnd R) (A : nat -> tensor (pyval R)) :
  printable F -> vs <> [] -> named_apart (names_of vs) -> scales_ok vs -> (forall v, In v vs -> callable v) ->
  NoDup (od_keys values) -> incl (od_keys values) (names_of vs) ->
  (forall i v, nth_error vs i = Some v -> evaluates v values (x i) (a i) (r i) (A i)) ->
  let L := filter (needs_axis values) (names_of vs) in
  exists f p own, make_rf vs = Ok f /\ rf_call f values r = Ok p /\ valid_pd p L /\
    od_keys (p_marg p) = names_of vs /\ p_cond p = [] /\ length own = length vs /\
    (forall i v, nth_error vs i = Some v -> exists q, nth_error own i = Some q /\ rv_call v (a i) (r i) = Ok q /\
       valid_pd q (filter (needs_axis values) [rv_name v]) /\ variable p (rv_name v) = variable q (rv_name v)) /\
    forall s, in_bounds p L s -> floored values vs own s -> prob_at p L s = joint_of values vs own s.
Proof.
  intros PR NE NA SC CA NDv INv HE L.
  destruct (joint_all vs values x a r A PR NE NA SC CA NDv INv HE ""%string) as (f & p & own & E1 & _ & E2 & Lo & VP & MK & CN & OW & _ & PP).
  - rewrite map_app_empty. exact NA.
  - left. reflexivity.
  - rewrite map_app_empty in VP, MK, PP. exists f, p, own. split; [exact E1|]. split; [apply E2; reflexivity|].
    split; [exact VP|]. split; [exact MK|]. split; [exact CN|]. split; [exact Lo|]. split.
    + intros i v I. destruct (OW i v I) as (q & Q1 & Q2 & Q3 & Q4). rewrite app_empty in Q4. exists q. auto.
    + intros s IB FL. rewrite PP; [|exact IB|].
      * unfold joint_of. f_equal. clear. revert own. induction vs as [|v l IH]; intros [|q own]; try reflexivity. cbn [zip_with]. f_equal; [|apply IH].
        unfold prob_at. destruct (p_prob q); [|reflexivity]. do 2 f_equal. apply map_ext. intros k. rewrite app_empty. reflexivity.
      * intros C i v q I J N. specialize (FL C i v q I J N). unfold prob_at in *. destruct (p_prob q); [|exact FL].
        erewrite map_ext; [exact FL|]. intros k. cbn beta. rewrite app_empty. reflexivity.
Qed.

Lemma propose_renames {F : Fmt R} {TR : Trunc R} (vs : list (rv R)) (values : odict (fentry R))
    (x : nat -> fval R) (a : nat -> values_in R) (r : nat -> rnd R) (A : nat -> tensor (pyval R)) (suf : string) :
  printable F -> vs <> [] -> named_apart (names_of vs) -> scales_ok vs -> (forall v, In v vs -> callable v) ->
  NoDup (od_keys values) -> incl (od_keys values) (names_of vs) ->
  (forall i v, nth_error vs i = Some v -> evaluates v values (x i) (a i) (r i) (A i)) ->
  let new := fun k => (k ++ suf)%string in
  named_apart (map new (names_of vs)) ->
  (forall k k', In k (names_of vs) -> In k' (names_of vs) -> new k <> k') ->
  let L := filter (needs_axis values) (names_of vs) in
  exists f p own, make_rf vs = Ok f /\ rf_propose f values suf r = Ok p /\ valid_pd p (map new L) /\
    od_keys (p_marg p) = map new (names_of vs) /\ p_cond p = [] /\ length own = length vs /\
    (forall i v, nth_error vs i = Some v -> exists q, nth_error own i = Some q /\ rv_call v (a i) (r i) = Ok q /\
       valid_pd q (filter (needs_axis values) [rv_name v]) /\ variable p (new (rv_name v)) = variable q (rv_name v)) /\
    forall s, in_bounds p (map new L) s -> floored values vs own (fun k => s (new k)) ->
      prob_at p (map new L) s = joint_of values vs own (fun k => s (new k)).
Proof.
  intros PR NE NA SC CA NDv INv HE new NN DJ L.
  destruct (joint_all vs values x a r A PR NE NA SC CA NDv INv HE suf NN (or_intror DJ)) as (f & p & own & E1 & E2 & _ & Lo & VP & MK & CN & OW & _ & PP).
  exists f, p, own. repeat (split; [assumption|]). assumption.
Qed.

(** *** Steps *)
Lemma step_geometric {F : Fmt R} {TR : Trunc R} (vs : list (rv R)) (pred succ : odict (pyval R))
    (yp ys : string -> pyval R) (zp zs : list R) (rev : bool) :
  printable F -> vs <> [] -> named_apart (names_of vs) -> named_apart (map (fun k => k ++ "'")%string (names_of vs)) ->
  (forall k k', In k (names_of vs) -> In k' (names_of vs) -> (k ++ "'")%string <> k') ->
  scales_ok vs -> (forall v, In v vs -> callable v) -> (forall v, vs = [v] -> rv_tran v = TRNone) ->
  NoDup (od_keys pred) -> incl (od_keys pred) (names_of vs) ->
  (forall k, In k (names_of vs) -> od_get pred k = Some (yp k)) ->
  (forall k, In k (names_of vs) -> told succ k (ys k)) ->
  Forall2 (fun v z => weighs v (yp (rv_name v)) z) vs zp -> Forall2 (fun v z => weighs v (ys (rv_name v)) z) vs zs ->
  0 <= Rprod zp -> 0 <= Rprod zs -> above_floor vs zp -> above_floor vs zs ->
  exists f p, make_rf vs = Ok f /\ rf_step f pred succ rev = Ok p /\ valid_pd p [] /\
    od_keys (p_marg p) = map (fun k => k ++ "'")%string (names_of vs) /\ od_keys (p_cond p) = names_of vs /\
    (forall k, In k (names_of vs) -> variable p k = Some (Scal (VNum (as_num (yp k)))) /\
       variable p (k ++ "'") = Some (Scal (VNum (as_num (ys k))))) /\
    forall s, prob_at p [] s = sqrt (Rprod zp * (Rprod zs / scale_product vs)).
Proof. intros PR NE NA NP DJ SC CA TN NDp Ip Hp Hs Wp Ws Pp Ps Fp Fs. eapply step_all; eauto. Qed.

Lemma sqrt_meets a b c : 0 <= a -> 0 < b -> 0 < c -> (sqrt (a * (b / c)) = b <-> a = c * b).
Proof.
  intros Ha Hb Hc. assert (D : 0 <= b / c) by (apply Rlt_le, Rdiv_lt_0_compat; lra). split; intros H.
  - assert (Q : (sqrt (a * (b / c)))² = b²) by (rewrite H; reflexivity). rewrite Rsqr_sqrt in Q by (apply Rmult_le_pos; lra).
    unfold Rsqr in Q. apply (Rmult_eq_reg_r (b / c)); [|apply Rgt_not_eq, Rdiv_lt_0_compat; lra]. rewrite Q. field. lra.
  - subst a. replace (c * b * (b / c)) with (b²) by (unfold Rsqr; field; lra). apply sqrt_Rsqr. lra.
Qed.

Lemma step_ignores_iff {F : Fmt R} {TR : Trunc R} (vs : list (rv R)) (pred succ : odict (pyval R))
    (yp ys : string -> pyval R) (zp zs : list R) (rev : bool) :
  printable F -> vs <> [] -> named_apart (names_of vs) -> named_apart (map (fun k => k ++ "'")%string (names_of vs)) ->
  (forall k k', In k (names_of vs) -> In k' (names_of vs) -> (k ++ "'")%string <> k') ->
  scales_ok vs -> (forall v, In v vs -> callable v) -> (forall v, vs = [v] -> rv_tran v = TRNone) ->
  NoDup (od_keys pred) -> incl (od_keys pred) (names_of vs) ->
  (forall k, In k (names_of vs) -> od_get pred k = Some (yp k)) ->
  (forall k, In k (names_of vs) -> told succ k (ys k)) ->
  Forall2 (fun v z => weighs v (yp (rv_name v)) z) vs zp -> Forall2 (fun v z => weighs v (ys (rv_name v)) z) vs zs ->
  0 <= Rprod zp -> 0 < Rprod zs -> above_floor vs zp -> above_floor vs zs ->
  exists f p, make_rf vs = Ok f /\ rf_step f pred succ rev = Ok p /\
    forall s, prob_at p [] s = Rprod zs <-> Rprod zp = scale_product vs * Rprod zs.
Proof.
  intros PR NE NA NP DJ SC CA TN NDp Ip Hp Hs Wp Ws Pp Ps Fp Fs.
  destruct (step_all vs PR NE NA NP DJ SC CA pred succ yp ys zp zs rev) as (f & p & E1 & E2 & _ & _ & _ & _ & PB); auto; [lra|].
  exists f, p. split; [exact E1|]. split; [exact E2|]. intros s. rewrite PB. apply sqrt_meets; auto. apply factors_pos. exact SC.
Qed.

(** *** Reversals *)
Lemma reval_swaps {F : Fmt R} (p : pd R) (L : list string) :
  valid_pd p L ->
  exists q, reval_tran p = Ok q /\ valid_pd q L /\
    od_keys (p_marg q) = od_keys (p_cond p) /\ od_keys (p_cond q) = od_keys (p_marg p) /\
    (forall k, variable q k = variable p k) /\ (forall s, prob_at q L s = prob_at p L s).
Proof.
  intros V. destruct (make_pd_again p L (p_cond p) (p_marg p) V) as (q & E & Vq & _ & M & C & P & S & VV).
  - pose proof (vp_entries _ _ V) as G. apply Forall_app in G. apply Forall_app. tauto.
  - eapply Permutation_trans; [apply Permutation_app_comm|]. apply V.
  - exists q. split; [exact E|]. split; [exact Vq|]. split; [exact M|]. split; [exact C|]. split; [exact VV|].
    intros s. unfold prob_at. rewrite P, S. reflexivity.
Qed.

Lemma step_reversed {F : Fmt R} {TR : Trunc R} (vs : list (rv R)) (pred succ : odict (pyval R))
    (yp ys : string -> pyval R) (zp zs : list R) (rev rev' : bool) :
  printable F -> vs <> [] -> named_apart (names_of vs) -> named_apart (map (fun k => k ++ "'")%string (names_of vs)) ->
  (forall k k', In k (names_of vs) -> In k' (names_of vs) -> (k ++ "'")%string <> k') ->
  scales_ok vs -> (forall v, In v vs -> callable v) -> (forall v, vs = [v] -> rv_tran v = TRNone) ->
  NoDup (od_keys pred) -> incl (od_keys pred) (names_of vs) -> NoDup (od_keys succ) -> incl (od_keys succ) (names_of vs) ->
  (forall k, In k (names_of vs) -> od_get pred k = Some (yp k)) ->
  (forall k, In k (names_of vs) -> od_get succ k = Some (ys k)) ->
  Forall2 (fun v z => weighs v (yp (rv_name v)) z) vs zp -> Forall2 (fun v z => weighs v (ys (rv_name v)) z) vs zs ->
  0 <= Rprod zp -> 0 <= Rprod zs -> above_floor vs zp -> above_floor vs zs ->
  exists f there back turned, make_rf vs = Ok f /\ rf_step f pred succ rev = Ok there /\ rf_step f succ pred rev' = Ok back /\
    reval_tran there = Ok turned /\
    od_keys (p_marg turned) = names_of vs /\ od_keys (p_cond turned) = map (fun k => k ++ "'")%string (names_of vs) /\
    forall s, prob_at back [] s = prob_at there [] s /\ prob_at turned [] s = prob_at back [] s.
Proof.
  intros PR NE NA NP DJ SC CA TN NDp Ip NDs Is Hp Hs Wp Ws Pp Ps Fp Fs.
  assert (TD : forall (d : odict (pyval R)) y, incl (od_keys d) (names_of vs) -> (forall k, In k (names_of vs) -> od_get d k = Some (y k)) ->
    forall k, In k (names_of vs) -> told d k (y k)).
  { intros d y Id Hd k I. right. split; [|apply Hd; exact I]. destruct (od_get d (k ++ "'")) eqn:G; [|reflexivity].
    apply od_get_some_key in G. apply Id in G. exfalso. exact (DJ k _ I G eq_refl). }
  destruct (step_all vs PR NE NA NP DJ SC CA pred succ yp ys zp zs rev) as (f & p & E1 & E2 & V1 & M1 & C1 & _ & PB); auto.
  destruct (step_all vs PR NE NA NP DJ SC CA succ pred ys yp zs zp rev') as (f' & b & E1' & E2' & _ & _ & _ & _ & PB'); auto.
  assert (f' = f) by congruence. subst f'. destruct (reval_swaps p [] V1) as (t & T1 & _ & T2 & T3 & _ & T4).
  exists f, p, b, t. split; [exact E1|]. split; [exact E2|]. split; [exact E2'|]. split; [exact T1|].
  split; [congruence|]. split; [congruence|]. intros s. rewrite T4, PB, PB'.
  assert (Q : Rprod zs * (Rprod zp / scale_product vs) = Rprod zp * (Rprod zs / scale_product vs)) by (unfold Rdiv; ring).
  rewrite Q. auto.
Qed.

(** *** Examples: a loaded three-sided die and a biased coin *)
Definition ex_die : rv R := mkRV "d"%string (discrete VInt [PI 1; PI 2; PI 3]) (Lin 1) (RPFun (fun x => x / 6)) TRNone None false.
Definition ex_coin : rv R := mkRV "c"%string both (Lin 2) (RPFun (fun x => (1 + x) / 6)) TRNone None false.
Definition ex_vs := [ex_die; ex_coin].

Lemma ex_printable : printable fmt_ex.
Proof. intros x. apply good_entryb_ok. reflexivity. Qed.

Lemma ex_apart : named_apart (names_of ex_vs) /\ named_apart (map (fun k => k ++ "'")%string (names_of ex_vs)) /\
  (forall k k', In k (names_of ex_vs) -> In k' (names_of ex_vs) -> (k ++ "'")%string <> k').
Proof.
  assert (SK : forall k, good_entryb k = true -> has_char "=" k = false -> simple_key k).
  { intros k H1 H2. split; [apply good_entryb_ok; exact H1|]. apply has_char_false. exact H2. }
  cbn. split; [|split].
  - split.
    + repeat constructor; cbn; intuition discriminate.
    + intros k [<-|[<-|[]]]; (split; [apply SK; reflexivity|]); cbn; intuition discriminate.
  - split.
    + repeat constructor; cbn; intuition discriminate.
    + intros k [<-|[<-|[]]]; (split; [apply SK; reflexivity|]); cbn; intuition discriminate.
  - intros k k' [<-|[<-|[]]] [<-|[<-|[]]]; discriminate.
Qed.

Lemma ex_scales : scales_ok ex_vs /\ (forall v, In v ex_vs -> callable v) /\ scale_product ex_vs = 2.
Proof.
  split; [|split].
  - left. repeat constructor; cbn; try lra; destruct (Req_EM_T _ 0); try reflexivity; lra.
  - intros v [<-|[<-|[]]]; exact I.
  - unfold scale_product. cbn. destruct (Req_EM_T 1 0); [lra|]. destruct (Req_EM_T 2 0); lra.
Qed.

(** All values of the die, the coin showing True. *)
Lemma ex_call : let values := [("d", One FNone); ("c", One (FNum (PB true)))]%string : odict (fentry R) in
  NoDup (od_keys values) /\ incl (od_keys values) (names_of ex_vs) /\
  (forall r i v, nth_error ex_vs i = Some v ->
    evaluates v values (if i =? 0 then FNone else FNum (PB true))%nat
      (if i =? 0 then VNone else VGiven [PB true] true)%nat r
      (if (i =? 0)%nat then of_list (PF 0%R) [PI 1; PI 2; PI 3] else tscalar (PB true))) /\
  filter (needs_axis values) (names_of ex_vs) = ["d"%string].
Proof.
  cbv zeta. split; [repeat constructor; cbn; intuition discriminate|]. split; [intros k [<-|[<-|[]]]; cbn; auto|]. split; [|reflexivity].
  intros r [|[|i]] v I; [injection I as <-|injection I as <-|destruct i; discriminate]; cbn -[of_list].
  - split; [reflexivity|]. split; [constructor|]. split; [reflexivity|]. right. split; [reflexivity|]. exists 3%nat. split; [lia|reflexivity].
  - split; [reflexivity|]. split; [constructor|]. split; [reflexivity|]. left. split; reflexivity.
Qed.

Definition ex_from : odict (pyval R) := [("d", PI 1); ("c", PB false)]%string.
Definition ex_to : odict (pyval R) := [("d'", PI 3); ("c", PB true)]%string.
Definition ex_to' : odict (pyval R) := [("d", PI 3); ("c", PB true)]%string.
Definition ex_yp (k : string) : pyval R := if String.eqb k "d" then PI 1 else PB false.
Definition ex_ys (k : string) : pyval R := if String.eqb k "d" then PI 3 else PB true.

Lemma ex_weighs (F : Fmt R) (TR : Trunc R) : printable F ->
  Forall2 (fun v z => weighs v (ex_yp (rv_name v)) z) ex_vs [/ 6; / 3] /\
  Forall2 (fun v z => weighs v (ex_ys (rv_name v)) z) ex_vs [/ 2; 2 / 3].
Proof.
  intros PR. destruct ex_apart as (NA & _ & _). destruct ex_scales as (SC & CA & _).
  assert (G : forall Y i v, nth_error ex_vs i = Some v -> weighs v (Y (rv_name v)) (denote (scale_of v) (pfun v (Y (rv_name v))))).
  { intros Y i v Iv. set (values := [("d", One (FNum (Y "d"))); ("c", One (FNum (Y "c")))]%string : odict (fentry R)).
    set (r := fun _ : nat => mkRnd 0%nat [] (fun _ => 0)).
    destruct (own_ok ex_vs values (fun k => FNum (Y k)) (fun k => VGiven [Y k] true) r (fun k => tscalar (Y k)) NA) with (i := i) (v := v)
      as (p & E & _ & _ & _ & P); auto.
    - intros j w Jw. destruct j as [|[|j]]; [injection Jw as <-|injection Jw as <-|destruct j; discriminate];
        (split; [reflexivity|]; split; [constructor|]; split; [reflexivity|]; left; split; reflexivity).
    - exists (r i), p. split; [exact E|]. intros s.
      assert (CE : filter (needs_axis values) [rv_name v] = []).
      { destruct i as [|[|i]]; [injection Iv as <-|injection Iv as <-|destruct i; discriminate]; reflexivity. }
      rewrite CE in P. rewrite P. unfold at_. rewrite CE. reflexivity. }
  assert (F1 : factor (scale_of ex_die) = 1) by (cbn; destruct (Req_EM_T 1 0); lra).
  assert (F2 : factor (scale_of ex_coin) = 2) by (cbn; destruct (Req_EM_T 2 0); lra).
  assert (K1 : log_kind (scale_of ex_die) = false) by (cbn; destruct (Req_EM_T 1 0); [lra|reflexivity]).
  assert (K2 : log_kind (scale_of ex_coin) = false) by (cbn; destruct (Req_EM_T 2 0); [lra|reflexivity]).
  split; (constructor; [|constructor; [|constructor]]).
  - pose proof (G ex_yp 0%nat ex_die eq_refl) as W. unfold denote in W. rewrite F1, K1 in W.
    replace (/ 6) with (1 * pfun ex_die (ex_yp (rv_name ex_die))); [exact W|]. cbn. unfold n0, n1; cbn. lra.
  - pose proof (G ex_yp 1%nat ex_coin eq_refl) as W. unfold denote in W. rewrite F2, K2 in W.
    replace (/ 3) with (2 * pfun ex_coin (ex_yp (rv_name ex_coin))); [exact W|]. cbn. unfold n0, n1; cbn. lra.
  - pose proof (G ex_ys 0%nat ex_die eq_refl) as W. unfold denote in W. rewrite F1, K1 in W.
    replace (/ 2) with (1 * pfun ex_die (ex_ys (rv_name ex_die))); [exact W|]. cbn. unfold n0, n1; cbn. lra.
  - pose proof (G ex_ys 1%nat ex_coin eq_refl) as W. unfold denote in W. rewrite F2, K2 in W.
    replace (2 / 3) with (2 * pfun ex_coin (ex_ys (rv_name ex_coin))); [exact W|]. cbn. unfold n0, n1; cbn. lra.
Qed.

Lemma ex_told : NoDup (od_keys ex_from) /\ incl (od_keys ex_from) (names_of ex_vs) /\
  (forall k, In k (names_of ex_vs) -> od_get ex_from k = Some (ex_yp k)) /\
  (forall k, In k (names_of ex_vs) -> told ex_to k (ex_ys k)) /\
  NoDup (od_keys ex_to') /\ incl (od_keys ex_to') (names_of ex_vs) /\
  (forall k, In k (names_of ex_vs) -> od_get ex_to' k = Some (ex_ys k)).
Proof.
  split; [repeat constructor; cbn; intuition discriminate|]. split; [intros k [<-|[<-|[]]]; cbn; auto|].
  split; [intros k [<-|[<-|[]]]; reflexivity|].
  split; [intros k [<-|[<-|[]]]; [left; reflexivity|right; split; reflexivity]|].
  split; [repeat constructor; cbn; intuition discriminate|]. split; [intros k [<-|[<-|[]]]; cbn; auto|].
  intros k [<-|[<-|[]]]; reflexivity.
Qed.

Lemma ex_floor zs : above_floor ex_vs zs.
Proof. intros C. discriminate. Qed.

Lemma ex_probs : Rprod [/ 6; / 3] = / 18 /\ Rprod [/ 2; 2 / 3] = / 3 /\ Rprod [/ 6; / 3] <> 2 * Rprod [/ 2; 2 / 3].
Proof. cbn. repeat split; lra. Qed.
