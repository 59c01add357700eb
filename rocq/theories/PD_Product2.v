(** The product of distributions over disjoint marginals. *)
From Coq Require Import Ascii String ZArith Reals Lra Bool Arith Lia Permutation List.
From Verif Require Import Base Num Tensor TensorBcast OdLemmas TensorLemmas RNumLemmas PScales PScales_Spec
  PScales_Proofs PScales_Prod Names Names_Spec Names_Proofs Distr PDModel PDUtils PD_Spec PD_Make PD_Sums PD_Valid PD_Marg
  PD_Align PD_Product1.
Import ListNotations.

(** *** Names with repeated entries *)
Lemma name_keyed marg cond :
  Forall good_entry marg -> Forall good_entry cond ->
  str_margcond (margcond_str marg cond) = Ok (keyed marg, keyed cond).
Proof.
  intros Fm Fc.
  assert (Free : forall c l, c <> ","%char -> Forall good_entry l ->
            (forall e, good_entry e -> ~ occurs c e) -> ~ occurs c (join "," l)).
  { intros c l Hc F H. apply join_free; [apply occurs_comma; auto|].
    eapply Forall_impl; [|exact F]. auto. }
  assert (GP : forall e, good_entry e -> ~ occurs "|" e) by (intros e H; apply H).
  assert (GL : forall e, good_entry e -> ~ occurs "(" e) by (intros e H; apply H).
  assert (GR : forall e, good_entry e -> ~ occurs ")" e) by (intros e H; apply H).
  pose proof (Free "|"%char marg ltac:(discriminate) Fm GP) as Mp.
  pose proof (Free "("%char marg ltac:(discriminate) Fm GL) as Ml.
  pose proof (Free ")"%char marg ltac:(discriminate) Fm GR) as Mr.
  pose proof (Free "|"%char cond ltac:(discriminate) Fc GP) as Cp.
  pose proof (Free "("%char cond ltac:(discriminate) Fc GL) as Cl.
  pose proof (Free ")"%char cond ltac:(discriminate) Fc GR) as Cr.
  unfold margcond_str. destruct (String.eqb_spec (join "," cond) "") as [Ec|Ec].
  - assert (cond = []).
    { destruct cond as [|e cond]; auto. exfalso.
      apply (join_nonempty "," (e :: cond)); [discriminate| |exact Ec].
      eapply Forall_impl; [|exact Fc]. intros a [H _]; auto. }
    subst cond. unfold str_margcond.
    destruct (String.eqb_spec (join "," marg) "") as [Em|Em].
    { assert (marg = []).
      { destruct marg as [|e marg]; auto. exfalso.
        apply (join_nonempty "," (e :: marg)); [discriminate| |exact Em].
        eapply Forall_impl; [|exact Fm]. intros a [H _]; auto. }
      subst. reflexivity. }
    rewrite paren_free by auto. cbn [bind].
    apply has_char_false in Mp. rewrite Mp. cbn [bind].
    rewrite comma_list_join by auto. reflexivity.
  - set (m := join "," marg) in *. set (c := join "," cond) in *.
    assert (J : join "|" [m; c] = (m ++ String "|"%char c)%string) by reflexivity.
    rewrite J. unfold str_margcond.
    destruct (String.eqb_spec (m ++ String "|"%char c)%string "") as [E|_].
    { destruct m; discriminate. }
    rewrite paren_free.
    2: { rewrite occurs_app. unfold occurs at 2. cbn. intros [H|[H|H]]; auto; discriminate. }
    2: { rewrite occurs_app. unfold occurs at 2. cbn. intros [H|[H|H]]; auto; discriminate. }
    cbn [bind].
    assert (H : has_char "|" (m ++ String "|"%char c) = true).
    { apply has_char_true. rewrite occurs_app. right. unfold occurs. cbn. auto. }
    rewrite H. rewrite split_char_app by auto. rewrite split_char_free by auto.
    cbn [bind]. unfold m, c. rewrite !comma_list_join by auto. reflexivity.
Qed.

Lemma dedup_in (l : list string) k : In k (dedup_str l) <-> In k l.
Proof.
  induction l as [|x l IH]; cbn [dedup_str]; [tauto|]. cbn [In]. rewrite filter_In, IH.
  destruct (String.eqb_spec x k); cbn; intuition congruence.
Qed.

Lemma dedup_nodup (l : list string) : NoDup (dedup_str l).
Proof.
  induction l as [|x l IH]; cbn [dedup_str]; constructor.
  - rewrite filter_In, String.eqb_refl. cbn. intros [_ H]. discriminate.
  - apply filter_nodup. exact IH.
Qed.

Lemma dedup_nodup_id (l : list string) : NoDup l -> dedup_str l = l.
Proof.
  induction 1 as [|x l Hx N IH]; cbn [dedup_str]; auto. rewrite IH. f_equal.
  clear - Hx. induction l as [|y l IHl]; cbn; auto. destruct (String.eqb_spec x y); [subst; cbn in Hx; tauto|].
  cbn. f_equal. apply IHl. cbn in Hx. tauto.
Qed.

(** Entries given by their keys. *)
Lemma keyed_map (ent : string -> string) (l : list string) :
  (forall k, In k l -> str2key (ent k) = k) ->
  keyed (map ent l) = map (fun k => (k, ent k)) (dedup_str l).
Proof.
  intros H. unfold keyed.
  assert (G : forall (m : list string) (acc : list string), (forall k, In k m -> str2key (ent k) = k) ->
    fold_left (fun d s => od_set d (str2key s) s) (map ent m) (map (fun k => (k, ent k)) acc)
    = map (fun k => (k, ent k)) (acc ++ filter (fun k => negb (mem_str k acc)) (dedup_str m))).
  { induction m as [|k m IH]; intros acc Hm; cbn [map fold_left dedup_str filter].
    - rewrite app_nil_r. reflexivity.
    - rewrite (Hm k) by (cbn; auto).
      destruct (mem_str k acc) eqn:M; cbn [negb].
      + apply mem_str_iff in M.
        assert (E : od_set (map (fun k => (k, ent k)) acc) k (ent k) = map (fun k => (k, ent k)) acc).
        { clear - M. induction acc as [|x acc IHa]; [destruct M|]. cbn [map od_set].
          destruct (String.eqb_spec k x) as [->|Ne]; [reflexivity|]. f_equal. apply IHa. destruct M; [congruence|auto]. }
        rewrite E, IH by (intros; apply Hm; cbn; auto). f_equal. f_equal.
        rewrite filter_filter. apply filter_ext. intros y. destruct (String.eqb_spec k y); [subst|].
        * apply mem_str_iff in M. rewrite M. reflexivity.
        * rewrite andb_true_r. reflexivity.
      + apply mem_str_false in M. rewrite od_set_new.
        2:{ unfold od_keys. rewrite map_map. cbn. rewrite map_id. exact M. }
        change [(k, ent k)] with (map (fun k => (k, ent k)) [k]). rewrite <- map_app, IH by (intros; apply Hm; cbn; auto).
        rewrite <- app_assoc. cbn [app]. f_equal. f_equal. f_equal.
        rewrite filter_filter. apply filter_ext. intros y.
        apply eq_true_iff_eq. rewrite andb_true_iff, !negb_true_iff, !mem_str_false, in_app_iff. cbn [In].
        rewrite String.eqb_neq. intuition. }
  change (fold_left (fun d s => od_set d (str2key s) s) (map ent l) (map (fun k => (k, ent k)) [])
    = map (fun k => (k, ent k)) (dedup_str l)).
  rewrite (G l []) by auto. cbn [app]. f_equal.
  assert (E : forall m : list string, filter (fun k => negb (mem_str k [])) m = m).
  { induction m as [|x m IH]; cbn; [reflexivity|]. f_equal. exact IH. }
  apply E.
Qed.

(** The constructor only looks at the entries of the name. *)
Lemma make_pd_name {F : Fmt R} n1 n2 vals dims (prob : option (tensor R)) ps :
  str_margcond n1 = str_margcond n2 -> make_pd n1 vals dims prob ps = make_pd n2 vals dims prob ps.
Proof.
  intros E. unfold make_pd. rewrite E. destruct (str_margcond n2) as [[m c]|]; cbn [bind]; [|reflexivity].
  unfold make_dist. destruct vals as [|kv vals]; [reflexivity|].
  destruct (clean_vals (kv :: vals)) as [v1|]; cbn [bind]; [|reflexivity].
  match goal with |- context [fold_res ?f ?l ?s] => destruct (fold_res f l s) as [st|]; cbn [bind]; [|reflexivity] end.
  destruct (full_shape (s_shape st)); reflexivity.
Qed.

(** *** Scales *)
Definition scales_fit (scales : list (pspec R)) : Prop :=
  Forall linear_scale scales \/ Forall plain_scale scales /\ existsb iscomplex scales = true.

Lemma natural_scale (args : list (tensor R)) scales t ps :
  scales <> [] -> prod_rule args (Some scales) None None = Ok (t, ps) -> product_pscale PSNone scales = Ok ps.
Proof.
  intros NE H. unfold product_pscale. cbn [truthy]. rewrite prod_pscale_default.
  unfold prod_rule in H.
  destruct (prod_pscale scales (Some (existsb iscomplex scales))) as [pp|e] eqn:E; cbn [bind] in *; [|discriminate].
  destruct (assert_ _); cbn [bind] in H; [|discriminate].
  destruct (negb _); [discriminate|].
  match type of H with context [if ?b then _ else _] => destruct b end.
  - destruct (apply_prod _ _); cbn [bind] in H; [|discriminate]. injection H as _ <-. reflexivity.
  - destruct (apply_prod _ _); cbn [bind] in H; [|discriminate].
    injection H as _ <-. reflexivity.
Qed.

Lemma offset_zero : log_offset 0 0 = 0%R.
Proof. unfold log_offset. destruct (Rlt_dec _ _); [reflexivity|apply Ropp_0]. Qed.

Lemma prod_rule_scaled (args : list (tensor R)) (scales : list (pspec R)) s :
  args <> [] -> length scales = length args -> scales_fit scales -> bcast_all (map shape args) = Ok s ->
  exists t ps psc, product_pscale PSNone scales = Ok ps /\
    prod_rule args (Some scales) None (Some ps) = Ok (t, ps) /\ shape t = s /\
    eval_pscale ps = Ok psc /\ eval_pscale (spec_of psc) = Ok psc /\ scales_fit [spec_of psc] /\
    (factor (spec_of psc) = Rprod (map factor scales) /\ log_kind (spec_of psc) = existsb log_kind scales) /\
    forall idx, in_range s idx ->
      (existsb iscomplex scales = true ->
       Forall2 (fun a sc => log_kind sc = false -> (npz <= get a (bcast_idx (shape a) idx))%R) args scales) ->
      denote (spec_of psc) (get t idx) = Rprod (factors_at args scales idx).
Proof.
  intros NE L FT B. assert (NEs : scales <> []) by (destruct args, scales; cbn in *; congruence).
  destruct FT as [FL|[FP C]].
  - destruct (prod_rule_linear args scales s NE L FL B) as (t & ps & E & Sh & Lp & G).
    destruct (eval_valid ps) as [psc Ep]; [apply Lp|].
    assert (U : ~ unit_log ps). { intros U. destruct Lp as [_ K]. rewrite U in K. discriminate. }
    exists t, ps, psc. split; [eapply natural_scale; eauto|]. split; [apply prod_rule_requested_natural; auto|].
    split; [exact Sh|]. split; [exact Ep|]. split; [eapply eval_idem; eauto|].
    assert (Lq : linear_scale (spec_of psc)).
    { destruct (eval_denote ps psc 0%R Ep U) as (_ & Fa & Lk). destruct Lp as [Vp Kp]. split; [|congruence].
      split.
      - destruct psc; exact I.
      - destruct psc; [|exact I]. cbn [spec_of positive_scale]. pose proof (factor_pos ps Vp) as Pf. rewrite <- Fa in Pf.
        cbn [spec_of factor] in Pf. destruct (Req_EM_T c 0); lra. }
    split; [left; constructor; auto|].
    split.
    { split.
      - assert (Ens := natural_scale args scales t ps NEs E). unfold product_pscale in Ens. cbn [truthy] in Ens.
        assert (Cx : existsb iscomplex scales = false).
        { apply not_true_is_false. intros C. apply existsb_exists in C. destruct C as (sc & Isc & C). rewrite Forall_forall in FL.
          apply FL in Isc. destruct Isc as [_ Q]. destruct sc; discriminate. }
        rewrite prod_pscale_default, Cx, prod_pscale_lin in Ens; auto.
        2:{ eapply Forall_impl; [|exact FL]. intros sc [Q _]. exact Q. }
        2:{ eapply Forall_impl; [|exact FL]. intros sc [_ Q] U'. rewrite U' in Q. discriminate. }
        cbn [bind] in Ens. injection Ens as <-.
        destruct (eval_denote _ psc 0%R Ep U) as (_ & -> & _). cbn [spec_of factor].
        assert (0 < Rprod (map factor scales))%R.
        { clear -FL. induction FL as [|x l [Vx _] FL IH]; cbn; [lra|]. apply Rmult_lt_0_compat; [apply factor_pos; exact Vx|exact IH]. }
        destruct (Req_EM_T (Rprod (map factor scales)) 0); lra.
      - destruct Lq as [_ ->]. symmetry. apply not_true_is_false. intros C. apply existsb_exists in C.
        destruct C as (sc & Isc & C). rewrite Forall_forall in FL. apply FL in Isc. destruct Isc as [_ Q]. congruence. }
    intros idx Hi _. destruct (eval_denote ps psc (get t idx) Ep U) as (-> & _). apply G; auto.
  - destruct (prod_rule_plain_log args scales s NE L FP C B) as (t & E & Sh & G).
    exists t, (PSCplx 0%R 0%R), (Log 0%R 0%R). split; [eapply natural_scale; eauto|]. split; [apply prod_rule_requested_natural; auto|].
    split; [exact Sh|]. split; [apply eval_log_spellings; cbn; auto 6|]. split; [apply eval_log_spellings; cbn; auto 6|].
    split; [right; split; [constructor; auto; right; reflexivity|reflexivity]|].
    split.
    { split.
      - assert (One : Rprod (map factor scales) = 1%R).
        { clear -FP. induction FP as [|x l [-> | ->] FP IH]; cbn [map Rprod fold_right]; [reflexivity| |];
          fold (Rprod (map factor l)); rewrite IH; cbn [factor].
          - destruct (Req_EM_T 1 0); lra.
          - rewrite offset_zero, exp_0. lra. }
        rewrite One. cbn [spec_of factor]. rewrite offset_zero, exp_0. reflexivity.
      - cbn [spec_of log_kind]. symmetry. apply existsb_exists. apply existsb_exists in C. destruct C as (sc & Isc & C).
        exists sc. split; [exact Isc|]. destruct sc; try discriminate. reflexivity. }
    intros idx Hi Hn. apply G; auto.
Qed.
