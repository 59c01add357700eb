(** Calls of a dependence of leafs on roots. *)
From Coq Require Import String Ascii ZArith Reals Lra Bool Arith Lia Permutation List.
From Verif Require Import Base Num Tensor TensorLemmas TensorBcast OdLemmas RNumLemmas PScales PScales_Spec
  PScales_Proofs PScales_Prod Names Names_Spec Distr PDModel PDUtils PD_Spec PD_Simple_Spec PD_Sums PD_Align PD_Make PD_Valid
  VariableModel RVModel FieldModel Field_Spec Field_Proofs Field_Dims RFModel RF_Spec RF_Proofs RF_Joint SDModel SD_Spec.
Import ListNotations.
Local Open Scope list_scope.

(** *** Construction *)
Lemma scales_sub (vs l : list (rv R)) : scales_ok vs -> incl l vs -> scales_ok l.
Proof.
  intros SC I.
  assert (SUB : forall P, Forall P (map scale_of vs) -> Forall P (map scale_of l)).
  { intros P H. apply Forall_map. apply Forall_forall. intros v Iv. rewrite Forall_map, Forall_forall in H. apply H, I, Iv. }
  destruct SC as [S|[S C]]; [left; apply SUB, S|].
  apply SUB in S. destruct (existsb iscomplex (map scale_of l)) eqn:E; [right; auto|].
  left. rewrite Forall_forall in *. intros s Is. specialize (S s Is). destruct S as [-> | ->].
  - split; [apply plain_valid; left; reflexivity|]. cbn. destruct (Req_EM_T 1 0); [lra|reflexivity].
  - exfalso. assert (T : existsb iscomplex (map scale_of l) = true) by (apply existsb_exists; eexists; split; [exact Is|reflexivity]). congruence.
Qed.

Lemma natural_new (vs : list (rv R)) ps q f old : natural vs ps q -> fd_varlist f = nodes vs ->
  exists s, prod_pscale (map scale_of (rf_rvs (mkRF vs f old))) None = Ok s /\
    match s with Some p => spec_of p | None => PSNone end = ps.
Proof.
  intros (P1 & _) Vf. unfold rf_rvs. cbn [rf_all rf_fld]. rewrite pick_all by exact Vf.
  unfold product_pscale in P1. cbn [truthy] in P1.
  destruct (prod_pscale (map scale_of vs) None) as [s|e]; cbn [bind] in P1; [|discriminate].
  exists s. split; [reflexivity|]. destruct s; congruence.
Qed.

Definition roots_field (roots : list (rv R)) (fr : field R) (qr : pscale R) : option (rfield (T := R)) :=
  match roots with [] => None | _ => Some (mkRF roots fr qr) end.

Lemma roots_some roots fr qr : roots <> [] -> roots_field roots fr qr = Some (mkRF roots fr qr).
Proof. destruct roots; [congruence|reflexivity]. Qed.
Lemma some_or_none {B} (l : list B) : l = [] \/ l <> [].
Proof. destruct l; [left; reflexivity|right; discriminate]. Qed.

Record parts_of (leafs roots : list (rv R)) (f fl fr : field R) (q ql qr : pscale R) : Prop := {
  po_all : fd_keys f = names_of (leafs ++ roots) /\ fd_varlist f = nodes (leafs ++ roots) /\ exists ps, natural (leafs ++ roots) ps q;
  po_leafs : fd_keys fl = names_of leafs /\ fd_varlist fl = nodes leafs /\ exists ps, natural leafs ps ql;
  po_roots : roots <> [] -> make_rf roots = Ok (mkRF roots fr qr) /\ fd_keys fr = names_of roots /\ fd_varlist fr = nodes roots /\ exists ps, natural roots ps qr }.

Lemma make_sd_ok (leafs roots : list (rv R)) arch : leafs <> [] -> NoDup (names_of (leafs ++ roots)) -> scales_ok (leafs ++ roots) ->
  exists f fl fr q ql qr, parts_of leafs roots f fl fr q ql qr /\
    make_sd leafs roots arch = Ok (mkSD (mkRF (leafs ++ roots) f q) (mkRF leafs fl ql) (roots_field roots fr qr) arch arch q).
Proof.
  intros NL ND SC. pose proof ND as ND'. unfold names_of in ND'. rewrite map_app in ND'. apply nodup_app_iff in ND'. destruct ND' as (ND1 & ND2 & _).
  assert (NE : leafs ++ roots <> []) by (destruct leafs; [congruence|discriminate]).
  destruct (make_rf_ok _ NE ND SC) as (f & ps & q & E & K & V & NT).
  destruct (make_rf_ok leafs NL ND1) as (fl & psl & ql & El & Kl & Vl & NTl).
  { eapply scales_sub; [exact SC|]. apply incl_appl, incl_refl. }
  assert (RO : exists fr qr, (roots <> [] -> make_rf roots = Ok (mkRF roots fr qr) /\ fd_keys fr = names_of roots /\ fd_varlist fr = nodes roots /\ exists ps, natural roots ps qr)).
  { destruct roots as [|v l] eqn:ER; [exists fl, ql; congruence|]. rewrite <- ER in *.
    destruct (make_rf_ok roots) as (fr & psr & qr & Er & Kr & Vr & NTr).
    - rewrite ER. discriminate.
    - exact ND2.
    - eapply scales_sub; [exact SC|]. apply incl_appr, incl_refl.
    - exists fr, qr. intros _. eauto 6. }
  destruct RO as (fr & qr & RO). exists f, fl, fr, q, ql, qr. split.
  { constructor; eauto. }
  unfold make_sd. rewrite El. cbn [bind].
  assert (ER : match roots with [] => Ok None | _ => let! r := make_rf roots in Ok (Some r) end = Ok (roots_field roots fr qr)).
  { unfold roots_field. destruct roots as [|v l] eqn:ER; [reflexivity|]. destruct RO as (-> & _); [discriminate|]. reflexivity. }
  rewrite ER. cbn [bind]. rewrite E. cbn [bind rf_pscale]. unfold sd_set_prob, base_set_prob. cbn [sd_rf sd_leafs sd_roots sd_arch sd_pscale].
  destruct (natural_new _ ps q f q NT V) as (s & Es & Ss). rewrite Es. cbn [bind]. rewrite Ss.
  destruct NT as (P1 & P2 & P3 & P4 & _).
  assert (NP : new_pscale ps (spec_of q) = Ok q) by (unfold new_pscale; destruct (ps_true ps); rewrite ?P4; exact P2).
  rewrite NP. cbn [bind sd_arch]. destruct arch; [|reflexivity]. cbn [sd_rf sd_leafs sd_roots sd_arch sd_pscale]. rewrite Es. cbn [bind]. rewrite Ss, NP. reflexivity.
Qed.

Lemma set_prob_ok f l r (fn : probfun R) p0 q0 given d :
  sd_set_prob (mkSD f l r None p0 q0) (Some fn) given = Ok d ->
  exists q, d = mkSD f l r None (Some fn) q /\ eval_pscale (spec_of q) = Ok q.
Proof.
  unfold sd_set_prob, base_set_prob. cbn [sd_rf sd_leafs sd_roots sd_arch sd_pscale].
  destruct (match given with Some g => _ | None => _ end) as [ps|e]; cbn [bind]; [|discriminate].
  destruct (new_pscale ps (spec_of q0)) as [q|e] eqn:E; cbn [bind]; [|discriminate]. intros H. injection H as <-.
  exists q. split; [reflexivity|]. unfold new_pscale in E. destruct (ps_true ps); eapply eval_idem; exact E.
Qed.

(** *** Names *)
Lemma spread_part (y : string -> fval R) (l : list string) k : NoDup l -> In k l ->
  od_get (spread (map (fun k => (k, One (y k))) l)) k = Some (y k).
Proof.
  intros ND I. unfold spread.
  assert (G : forall l acc, od_get (fold_left (fun d (kv : string * fentry R) =>
      match snd kv with
      | One x => od_set d (fst kv) x
      | Many l => fold_left (fun d kx => od_set d (fst kx) (snd kx)) (combine (subkeys (fst kv)) l) d
      end) (map (fun k => (k, One (y k))) l) acc) k = if mem_str k l then Some (y k) else od_get acc k).
  { clear. induction l as [|k0 l IH]; intros acc; [reflexivity|]. cbn [map fold_left fst snd]. rewrite IH.
    cbn [mem_str existsb]. fold (mem_str k l). destruct (mem_str k l); [rewrite orb_true_r; reflexivity|]. rewrite orb_false_r.
    destruct (String.eqb_spec k k0) as [->|Ne]; [apply od_get_set_eq|apply od_get_set_ne; congruence]. }
  rewrite G. apply mem_str_iff in I. rewrite I. reflexivity.
Qed.

Section SDCall.
Context {F : Fmt R} {TR : Trunc R}.
Variables (leafs roots : list (rv R)) (values : odict (fentry R)).
Variables (x : string -> fval R) (aa : string -> values_in R) (r : nat -> rnd R) (A : string -> tensor (pyval R)).
Let vs := leafs ++ roots.
Hypothesis PR : printable F.
Hypothesis NL : leafs <> [].
Hypothesis NA : named_apart (names_of vs).
Hypothesis NDv : NoDup (od_keys values).
Hypothesis INv : incl (od_keys values) (names_of vs).
Hypothesis HE : forall i v, nth_error vs i = Some v ->
  evaluates v values (x (rv_name v)) (aa (rv_name v)) (r i) (A (rv_name v)).
Variables (f fl fr : field R) (q0 ql qr : pscale R).
Hypothesis PO : parts_of leafs roots f fl fr q0 ql qr.

Let names := names_of vs.
Let L := filter (needs_axis values) names.
Let sz (k : string) : nat := tsize (A k).

Lemma vs_some : vs <> [].
Proof. unfold vs. destruct leafs; [congruence|discriminate]. Qed.

Lemma names_split : names = names_of leafs ++ names_of roots.
Proof. unfold names, vs, names_of. apply map_app. Qed.

Lemma sd_name arch prob q :
  sd_dist_name (mkSD (mkRF vs f q0) (mkRF leafs fl ql) (roots_field roots fr qr) arch prob q) values =
  margcond_str (map (fun k => fname k (x k)) (names_of leafs)) (map (fun k => fname k (x k)) (names_of roots)).
Proof.
  unfold sd_dist_name. cbn [sd_leafs sd_roots].
  assert (NN : NoDup names) by apply NA. rewrite names_split in NN. apply nodup_app_iff in NN. destruct NN as (N1 & N2 & _).
  assert (G : forall l, incl l names -> NoDup l ->
    f_dist_name l (map (fun k => (k, One (match od_get (spread values) k with Some x => x | None => FNone end))) l) "" =
    join "," (map (fun k => fname k (x k)) l)).
  { intros l I ND. unfold f_dist_name. f_equal. apply map_ext_in. intros k Ik.
    rewrite (spread_part (fun k => match od_get (spread values) k with Some x => x | None => FNone end)) by assumption.
    rewrite (spread_get vs values x aa r A NDv INv HE) by (apply I; exact Ik). rewrite app_empty. reflexivity. }
  assert (RL : rf_names (mkRF leafs fl ql) = names_of leafs).
  { unfold rf_names, rf_rvs. cbn [rf_all rf_fld]. rewrite pick_all by apply PO. reflexivity. }
  rewrite RL, G; [|rewrite names_split; apply incl_appl, incl_refl|exact N1].
  unfold margcond_str. destruct (some_or_none roots) as [EN|NR].
  { unfold roots_field. rewrite EN. reflexivity. }
  rewrite (roots_some roots) by exact NR.
  assert (RR : rf_names (mkRF roots fr qr) = names_of roots).
  { unfold rf_names, rf_rvs. cbn [rf_all rf_fld]. rewrite pick_all; [reflexivity|]. apply PO. exact NR. }
  rewrite RR, G; [|rewrite names_split; apply incl_appr, incl_refl|exact N2].
  destruct (String.eqb _ ""); reflexivity.
Qed.

Lemma sd_call_ok arch prob q : eval_pscale (spec_of q) = Ok q ->
  let d := mkSD (mkRF vs f q0) (mkRF leafs fl ql) (roots_field roots fr qr) arch prob q in
  exists vals dims, f_parse_args f values = Ok values /\ f_evaluate_by (rf_ev vs r) f values 0 = Ok (vals, dims) /\
    NoDup (od_keys vals) /\ (forall k, In k (od_keys vals) <-> In k names) /\ (L = [] \/ od_keys vals = names) /\
    (forall k, In k names -> exists a, od_get vals k = Some a /\ to_list a = to_list (A k) /\
      (dimensionless (x k) = true /\ a = A k /\ shape a = [] \/ In k L /\ shape a = mask sz [k] L /\ 0 < sz k)) /\
    (forall k, In k names -> od_get dims k = None \/ od_get dims k = Some None \/ In k L /\ od_get dims k = Some (Some (pos k L))) /\
    (forall k, In k L -> od_get dims k = Some (Some (pos k L))) /\ (dims = [] \/ od_keys dims = od_keys vals) /\
    forall t, sd_eval_prob d vals dims = Ok t -> shape t = map sz L ->
      exists p, make_pd (sd_dist_name d values) (out_vals vals) (Some (out_dims dims)) (Some t) (spec_of q) = Ok p /\
        valid_pd p L /\ p_keylist p = od_keys vals /\ od_keys (p_marg p) = names_of leafs /\ od_keys (p_cond p) = names_of roots /\
        p_prob p = Some t /\ p_pscale p = q /\
        (forall k, In k names -> variable p k = Some (var_of (to_value (A k)))) /\
        (forall k, In k L -> od_get (p_marg p ++ p_cond p) k = Some (fname k (x k))).
Proof.
  intros EQ d. destruct (po_all _ _ _ _ _ _ _ _ PO) as (Kf & Vf & _).
  destruct (evaluated vs values x aa r A NA NDv INv HE f Kf Vf) as (vals & dims & E1 & NK & IK & DK & LK & HV).
  exists vals, dims. split; [apply (parsed vs values x aa r A NA NDv INv HE f Kf)|]. split; [exact E1|].
  split; [exact NK|]. split; [exact IK|]. split; [exact LK|]. split.
  { intros k I. destruct (HV k I) as (a & Ga & TL & Q). exists a. tauto. }
  split.
  { intros k I. destruct (HV k I) as (a & Ga & TL & [(_ & _ & _ & Q)|(IL & _ & _ & Q)]); tauto. }
  split.
  { intros k I. pose proof I as I2. apply (L_in vs values x aa r A HE) in I2. destruct I2 as [I2 D].
    destruct (HV k I2) as (a & Ga & TL & [(C & _)|(IL & _ & _ & Q)]); [congruence|exact Q]. }
  split; [exact DK|]. intros t ET ST.
  destruct (assembled vs values x aa r A vs_some NA INv HE PR (names_of leafs) (names_of roots) ""%string vals dims t q)
    as (p & E3 & VP & KP & MP & CP & PP & SP & VV & EN); auto.
  { apply names_split. }
  { rewrite map_app_empty. exact NA. }
  rewrite !map_app_empty in *. rewrite !rk_empty in E3.
  assert (FE : forall l, map (fun k => fname (k ++ "")%string (x k)) l = map (fun k => fname k (x k)) l).
  { intros l. apply map_ext. intros k. rewrite app_empty. reflexivity. }
  rewrite !FE in E3. exists p. unfold d. rewrite sd_name. split; [exact E3|]. split; [exact VP|]. split; [exact KP|]. split; [exact MP|].
  split; [exact CP|]. split; [exact PP|]. split; [exact SP|]. split.
  - intros k I. specialize (VV k I). rewrite app_empty in VV. exact VV.
  - intros k I. specialize (EN k I). rewrite app_empty in EN. exact EN.
Qed.

(** *** A probability function applied position by position *)
Lemma fun_prob (h : list (pyval R) -> R) (fn : probfun R) vals dims : elementwise names h fn ->
  (forall k, In k names -> exists a, od_get vals k = Some a /\ to_list a = to_list (A k) /\
      (dimensionless (x k) = true /\ a = A k /\ shape a = [] \/ In k L /\ shape a = mask sz [k] L /\ 0 < sz k)) ->
  exists t, fn vals dims = Ok t /\ shape t = map sz L /\
    forall s, (forall k, In k L -> s k < sz k) ->
      get t (map s L) = h (map (fun k => get (A k) (map s (filter (needs_axis values) [k]))) names).
Proof.
  intros EL HV. pose proof (shapes_bcast vs values x aa r A vs_some NA INv HE vals HV) as BA.
  assert (SH : Forall2 (fun k sh => exists a, od_get vals k = Some a /\ shape a = sh) names
    (map (fun k => match od_get vals k with Some a => shape a | None => [] end) names)).
  { assert (I : incl names names) by apply incl_refl. clear -HV I. revert I. generalize names at 1 3 4. intros l. induction l as [|k l IH]; intros I; [constructor|].
    cbn [map]. constructor.
    + destruct (HV k) as (a & Ga & _); [apply I; left; reflexivity|]. exists a. rewrite Ga. auto.
    + apply IH. intros y Hy. apply I. right. exact Hy. }
  destruct (EL vals dims _ _ SH BA) as (t & E & S & G).
  exists t. split; [exact E|]. split; [exact S|]. intros s B. rewrite G.
    + f_equal. apply map_ext_in. intros k I. unfold value_at. destruct (HV k I) as (a & Ga & TL & Q). rewrite Ga.
      apply (placed_get vs values x aa r A NA HE k a s I TL Q B).
    + unfold in_range. fold names L. revert B. generalize L. clear. intros L' B. induction L' as [|k l IH]; constructor.
      * apply B. left. reflexivity.
      * apply IH. intros y Hy. apply B. right. exact Hy.
Qed.
End SDCall.
