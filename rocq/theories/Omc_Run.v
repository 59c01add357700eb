(** Samplers of a process with a proposal function. *)
From Coq Require Import String Ascii ZArith Reals Lra Bool Arith Lia Permutation List.
From Verif Require Import Base Num Tensor TensorLemmas OdLemmas RNumLemmas PScales PScales_Spec PScales_Proofs Names Names_Spec Names_Proofs
  Distr PDModel PDUtils PD_Spec PD_Simple_Spec PD_Make PD_Simple PD_Sums PD_Valid PD_Marg PD_Align PD_Product2 PD_Product3
  VariableModel RVModel RV_Spec FieldModel Field_Spec Field_Dims RFModel RF_Spec RF_Proofs RF_Joint SDUtils SDUtils_Spec SDUtils_Proofs
  SDModel SD_Spec SD_Proofs SD_Joint SD_Thm SPModel SP_Spec SP_Proofs ChainModel Chain_Spec Chain_Proofs Chain_Run OmcModel Omc_Spec Omc_Proofs.
Import ListNotations.
Local Open Scope list_scope.

Lemma tail_map_nodup (l : list string) suf : NoDup l -> NoDup (map (fun k => (k ++ suf)%string) l).
Proof.
  intros N. induction N as [|k l NI N IH]; [constructor|]. cbn. constructor; [|exact IH].
  intros C. apply in_map_iff in C. destruct C as (k' & E & I). apply app_tail_inj in E. subst. contradiction.
Qed.

Lemma f2_len {B C} (P : B -> C -> Prop) l m : Forall2 P l m -> length l = length m.
Proof. induction 1; cbn; congruence. Qed.

Lemma f2_nth {B C} (P : B -> C -> Prop) l m i b : Forall2 P l m -> nth_error l i = Some b -> exists c, nth_error m i = Some c /\ P b c.
Proof.
  intros H. revert i. induction H as [|w z ws zs H1 H2 IH]; intros i I; [destruct i; discriminate|].
  destruct i; cbn in *; [injection I as <-; eauto|eauto].
Qed.

Lemma name_exists (l m : list (rv R)) : l <> [] -> exists k, In k (names_of (l ++ m)).
Proof. destruct l as [|v l]; [congruence|]. intros _. exists (rv_name v). left. reflexivity. Qed.

Lemma zeros_get (keys : list string) k : In k keys -> od_get (zeros (T := R) keys) k = Some (One (FUnit 0)).
Proof.
  induction keys as [|k0 l IH]; intros I; [destruct I|]. cbn. destruct (String.eqb_spec k k0) as [->|NEk]; [reflexivity|].
  apply IH. destruct I as [->|I]; [congruence|exact I].
Qed.

Lemma no_tran (l : list (rv R)) : (forall v, l = [v] -> rv_tran v = TRNone) ->
  match l with [v] => negb (is_none (rv_tran v)) | _ => false end = false.
Proof. intros H. destruct l as [|v [|w l]]; try reflexivity. rewrite (H v eq_refl). reflexivity. Qed.

Lemma advance_prop {D Rnd Sc} (eng : engine D Rnd) (cfg : config D Rnd Sc) last from r x sc t u :
  c_tran cfg = false -> c_prop cfg = true ->
  match last with
  | None => from = FromArgs
  | Some l => if c_delta cfg then exists pr, f_q l = Some pr /\ from = FromLast pr else from = FromZero
  end ->
  SPModel.sample_prop eng from r = Ok x ->
  match c_scores cfg with None => Ok None | Some f => f x end = Ok sc ->
  match c_thresh cfg with None => Ok None | Some f => f r end = Ok t ->
  match c_update cfg with None => Ok VNone | Some f => f sc t end = Ok u ->
  SPModel.advance eng cfg last r =
    if match c_update cfg with None => true | Some _ => false end || match last with None => true | Some _ => false end
       || match u with VTrue => true | _ => false end
    then Ok (OutFull (mkFull x sc t u (f_p x)), Some x) else Ok (OutFull (mkFull x sc t u (f_o x)), last).
Proof.
  intros E1 E2 FR E3 E4 E5 E6. unfold advance, SPModel.sample. rewrite E1, E2. cbn [negb andb].
  replace (match last with
      | Some l => if negb (c_delta cfg) then SPModel.sample_prop eng FromZero r
          else match f_q l with Some q => SPModel.sample_prop eng (FromLast q) r | None => Err AssertionError end
      | None => SPModel.sample_prop eng FromArgs r end) with (Ok (A := opqr D) x).
  - cbn [bind]. rewrite E4. cbn [bind]. rewrite E5. cbn [bind]. rewrite E6. reflexivity.
  - rewrite <- E3. destruct last as [l|]; [|subst; reflexivity]. destruct (c_delta cfg); [|subst; reflexivity].
    destruct FR as (pr & -> & ->). reflexivity.
Qed.

Section Omc.
Context {F : Fmt R} {TR : Trunc R}.
Variables (leafs roots : list (rv R)) (lims : list limits).
Let vs := leafs ++ roots.
Let names := names_of vs.
Hypothesis OP : omc_process (F := F) leafs roots lims.
Variables (d0 d : sdep R) (fn : probfun R) (h : list (pyval R) -> R) (given : option (pspec R)).
Hypothesis HM : make_sd leafs roots None = Ok d0.
Hypothesis HS : sd_set_prob d0 (Some fn) given = Ok d.
Hypothesis HF : elementwise names h fn.
Hypothesis HV : valid_scale (spec_of (sd_pscale d)).
Variables (g : propfun R) (gd : list (pyval R) -> R).
Hypothesis HG : proposes names gd g.
Let q := sd_pscale d.

Let PR : printable F := proj1 OP.
Let NL : leafs <> [] := proj1 (proj2 OP).
Let NA : named_apart names := proj1 (proj2 (proj2 OP)).
Let UP : unprimed names := proj1 (proj2 (proj2 (proj2 OP))).
Let IV : Forall2 interval_rv vs lims := proj1 (proj2 (proj2 (proj2 (proj2 OP)))).
Let SC : scales_ok vs := proj1 (proj2 (proj2 (proj2 (proj2 (proj2 OP))))).

Lemma len_lims : length lims = length names.
Proof. unfold names, names_of. rewrite map_length. symmetry. eapply f2_len. exact IV. Qed.

Lemma lim_at i v : nth_error vs i = Some v -> exists l, nth_error lims i = Some l /\ interval_rv v l.
Proof. apply f2_nth. exact IV. Qed.

(** The value of a variable asked for a number or {0}. *)
Definition req (y : option R) : fval R := match y with Some y => FNum (PF y) | None => FUnit 0 end.
Definition req_in (y : option R) : values_in R := match y with Some y => VGiven [PF y] true | None => VariableModel.VSet 0 end.

Lemma req_value v l y (r : rnd R) : interval_rv v l ->
  rv_evaluate v (req_in y) r = Ok (tscalar (PF (match y with Some y => y | None => lm_lo l + (lm_hi l - lm_lo l) * r_unif r 0%nat end)))%R.
Proof.
  intros [ES _]. destruct y as [y|]; cbn [req_in].
  - apply given_value. rewrite ES. discriminate.
  - unfold rv_evaluate, evaluate. rewrite ES. cbn [is_bool vs_vtype vs_vset].
    destruct (lm_open l); cbn; destruct (rv_prob v); reflexivity.
Qed.

Lemma drawn_len r : length (drawn_in lims r) = length names.
Proof. unfold drawn_in. rewrite map_length, combine_length, seq_length, Nat.min_id. apply len_lims. Qed.

Lemma drawn_nth r i l : nth_error lims i = Some l ->
  nth_error (drawn_in lims r) i = Some (lm_lo l + (lm_hi l - lm_lo l) * r_unif (or_vars r i) 0%nat)%R.
Proof.
  intros I. unfold drawn_in. rewrite nth_error_map.
  assert (E : nth_error (combine (seq 0 (length lims)) lims) i = Some (i, l)).
  { enough (H : forall j (ls : list limits), nth_error ls i = Some l -> nth_error (combine (seq j (length ls)) ls) i = Some (j + i, l)) by apply (H 0 lims I).
    clear. induction i as [|i IH]; intros j [|l' ls] H; try discriminate; cbn in *; [injection H as ->; rewrite Nat.add_0_r; reflexivity|].
    rewrite IH by exact H. rewrite Nat.add_succ_comm. reflexivity. }
  rewrite E. reflexivity.
Qed.

Lemma fill_len gv xs : length gv = length names -> length xs = length names -> length (fill gv xs) = length names.
Proof. intros E1 E2. unfold fill. rewrite map_length, combine_length, E1, E2. apply Nat.min_id. Qed.

Lemma fill_nth gv xs i y z : nth_error gv i = Some y -> nth_error xs i = Some z ->
  nth_error (fill gv xs) i = Some (match y with Some y => y | None => z end).
Proof.
  intros E1 E2. unfold fill. rewrite nth_error_map. revert xs i E1 E2. clear. induction gv as [|b gv IH]; intros [|c xs] [|i] E1 E2; try discriminate; cbn in *.
  - injection E1 as ->. injection E2 as ->. reflexivity.
  - apply IH; assumption.
Qed.

Lemma fill_all xs l : length l = length xs -> fill (map Some xs) l = xs.
Proof. revert l. unfold fill. induction xs as [|x xs IH]; intros [|c l] E; try discriminate; [reflexivity|]. cbn. f_equal. apply IH. auto. Qed.

Lemma asks_nth dct gv i k : asks names dct gv -> nth_error names i = Some k -> exists y, nth_error gv i = Some y /\ od_get dct k = Some (One (req y)).
Proof. intros (_ & _ & H) I. exact (f2_nth _ _ _ _ _ H I). Qed.

Lemma asks_len dct gv : asks names dct gv -> length gv = length names.
Proof. intros (_ & _ & H). symmetry. eapply f2_len. exact H. Qed.

(** Values held under primed names. *)
Definition held_at (dst : odist R) (xs : list R) : Prop :=
  exists vals, od_held dst = map (fun kv => ((fst kv ++ "'")%string, snd kv)) vals /\ NoDup (od_keys vals) /\
    (forall k, In k (od_keys vals) <-> In k names) /\ length xs = length names /\
    forall i k x, nth_error names i = Some k -> nth_error xs i = Some x -> od_get vals k = Some (tscalar (PF x)).

Lemma held_desuffix dst xs : held_at dst xs ->
  exists vals, desuffix (od_held dst) "'"%char = Ok vals /\ asks names (given_to vals) (map Some xs).
Proof.
  intros (vals & E & NK & IK & LX & GV). exists vals. split.
  - assert (K : od_keys (od_held dst) = map (fun k => (k ++ "'")%string) (od_keys vals)) by (rewrite E; apply rk_keys with (g := fun k => (k ++ "'")%string)).
    assert (NEK : Forall (fun k => k <> EmptyString) (od_keys (od_held dst))).
    { rewrite K. apply Forall_map. apply Forall_forall. intros k _ C. destruct k; discriminate. }
    destruct (@desuffix_some _ "'"%char (od_held dst) (od_keys vals) NEK) as [H _].
    + rewrite K. destruct (od_keys vals) as [|k ks] eqn:EK.
      * exfalso. destruct (name_exists leafs roots NL) as (k & Ik). apply (proj2 (IK k)). exact Ik.
      * exists (k ++ "'")%string. split; [left; reflexivity|]. exists k. reflexivity.
    + rewrite K. clear. induction (od_keys vals) as [|k ks IH]; constructor; [left; reflexivity|exact IH].
    + rewrite H by exact NK. f_equal. rewrite E. unfold od_vals. rewrite map_map. cbn [snd].
      clear. induction vals as [|[k v] vals IH]; [reflexivity|]. cbn in *. f_equal. exact IH.
  - assert (KG : od_keys (given_to vals) = od_keys vals) by (unfold given_to, od_keys; rewrite map_map; reflexivity).
    split; [rewrite KG; exact NK|]. split; [rewrite KG; intros k; apply IK|].
    apply forall2_nth; [rewrite map_length; symmetry; exact LX|]. intros i k y I1 I2. rewrite nth_error_map in I2.
    destruct (nth_error xs i) as [z|] eqn:Ez; [|discriminate]. injection I2 as <-.
    unfold given_to. rewrite (od_get_map (fun a => One (match shape a with [] => FNum (get a []) | _ => FArr a end))). rewrite (GV i k z I1 Ez). reflexivity.
Qed.

Lemma asks_eval dct gv r : asks names dct gv ->
  let xs := fill gv (drawn_in lims r) in
  forall i v, nth_error vs i = Some v ->
  evaluates v dct (req (nth i gv None)) (req_in (nth i gv None)) (or_vars r i) (tscalar (PF (nth i xs 0%R))).
Proof.
  intros AK xs i v Iv. assert (IN : nth_error names i = Some (rv_name v)) by (unfold names, names_of; rewrite nth_error_map, Iv; reflexivity).
  destruct (asks_nth dct gv i _ AK IN) as (y & Iy & G). destruct (lim_at i v Iv) as (l & Il & IR).
  rewrite (nth_error_nth gv i None Iy). split; [exact G|]. split; [destruct y; constructor|]. split.
  - rewrite (req_value v l y (or_vars r i) IR). do 3 f_equal.
    pose proof (fill_nth gv _ i y _ Iy (drawn_nth r i l Il)) as E. fold xs in E. rewrite (nth_error_nth xs i 0%R E). reflexivity.
  - left. split; [destruct y; reflexivity|reflexivity].
Qed.

Lemma no_axis dct gv : asks names dct gv -> forall l, incl l names -> filter (needs_axis dct) l = [].
Proof.
  intros AK. induction l as [|k l IH]; intros IN; [reflexivity|]. cbn [filter].
  assert (I : In k names) by (apply IN; left; reflexivity). apply In_nth_error in I. destruct I as (i & I).
  destruct (asks_nth dct gv i k AK I) as (y & _ & G). assert (needs_axis dct k = false) as ->.
  { unfold needs_axis. rewrite G. destruct y; reflexivity. }
  apply IH. intros k' I'. apply IN. right. exact I'.
Qed.

Lemma positions_scalar dct gv (xs : list R) s : asks names dct gv -> length xs = length names ->
  at_positions dct vs (fun i => tscalar (PF (nth i xs 0%R))) s = map PF xs.
Proof.
  intros AK LX. unfold at_positions. transitivity (map (fun i => PF (nth i xs 0%R)) (map fst (combine (seq 0 (length vs)) vs))).
  - rewrite map_map. reflexivity.
  - rewrite map_fst_combine by (rewrite seq_length; reflexivity).
    replace (length vs) with (length xs) by (rewrite LX; unfold names, names_of; apply map_length).
    rewrite <- (map_map (fun i => nth i xs 0%R) (@PF R)). f_equal. apply map_seq_nth.
Qed.

Lemma scalar_shape (p : pd R) t : valid_pd p [] -> p_prob p = Some t -> shape t = [].
Proof.
  intros VP P. destruct (vp_prob _ _ VP) as (t' & Pt & St). pose proof (vp_shape _ _ VP) as Q.
  assert (t' = t) by congruence. subst t'. destruct (p_shape p); [congruence|discriminate].
Qed.

Lemma propose_at dct gv r : asks names dct gv ->
  let xs := fill gv (drawn_in lims r) in
  exists prop, sd_propose d g dct "'" (or_vars r) = Ok prop /\ held_at prop xs /\
    stands_at (od_pd prop) q (primed names) [] xs (gd (map PF xs)) /\
    number_of (Some prop) = Ok (gd (map PF xs)).
Proof.
  intros AK xs. assert (LX : length xs = length names) by (apply fill_len; [eapply asks_len; exact AK|apply drawn_len]).
  assert (NX := no_axis dct gv AK names (incl_refl _)).
  pose proof AK as (ND & IN & _).
  destruct (propose_gen leafs roots dct _ _ _ _ PR NL NA SC ND IN (asks_eval dct gv r AK) "'"%string) as (d1 & E1 & H).
  { apply primed_apart. exact NA. }
  { right. intros k k' I I' C. apply (UP k' I' k). symmetry. exact C. }
  assert (d1 = d0) by congruence. subst d1.
  destruct (H fn given d g gd HS HG) as (p & vals & EP & NK & IK & GV & VP & MP & CP & SP & VV & t & PT & ST & GT).
  fold vs in VP, ST, GT, GV, IK, MP, VV. fold names in VP, ST, GT, GV, IK, MP. rewrite NX in VP, ST, GT. cbn [map] in VP, ST, GT.
  assert (GT' : get t [] = gd (map PF xs)).
  { rewrite <- (positions_scalar dct gv xs (fun _ => 0) AK LX). apply GT with (s := fun _ => 0). intros k []. }
  eexists. split; [exact EP|]. split; [|split].
  - exists vals. split; [reflexivity|]. split; [exact NK|]. split; [exact IK|]. split; [exact LX|].
    intros i k z Ik Iz. assert (IN' : In k names) by (eapply nth_error_In; exact Ik).
    assert (PK : pos k names = i).
    { unfold names, names_of in Ik. rewrite nth_error_map in Ik. destruct (nth_error vs i) as [v|] eqn:Iv; [|discriminate]. injection Ik as <-.
      apply pos_name; [apply NA|exact Iv]. }
    rewrite GV; [|exact IN'|].
    + rewrite PK. cbv beta. fold xs. rewrite (nth_error_nth xs i 0%R Iz). reflexivity.
    + rewrite PK. destruct (nth i gv None); reflexivity.
  - split; [exact VP|]. split; [exact SP|]. split; [exact MP|]. split; [exact CP|]. split.
    + intros i k Ik. unfold primed in Ik. rewrite app_nil_r, nth_error_map in Ik. unfold names, names_of in Ik. rewrite nth_error_map in Ik.
      destruct (nth_error vs i) as [v|] eqn:Iv; [|discriminate]. injection Ik as <-. cbn [od_pd]. rewrite (VV i v Iv). reflexivity.
    + intros s. unfold prob_at. cbn [od_pd]. rewrite PT, SP. cbn [map]. rewrite GT'. reflexivity.
  - unfold number_of. cbn [od_pd]. rewrite PT, ST, GT'. reflexivity.
Qed.

Lemma prob_held o prop xs : om_sd o = d -> held_at prop xs ->
  exists call, om_prob o prop = Ok call /\
    stands_at (od_pd call) q (names_of leafs) (names_of roots) xs (h (map PF xs)) /\
    number_of (Some call) = Ok (h (map PF xs)).
Proof.
  intros EO HH. destruct (held_desuffix prop xs HH) as (vals & ED & AK). pose proof HH as (_ & _ & _ & _ & LX & _).
  set (dct := given_to vals) in *. assert (NX := no_axis dct _ AK names (incl_refl _)).
  pose proof AK as (ND & IN & _).
  assert (HE : forall i v, nth_error vs i = Some v ->
    evaluates v dct (FNum (PF (nth i xs 0%R))) (VGiven [PF (nth i xs 0%R)] true) (undrawn i) (tscalar (PF (nth i xs 0%R)))).
  { intros i v Iv. assert (I2 : nth_error names i = Some (rv_name v)) by (unfold names, names_of; rewrite nth_error_map, Iv; reflexivity).
    destruct (asks_nth dct _ i _ AK I2) as (y & Iy & G). rewrite nth_error_map in Iy. destruct (nth_error xs i) as [z|] eqn:Ez; [|discriminate].
    injection Iy as <-. rewrite (nth_error_nth xs i 0%R Ez). split; [exact G|]. split; [constructor|].
    split; [|left; split; reflexivity]. destruct (lim_at i v Iv) as (l & _ & ES & _). apply given_value. rewrite ES. discriminate. }
  destruct (call_conditional leafs roots dct _ _ _ _ PR NL NA ND IN HE SC) as (d1 & E1 & H).
  assert (d1 = d0) by congruence. subst d1.
  destruct (H fn h given d HF HS) as (p & held & EC & VP & MP & CP & SP & VV & PP).
  fold vs in VP, PP, VV. fold names in VP, PP. rewrite NX in VP, PP.
  destruct (vp_prob _ _ VP) as (t & PT & _). assert (ST := scalar_shape p t VP PT).
  assert (GT : forall s, prob_at p [] s = denote (spec_of q) (h (map PF xs))).
  { intros s. rewrite PP by (intros k []). fold q. do 2 f_equal. apply (positions_scalar dct (map Some xs) xs s AK LX). }
  exists (mkOD p held). split.
  { unfold om_prob. rewrite ED. cbn [bind]. fold dct. rewrite EO, EC. reflexivity. }
  split; [split; [exact VP|]; split; [exact SP|]; split; [exact MP|]; split; [exact CP|]; split; [|exact GT]|].
  - intros i k Ik. assert (Ik' : nth_error names i = Some k) by (unfold names, vs, names_of; rewrite map_app; exact Ik).
    unfold names, names_of in Ik'. rewrite nth_error_map in Ik'. destruct (nth_error vs i) as [v|] eqn:Iv; [|discriminate]. injection Ik' as <-.
    cbn [od_pd]. rewrite (VV i v Iv). reflexivity.
  - unfold number_of. cbn [od_pd]. rewrite PT, ST. f_equal. specialize (GT (fun _ => 0)). unfold prob_at in GT. rewrite PT, SP in GT. cbn [map] in GT.
    apply denote_inj in GT; [exact GT|exact HV].
Qed.


Lemma plain_prob o dct gv r : om_sd o = d -> asks names dct gv ->
  exists prop, sd_propose d g dct "" (or_vars r) = Ok prop /\ om_prob o prop = Err TypeError.
Proof.
  intros EO AK. pose proof AK as (ND & IN & _).
  destruct (propose_gen leafs roots dct _ _ _ _ PR NL NA SC ND IN (asks_eval dct gv r AK) ""%string) as (d1 & E1 & H).
  { rewrite map_app_empty. exact NA. }
  { left. reflexivity. }
  assert (d1 = d0) by congruence. subst d1.
  destruct (H fn given d g gd HS HG) as (p & vals & EP & NK & IK & _). eexists. split; [exact EP|].
  unfold om_prob. cbn [od_held]. rewrite rk_empty. rewrite desuffix_none; [reflexivity| |].
  - apply Forall_forall. intros k I. apply IK in I. destruct NA as [_ SK]. apply (proj1 (proj1 (proj1 (SK k I)))).
  - intros k I (k0 & E). apply IK in I. exact (UP k I k0 E).
Qed.

Lemma no_unit_gen o : om_sd o = d -> om_unit o = false.
Proof.
  intros Eo. unfold om_unit. rewrite Eo. destruct (make_sd_ok leafs roots None NL (proj1 NA) SC) as (f & fl & fr & q1 & ql & qr & PO & E).
  assert (E0 : d0 = mkSD (mkRF vs f q1) (mkRF leafs fl ql) (roots_field roots fr qr) None None q1) by (unfold vs; congruence).
  pose proof HS as HS1. rewrite E0 in HS1. destruct (set_prob_ok _ _ _ _ _ _ _ _ HS1) as (q2 & Ed & _). rewrite Ed. cbn [sd_rf].
  destruct (po_all _ _ _ _ _ _ _ _ PO) as (_ & Vf & _). unfold rf_rvs. cbn [rf_all rf_fld]. fold vs in Vf. rewrite pick_all by exact Vf.
  pose proof OP as (_ & _ & _ & _ & _ & _ & TN). apply no_tran. exact TN.
Qed.

(** *** The sampler *)
Variables (delta : bool) (start : odict (fentry R)) (keyset : list string) (score : R -> R -> R) (gv : list (option R)).
Hypothesis PK : Permutation keyset names.
Hypothesis AS : asks names start gv.
Let o := mkOmc d g delta "'"%string start keyset.
Let eng := om_engine o.
Let cfg := om_config o score.
Let sampled := sample_of (F := F) (names_of leafs) (names_of roots) q h gd score.

Lemma zeros_ask : asks names (zeros keyset) (map (fun _ => None) names).
Proof.
  assert (K : od_keys (zeros (T := R) keyset) = keyset) by (unfold zeros, od_keys; rewrite map_map, map_id; reflexivity).
  split; [rewrite K; apply (Permutation_NoDup (Permutation_sym PK)), NA|]. split; [rewrite K; intros k I; eapply Permutation_in; [exact PK|exact I]|].
  apply forall2_nth; [symmetry; apply map_length|]. intros i k y I1 I2. rewrite nth_error_map, I1 in I2. injection I2 as <-.
  assert (I : In k keyset) by (eapply Permutation_in; [apply Permutation_sym; exact PK|eapply nth_error_In; exact I1]).
  apply zeros_get. exact I.
Qed.

Lemma no_unit : om_unit o = false.
Proof. apply no_unit_gen. reflexivity. Qed.

(** One sample from a dictionary. *)
Lemma sample_at_point from dct gv' r : asks names dct gv' ->
  (forall r, e_propose eng from r = sd_propose d g dct "'" (or_vars r)) ->
  let xs := fill gv' (drawn_in lims r) in
  exists x, SPModel.sample_prop eng from r = Ok x /\ (exists pr, f_q x = Some pr /\ held_at pr xs) /\
   exists sc u, (match c_scores cfg with None => Ok None | Some f => f x end) = Ok (Some sc) /\
    match c_update cfg with None => Ok VNone | Some f => f (Some sc) (Some (or_thresh r)) end = Ok u /\
    forall v, (u = VTrue -> v = f_p x) -> sampled (mkFull x (Some sc) (Some (or_thresh r)) u v) (xs, or_thresh r).
Proof.
  intros AK EP xs. destruct (propose_at dct gv' r AK) as (prop & E1 & HH & SQ & NQ). fold xs in HH, SQ, NQ.
  destruct (prob_held o prop xs eq_refl HH) as (call & E2 & SP & NP).
  eexists. split.
  { unfold SPModel.sample_prop. rewrite EP, E1. cbn [bind]. unfold eng, om_engine. cbn [e_prob]. rewrite E2. cbn [bind]. reflexivity. }
  split; [exists prop; split; [reflexivity|exact HH]|].
  eexists. eexists. split; [cbn [cfg om_config c_scores f_p f_q]; rewrite NP; cbn [bind]; rewrite NQ; cbn [bind]; reflexivity|].
  split; [reflexivity|]. intros v HX. exists call, prop. split; [reflexivity|].
  split; [exact SP|]. split; [unfold names, vs, names_of in SQ; rewrite map_app in SQ; exact SQ|].
  split; [reflexivity|]. split; [reflexivity|]. cbn [x_u fst snd].
  cbn [cfg om_config] in HX. set (sc := score (h (map PF xs)) (gd (map PF xs))) in *. destruct (n_leb (or_thresh r) sc) eqn:LE.
  - apply Rleb_iff in LE. split; [intros _; split; [reflexivity|apply HX; reflexivity]|lra].
  - apply Rleb_false_iff in LE. split; [lra|reflexivity].
Qed.

(** The last sample kept, if a delta was set. *)
Definition stays (xs : list R) (l : opqr (odist R)) : Prop := exists pr, f_q l = Some pr /\ held_at pr xs.

Lemma first_step r : exists s l, SPModel.advance eng cfg None r = Ok (OutFull s, Some l) /\
  let xs := fill gv (drawn_in lims r) in stays xs l /\ sampled s (xs, or_thresh r).
Proof.
  destruct (sample_at_point FromArgs start gv r AS) as (x & E1 & ST & sc & u & E2 & E3 & SA); [reflexivity|].
  eexists. exists x. split.
  { rewrite (advance_prop eng cfg None FromArgs r x (Some sc) (Some (or_thresh r)) u no_unit eq_refl eq_refl E1 E2 eq_refl E3).
    rewrite orb_true_r. reflexivity. }
  split; [exact ST|apply SA; reflexivity].
Qed.

Lemma next_step xs l r : stays xs l ->
  exists s l', SPModel.advance eng cfg (Some l) r = Ok (OutFull s, Some l') /\
    let ys := if delta then xs else drawn_in lims r in sampled s (ys, or_thresh r) /\ stays (if delta then xs else (if match x_u s with VTrue => true | _ => false end then ys else xs)) l'.
Proof.
  intros (pr & Ef & HH). destruct (held_desuffix pr xs HH) as (vals & ED & AK). pose proof HH as (_ & _ & _ & _ & LX & _).
  set (from := if delta then FromLast pr else FromZero).
  assert (SM : exists x, SPModel.sample_prop eng from r = Ok x /\ stays (if delta then xs else drawn_in lims r) x /\
   exists sc u, (match c_scores cfg with None => Ok None | Some f => f x end) = Ok (Some sc) /\
    match c_update cfg with None => Ok VNone | Some f => f (Some sc) (Some (or_thresh r)) end = Ok u /\
    forall v, (u = VTrue -> v = f_p x) -> sampled (mkFull x (Some sc) (Some (or_thresh r)) u v) ((if delta then xs else drawn_in lims r), or_thresh r)).
  { unfold from. destruct (bool_dec delta true) as [C|C]; [|apply not_true_is_false in C]; rewrite !C.
    - destruct (sample_at_point (FromLast pr) (given_to vals) (map Some xs) r AK) as (x & E1 & ST & REST).
      { intros r'. cbn [eng om_engine e_propose]. rewrite ED. reflexivity. }
      rewrite fill_all in ST, REST by (rewrite drawn_len; symmetry; exact LX). exists x. auto.
    - destruct (sample_at_point FromZero (zeros keyset) (map (fun _ => None) names) r zeros_ask) as (x & E1 & ST & REST); [reflexivity|].
      assert (FN : fill (map (fun _ => None) names) (drawn_in lims r) = drawn_in lims r).
      { pose proof (drawn_len r) as L1. revert L1. generalize (drawn_in lims r), names. clear. unfold fill.
        intros l m. revert l. induction m as [|k m IH]; intros [|z l] E; try discriminate; [reflexivity|]. cbn. f_equal. apply IH. auto. }
      rewrite FN in ST, REST. exists x. auto. }
  destruct SM as (x & E1 & ST & sc & u & E2 & E3 & SA).
  assert (ADV : SPModel.advance eng cfg (Some l) r = if match u with VTrue => true | _ => false end
     then Ok (OutFull (mkFull x (Some sc) (Some (or_thresh r)) u (f_p x)), Some x)
     else Ok (OutFull (mkFull x (Some sc) (Some (or_thresh r)) u (f_o x)), Some l)).
  { apply (advance_prop eng cfg (Some l) from r x (Some sc) (Some (or_thresh r)) u no_unit eq_refl); auto.
    change (c_delta cfg) with delta. unfold from. destruct (bool_dec delta true) as [C|C]; [|apply not_true_is_false in C]; rewrite !C; [exists pr; auto|reflexivity]. }
  destruct u; (eexists; eexists; split; [exact ADV|]; split; [apply SA; (discriminate || reflexivity)|]); cbn [x_u]; (destruct (bool_dec delta true) as [C|C]; [|apply not_true_is_false in C]); rewrite ?C in ST |- *; try exact ST; exists pr; auto.
Qed.

Lemma run_after xs l c rs : stays xs l ->
  exists ss l', loc_run eng cfg None (mkLoc c (Some l) false) rs = (l', map (fun s => Yield (OutFull s)) ss) /\
    Forall2 sampled ss (map (fun r => ((if delta then xs else drawn_in lims r), or_thresh r)) rs).
Proof.
  revert xs l c. induction rs as [|r rs IH]; intros xs l c H.
  - exists [], (mkLoc c (Some l) false). split; [reflexivity|constructor].
  - destruct (next_step xs l r H) as (s & l' & EA & SA & HH).
    destruct (IH _ l' (S c) HH) as (ss & l'' & ER & FF). exists (s :: ss), l''. split.
    + cbn [loc_run]. unfold loc_step. cbn [l_done l_last l_count]. rewrite EA, ER. reflexivity.
    + cbn [map]. constructor; [exact SA|]. destruct (bool_dec delta true) as [C|C]; [|apply not_true_is_false in C]; rewrite !C in *; exact FF.
Qed.

Definition om_points (rs : list (ornd R)) : list (list R * R) :=
  match rs with
  | [] => []
  | r :: rs => let xs := fill gv (drawn_in lims r) in
      (xs, or_thresh r) :: map (fun r => ((if delta then xs else drawn_in lims r), or_thresh r)) rs
  end.

Lemma sampler_points : omc_samples o score (names_of leafs) (names_of roots) h gd om_points.
Proof.
  intros pre post NR SP. pose proof (sampler_view eng cfg pre None post NR SP) as H.
  fold eng cfg. destruct (run eng cfg new_process (pre ++ ENew None :: post)) as [st os]. cbn [snd].
  generalize dependent (steps_of (created pre) post). intros rs H.
  assert (G : exists ss l', loc_run eng cfg None (mkLoc 0 None false) rs = (l', map (fun s => Yield (OutFull s)) ss) /\ Forall2 sampled ss (om_points rs)).
  { destruct rs as [|r rs].
    - exists [], (mkLoc 0 None false). split; [reflexivity|constructor].
    - destruct (first_step r) as (s & l' & EA & HH & SA).
      destruct (run_after _ l' 1 rs HH) as (ss & l'' & ER & FF). exists (s :: ss), l''. split.
      + cbn [loc_run]. unfold loc_step. cbn [l_done l_last l_count]. rewrite EA, ER. reflexivity.
      + constructor; [exact SA|exact FF]. }
  destruct G as (ss & l' & ER & FF). rewrite ER in H. destruct H as (H & _). exists ss. split; [exact H|exact FF].
Qed.
End Omc.
