(** Chains of processes whose delta was set to a number, a list or a tuple. *)
From Coq Require Import String Ascii ZArith Reals Lra Bool Arith Lia Permutation List.
From Verif Require Import Base Num Tensor TensorLemmas OdLemmas RNumLemmas PScales PScales_Spec PScales_Proofs Names Names_Spec Names_Proofs
  Distr PDModel PDUtils PD_Spec PD_Simple_Spec PD_Make PD_Simple PD_Sums PD_Valid
  VariableModel RVModel RV_Spec Var_Spec Var_Proofs Var_Delta FieldModel Field_Spec Field_Dims Field_Delta RFModel RF_Spec RF_Proofs RF_Joint RF_Step SDUtils SDUtils_Proofs
  SDModel SD_Spec SD_Proofs SD_Joint SD_Thm SPModel SP_Spec SP_Proofs SP_Scores ChainModel Chain_Spec Chain_Proofs Chain_Run Chain_Thm Chain_Uniform.
Import ListNotations.
Local Open Scope R_scope.

(** *** One variable *)
Lemma add_delta {TR : Trunc R} (s : vstate R) dc a e r : vs_vtype s = Some VFloat -> dc_scale dc = false ->
  apply_delta s None dc true [PF a] (DDelta (PF e)) (Some false) r = Ok [PF (a + e)].
Proof.
  intros VT DS. unfold apply_delta. cbn [delta_or]. rewrite VT. unfold eval_delta. cbn [delta_or]. cbn [bind]. rewrite DS, andb_false_r. cbn [bind map v_add].
  unfold revtype. cbn. reflexivity.
Qed.

Lemma keep_delta {TR : Trunc R} v l dc a e (r : drnd R) : interval_rv v l -> dc_scale dc = false -> within1 l a ->
  apply_delta (rv_state v) None dc true [PF a] (DDelta (PF e)) (Some true) r = Ok [PF (kept l a (a + e))] /\ within1 l (kept l a (a + e)).
Proof.
  intros IV DS W. destruct (Req_EM_T e 0) as [->|NZ].
  - split; [|destruct (keep_real v l (mkDC DNone false false) a (PF 0) r IV eq_refl W) as [_ H]; exact H].
    destruct IV as [E LE]. unfold within1 in W. unfold apply_delta. cbn [delta_or]. destruct l as [[|] lo hi]; cbn [lm_open lm_lo lm_hi] in *; rewrite E; cbn [vs_vtype];
      unfold eval_delta; cbn [delta_or bind]; rewrite DS, andb_false_r; cbn [bind map v_add]; unfold revtype; cbn [vtype_of vtype_eqb combine map_res fst snd];
      unfold bound_elem; cbn [vs_vset vs_vtype]; rewrite interval_lims by (cbn; lra); cbn [is_tup atom_of as_num bind]; unfold kept; cbn [lm_open lm_lo lm_hi]; rn; rewrite Rplus_0_r.
    + destruct (inside_interval (Tup (AV (PF lo))) (Tup (AV (PF hi))) (PF a)) as (b & IB & B). unfold interval in IB. rn. rewrite IB.
      cbn [over under num] in B. destruct (Rlt_dec lo a), (Rlt_dec a hi); destruct b; cbn [bind]; try reflexivity; exfalso; intuition (try congruence; try lra).
    + unfold v_max, v_min. destruct (v_leb (PF hi) (PF a)) eqn:B1; [apply v_leb_iff in B1|apply v_leb_false in B1]; cbn in B1.
      * assert (a = hi) by lra. subst a. rewrite Rmin_left by lra. destruct (v_leb (PF hi) (PF lo)) eqn:B2; [apply v_leb_iff in B2|apply v_leb_false in B2]; cbn in B2.
        -- rewrite Rmax_left by lra. reflexivity.
        -- rewrite Rmax_right by lra. reflexivity.
      * rewrite Rmin_right by lra. destruct (v_leb (PF a) (PF lo)) eqn:B2; [apply v_leb_iff in B2|apply v_leb_false in B2]; cbn in B2.
        -- rewrite Rmax_left by lra. reflexivity.
        -- rewrite Rmax_right by lra. reflexivity.
  - destruct (keep_real v l (mkDC DNone false false) a (PF e) r IV eq_refl W) as [H1 H2]. split; [|exact H2]. cbn [as_num] in H1. rewrite <- H1.
    assert (VT : vs_vtype (rv_state v) = Some VFloat) by (destruct IV as [-> _]; reflexivity).
    unfold apply_delta. cbn [delta_or]. rewrite VT. rewrite (v_true_ne e NZ). unfold eval_delta. cbn [delta_or bind]. rewrite DS, andb_false_r. reflexivity.
Qed.

(** *** What set_delta leaves *)
Definition set_steps (g : fdelta_in R) (scale : bool) (lens : list R) : list R :=
  map (fun len => match g with GList p | GNum p => if scale then p * len else p | _ => 0 end) lens.

Lemma numeric_set keys lens (vds : list (dconf R)) g x (urand scale bound : bool) : NoDup keys -> length lens = length keys ->
  (g = GNum x /\ urand = false \/ g = GList x /\ urand = true) ->
  let l := map (fun z => if urand then DList [PF z] else DScal (PF z)) (set_steps g scale lens) in
  f_set_delta keys (map Some lens) vds g [] scale bound = Ok (mkFC (SDelta l) scale bound [] [], map (fun d => mkDC d false bound) l).
Proof.
  intros ND LL G l.
  assert (E : f_set_delta keys (map Some lens) vds g [] scale bound =
    let! scaled := map_res (fun ikx : nat * (string * R) =>
        let '(i, (k, y)) := ikx in
        let! z := if scale && negb false then let! len := finite (map Some lens) i in Ok (n_mul y len) else Ok y in
        Ok (k, if urand then DList [PF z] else DScal (PF z)))
      (combine (seq 0 (length (map (fun k => (k, x)) keys))) (map (fun k => (k, x)) keys)) in
    let! l := named_tuple keys scaled in
    Ok (mkFC (SDelta l) scale bound [] [], map (fun d => mkDC d false bound) l)) by (destruct G as [[-> ->]|[-> ->]]; reflexivity).
  rewrite E. rewrite map_res_all with (g := fun ikx : nat * (string * R) => (fst (snd ikx), nth (fst ikx) l DNone)).
  - cbn [bind]. assert (M : map (fun ikx : nat * (string * R) => (fst (snd ikx), nth (fst ikx) l DNone))
      (combine (seq 0 (length (map (fun k : string => (k, x)) keys))) (map (fun k : string => (k, x)) keys)) = combine keys l).
    { assert (LK : length l = length keys) by (unfold l, set_steps; rewrite !map_length; exact LL). clear -LK. clearbody l. rewrite map_length.
      assert (GG : forall ks (m pre : list (delta R)), length m = length ks -> map (fun ikx : nat * (string * R) => (fst (snd ikx), nth (fst ikx) (pre ++ m) DNone))
        (combine (seq (length pre) (length ks)) (map (fun k : string => (k, x)) ks)) = combine ks m).
      { induction ks as [|k ks IH]; intros [|d m] pre L; try discriminate; [reflexivity|]. cbn [length seq map combine fst snd]. f_equal.
        - rewrite app_nth2, Nat.sub_diag by lia. reflexivity.
        - specialize (IH m (pre ++ [d])%list). rewrite app_length in IH. cbn [length] in IH. rewrite Nat.add_1_r, <- app_assoc in IH. apply IH. injection L. auto. }
      exact (GG keys l [] LK). }
    rewrite M. assert (LK : length l = length keys) by (unfold l, set_steps; rewrite !map_length; exact LL).
    pose proof (named_tuple_in (combine keys l)) as NT. rewrite zip_keys, zip_vals in NT by exact LK. rewrite (NT ND). reflexivity.
  - intros [i [k y]] I. cbn [bind fst snd negb andb]. pose proof (in_combine_l _ _ _ _ I) as I1. apply in_combine_r in I. apply in_map_iff in I. destruct I as (k' & E' & _). injection E' as <- <-.
    apply in_seq in I1. rewrite map_length in I1. assert (LI : (i < length lens)%nat) by lia.
    destruct (nth_error lens i) as [len|] eqn:EL; [|apply nth_error_None in EL; lia].
    assert (NL : nth i l DNone = if urand then DList [PF (if scale then x * len else x)] else DScal (PF (if scale then x * len else x))).
    { apply nth_error_nth. unfold l, set_steps. rewrite !nth_error_map, EL. cbn [option_map]. destruct G as [[-> ->]|[-> ->]]; reflexivity. }
    rewrite NL. rewrite andb_true_r. destruct scale; [|reflexivity]. unfold finite. rewrite nth_error_map, EL. reflexivity.
Qed.

Section Set_.
Context {F : Fmt R} {TR : Trunc R}.
Variable vs : list (rv R).
Let names := names_of vs.
Let n := length vs.
Hypothesis NE : vs <> [].
Hypothesis ND : NoDup names.
Variables (lens : list R) (vds : list (dconf R)).
Hypothesis LL : length lens = n.
Hypothesis LD : length vds = n.
Hypothesis DN : Forall (fun dc => dc_delta dc = DNone) vds.

Lemma names_n : length names = n.
Proof. unfold names, names_of. apply map_length. Qed.

Definition real_step (v : rv R) (x e y : R) (bound : bool) : Prop :=
  forall dc r, dc_scale dc = false -> apply_delta (rv_state v) None dc true [PF x] (DDelta (PF e)) (Some bound) r = Ok [PF y].
Definition plain_step (v : rv R) (x e y : R) (bound : bool) : Prop :=
  forall dc r, dc_delta dc = DNone -> apply_delta (rv_state v) None dc true [PF x] (DScal (PF e)) (Some bound) r = Ok [PF y].

(** The field's delta gives the numbers, however they are applied. *)
Lemma set_delta_moves g scale bound : moving g ->
  exists c vds', f_set_delta names (map Some lens) vds g [] scale bound = Ok (c, vds') /\
  forall d t st r x y, rf_rvs (sd_rf d) = vs -> fd_keys (rf_fld (sd_rf d)) = names -> fd_varlist (rf_fld (sd_rf d)) = nodes vs ->
  (forall v, In v vs -> vs_vtype (rv_state v) = Some VFloat) ->
  length x = n -> length y = n -> length (set_moves g scale lens r) = n ->
  (forall i v a e b, nth_error vs i = Some v -> nth_error x i = Some a -> nth_error (set_moves g scale lens r) i = Some e -> nth_error y i = Some b ->
     real_step v a e b bound /\ plain_step v a e b bound) ->
  successors (mkChain d t (DeltaSet c vds' (map Some lens)) st) (combine names (map PF x)) r = Ok (combine names (map PF y)).
Proof.
  intros MG.
  assert (NUM : forall x0 urand, (g = GNum x0 /\ urand = false \/ g = GList x0 /\ urand = true) ->
    exists c vds', f_set_delta names (map Some lens) vds g [] scale bound = Ok (c, vds') /\
    forall d t st r x y, rf_rvs (sd_rf d) = vs -> fd_keys (rf_fld (sd_rf d)) = names -> fd_varlist (rf_fld (sd_rf d)) = nodes vs ->
    (forall v, In v vs -> vs_vtype (rv_state v) = Some VFloat) ->
    length x = n -> length y = n -> length (set_moves g scale lens r) = n ->
    (forall i v a e b, nth_error vs i = Some v -> nth_error x i = Some a -> nth_error (set_moves g scale lens r) i = Some e -> nth_error y i = Some b ->
       real_step v a e b bound /\ plain_step v a e b bound) ->
    successors (mkChain d t (DeltaSet c vds' (map Some lens)) st) (combine names (map PF x)) r = Ok (combine names (map PF y))).
  { intros x0 urand G. assert (LN : length lens = length names) by (rewrite names_n; exact LL).
    eexists. eexists. split; [exact (numeric_set names lens vds g x0 urand scale bound ND LN G)|].
    intros d t st r x y K1 K2 K3 RV LX LY LM ST. unfold successors, ch_rvs. cbn [ch_sd ch_delta]. rewrite K1. unfold f_eval_delta. cbn [fc_delta fc_bound]. rewrite K3.
    set (l := map (fun z => if urand then DList [PF z] else DScal (PF z)) (set_steps g scale lens)).
    assert (Ll : length l = n) by (unfold l, set_steps; rewrite !map_length; exact LL).
    assert (ED : map_res (fun ivd : nat * (fvar R * dconf R) => let '(i, (v, dc)) := ivd in eval_delta (fv_state v) None dc DNone (cr_vars r i))
      (combine (seq 0 (length (nodes vs))) (combine (nodes vs) (map (fun d0 => mkDC d0 false bound) l))) = Ok (map (fun e => DDelta (PF e)) (set_moves g scale lens r))).
    { assert (GG : forall us ms j k, length ms = length us ->
        (forall v, In v us -> vs_vtype (rv_state v) = Some VFloat) ->
        map_res (fun ivd : nat * (fvar R * dconf R) => let '(i, (v, dc)) := ivd in eval_delta (fv_state v) None dc DNone (cr_vars r i))
          (combine (seq j (length us)) (combine (map (fun iv => node (fst iv) (snd iv)) (combine (seq k (length us)) us))
             (map (fun d0 => mkDC d0 false bound) (map (fun z => if urand then DList [PF z] else DScal (PF z)) (set_steps g scale ms)))))
        = Ok (map (fun e => DDelta (PF e)) (map (fun il => if urand then (2 * d_unif (cr_vars r (fst il)) 0%nat - 1) * snd il else snd il)
                (combine (seq j (length ms)) (set_steps g scale ms))))).
      { induction us as [|v us IH]; intros [|a ms] j k L RV'; try discriminate; [reflexivity|].
        unfold set_steps. cbn [map length seq combine fst snd map_res]. fold (set_steps g scale ms).
        assert (V : vs_vtype (rv_state v) = Some VFloat) by (apply RV'; left; reflexivity).
        cbn [node fv_state]. rewrite (IH ms (S j) (S k)) by first [intros w Iw; apply RV'; right; exact Iw|injection L; auto].
        unfold eval_delta. cbn [dc_delta dc_scale delta_or]. rewrite V.
        destruct urand; cbn [bind]; rewrite andb_false_r; cbn [bind]; [|reflexivity].
        match goal with |- Ok (DDelta (PF ?a) :: _) = Ok (DDelta (PF ?b) :: _) => replace a with b; [reflexivity|] end. cbn [as_num]. rn. unfold n_opp. rn. ring. }
      unfold l. assert (LNd : length (nodes vs) = length vs) by (unfold nodes; rewrite map_length, combine_length, seq_length; apply Nat.min_id).
      rewrite LNd. unfold nodes. rewrite (GG vs lens 0%nat 0%nat LL RV). f_equal. f_equal.
      unfold set_steps. clear -G. destruct G as [[-> ->]|[-> ->]]; cbn [set_moves].
      - assert (H : forall m j, map (fun il : nat * R => snd il) (combine (seq j (length m)) (map (fun len : R => if scale then x0 * len else x0) m)) =
          map (fun len : R => if scale then x0 * len else x0) m); [|apply H]. induction m as [|a m IH]; intros j; [reflexivity|]. cbn [map length seq combine fst snd]. f_equal. apply (IH (S j)).
      - assert (H : forall m j, map (fun il : nat * R => (2 * d_unif (cr_vars r (fst il)) 0%nat - 1) * snd il)
          (combine (seq j (length m)) (map (fun len : R => if scale then x0 * len else x0) m)) =
          map (fun il : nat * R => (2 * d_unif (cr_vars r (fst il)) 0%nat - 1) * (if scale then x0 * snd il else x0)) (combine (seq j (length m)) m));
          [|apply H]. induction m as [|a m IH]; intros j; [reflexivity|]. cbn [map length seq combine fst snd]. f_equal. apply (IH (S j)). }
    rewrite ED. cbn [bind].
    apply apply_each; [exact ND|rewrite map_length; exact Ll|rewrite map_length; exact LM|rewrite map_length; exact LX|rewrite map_length; exact LY|].
    intros i v dc a dl b I1 I2 I3 I4 I5. rewrite nth_error_map in I2, I3, I4, I5.
    destruct (nth_error x i) as [a'|] eqn:Ia; [|discriminate]. injection I3 as <-.
    destruct (nth_error (set_moves g scale lens r) i) as [e|] eqn:Ie; [|discriminate]. injection I4 as <-.
    destruct (nth_error y i) as [b'|] eqn:Ib; [|discriminate]. injection I5 as <-.
    destruct (nth_error l i) as [d0|]; [|discriminate]. injection I2 as <-.
    apply (proj1 (ST i v a' e b' I1 Ia Ie Ib)). reflexivity. }
  destruct g as [| | |x0|x0|x0]; try contradiction; [apply (NUM x0 false); auto|apply (NUM x0 true); auto|].
  assert (LN : length lens = length names) by (rewrite names_n; exact LL).
  eexists. exists vds. split; [unfold f_set_delta; rewrite spherise_all by auto; cbn [bind]; reflexivity|].
  intros d t st r x y K1 K2 K3 RV LX LY LM ST. unfold successors, ch_rvs. cbn [ch_sd ch_delta]. rewrite K1. unfold f_eval_delta. cbn [fc_delta fc_bound]. rewrite K2.
  assert (N0 : n <> 0%nat) by (unfold n; clear -NE; destruct vs; [congruence|discriminate]).
  assert (NZ : sumsq (cr_sphere r) <> 0).
  { intros Z. cbn [set_moves] in LM. destruct (Req_EM_T _ 0); [|congruence]. cbn in LM. congruence. }
  assert (LU' : length (cr_sphere r) = length lens).
  { cbn [set_moves] in LM. destruct (Req_EM_T _ 0); [cbn in LM; congruence|]. destruct (Nat.eqb_spec (length (cr_sphere r)) (length lens)) as [E|E]; [exact E|]. cbn in LM. congruence. }
  assert (LU : length (cr_sphere r) = length names) by congruence.
  assert (NN : names <> []) by (intros Z; pose proof names_n as E; rewrite Z in E; cbn in E; congruence).
  rewrite spherical_run by (auto; reflexivity). cbn [bind fc_scale].
  assert (EQ : map (fun ul : R * R => let v := fst ul * (if scale then x0 * sqrt (sumsq lens) else x0) / sqrt (sumsq (cr_sphere r)) in if scale then v * snd ul else v)
    (combine (cr_sphere r) lens) = set_moves (GTup x0) scale lens r).
  { cbn [set_moves]. destruct (Req_EM_T _ 0); [congruence|]. rewrite LU', Nat.eqb_refl. cbn [negb]. apply map_ext. intros [a b]. cbn [fst snd]. destruct scale; unfold Rdiv; ring. }
  cbv zeta in EQ. cbv zeta. rewrite EQ.
  apply apply_each; [exact ND|exact LD|rewrite map_length; exact LM|rewrite map_length; exact LX|rewrite map_length; exact LY|].
  intros i v dc a dl b I1 I2 I3 I4 I5. rewrite nth_error_map in I3, I4, I5.
  destruct (nth_error x i) as [a'|] eqn:Ia; [|discriminate]. injection I3 as <-.
  destruct (nth_error (set_moves (GTup x0) scale lens r) i) as [e|] eqn:Ie; [|discriminate]. injection I4 as <-.
  destruct (nth_error y i) as [b'|] eqn:Ib; [|discriminate]. injection I5 as <-.
  apply (proj2 (ST i v a' e b' I1 Ia Ie Ib)). rewrite Forall_forall in DN. apply DN. eapply nth_error_In; exact I2.
Qed.
End Set_.

(** *** The chains *)
Section Laws.
Context {F : Fmt R} {TR : Trunc R}.
Variables (vs : list (rv R)) (vds : list (dconf R)) (start lens : list R).
Let names := names_of vs.
Hypothesis PR : printable F.
Hypothesis NE : vs <> [].
Hypothesis NA : named_apart names.
Hypothesis UP : unprimed names.
Hypothesis SC : scales_ok vs.
Hypothesis LD : length vds = length vs.
Hypothesis DN : Forall (fun dc => dc_delta dc = DNone) vds.
Hypothesis LS : length start = length vs.
Hypothesis LL : length lens = length vs.

Lemma set_law g scale : moving g -> Forall real_rv vs ->
  exists c vds', f_set_delta names (map Some lens) vds g [] scale false = Ok (c, vds') /\
  exists d0, make_sd vs [] None = Ok d0 /\ forall fn h given d t qd,
  elementwise names h fn -> sd_set_prob d0 (Some fn) given = Ok d -> computes names qd (tran_of t) ->
  (forall x, length x = length vs -> scored (spec_of (sd_pscale d)) (h (map PF x))) ->
  let dens x := denote (spec_of (sd_pscale d)) (h (map PF x)) in
  samples_by (set_moves g scale lens) (mkChain d t (DeltaSet c vds' (map Some lens)) (combine names (map PF start))) Metropolis names start
    dens moved (metropolis_rule dens).
Proof.
  intros MG RV. rewrite Forall_forall in RV. destruct (set_delta_moves vs NE (proj1 NA) lens vds LL LD DN g scale false MG) as (c & vds' & ES & HS).
  exists c, vds'. split; [exact ES|].
  destruct (chain_gen vs PR NE NA UP RV SC Metropolis (DeltaSet c vds' (map Some lens)) (set_moves g scale lens) start (fun _ => True) moved LS I) as (d0 & E0 & H).
  - intros d t x r K1 K2 K3 _ LX LR. cbv zeta. assert (LM : length (moved x (set_moves g scale lens r)) = length vs) by (rewrite moved_length; congruence).
    split; [|auto]. apply HS; try assumption; [intros v Iv; apply (RV v Iv)|].
    intros i v a e b I1 I2 I3 I4. unfold moved in I4. apply nth_pair in I4. destruct I4 as (a0 & e0 & J1 & J2 & ->).
    assert (a0 = a) by congruence. assert (e0 = e) by congruence. subst. cbn [fst snd].
    assert (VT : vs_vtype (rv_state v) = Some VFloat) by (apply RV; eapply nth_error_In; exact I1).
    split; [intros dc rr DS; apply add_delta; assumption|intros dc rr DD; apply (add_real (rv_state v) dc a (PF e) rr VT DD)].
  - exists d0. split; [exact E0|]. intros fn h given d t qd EL ESP CO SR. apply (H fn h given d t qd); try assumption.
    + eapply scored_valid, (SR start LS).
    + apply metropolis_rule_for. exact SR.
Qed.

Lemma set_bounded_law g scale lims : moving g -> Forall2 interval_rv vs lims -> within lims start ->
  exists c vds', f_set_delta names (map Some lens) vds g [] scale true = Ok (c, vds') /\
  exists d0, make_sd vs [] None = Ok d0 /\ forall fn h given d t qd,
  elementwise names h fn -> sd_set_prob d0 (Some fn) given = Ok d -> computes names qd (tran_of t) ->
  (forall x, length x = length vs -> scored (spec_of (sd_pscale d)) (h (map PF x))) ->
  let dens x := denote (spec_of (sd_pscale d)) (h (map PF x)) in
  samples_by (set_moves g scale lens) (mkChain d t (DeltaSet c vds' (map Some lens)) (combine names (map PF start))) Metropolis names start
    dens (moved_in lims) (metropolis_rule dens).
Proof.
  intros MG IV W. pose proof (Forall2_len IV) as LI.
  assert (RV : forall v, In v vs -> vs_vtype (rv_state v) = Some VFloat /\ vs_vset (rv_state v) <> None).
  { intros v Iv. apply In_nth_error in Iv. destruct Iv as (i & Iv). destruct (nth_error lims i) as [l|] eqn:Il.
    - destruct (Forall2_nth_both _ _ _ IV i v l Iv Il) as [-> _]. split; [reflexivity|discriminate].
    - apply nth_error_None in Il. assert (i < length vs)%nat by (apply nth_error_Some; congruence). lia. }
  destruct (set_delta_moves vs NE (proj1 NA) lens vds LL LD DN g scale true MG) as (c & vds' & ES & HS).
  exists c, vds'. split; [exact ES|].
  destruct (chain_gen vs PR NE NA UP RV SC Metropolis (DeltaSet c vds' (map Some lens)) (set_moves g scale lens) start (within lims) (moved_in lims) LS W) as (d0 & E0 & H).
  - intros d t x r K1 K2 K3 WX LX LR. cbv zeta.
    assert (LM : length (moved_in lims x (set_moves g scale lens r)) = length vs) by (unfold moved_in; rewrite map_length, !combine_length; lia).
    assert (G : forall i v l a e b, nth_error vs i = Some v -> nth_error lims i = Some l -> nth_error x i = Some a -> nth_error (set_moves g scale lens r) i = Some e ->
      nth_error (moved_in lims x (set_moves g scale lens r)) i = Some b -> interval_rv v l /\ within1 l a /\ b = kept l a (a + e)).
    { intros i v l a e b I1 I2 I3 I4 I5. unfold moved_in in I5. apply nth_pair in I5. destruct I5 as (l0 & [a0 e0] & J1 & J2 & ->).
      assert (l0 = l) by congruence. subst l0. cbn [fst snd]. rewrite <- (map_id (combine x _)) in J2. apply nth_pair in J2.
      destruct J2 as (a1 & e1 & J3 & J4 & EQ). injection EQ as <- <-. assert (a0 = a) by congruence. assert (e0 = e) by congruence. subst.
      split; [eapply Forall2_nth_both; [exact IV|exact I1|exact I2]|]. split; [eapply Forall2_nth_both; [exact WX|exact I2|exact I3]|reflexivity]. }
    split; [|split; [|exact LM]].
    + apply HS; try assumption; [intros v Iv; apply (RV v Iv)|]. intros i v a e b I1 I2 I3 I4.
      destruct (nth_error lims i) as [l|] eqn:Il; [|apply nth_error_None in Il; assert (i < length vs)%nat by (apply nth_error_Some; congruence); lia].
      destruct (G i v l a e b I1 Il I2 I3 I4) as (IR & WA & ->).
      split; [intros dc rr DS; apply (keep_delta v l dc a e rr IR DS WA)|intros dc rr DD; apply (keep_real v l dc a (PF e) rr IR DD WA)].
    + apply Forall2_by_nth; [lia|]. intros i l b Il Ib. assert (B : (i < length lims)%nat) by (apply nth_error_Some; congruence).
      destruct (nth_error vs i) as [v|] eqn:Iv; [|apply nth_error_None in Iv; lia].
      destruct (nth_error x i) as [a|] eqn:Ia; [|apply nth_error_None in Ia; lia].
      destruct (nth_error (set_moves g scale lens r) i) as [e|] eqn:Ie; [|apply nth_error_None in Ie; lia].
      destruct (G i v l a e b Iv Il Ia Ie Ib) as (IR & WA & ->). exact (proj2 (keep_real v l (mkDC DNone false false) a (PF e) (cr_vars r 0) IR eq_refl WA)).
  - exists d0. split; [exact E0|]. intros fn h given d t qd EL ESP CO SR. apply (H fn h given d t qd); try assumption.
    + eapply scored_valid, (SR start LS).
    + apply metropolis_rule_for. exact SR.
Qed.
End Laws.
