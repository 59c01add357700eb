(** Property lemmas and examples about PD.prod. *)
From Coq Require Import Ascii String ZArith Reals Lra Bool Arith Lia Permutation List.
From Verif Require Import Base Num Tensor TensorBcast OdLemmas TensorLemmas RNumLemmas PScales
  PScales_Spec PScales_Proofs PScales_Prod Names Names_Spec Names_Proofs Distr PDModel PD_Spec PD_Make PD_Sums
  PD_Valid PD_Marg PD_Examples PD_Simple_Spec PD_Expect PD_Prod_Spec PD_Prod.
Import ListNotations.
Local Open Scope R_scope.

Lemma same_denote s psc : eval_pscale s = Ok psc -> ~ unit_log s -> ~ unit_log (spec_of psc) ->
  forall x : R, denote (spec_of psc) x = denote s x.
Proof.
  intros E U U' x. destruct (eval_meaning s psc E U) as [H1 H2].
  destruct (eval_meaning (spec_of psc) psc (eval_idem _ _ E) U') as [H3 H4].
  unfold denote. rewrite <- H3, <- H4, H1, H2. reflexivity.
Qed.

Lemma log_offset_scaled re im n : (im = 0 \/ npz <= Rabs im) -> (1 <= n)%nat ->
  log_offset (re * INR n) (im * INR n) = log_offset re im * INR n.
Proof.
  intros H Hn. assert (N1 : 1 <= INR n) by (change 1 with (INR 1); apply le_INR; exact Hn).
  pose proof npz_pos as Z. unfold log_offset. destruct H as [->|H].
  - rewrite Rmult_0_l, Rabs_R0. destruct (Rlt_dec 0 npz); [reflexivity|contradiction].
  - destruct (Rlt_dec (Rabs im) npz); [lra|]. rewrite Rabs_mult, (Rabs_right (INR n)) by lra.
    destruct (Rlt_dec (Rabs im * INR n) npz) as [C|_]; [|ring].
    exfalso. assert (Rabs im * 1 <= Rabs im * INR n) by (apply Rmult_le_compat_l; lra). lra.
Qed.

Section Gen.
Context {F : Fmt R}.

Lemma joint_lin (p : pd R) L keys t a : p_prob p = Some t -> log_kind (spec_of (p_pscale p)) = false ->
  joint_at p L keys a = factor (spec_of (p_pscale p)) ^ repetitions p L keys *
     prod_over (sized p (restrict keys L)) (fun b => get t (map b L)) a.
Proof.
  intros Pt LK. unfold joint_at.
  assert (E : prob_at p L = fun b => prob_at p L b) by reflexivity.
  rewrite (prod_over_rel eq _ (prob_at p L) (fun b => factor (spec_of (p_pscale p)) * get t (map b L)) ) with (a' := a); auto.
  - rewrite prod_over_scal. unfold repetitions, sized. rewrite map_map. reflexivity.
  - intros b b' k i n _ _ ->. reflexivity.
  - intros b b' ->. unfold prob_at. rewrite Pt. unfold denote. rewrite LK. reflexivity.
Qed.

Lemma joint_log (p : pd R) L keys t a : p_prob p = Some t -> log_kind (spec_of (p_pscale p)) = true ->
  joint_at p L keys a = factor (spec_of (p_pscale p)) ^ repetitions p L keys *
     exp (sum_over (sized p (restrict keys L)) (fun b => get t (map b L)) a).
Proof.
  intros Pt LK. unfold joint_at.
  rewrite (prod_over_rel eq _ (prob_at p L) (fun b => factor (spec_of (p_pscale p)) * exp (get t (map b L)))) with (a' := a); auto.
  - rewrite prod_over_scal, exp_sum_over. unfold repetitions, sized. rewrite map_map. reflexivity.
  - intros b b' k i n _ _ ->. reflexivity.
  - intros b b' ->. unfold prob_at. rewrite Pt. unfold denote. rewrite LK. reflexivity.
Qed.

Lemma prod_reduces (p : pd R) (L keys : list string) :
  valid_pd p L -> valid_scale (spec_of (p_pscale p)) -> key_ordered p L ->
  incl keys (od_keys (p_marg p)) -> incl keys L -> (forall k, In k keys -> simple_key k) ->
  steady_scale p (S (repetitions p L keys)) ->
  exists q, pd_prod p keys = Ok q /\ reduced p L keys q /\
    forall a, prob_at q (without keys L) a = factor (spec_of (p_pscale p)) * joint_at p L keys a.
Proof.
  intros V VS KO IM IK SK ST.
  destruct (prod_gen p L V keys IM IK (key_ordered_aligned p L keys KO IK) SK) as
    (q & t & s & psc & E & Vq & Kq & Mq & Cq & Vr & Pt & Pq & Ep & Sq & Gs).
  exists q. split; [exact E|]. split.
  { unfold reduced. split; [exact Vq|]. split; [exact Kq|]. split; [exact Mq|]. split; [exact Cq|]. split.
    - intros k K. rewrite Vr by (apply (vp_incl _ _ V), IK, K). rewrite (proj2 (mem_str_iff k keys) K). reflexivity.
    - intros k K NK. rewrite Vr by exact K. rewrite (proj2 (mem_str_false k keys) NK). reflexivity. }
  intros a. unfold prob_at at 1. rewrite Pq, Sq, Gs.
  pose proof (vp_not_unit_log q _ Vq) as UQ. rewrite Sq in UQ.
  pose proof (vp_not_unit_log p _ V) as UP.
  pose proof (vp_pscale _ _ V) as EP. 
  set (n := repetitions p L keys) in *.
  destruct (p_pscale p) as [c|re im] eqn:PS; cbn [is_log prod_scale] in *.
  - assert (LK : log_kind (spec_of (p_pscale p)) = false).
    { rewrite PS. cbn. destruct (Req_EM_T c 0) as [->|]; [|reflexivity].
      exfalso. exact (eval_nonzero _ EP). }
    rewrite (joint_lin p L keys t a Pt LK). rewrite PS. cbn [spec_of factor].
    rewrite PS in LK. cbn in LK. destruct (Req_EM_T c 0) as [C0|C0]; [discriminate|]. fold n.
    assert (B0 : n_eqb c n0 = false) by (apply not_true_is_false; rewrite Reqb_iff; exact C0).
    rewrite B0 in Ep. cbn [orb] in Ep. destruct (n_eqb c n1) eqn:B1.
    + apply Reqb_iff in B1. change n1 with 1 in B1. subst c.
      rewrite (same_denote _ psc Ep) by (unfold unit_log; discriminate || exact UQ).
      cbn [spec_of]. rewrite denote_one, pow1. ring.
    + rewrite (same_denote _ psc Ep); [|unfold unit_log; discriminate|exact UQ].
      rewrite n_pow_R. change (n_mul c (c ^ n)) with (c * c ^ n). unfold denote. cbn [spec_of factor log_kind].
      assert (CN : c * c ^ n <> 0) by (apply Rmult_integral_contrapositive_currified; [|apply pow_nonzero]; exact C0).
      destruct (Req_EM_T (c * c ^ n) 0); [contradiction|]. ring.
  - assert (LK : log_kind (spec_of (p_pscale p)) = true) by (rewrite PS; reflexivity).
    rewrite (joint_log p L keys t a Pt LK). rewrite PS. cbn [spec_of factor]. fold n.
    destruct (n_eqb re n0 && n_eqb im n0) eqn:B0.
    + apply andb_true_iff in B0. destruct B0 as [B1 B2]. apply Reqb_iff in B1, B2. change n0 with 0 in B1, B2. subst re im.
      rewrite (same_denote _ psc Ep); [|exact UP|exact UQ]. unfold denote. cbn [spec_of factor log_kind].
      assert (O : log_offset 0 0 = 0) by (unfold log_offset; destruct (Rlt_dec _ _); ring). rewrite O, exp_0, pow1. ring.
    + destruct (n_eqb re n1 && n_eqb im n0) eqn:B1.
      { exfalso. apply andb_true_iff in B1. destruct B1 as [B1 B2]. apply Reqb_iff in B1, B2. apply UP. unfold unit_log. rewrite B1, B2. reflexivity. }
      assert (X : forall x : R, n_add x (n_mul x (n_ofZ (Z.of_nat n))) = x * INR (S n)).
      { intros x. rn. change (@n_ofZ R RNum) with IZR. rewrite <- INR_IZR_INZ, S_INR. ring. }
      rewrite !X in Ep. unfold steady_scale in ST. rewrite PS in ST.
      assert (NU : ~ unit_log (PSCplx (re * INR (S n)) (im * INR (S n)))).
      { unfold unit_log. intros C. assert (C1 : re * INR (S n) = 1) by congruence. assert (C2 : im * INR (S n) = 0) by congruence. destruct ST as [[Hi Hr]|Hi]; [contradiction|].
        assert (N1 : 0 < INR (S n)) by (apply lt_0_INR; lia). apply Rmult_integral in C2. destruct C2 as [C2|C2]; [|rewrite C2 in N1; lra]. rewrite C2 in Hi.
        rewrite Rabs_R0 in Hi. pose proof npz_pos. lra. }
      rewrite (same_denote _ psc Ep); [|exact NU|exact UQ]. unfold denote. cbn [spec_of factor log_kind].
      rewrite log_offset_scaled; [|tauto|lia]. rewrite exp_mult_INR. cbn [pow]. ring.
Qed.

(** With a plain scale the reduction is the product. *)
Lemma factor_plain s : plain_scale s -> factor s = 1.
Proof.
  intros [->| ->]; [apply factor_one|]. cbn. unfold log_offset. destruct (Rlt_dec _ _); rewrite ?Ropp_0; apply exp_0.
Qed.

Lemma plain_steady (p : pd R) n : plain_scale (spec_of (p_pscale p)) -> (2 <= n)%nat -> steady_scale p n /\ valid_scale (spec_of (p_pscale p)).
Proof.
  intros P Hn. unfold steady_scale. destruct (p_pscale p) as [c|re im]; cbn [spec_of] in P; destruct P as [P|P]; try discriminate P.
  - split; [exact I|]. injection P as ->. apply valid_one.
  - injection P as -> ->. split; [left; split; [reflexivity|rewrite Rmult_0_l; lra]|split; exact I].
Qed.

Lemma prod_plain (p : pd R) (L keys : list string) :
  valid_pd p L -> plain_scale (spec_of (p_pscale p)) -> key_ordered p L ->
  incl keys (od_keys (p_marg p)) -> incl keys L -> (forall k, In k keys -> simple_key k) ->
  exists q, pd_prod p keys = Ok q /\ reduced p L keys q /\
    forall a, prob_at q (without keys L) a = joint_at p L keys a.
Proof.
  intros V PS KO IM IK SK.
  assert (H : steady_scale p (S (S (repetitions p L keys))) /\ valid_scale (spec_of (p_pscale p))) by (apply plain_steady; [exact PS|lia]).
  destruct H as [_ VS].
  assert (ST : steady_scale p (S (repetitions p L keys))).
  { unfold steady_scale. destruct (p_pscale p) as [c|re im]; [exact I|]. destruct PS as [PS|PS]; [discriminate|]. cbn in PS. injection PS as -> ->.
    left. split; [reflexivity|]. rewrite Rmult_0_l. lra. }
  destruct (prod_reduces p L keys V VS KO IM IK SK ST) as (q & E & RD & P). exists q. split; [exact E|]. split; [exact RD|].
  intros a. rewrite P, (factor_plain _ PS). ring.
Qed.

(** It is the product only where the scale has factor one or the product vanishes. *)
Lemma prod_iff (p : pd R) (L keys : list string) (q : pd R) a :
  valid_pd p L -> valid_scale (spec_of (p_pscale p)) -> key_ordered p L ->
  incl keys (od_keys (p_marg p)) -> incl keys L -> (forall k, In k keys -> simple_key k) ->
  steady_scale p (S (repetitions p L keys)) -> pd_prod p keys = Ok q ->
  (prob_at q (without keys L) a = joint_at p L keys a <-> factor (spec_of (p_pscale p)) = 1 \/ joint_at p L keys a = 0).
Proof.
  intros V VS KO IM IK SK ST E. destruct (prod_reduces p L keys V VS KO IM IK SK ST) as (q' & E' & _ & P).
  assert (q' = q) by congruence. subst q'. rewrite P. split.
  - intros H. destruct (Req_EM_T (joint_at p L keys a) 0) as [Z|Z]; [auto|]. left.
    apply (Rmult_eq_reg_r (joint_at p L keys a)); [|exact Z]. rewrite H. ring.
  - intros [-> | ->]; ring.
Qed.

(** A log scale whose offset, multiplied by the repetitions plus one, is exactly one:
    the log probabilities come out as if they were probabilities. *)
Lemma prod_collapse (p : pd R) (L keys : list string) re :
  valid_pd p L -> p_pscale p = Log re 0 -> re * INR (S (repetitions p L keys)) = 1 -> key_ordered p L ->
  incl keys (od_keys (p_marg p)) -> incl keys L -> (forall k, In k keys -> simple_key k) ->
  exists q, pd_prod p keys = Ok q /\ reduced p L keys q /\ p_pscale q = Lin 1 /\
    forall a, prob_at q (without keys L) a = ln (joint_at p L keys a) - re * INR (repetitions p L keys).
Proof.
  intros V PS RE KO IM IK SK.
  destruct (prod_gen p L V keys IM IK (key_ordered_aligned p L keys KO IK) SK) as
    (q & t & s & psc & E & Vq & Kq & Mq & Cq & Vr & Pt & Pq & Ep & Sq & Gs).
  pose proof (vp_not_unit_log p _ V) as UP. 
  set (n := repetitions p L keys) in *.
  assert (P1 : psc = Lin 1).
  { rewrite PS in Ep. cbn [prod_scale] in Ep.
    destruct (n_eqb re n0 && n_eqb 0 n0) eqn:B0.
    { apply andb_true_iff in B0. destruct B0 as [B0 _]. apply Reqb_iff in B0. change n0 with 0 in B0. subst re. rewrite Rmult_0_l in RE. lra. }
    destruct (n_eqb re n1 && n_eqb 0 n0) eqn:B1.
    { exfalso. apply andb_true_iff in B1. destruct B1 as [B1 _]. apply Reqb_iff in B1. change n1 with 1 in B1. subst re. apply UP. rewrite PS. reflexivity. }
    assert (X : forall x : R, n_add x (n_mul x (n_ofZ (Z.of_nat n))) = x * INR (S n)).
    { intros x. rn. change (@n_ofZ R RNum) with IZR. rewrite <- INR_IZR_INZ, S_INR. ring. }
    rewrite !X in Ep. rewrite RE, Rmult_0_l in Ep. cbn [spec_of eval_pscale] in Ep.
    change (@n1 R RNum) with 1 in Ep. change (@n0 R RNum) with 0 in Ep. rewrite !Reqb_refl in Ep. cbn in Ep. injection Ep as <-. reflexivity. }
  exists q. split; [exact E|]. split.
  { unfold reduced. split; [exact Vq|]. split; [exact Kq|]. split; [exact Mq|]. split; [exact Cq|]. split.
    - intros k K. rewrite Vr by (apply (vp_incl _ _ V), IK, K). rewrite (proj2 (mem_str_iff k keys) K). reflexivity.
    - intros k K NK. rewrite Vr by exact K. rewrite (proj2 (mem_str_false k keys) NK). reflexivity. }
  split; [congruence|]. intros a. unfold prob_at at 1. rewrite Pq, Sq, P1, Gs. cbn [spec_of]. rewrite denote_one.
  assert (LK : log_kind (spec_of (p_pscale p)) = true) by (rewrite PS; reflexivity).
  rewrite (joint_log p L keys t a Pt LK). rewrite PS. cbn [is_log spec_of factor]. fold n.
  assert (O : log_offset re 0 = re) by (unfold log_offset; rewrite Rabs_R0; destruct (Rlt_dec 0 npz) as [_|C]; [reflexivity|pose proof npz_pos; lra]).
  rewrite O, <- exp_mult_INR, <- exp_plus, ln_exp. ring.
Qed.

(** Scalars cannot be reduced. *)
Lemma fold_res_raises {A St} (f : St -> A -> result St) e l :
  (forall s a, In a l -> (exists s', f s a = Ok s') \/ f s a = Err e) ->
  (exists a, In a l /\ forall s, f s a = Err e) -> forall s, fold_res f l s = Err e.
Proof.
  induction l as [|a l IH]; intros H (x & I & X) s; [destruct I|]. cbn [fold_res].
  destruct (H s a) as [(s' & E)|E]; [left; reflexivity| |].
  - rewrite E. cbn [bind]. apply IH.
    + intros s0 a0 I0. apply H. right. exact I0.
    + exists x. split; [|exact X]. destruct I as [->|I]; [|exact I]. rewrite X in E. discriminate.
  - rewrite E. reflexivity.
Qed.

Lemma prod_scalar_raises (p : pd R) (L keys : list string) k :
  valid_pd p L -> incl keys (od_keys (p_marg p)) -> In k keys -> ~ In k L -> pd_prod p keys = Err AssertionError.
Proof.
  intros V IM K NL. unfold pd_prod, keys_marginal.
  assert (KM : forallb (fun k => od_mem (p_marg p) k) keys = true).
  { apply forallb_forall. intros x Hx. apply od_mem_iff. auto. }
  rewrite KM. cbn [assert_ bind]. rewrite (fold_res_raises (prod_step p keys) AssertionError); [reflexivity| |].
  - intros s [[k' v] sg] I. destruct (vp_in_items p L V k' v sg I) as (G & Sg & Kk). unfold prod_step.
    destruct (mem_str k' keys) eqn:M.
    + destruct sg; cbn [negb assert_ bind]; [right; reflexivity|]. left. symmetry in Sg. apply negb_false_iff in Sg.
      rewrite (vp_dim p L V k' Kk), Sg. cbn [bind]. apply mem_str_iff in Sg. destruct (vp_axis p L V k' Sg) as (a & Ga & _).
      assert (v = VArr a) by congruence. subst v. eauto.
    + left. destruct sg; cbn [bind]; [eauto|]. symmetry in Sg. apply negb_false_iff in Sg.
      rewrite (vp_dim p L V k' Kk), Sg. cbn [bind]. eauto.
  - assert (Kk : In k (p_keylist p)) by (apply (vp_key_iff p L V); auto).
    destruct (od_key_get (p_vals p) k Kk) as (v & G). exists (k, v, true). split.
    + rewrite (vp_items p L V). apply in_map_iff. exists (k, v). split; [|apply od_get_in, G]. cbn [snd].
      rewrite (proj2 (vp_sing p L V k v G) NL). reflexivity.
    + intros s. unfold prod_step. rewrite (proj2 (mem_str_iff k keys) K). reflexivity.
Qed.
End Gen.

(** *** examples *)
Section Ex.
Let F : Fmt R := fmt_ex.
Existing Instance F.

(** p(x,y) = 1/6 for 2 values of x and 3 of y, under the scale 2 (held as 1/12) and
    under the log offset 1/3 (held as 0). *)
Definition scl_vals : odict (value R) := [("x", VArr (of_list 0 [1; 2])); ("y", VArr (of_list 0 [1; 2; 3]))]%string.
Definition scl_make (c : R) (ps : pspec R) := make_pd "x,y" scl_vals (Some [("x", Some 0%Z); ("y", Some 1%Z)]%string)
  (Some (mkT [2; 3]%nat (fun _ => c))) ps.

Lemma scl_ok c ps psc : eval_pscale ps = Ok psc -> exists p, scl_make c ps = Ok p /\ valid_pd p ["x"; "y"]%string /\
  p_keylist p = ["x"; "y"]%string /\ od_keys (p_marg p) = ["x"; "y"]%string /\ p_pscale p = psc /\
  p_prob p = Some (mkT [2; 3]%nat (fun _ => c)) /\ variable p "x" = Some (Col [1; 2]) /\ variable p "y" = Some (Col [1; 2; 3]).
Proof.
  intros EV.
  destruct (@make_pd_ok F scl_vals [("x", Some 0%Z); ("y", Some 1%Z)]%string ["x"; "y"]%string
              [("x", "x"); ("y", "y")]%string []
              (mkT [2; 3]%nat (fun _ => c)) ps psc) as (q & E & V & K & M & C & P & Sq & Vr).
  - repeat constructor; cbn; intuition discriminate.
  - discriminate.
  - cbn. intros k Hk. intuition (subst; discriminate).
  - repeat constructor; cbn; intuition discriminate.
  - intros k Hk. cbn in *. tauto.
  - intros k v G Hk.
    assert (Hin : In k (od_keys scl_vals)) by (eapply od_get_some_key; eauto).
    cbn in Hin, Hk. tauto.
  - intros [|[|j]] k Hj; cbn in Hj; inversion Hj; subst; try (destruct j; discriminate);
    (eexists; split; [reflexivity|]; cbn; repeat split; auto; try discriminate; lia).
  - intros k Hk. cbn in *. tauto.
  - repeat constructor; cbn; intuition discriminate.
  - reflexivity.
  - apply good_keyed. reflexivity.
  - apply good_keyed. reflexivity.
  - cbn. repeat constructor.
  - exact EV.
  - apply (eval_idem _ _ EV).
  - exists q. split; [exact E|]. split; [exact V|]. split; [exact K|]. rewrite M.
    repeat (split; [reflexivity || assumption|]). rewrite !Vr. cbn. repeat split; reflexivity.
Qed.

Lemma simple_x : simple_key "x".
Proof.
  split.
  - apply good_entryb_ok. reflexivity.
  - intros [C|[]]. discriminate.
Qed.

Lemma ex_prod_plain : exists p, ex_make = Ok p /\ let L := ["x"; "y"; "z"]%string in let keys := ["x"]%string in
  valid_pd p L /\ plain_scale (spec_of (p_pscale p)) /\ key_ordered p L /\ incl keys (od_keys (p_marg p)) /\ incl keys L /\
  (forall k, In k keys -> simple_key k) /\ repetitions p L keys = 2%nat /\ forall a, joint_at p L keys a = / 36.
Proof.
  destruct ex_ok as (p & E & V & K & M & C & P & S & Vx & Vy & Vz & Vw). exists p. split; [exact E|].
  assert (PB : forall b, prob_at p ["x"; "y"; "z"]%string b = / 6).
  { intros b. unfold prob_at. rewrite P, S. cbn [spec_of]. rewrite denote_one. reflexivity. }
  assert (Zx : size_of p "x" = 2%nat) by (unfold size_of; rewrite Vx; reflexivity).
  cbv zeta. split; [exact V|]. split; [rewrite S; left; reflexivity|]. split; [unfold key_ordered; rewrite K; reflexivity|].
  split; [rewrite M; intros k Hk; cbn in *; tauto|]. split; [intros k Hk; cbn in *; tauto|].
  split; [intros k [<-|[]]; exact simple_x|]. unfold repetitions, joint_at, sized. cbn -[size_of prob_at].
  rewrite Zx. split; [reflexivity|]. intros a. cbn [prod_over prod_n]. rewrite !PB. lra.
Qed.

Lemma ex_prod_scaled : exists p, scl_make (/ 12) (PSFloat 2) = Ok p /\ let L := ["x"; "y"]%string in let keys := ["x"]%string in
  valid_pd p L /\ valid_scale (spec_of (p_pscale p)) /\ key_ordered p L /\ incl keys (od_keys (p_marg p)) /\ incl keys L /\
  (forall k, In k keys -> simple_key k) /\ repetitions p L keys = 2%nat /\ steady_scale p 3 /\
  factor (spec_of (p_pscale p)) = 2 /\ forall a, joint_at p L keys a = / 36.
Proof.
  assert (EV : eval_pscale (PSFloat 2) = Ok (Lin 2)).
  { cbn. assert (H1 : n_eqb 2 n1 = false) by (apply not_true_is_false; rewrite Reqb_iff; change n1 with 1; lra).
    assert (H0 : n_eqb 2 n0 = false) by (apply not_true_is_false; rewrite Reqb_iff; change n0 with 0; lra). rewrite H1, H0. reflexivity. }
  destruct (scl_ok (/ 12) _ _ EV) as (p & E & V & K & M & S & P & Vx & Vy). exists p. split; [exact E|].
  assert (F2 : factor (PSFloat 2) = 2) by (cbn; destruct (Req_EM_T 2 0); [lra|reflexivity]).
  assert (PB : forall b, prob_at p ["x"; "y"]%string b = / 6).
  { intros b. unfold prob_at. rewrite P, S. cbn [spec_of]. unfold denote. rewrite F2. cbn [log_kind]. destruct (Req_EM_T 2 0); [lra|]. cbn [get]. lra. }
  assert (Zx : size_of p "x" = 2%nat) by (unfold size_of; rewrite Vx; reflexivity).
  cbv zeta. split; [exact V|]. rewrite S. cbn [spec_of]. split; [split; [exact I|cbn; lra]|]. split; [unfold key_ordered; rewrite K; reflexivity|].
  split; [rewrite M; intros k Hk; cbn in *; tauto|]. split; [intros k Hk; cbn in *; tauto|].
  split; [intros k [<-|[]]; exact simple_x|]. unfold repetitions, joint_at, sized. cbn -[size_of prob_at factor].
  rewrite Zx. split; [reflexivity|]. split; [unfold steady_scale; rewrite S; exact I|]. split; [exact F2|].
  intros a. cbn [prod_over prod_n]. rewrite !PB. lra.
Qed.

Lemma ex_prod_collapse : exists p, scl_make 0 (PSCplx (/ 3) 0) = Ok p /\ let L := ["x"; "y"]%string in let keys := ["x"]%string in
  valid_pd p L /\ p_pscale p = Log (/ 3) 0 /\ / 3 * INR (S (repetitions p L keys)) = 1 /\ key_ordered p L /\ incl keys (od_keys (p_marg p)) /\ incl keys L /\
  (forall k, In k keys -> simple_key k).
Proof.
  assert (EV : eval_pscale (PSCplx (/ 3) 0) = Ok (Log (/ 3) 0)).
  { cbn. assert (H1 : n_eqb (/ 3) n1 = false) by (apply not_true_is_false; rewrite Reqb_iff; change n1 with 1; lra).
    assert (H0 : n_eqb (/ 3) n0 = false) by (apply not_true_is_false; rewrite Reqb_iff; change n0 with 0; lra). rewrite H1, H0. reflexivity. }
  destruct (scl_ok 0 _ _ EV) as (p & E & V & K & M & S & P & Vx & Vy). exists p. split; [exact E|].
  assert (Zx : size_of p "x" = 2%nat) by (unfold size_of; rewrite Vx; reflexivity).
  cbv zeta. split; [exact V|]. split; [exact S|]. split.
  { unfold repetitions. cbn -[size_of INR]. rewrite Zx. cbn -[INR]. cbn. lra. }
  split; [unfold key_ordered; rewrite K; reflexivity|].
  split; [rewrite M; intros k Hk; cbn in *; tauto|]. split; [intros k Hk; cbn in *; tauto|].
  intros k [<-|[]]; exact simple_x.
Qed.

Lemma ex_prod_scalar : exists p, ex_make = Ok p /\ valid_pd p ["x"; "y"; "z"]%string /\ incl ["x"; "w"]%string (od_keys (p_marg p)) /\
  ~ In "w"%string ["x"; "y"; "z"]%string.
Proof.
  destruct ex_ok as (p & E & V & K & M & _). exists p. split; [exact E|]. split; [exact V|]. rewrite M.
  split; [intros k Hk; cbn in *; tauto|]. cbn. intuition discriminate.
Qed.
End Ex.
