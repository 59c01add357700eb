(** Variables with transformations: what they are is determined by what was asked. *)
From Coq Require Import String ZArith Reals Bool Arith List Lra Lia.
From Verif Require Import Base Num RNumLemmas Tensor PScales PScales_Spec PScales_Proofs Distr Likelihoods Lik_Slice VariableModel Var_Spec
  RVModel RV_Spec RV_Proofs DistModel TransModel Trans_Spec.
Import ListNotations.
Local Open Scope R_scope.

Definition lims_of (s : settings) : atom R * atom R :=
  let u := option_map (@tr_u R) (st_u s) in
  if st_no s then (atom_of (st_e0 s), atom_of (st_e1 s)) else (u_image u (atom_of (st_e0 s)), u_image u (atom_of (st_e1 s))).
Definition len_of (s : settings) : option R :=
  let u := option_map (@tr_u R) (st_u s) in span (u_image u (atom_of (st_e0 s))) (u_image u (atom_of (st_e1 s))).

(** The probability that was given, or the default one. *)
Definition prob_is (s : settings) (ps : pscale R) (p : tprob R) : Prop :=
  match st_given s with
  | Some f => p = TPFun f
  | None => exists x, prob_of_length (len_of s) ps = Ok x /\
      match st_u s, st_no s with
      | Some t, true => exists d, tr_der t = Some d /\
          p = TPFun (fun y => if is_log ps then n_add x (n_ln (d y)) else n_mul x (d y))
      | _, _ => p = TPScalar x
      end
  end.

Record agrees (name : string) (ps : pscale R) (s : settings) (w : trv R) : Prop := {
  ag_name : tv_name w = name;
  ag_e0 : tv_e0 w = st_e0 s;
  ag_e1 : tv_e1 w = st_e1 s;
  ag_u : tv_ufun w = st_u s;
  ag_no : tv_no w = st_no s;
  ag_lims : tv_ulims w = lims_of s;
  ag_len : tv_nlen w = len_of s;
  ag_ps : tv_pscale w = ps;
  ag_has : tv_has w = true;
  ag_prob : prob_is s ps (tv_prob w);
  ag_def : tv_def w = match st_given s with None => true | _ => false end;
  ag_pfun : tv_pfun w = st_pfun s
}.

Lemma default_agrees name ps s v w :
  tv_name v = name -> tv_e0 v = st_e0 s -> tv_e1 v = st_e1 s -> tv_ufun v = st_u s -> tv_no v = st_no s ->
  tv_ulims v = lims_of s -> tv_nlen v = len_of s -> tv_pscale v = ps -> tv_pfun v = st_pfun s ->
  tv_has v && negb (tv_def v) = false -> st_given s = None ->
  t_default v = (w, None) -> agrees name ps s w.
Proof.
  intros Hn H0 H1 Hu Hno Hl Hlen Hps Hpf Hd Hg H. unfold t_default in H. rewrite Hd in H.
  rewrite Hlen, Hps in H. destruct (prob_of_length (len_of s) ps) as [x|e] eqn:X; [|discriminate].
  rewrite Hu, Hno in H.
  destruct (st_u s) as [t|] eqn:U; [destruct (st_no s) eqn:No; [destruct (tr_der t) as [d|] eqn:D; [|discriminate]|]|];
    injection H as <-; constructor; cbn; auto; rewrite ?Hg; auto; try congruence;
    unfold prob_is; rewrite Hg, U, ?No; exists x; split; auto.
  exists d. split; auto.
Qed.

Lemma new_agrees name ps e0 e1 f v : new_trv name e0 e1 ps f = (v, None) ->
  agrees name ps (mkSettings e0 e1 None false f None) v.
Proof.
  unfold new_trv, set_prob. destruct f as [f|].
  - intros H. injection H as <-. constructor; cbn; auto; unfold prob_is; reflexivity.
  - intros H. eapply default_agrees; [..|exact H]; reflexivity.
Qed.

Lemma call_agrees name ps s v w c : agrees name ps s v -> keeps c -> do_call v c = (w, None) ->
  agrees name ps (ask s c) w.
Proof.
  intros [Hn H0 H1 Hu Hno Hl Hlen Hps Hh Hp Hd Hpf] K H. destruct c as [u no|p|e0 e1|f|f p]; cbn [do_call ask] in *.
  - destruct u as [t|]; [|exfalso; apply (K no); reflexivity].
    unfold set_ufun in H.
    destruct (no && match tr_der t with None => true | _ => false end); [discriminate|].
    set (v2 := eval_ulims (with_ufun v (Some t) no)) in *.
    destruct (t_default v2) as [v3 e] eqn:D. destruct e as [e|]; [discriminate|].
    destruct (tv_pfun v3) eqn:P3; [discriminate|]. injection H as <-.
    set (s' := mkSettings (st_e0 s) (st_e1 s) (Some t) no (st_given s) (st_pfun s)).
    assert (L : tv_ulims v2 = lims_of s') by (unfold v2, s', eval_ulims, lims_of; cbn; rewrite H0, H1; reflexivity).
    assert (L' : tv_nlen v2 = len_of s') by (unfold v2, s', eval_ulims, len_of; cbn; rewrite H0, H1; reflexivity).
    destruct (st_given s) as [f|] eqn:G.
    + unfold t_default in D.
      assert (E : tv_has v2 && negb (tv_def v2) = true) by (unfold v2; cbn; rewrite Hh, Hd; reflexivity).
      rewrite E in D. injection D as <-. constructor; auto; try (unfold v2; cbn; auto; fail).
      unfold prob_is in *. rewrite G in Hp. unfold s'. cbn. exact Hp.
    + eapply default_agrees; [..|exact D]; auto; try (unfold v2; cbn; auto; fail).
      unfold v2; cbn. rewrite Hh, Hd. reflexivity.
  - unfold set_pfun in H. cbn in H. rewrite Hu in H.
    assert (E : w = with_pfun v p) by (destruct (st_u s), p; inversion H; reflexivity). subst w.
    constructor; cbn; auto.
  - unfold set_vset in H. set (v2 := eval_ulims (with_vset v e0 e1)) in *.
    set (s' := mkSettings e0 e1 (st_u s) (st_no s) (st_given s) (st_pfun s)).
    assert (L : tv_ulims v2 = lims_of s') by (unfold v2, s', eval_ulims, lims_of; cbn; rewrite Hu, Hno; reflexivity).
    assert (L' : tv_nlen v2 = len_of s') by (unfold v2, s', eval_ulims, len_of; cbn; rewrite Hu; reflexivity).
    assert (D2 : tv_def v2 = tv_def v) by reflexivity. rewrite D2, Hd in H.
    destruct (st_given s) as [f|] eqn:G.
    + injection H as <-. constructor; auto; try (unfold v2; cbn; auto; fail).
      unfold prob_is in *. rewrite G in Hp. unfold s'. cbn. exact Hp.
    + eapply default_agrees; [..|exact H]; auto; try (unfold v2; cbn; auto; fail).
  - unfold set_prob in H. destruct f as [f|].
    + injection H as <-. constructor; cbn; auto; unfold prob_is; reflexivity.
    + eapply default_agrees; [..|exact H]; auto; cbn; auto.
  - unfold set_dist, set_pfun in H. cbn in H. rewrite Hu in H. destruct (st_u s) eqn:U; [discriminate|].
    injection H as <-. unfold lims_of in Hl. unfold len_of in Hlen.
    constructor; cbn; auto; try congruence; unfold lims_of, len_of, prob_is; cbn; rewrite ?U in *; auto.
Qed.

Lemma made_agrees name ps s w : made name ps s w -> agrees name ps s w.
Proof.
  intros (e0 & e1 & f & h & v & HN & A & K & ->). unfold asked_for.
  pose proof (new_agrees _ _ _ _ _ _ HN) as AG. clear HN.
  revert K AG. generalize (mkSettings e0 e1 None false f None). induction A as [v|v v' w c h H A IH]; intros s K AG; auto.
  cbn [fold_left]. inversion K; subst. apply IH; auto. eapply call_agrees; eauto.
Qed.

(** C201 *)
Lemma agrees_same name ps s v w : agrees name ps s v -> agrees name ps s w -> v = w.
Proof.
  intros [A1 A2 A3 A4 A5 A6 A7 A8 A9 AP A10 A11] [B1 B2 B3 B4 B5 B6 B7 B8 B9 BP B10 B11].
  destruct v, w. cbn in *. subst. f_equal.
  unfold prob_is in *. destruct (st_given s); [congruence|].
  destruct AP as (x & X & P), BP as (y & Y & Q). rewrite X in Y. injection Y as <-.
  destruct (st_u s); [destruct (st_no s)|]; try congruence.
  destruct P as (d & D & ->), Q as (d' & D' & ->). rewrite D in D'. injection D' as <-. reflexivity.
Qed.

Lemma order_free name ps s v w : made name ps s v -> made name ps s w ->
  (forall a r, tv_evaluate v a r = tv_evaluate w a r) /\ (forall vals, tv_eval_prob v vals = tv_eval_prob w vals).
Proof.
  intros A B. rewrite (agrees_same _ _ _ _ _ (made_agrees _ _ _ _ A) (made_agrees _ _ _ _ B)). auto.
Qed.
