(** Removing transformations, and refused calls. *)
From Coq Require Import String ZArith Reals Bool Arith List Lra Lia.
From Verif Require Import Base Num RNumLemmas Tensor PScales PScales_Spec PScales_Proofs Distr Likelihoods Lik_Slice VariableModel Var_Spec Var_Proofs
  RVModel RV_Spec RV_Proofs DistModel TransModel Trans_Spec Trans_Proofs Trans_Values.
Import ListNotations.
Local Open Scope R_scope.

(** C205 *)
Lemma removed name ps s w t a b no n r :
  made name ps s w -> st_pfun s = None -> st_u s = Some t -> st_no s = false -> between_limits s a b ->
  exists w', do_call w (SetUfun None no) = (w', None) /\ (forall vals, tv_eval_prob w' vals = tv_eval_prob w vals) /\
  exists o, tv_evaluate w' (VSet n) r = Ok o /\ length (answer o) = Nat.max 1 (Z.abs_nat n) /\
    forall i, (i < length (answer o))%nat ->
      nth_error (answer o) i = Some (PF (u_fwd (tr_u t) a + (u_fwd (tr_u t) b - u_fwd (tr_u t) a) *
                                            place n (is_tup (st_e0 s)) (is_tup (st_e1 s)) r i)).
Proof.
  intros M HP Hu Hn B. pose proof (made_agrees _ _ _ _ M) as AG.
  destruct (lims_trans s a b B t Hu Hn) as (lo & hi & E & Lo & Hi).
  eexists. split; [reflexivity|]. split; [reflexivity|].
  eexists. split.
  { unfold tv_evaluate. cbn [with_ufun with_pfun tv_pfun tv_ulims tv_ufun tv_no tv_e0 tv_e1]. rewrite (ag_pfun _ _ _ _ AG), HP, (ag_lims _ _ _ _ AG), E, (ag_e0 _ _ _ _ AG), (ag_e1 _ _ _ _ AG). reflexivity. }
  rewrite Lo, Hi, uniform_places. rewrite map_length, seq_length. split; auto. intros i I.
  rewrite nth_error_map, (nth_error_nth' _ 0%nat) by (rewrite seq_length; auto). rewrite seq_nth by auto. reflexivity.
Qed.

(** Assigning the set after removing makes it as if never transformed. *)
Lemma repaired name ps s w no e0 e1 v w1 w2 :
  made name ps s w -> st_pfun s = None -> st_given s = None ->
  new_trv name e0 e1 ps None = (v, None) ->
  do_call w (SetUfun None no) = (w1, None) -> do_call w1 (SetVset e0 e1) = (w2, None) ->
  (forall a r, tv_evaluate w2 a r = tv_evaluate v a r) /\ (forall vals, tv_eval_prob w2 vals = tv_eval_prob v vals).
Proof.
  intros M HP G HN C1 C2. pose proof (made_agrees _ _ _ _ M) as AG. pose proof (new_agrees _ _ _ _ _ _ HN) as AV.
  cbn in C1. injection C1 as <-. cbn [do_call] in C2. unfold set_vset in C2.
  set (w1 := eval_ulims _) in C2.
  assert (D : tv_def w1 = true) by (unfold w1; cbn; rewrite (ag_def _ _ _ _ AG), G; reflexivity).
  rewrite D in C2. unfold t_default in C2. cbn [with_prob tv_has tv_def andb tv_nlen tv_pscale tv_ufun tv_no] in C2.
  assert (Ps : tv_pscale w1 = ps) by (unfold w1; cbn; apply (ag_ps _ _ _ _ AG)).
  assert (Le : tv_nlen w1 = span (atom_of e0) (atom_of e1)) by reflexivity.
  assert (U1 : tv_ufun w1 = None) by reflexivity.
  rewrite Ps, Le, U1 in C2. destruct (prob_of_length (span (atom_of e0) (atom_of e1)) ps) as [x|] eqn:X; [|discriminate].
  injection C2 as <-.
  pose proof (ag_prob _ _ _ _ AV) as PV. unfold prob_is in PV. cbn in PV. destruct PV as (x' & X' & PV).
  change (len_of _) with (span (atom_of e0) (atom_of e1)) in X'. rewrite X in X'. injection X' as <-.
  split; intros.
  - unfold tv_evaluate. cbn [with_prob tv_pfun tv_ulims tv_ufun tv_no tv_e0 tv_e1].
    rewrite (ag_pfun _ _ _ _ AV), (ag_lims _ _ _ _ AV), (ag_e0 _ _ _ _ AV), (ag_e1 _ _ _ _ AV), (ag_u _ _ _ _ AV). 
    assert (P1 : tv_pfun w1 = None) by (unfold w1; cbn; rewrite (ag_pfun _ _ _ _ AG); auto).
    assert (L1 : tv_ulims w1 = (atom_of e0, atom_of e1)) by (unfold w1; cbn; destruct (tv_no w); reflexivity).
    rewrite P1, L1, U1. reflexivity.
  - unfold tv_eval_prob. cbn [with_prob tv_prob tv_has tv_e0 tv_e1 tv_pscale].
    rewrite PV, (ag_has _ _ _ _ AV), (ag_e0 _ _ _ _ AV), (ag_e1 _ _ _ _ AV), (ag_ps _ _ _ _ AV), Ps. reflexivity.
Qed.

(** C206: refused calls *)
Lemma pfun_refused name ps s w t p a b n r :
  made name ps s w -> st_u s = Some t -> st_no s = false -> between_limits s a b ->
  exists w', do_call w (SetPfun (Some p)) = (w', Some AssertionError) /\
  exists o, tv_evaluate w' (VSet n) r = Ok o /\ length (answer o) = Nat.max 1 (Z.abs_nat n) /\
    forall i, (i < length (answer o))%nat ->
      nth_error (answer o) i = Some (PF (pf_icdf p (pf_cdf p (u_fwd (tr_u t) a) +
        (pf_cdf p (u_fwd (tr_u t) b) - pf_cdf p (u_fwd (tr_u t) a)) * place n (is_tup (st_e0 s)) (is_tup (st_e1 s)) r i))).
Proof.
  intros M Hu Hn B. pose proof (made_agrees _ _ _ _ M) as AG.
  destruct (lims_trans s a b B t Hu Hn) as (lo & hi & E & Lo & Hi).
  eexists. split; [cbn; unfold set_pfun; cbn; rewrite (ag_u _ _ _ _ AG), Hu; reflexivity|].
  eexists. split.
  { unfold tv_evaluate. cbn [with_ufun with_pfun tv_pfun tv_ulims tv_ufun tv_no tv_e0 tv_e1]. rewrite (ag_lims _ _ _ _ AG), E, (ag_e0 _ _ _ _ AG), (ag_e1 _ _ _ _ AG). reflexivity. }
  rewrite Lo, Hi, uniform_places. rewrite map_length, seq_length. split; auto. intros i I.
  rewrite nth_error_map, (nth_error_nth' _ 0%nat) by (rewrite seq_length; auto). rewrite seq_nth by auto. reflexivity.
Qed.

(** The same object results from a refused set_ufun as from set_pfun refused. *)
Lemma ufun_refused name ps s w t no p :
  made name ps s w -> st_pfun s = Some p -> (no = true -> tr_der t <> None) ->
  (st_given s = None -> exists x, prob_of_length (len_of (ask s (SetUfun (Some t) no))) ps = Ok x) ->
  exists w', do_call w (SetUfun (Some t) no) = (w', Some AssertionError) /\ agrees name ps (ask s (SetUfun (Some t) no)) w'.
Proof.
  intros M HP Dr PL. pose proof (made_agrees _ _ _ _ M) as [Hn H0 H1 Hu Hno Hl Hlen Hps Hh Hp Hd Hpf].
  cbn [do_call]. unfold set_ufun.
  assert (E : no && match tr_der t with None => true | _ => false end = false).
  { destruct no; auto. destruct (tr_der t); auto. exfalso. apply Dr; auto. }
  rewrite E. set (v2 := eval_ulims (with_ufun w (Some t) no)).
  set (s' := ask s (SetUfun (Some t) no)) in *.
  assert (L : tv_ulims v2 = lims_of s') by (unfold v2, s', eval_ulims, lims_of; cbn; rewrite H0, H1; reflexivity).
  assert (L' : tv_nlen v2 = len_of s') by (unfold v2, s', eval_ulims, len_of; cbn; rewrite H0, H1; reflexivity).
  destruct (st_given s) as [f|] eqn:G.
  - unfold t_default. assert (E2 : tv_has v2 && negb (tv_def v2) = true) by (unfold v2; cbn; rewrite Hh, Hd; reflexivity).
    rewrite E2. assert (P : tv_pfun v2 = Some p) by (unfold v2; cbn; congruence). rewrite P.
    eexists. split; [reflexivity|]. constructor; auto; try (unfold v2; cbn; auto; fail).
    + unfold prob_is in *. rewrite G in Hp. unfold s'. cbn. rewrite G. exact Hp.
    + unfold v2, s'. cbn. rewrite G. auto.
  - destruct (PL eq_refl) as (x & X).
    assert (DD : exists v3, t_default v2 = (v3, None)).
    { unfold t_default. destruct (tv_has v2 && negb (tv_def v2)); eauto. rewrite L'.
      assert (Ps : tv_pscale v2 = ps) by (unfold v2; cbn; auto). rewrite Ps, X.
      change (tv_ufun v2) with (Some t). change (tv_no v2) with no.
      destruct no; eauto. destruct (tr_der t); eauto. exfalso. apply Dr; auto. }
    destruct DD as (v3 & D). rewrite D.
    assert (A : agrees name ps s' v3).
    { eapply default_agrees; [..|exact D]; auto; try (unfold v2; cbn; auto; fail).
      unfold v2; cbn. rewrite Hh, Hd. reflexivity. }
    assert (P : tv_pfun v3 = Some p) by (rewrite (ag_pfun _ _ _ _ A); unfold s'; cbn; auto).
    rewrite P. eauto.
Qed.

Lemma ufun_refused_values name ps s w t p a b n r :
  made name ps s w -> st_pfun s = Some p -> between_limits s a b ->
  (st_given s = None -> holdable ps (Rabs (u_fwd (tr_u t) b - u_fwd (tr_u t) a))) ->
  exists w', do_call w (SetUfun (Some t) false) = (w', Some AssertionError) /\
  exists o, tv_evaluate w' (VSet n) r = Ok o /\ length (answer o) = Nat.max 1 (Z.abs_nat n) /\
    forall i, (i < length (answer o))%nat ->
      nth_error (answer o) i = Some (PF (pf_icdf p (pf_cdf p (u_fwd (tr_u t) a) +
        (pf_cdf p (u_fwd (tr_u t) b) - pf_cdf p (u_fwd (tr_u t) a)) * place n (is_tup (st_e0 s)) (is_tup (st_e1 s)) r i))).
Proof.
  intros M HP B H. set (s' := ask s (SetUfun (Some t) false)).
  assert (B' : between_limits s' a b) by exact B.
  destruct (ufun_refused _ _ _ _ t false p M HP) as (w' & C & AG); [discriminate| |].
  { intros G. fold s'. rewrite (len_trans s' a b B' t eq_refl). destruct (length_prob _ _ (H G)) as (x & X & _). eauto. }
  exists w'. split; auto. fold s' in AG.
  destruct (lims_trans s' a b B' t eq_refl eq_refl) as (lo & hi & E & Lo & Hi).
  eexists. split.
  { unfold tv_evaluate. rewrite (ag_pfun _ _ _ _ AG). cbn [s' ask st_pfun]. rewrite HP, (ag_lims _ _ _ _ AG), E, (ag_e0 _ _ _ _ AG), (ag_e1 _ _ _ _ AG). reflexivity. }
  rewrite Lo, Hi, uniform_places. rewrite map_length, seq_length. split; auto. intros i I.
  rewrite nth_error_map, (nth_error_nth' _ 0%nat) by (rewrite seq_length; auto). rewrite seq_nth by auto. reflexivity.
Qed.

(** A distribution refused by a transformed variable with a default: it replaces the
    probability until the set is next assigned, and its functions draw the values
    before and after. *)
Lemma dist_refused name ps s w t f p :
  made name ps s w -> st_u s = Some t -> st_given s = None ->
  exists w', do_call w (SetDist f p) = (w', Some AssertionError) /\
    (forall vals, tv_eval_prob w' vals = Ok (tmap (fun x => f (as_num x)) vals)) /\
    forall w'', do_call w' (SetVset (st_e0 s) (st_e1 s)) = (w'', None) ->
      forall vals, tv_eval_prob w'' vals = tv_eval_prob w vals.
Proof.
  intros M Hu G. pose proof (made_agrees _ _ _ _ M) as AG.
  eexists. split; [cbn; unfold set_dist, set_pfun; cbn; rewrite (ag_u _ _ _ _ AG), Hu; reflexivity|].
  split; [reflexivity|]. intros w'' C vals.
  cbn [do_call] in C. unfold set_vset in C. set (w1 := eval_ulims _) in C.
  assert (D : tv_def w1 = true) by (unfold w1; cbn; rewrite (ag_def _ _ _ _ AG), G; reflexivity). rewrite D in C.
  assert (A : agrees name ps (ask s (SetPfun (Some p))) w'').
  { eapply default_agrees; [..|exact C]; auto; unfold w1; cbn; auto; try apply AG.
    - unfold lims_of. cbn. rewrite (ag_u _ _ _ _ AG), (ag_no _ _ _ _ AG). reflexivity.
    - unfold len_of. cbn. rewrite (ag_u _ _ _ _ AG). reflexivity. }
  pose proof (ag_prob _ _ _ _ A) as PA. pose proof (ag_prob _ _ _ _ AG) as PG.
  assert (EQ : tv_prob w'' = tv_prob w).
  { unfold prob_is in *. cbn in PA. rewrite G in *. destruct PA as (x & X & PA), PG as (y & Y & PG).
    change (len_of _) with (len_of s) in X. rewrite X in Y. injection Y as <-.
    rewrite Hu in *. destruct (st_no s); [|congruence]. destruct PA as (d & Td & ->), PG as (d' & Td' & ->). rewrite Td in Td'. injection Td' as <-. reflexivity. }
  unfold tv_eval_prob. rewrite EQ, (ag_has _ _ _ _ A), (ag_has _ _ _ _ AG), (ag_e0 _ _ _ _ A), (ag_e0 _ _ _ _ AG),
    (ag_e1 _ _ _ _ A), (ag_e1 _ _ _ _ AG), (ag_ps _ _ _ _ A), (ag_ps _ _ _ _ AG). reflexivity.
Qed.

(** A pair of functions refused for no_ucov: the next assignment of the set raises an
    exception too, after which the probability cannot be evaluated. *)
Lemma pair_refused name ps s w t e0 e1 :
  made name ps s w -> st_given s = None -> (st_u s = None \/ st_no s = false) -> tr_der t = None ->
  exists w', do_call w (SetUfun (Some t) true) = (w', Some AssertionError) /\
    forall w'' e, do_call w' (SetVset e0 e1) = (w'', e) -> e <> None /\
      forall vals, tv_eval_prob w'' vals = Err TypeError.
Proof.
  intros M G U Td. pose proof (made_agrees _ _ _ _ M) as AG.
  eexists. split; [cbn; unfold set_ufun; rewrite Td; reflexivity|].
  intros w'' e C. cbn [do_call] in C. unfold set_vset in C. set (w1 := eval_ulims _) in C.
  assert (D : tv_def w1 = true) by (unfold w1; cbn; rewrite (ag_def _ _ _ _ AG), G; reflexivity). rewrite D in C.
  assert (P : exists x, tv_prob w1 = TPScalar x).
  { change (tv_prob w1) with (tv_prob w). pose proof (ag_prob _ _ _ _ AG) as PG. unfold prob_is in PG. rewrite G in PG.
    destruct PG as (x & _ & PG). exists x. destruct U as [U|U]; rewrite U in PG; auto. destruct (st_u s); auto. }
  destruct P as (x & P).
  assert (V : forall vals, tv_eval_prob (with_prob w1 false (tv_prob w1) true) vals = Err TypeError).
  { intros vals. unfold tv_eval_prob. cbn [with_prob tv_prob tv_has]. rewrite P. reflexivity. }
  unfold t_default in C. cbn [with_prob tv_has tv_def andb tv_nlen tv_pscale tv_ufun tv_no] in C.
  assert (U1 : tv_ufun w1 = Some t) by reflexivity. assert (N1 : tv_no w1 = true) by reflexivity.
  rewrite U1, N1, Td in C.
  destruct (prob_of_length (tv_nlen w1) (tv_pscale w1)); injection C as <- <-; split; try discriminate; exact V.
Qed.

(** C206: what is drawn with no change of variables *)
Lemma no_ucov_law name ps s w t d a b c :
  made name ps s w -> st_pfun s = None -> st_given s = None -> st_u s = Some t -> st_no s = true ->
  between_limits s a b -> a < c < b -> increases t a b -> derivative t d a b ->
  (log_kind (spec_of ps) = true -> forall x, a <= x <= b -> 0 < d x) ->
  holdable ps (u_fwd (tr_u t) b - u_fwd (tr_u t) a) ->
  exists f P, density w (fun x => a <= x <= b) f /\ integral f a c P /\
    ((forall r x, (forall i, 0 <= r_unif r i < 1) -> tv_evaluate w (VSet 0) r = Ok (OScalar (PF x)) -> (x <= c <-> r_unif r 0 <= P)) <->
     (u_fwd (tr_u t) c - u_fwd (tr_u t) a) * (b - a) = (c - a) * (u_fwd (tr_u t) b - u_fwd (tr_u t) a)).
Proof.
  intros M HP G Hu Hn B C I D Pos H.
  destruct (no_ucov_density _ _ _ _ t d a b M G Hu Hn B ltac:(lra) I D Pos H) as (f & Df & If & _).
  exists f. eexists. split; auto. split; [apply If; lra|].
  assert (L1 : u_fwd (tr_u t) a < u_fwd (tr_u t) c) by (apply I; lra).
  assert (L2 : u_fwd (tr_u t) c < u_fwd (tr_u t) b) by (apply I; lra).
  set (p := u_fwd (tr_u t) a) in *. set (q := u_fwd (tr_u t) b) in *. set (m := u_fwd (tr_u t) c) in *.
  destruct (lims_plain s a b B (or_intror Hn)) as (lo & hi & E & Lo & Hi).
  assert (EV : forall r, tv_evaluate w (VSet 0) r = Ok (OScalar (PF (a + (b - a) * r_unif r 0%nat)))).
  { intros r. rewrite (eval_at _ _ _ _ M _ _ _ _ _ _ HP E Lo Hi), Hu, Hn. reflexivity. }
  assert (K1 : (m - p) / (q - p) * (q - p) = m - p) by (field; lra).
  assert (K2 : (c - a) / (b - a) * (b - a) = c - a) by (field; lra).
  set (P := (m - p) / (q - p)) in *. set (z := (c - a) / (b - a)) in *.
  assert (P1 : 0 < P < 1) by (split; nra). assert (z1 : 0 < z < 1) by (split; nra).
  assert (X : forall k, a + (b - a) * k <= c <-> k <= z) by (intros k; split; intros; nra).
  transitivity (P = z).
  - split.
    + intros A. set (k := (P + z) / 2).
      specialize (A (mkRnd 0%nat [] (fun _ => k)) (a + (b - a) * k)).
      cbn [r_unif] in A. rewrite X in A. assert (U : forall i : nat, 0 <= k < 1) by (intros; unfold k; lra).
      specialize (A U (EV _)). unfold k in A. destruct (Rtotal_order P z) as [Q|[Q|Q]]; auto; exfalso.
      * assert ((P + z) / 2 <= z) as Y by lra. apply A in Y. lra.
      * assert ((P + z) / 2 <= P) as Y by lra. apply A in Y. lra.
    + intros -> r x U V. rewrite EV in V. injection V as <-. apply X.
  - split; intros Q.
    + rewrite <- K1, <- K2, Q. ring.
    + rewrite <- K1, <- K2 in Q. apply Rmult_eq_reg_r with ((q - p) * (b - a)); nra.
Qed.
