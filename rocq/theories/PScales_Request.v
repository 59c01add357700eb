(** Proofs about products with a requested scale. *)
From Coq Require Import String ZArith Reals Bool Arith List Lia Lra.
From Verif Require Import Base Num Tensor RNumLemmas PScales PScales_Spec PScales_Proofs PScales_Prod.
Import ListNotations.
Local Open Scope R_scope.

Lemma zip_same (args : list (tensor R)) (scales : list (pspec R)) b : length scales = length args ->
  Forall (fun s => iscomplex s = b) scales ->
  zip_with (fun arg s => if b then (if iscomplex s then arg else log_prob arg) else (if iscomplex s then exp_logp arg else arg)) args scales = args.
Proof.
  revert args. induction scales as [|s scales IH]; intros [|x args] L F; try discriminate; [reflexivity|].
  inversion F as [|? ? E F']; subst. cbn. rewrite IH by (auto; cbn in L; lia). destruct (iscomplex s); reflexivity.
Qed.

(** A request of the kind of the natural scale replaces the scale alone, one of
    the other kind raises. *)
Lemma prod_rule_request (args : list (tensor R)) (scales : list (pspec R)) t ps s :
  prod_rule args (Some scales) None None = Ok (t, ps) -> args <> [] ->
  prod_rule args (Some scales) None (Some s) = if Bool.eqb (iscomplex s) (iscomplex ps) then Ok (t, s) else Err ValueError.
Proof.
  intros H NE. unfold prod_rule in *.
  set (ul := existsb iscomplex scales) in *.
  destruct (prod_pscale scales (Some ul)) as [pp|e]; cbn [bind] in *; [|discriminate].
  set (ppspec := match pp with Some p => spec_of p | None => PSNone end) in *.
  destruct (length scales =? length args)%nat eqn:LL; cbn [assert_ bind] in *; [|discriminate].
  apply Nat.eqb_eq in LL.
  destruct (negb (Bool.eqb ul (iscomplex ppspec))) eqn:EN; [discriminate|].
  apply negb_false_iff, eqb_prop in EN.
  set (same := match scales with [] => false | s0 :: l => forallb (fun s' => Bool.eqb (iscomplex s') (iscomplex s0)) l end) in *.
  set (conv := zip_with (fun arg s => if ul then (if iscomplex s then arg else log_prob arg) else (if iscomplex s then exp_logp arg else arg)) args scales) in *.
  assert (CV : same = true -> conv = args).
  { intros SM. apply zip_same; [exact LL|]. unfold same in SM. destruct scales as [|s0 l]; [discriminate|].
    rewrite forallb_forall in SM.
    assert (AL : forall x, In x (s0 :: l) -> iscomplex x = iscomplex s0).
    { intros x [<-|I]; [reflexivity|]. apply eqb_prop, SM, I. }
    assert (U0 : ul = iscomplex s0).
    { unfold ul. destruct (iscomplex s0) eqn:E0; [cbn; rewrite E0; reflexivity|]. apply not_true_iff_false. rewrite existsb_exists. intros (x & I & X). rewrite (AL x I) in X. discriminate. }
    apply Forall_forall. intros x I. rewrite U0. exact (AL x I). }
  assert (TP : apply_prod ul conv = Ok t /\ ps = ppspec).
  { match type of H with (if ?b then _ else _) = _ => destruct b eqn:EB end.
    - apply andb_prop in EB. destruct EB as [_ SM]. rewrite (CV SM). destruct (apply_prod ul args) as [t0|e]; cbn [bind] in H; [|discriminate]. injection H as -> ->. auto.
    - destruct (apply_prod ul conv) as [t0|e]; cbn [bind] in H; [|discriminate].
      injection H as -> ->. auto. }
  destruct TP as [TP ->].
  replace (Bool.eqb (iscomplex s) (iscomplex ppspec)) with (Bool.eqb ul (iscomplex s)) by (rewrite EN; destruct (iscomplex s), (iscomplex ppspec); reflexivity).
  destruct (Bool.eqb ul (iscomplex s)) eqn:K; cbn [andb negb].
  - match goal with |- (if ?b then _ else _) = _ => destruct b eqn:EB end.
    + apply andb_prop in EB. destruct EB as [_ SM]. rewrite <- (CV SM), TP. reflexivity.
    + rewrite TP. reflexivity.
  - rewrite TP. cbn [bind]. unfold rescale.
    assert (EV : exists q, eval_pscale ppspec = Ok q).
    { unfold ppspec. destruct pp as [[c|re im]|]; unfold spec_of, eval_pscale;
        repeat match goal with |- exists q, (if ?b then _ else _) = _ => destruct b end; eexists; reflexivity. }
    destruct EV as (q & ->). reflexivity.
Qed.

Lemma denote_iff s ps x : log_kind s = log_kind ps ->
  (denote s x = denote ps x <-> factor s = factor ps \/ log_kind s = false /\ x = 0).
Proof.
  intros K. unfold denote. rewrite <- K. destruct (log_kind s).
  - pose proof (exp_pos x). split.
    + intros H0. left. apply (Rmult_eq_reg_r (exp x)); [exact H0|lra].
    + intros [->|[C _]]; [reflexivity|discriminate].
  - split.
    + intros H0. destruct (Req_EM_T x 0) as [E|E]; [right; auto|]. left. apply (Rmult_eq_reg_r x); assumption.
    + intros [->|[_ ->]]; [reflexivity|lra].
Qed.

(** C07, exactly. *)
Lemma prod_rule_requested_iff (args : list (tensor R)) (scales : list (pspec R)) t ps s :
  prod_rule args (Some scales) None None = Ok (t, ps) -> args <> [] ->
  log_kind ps = iscomplex ps -> log_kind s = iscomplex s ->
  (log_kind s <> log_kind ps -> prod_rule args (Some scales) None (Some s) = Err ValueError) /\
  (log_kind s = log_kind ps -> prod_rule args (Some scales) None (Some s) = Ok (t, s) /\
     forall idx, denote s (get t idx) = denote ps (get t idx) <-> factor s = factor ps \/ log_kind s = false /\ get t idx = 0).
Proof.
  intros H NE KP KS. rewrite (prod_rule_request _ _ _ _ s H NE), <- KP, <- KS. split.
  - intros D. destruct (log_kind s), (log_kind ps); try reflexivity; congruence.
  - intros E. rewrite E, eqb_reflx. split; [reflexivity|]. intros idx. rewrite <- E. apply denote_iff. exact E.
Qed.
