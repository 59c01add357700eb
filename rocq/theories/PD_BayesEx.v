(** Examples for Bayes' theorem and division. *)
From Coq Require Import Ascii String ZArith QArith Reals Lra Bool Arith Lia Permutation List.
From Verif Require Import Base Num Tensor TensorBcast OdLemmas TensorLemmas RNumLemmas PScales
  PScales_Spec PScales_Proofs Names Names_Spec Names_Proofs Distr Distr_Proofs PDModel PDUtils PD_Spec PD_Product_Spec
  PD_Make PD_Sums PD_Valid PD_Marg PD_Examples PD_Product1 PD_ProductEx PD_Cond_Spec PD_CondEx PD_Bayes_Spec PD_Div_Spec.
Import ListNotations.
Local Open Scope nat_scope.

Section Ex.
Let F : Fmt R := fmt_ex.
Existing Instance F.
Local Open Scope R_scope.

Lemma fine_one (p : pd R) : p_pscale p = Lin 1 -> fine_scale p.
Proof. intros E. apply (fine_plain p E). Qed.

Lemma npz_le_quarter : npz <= / 4.
Proof. rewrite npz_eq. apply Rinv_le_contravar; [lra|]. apply IZR_le. vm_compute. discriminate. Qed.

Lemma npi_one : 1 <= npi.
Proof. pose proof npi_big. lra. Qed.

Lemma ex_bayes : exists p q : pd R, pri_make = Ok p /\ lik_make 2 = Ok q /\ multipliable [p; q] ex_axes /\
  no_free_columns p q ex_axes /\ marg_columns p (ex_axes p) = ["x"%string] /\ fine_product p q /\
  od_keys (p_marg q) = ["y"%string] /\ observable p q ex_axes /\ fine_scale p /\
  od_keys (p_cond p) = [] /\ incl (od_keys (p_cond q)) (od_keys (p_marg p)) /\ in_name_order p (ex_axes p) /\
  exists a, a = (fun k => if String.eqb k "y" then 2 else 1)%nat /\ both_in_bounds p q ex_axes a /\
    log_range p q ex_axes a /\ log_safe [p; q] ex_axes a /\
    joint_at p q ex_axes a = / 4 /\ evidence_at p q ex_axes a = / 3 /\ npz <= evidence_at p q ex_axes a /\
    joint_at p q ex_axes a <= npi /\ npz <= prob_at p (ex_axes p) a <= npi /\ prob_at q (ex_axes q) a = / 3.
Proof.
  destruct pri_ok as (p & E & V & K & M & C & P & S & Vx). destruct (lik_ok 2) as (q & E' & V' & K' & M' & C' & P' & S' & Vx' & Vy').
  exists p, q. split; [exact E|]. split; [exact E'|].
  assert (Ap : ex_axes p = ["x"]%string) by (unfold ex_axes; rewrite K; reflexivity).
  assert (Aq : ex_axes q = ["x"; "y"]%string) by (unfold ex_axes; rewrite K'; reflexivity).
  assert (LN : log_kind (PSFloat 1) = false) by apply log_kind_one.
  assert (NU : forall r k, In r [p; q] -> ~ unbound [p; q] r k).
  { intros r k I [H1 H2]. apply H2. unfold marginals. cbn [flat_map]. rewrite M, M'. destruct I as [<-|[<-|[]]]; [rewrite C in H1|rewrite C' in H1]; cbn in *; tauto. }
  split.
  { constructor.
    + intros r [<-|[<-|[]]]; [rewrite Ap|rewrite Aq]; assumption.
    + left. exists p. rewrite Ap. split; [cbn; auto|discriminate].
    + intros l1 r l2 r' l3 k Eq (z & H). exfalso. assert (I : In r [p; q]) by (rewrite Eq; apply in_elt). assert (Kr : In k (p_keylist r)) by (eapply od_get_some_key; eauto).
      destruct I as [<-|[<-|[]]]; [rewrite K in Kr|rewrite K' in Kr]; cbn in Kr; destruct Kr as [<-|Kr];
        try destruct Kr as [<-|[]]; try destruct Kr; unfold variable in *; rewrite H in *; discriminate.
    + assert (Y : forall r k, In r [p; q] -> In k (ex_axes r) -> entry r k = Some k).
      { intros r k [<-|[<-|[]]]; unfold entry; [rewrite Ap, M, C|rewrite Aq, M', C']; intros [<-|H]; try reflexivity; [destruct H|destruct H as [<-|[]]; reflexivity]. }
      intros r r' k I I' H H'. rewrite (Y r k), (Y r' k); auto.
    + assert (X : forall r k, In r [p; q] -> In k (p_keylist r) -> variable r k = if String.eqb k "x" then Some (Col [1; 2]) else Some (Col [3; 4; 5])).
      { intros r k [<-|[<-|[]]]; [rewrite K|rewrite K']; intros [<-|H]; try assumption; [destruct H|destruct H as [<-|[]]; assumption]. }
      intros r r' k I I' H H'. rewrite (X r k), (X r' k); auto.
    + unfold marginals. cbn [flat_map]. rewrite M, M'. cbn. repeat constructor; cbn; intuition discriminate.
    + intros r r' k k' I I' H. destruct (NU r k I H).
    + intros l1 r l2 r' l3 k H HU. exfalso. apply (NU r k); [rewrite H; apply in_elt|exact HU].
    + left. intros r [<-|[<-|[]]]; [rewrite S|rewrite S']; cbn [spec_of]; (split; [split; cbn; [exact Logic.I|lra]|exact LN]). }
  assert (PA : forall a, prob_at p (ex_axes p) a = get pri_prob [a "x"%string]).
  { intros a. unfold prob_at. rewrite Ap, P, S. cbn [spec_of map]. unfold denote. rewrite LN, factor_one. lra. }
  assert (QA : forall a, prob_at q (ex_axes q) a = / 3).
  { intros a. unfold prob_at. rewrite Aq, P', S'. cbn [spec_of map get lik_prob]. unfold denote. rewrite LN, factor_one. lra. }
  split. { intros k. rewrite Ap, Aq, M, M'. cbn. tauto. }
  assert (MC : marg_columns p (ex_axes p) = ["x"%string]) by (unfold marg_columns; rewrite Ap, M; reflexivity).
  split; [exact MC|].
  split. { unfold fine_product. rewrite S, S'. cbn [spec_of]. rewrite factor_one. left. lra. }
  split; [rewrite M'; reflexivity|].
  split. { left. rewrite M', Aq. intros x [<-|[]]. cbn. auto. }
  split; [apply fine_one, S|]. split; [rewrite C; reflexivity|]. split; [rewrite C', M; intros x Hx; exact Hx|].
  split. { split; [rewrite K, M, C; reflexivity|unfold key_ordered; rewrite K, Ap; reflexivity]. }
  assert (NL : ~ (log_scaled p \/ log_scaled q)).
  { unfold log_scaled. rewrite S, S'. cbn [spec_of]. rewrite LN. intros [X|X]; discriminate. }
  assert (EV : forall a, evidence_at p q ex_axes a = / 3).
  { intros a. unfold evidence_at. rewrite MC. cbn [sized map sum_over]. unfold size_of. rewrite Vx.
    cbn [length sum_n sum_over]. unfold joint_at. rewrite !QA, !PA. unfold upd. rewrite String.eqb_refl. cbn. lra. }
  eexists. split; [reflexivity|].
  split. { split; [rewrite Ap|rewrite Aq]; intros k Hk; unfold size_of; cbn in Hk.
    - destruct Hk as [<-|[]]. rewrite Vx. cbn. lia.
    - destruct Hk as [<-|[<-|[]]]; [rewrite Vx'|rewrite Vy']; cbn; lia. }
  split; [intros Q; contradiction|].
  split. { intros (r & I & H). exfalso. apply NL. destruct I as [<-|[<-|[]]]; auto. }
  pose proof npz_le_quarter. pose proof npi_one.
  rewrite EV. unfold joint_at. rewrite PA, QA. cbn. repeat split; lra.
Qed.

(** p(x,y,z), which ex3_make makes, and p(x). *)
Lemma ex3_ok : exists p, ex3_make = Ok p /\ valid_pd p ["x"; "y"; "z"]%string /\
  p_marg p = [("x", "x"); ("y", "y"); ("z", "z")]%string /\ p_cond p = [] /\
  p_prob p = Some (mkT [2; 3; 2]%nat (fun _ => / 12)) /\ p_pscale p = Lin 1 /\ variable p "x" = Some (Col [1; 2]) /\
  variable p "y" = Some (Col [1; 2; 3]) /\ variable p "z" = Some (Col [7; 8]).
Proof.
  destruct (@make_pd_ok F ex3_vals ex3_dims ["x"; "y"; "z"]%string
              [("x", "x"); ("y", "y"); ("z", "z")]%string []
              (mkT [2; 3; 2]%nat (fun _ => / 12)) (PSFloat 1) (Lin 1)) as (q & E & V & K & M & C & P & S & Vr).
  - repeat constructor; cbn; intuition discriminate.
  - discriminate.
  - cbn. intros k Hk. intuition (subst; discriminate).
  - repeat constructor; cbn; intuition discriminate.
  - intros k Hk. cbn in *. tauto.
  - intros k v G Hk.
    assert (Hin : In k (od_keys ex3_vals)) by (eapply od_get_some_key; eauto).
    cbn in Hin, Hk. tauto.
  - intros [|[|[|j]]] k Hj; cbn in Hj; inversion Hj; subst; try (destruct j; discriminate);
    (eexists; split; [reflexivity|]; cbn; repeat split; auto; try discriminate; lia).
  - intros k Hk. cbn in *. tauto.
  - repeat constructor; cbn; intuition discriminate.
  - reflexivity.
  - apply good_keyed. reflexivity.
  - apply good_keyed. reflexivity.
  - cbn. repeat constructor.
  - cbn. assert (H : n_eqb 1 n1 = true) by (apply Reqb_iff; reflexivity). rewrite H. reflexivity.
  - cbn. assert (H : n_eqb 1 n1 = true) by (apply Reqb_iff; reflexivity). rewrite H. reflexivity.
  - exists q. rewrite M, C, !Vr. repeat (split; [assumption || reflexivity|]). reflexivity.
Qed.

Lemma ex_div : exists p q : pd R, ex3_make = Ok p /\ pri_make = Ok q /\
  let L := ["x"; "y"; "z"]%string in let L2 := ["x"%string] in
  divisible p L q L2 /\ fine_scale p /\ fine_scale q /\ ~ log_scaled p /\
  exists a, a = (fun _ => 1%nat) /\ in_bounds p L a /\ prob_at p L a = / 12 /\ prob_at q L2 a = 3 / 4 /\
    prob_at p L a <= npi /\ npz <= prob_at q L2 a <= npi.
Proof.
  destruct ex3_ok as (p & E & V & M & C & P & S & Vx & Vy & Vz). destruct pri_ok as (q & E' & V' & K' & M' & C' & P' & S' & Vx').
  exists p, q. split; [exact E|]. split; [exact E'|]. cbv zeta.
  split.
  { constructor; [constructor|rewrite M'; reflexivity|discriminate].
    - exact V.
    - exact V'.
    - rewrite C, C'. tauto.
    - rewrite M, M'. intros x [<-|[]]. cbn. auto.
    - rewrite M'. intros k [<-|[]]. cbn. rewrite Vx, Vx'. reflexivity. }
  split; [apply fine_one, S|]. split; [apply fine_one, S'|]. split; [apply (fine_plain p S)|].
  eexists. split; [reflexivity|].
  split. { intros k Hk. unfold size_of. cbn in Hk. destruct Hk as [<-|[<-|[<-|[]]]]; [rewrite Vx|rewrite Vy|rewrite Vz]; cbn; lia. }
  pose proof npz_le_quarter. pose proof npi_one.
  unfold prob_at. rewrite P, P', S, S'. cbn [spec_of]. unfold denote. rewrite log_kind_one, factor_one. cbn. repeat split; lra.
Qed.

(** p(y|x) cannot be divided by itself. *)
Lemma ex_div_cond : exists p : pd R, lik_make 2 = Ok p /\ let L := ["x"; "y"]%string in
  matching p L p L /\ In "x"%string L /\ In "x"%string (od_keys (p_cond p)) /\ size_of p "x" = 2%nat.
Proof.
  destruct (lik_ok 2) as (q & E' & V' & K' & M' & C' & P' & S' & Vx' & Vy').
  exists q. split; [exact E'|]. cbv zeta. split; [|split; [cbn; auto|split; [rewrite C'; cbn; auto|unfold size_of; rewrite Vx'; reflexivity]]].
  constructor; auto; [tauto|intros x Hx; exact Hx].
Qed.
End Ex.
