(** Property lemmas and examples about conditioning. *)
From Coq Require Import Ascii String ZArith Reals Lra Bool Arith Lia Permutation List.
From Verif Require Import Base Num Tensor TensorBcast OdLemmas TensorLemmas RNumLemmas PScales
  PScales_Spec PScales_Proofs Names Names_Spec Names_Proofs Distr PDModel PD_Spec PD_Make PD_Sums
  PD_Valid PD_Marg PD_Examples PD_Cond_Spec PD_Cond3 PD_CondThm.
Import ListNotations.

Section Gen.
Context {F : Fmt R}.

Lemma cond_quotient (p : pd R) (L keys : list string) :
  valid_pd p L -> in_name_order p L -> fine_scale p ->
  NoDup keys -> incl keys (od_keys (p_marg p)) -> movable p L keys -> rest p L keys <> [] ->
  exists q L', conditionalise p keys = Ok q /\ conditioned p L keys q L' /\
    forall a, in_bounds p L a -> (npz <= marginal_at p L keys a)%R ->
      (incl keys L \/ (npz <= total p L)%R /\ (npz <= marginal_at p L keys a / total p L)%R) ->
      (log_scaled p ->
         (forall b, in_bounds p L b -> (prob_at p L b <= npi)%R) /\
         (npz <= factor (spec_of (p_pscale p)) <= npi)%R /\
         (npz <= prob_at p L a / marginal_at p L keys a)%R) ->
      prob_at q L' a = (prob_at p L a / marginal_at p L keys a)%R.
Proof.
  intros V O FS NK IM M NR. destruct (cond_ok p L V O keys NK IM FS M) as (q & L' & E & Vq & P & Mq & Cq & Sq & Vv & A1 & A2 & _).
  exists q, L'. split; [exact E|]. split; [unfold conditioned; auto 10|].
  intros a Ba Hm Hk Lg.
  assert (Dk : incl keys L \/ ~ incl keys L).
  { destruct (subset_str keys L) eqn:Sb; [left; apply subset_str_iff, Sb|right; intros C; apply subset_str_iff in C; congruence]. }
  destruct Dk as [Hi|Hi].
  - apply A1; auto. intros Lk. destruct (Lg Lk) as (X1 & X2 & X3). auto.
  - destruct Hk as [Hk|[H1 H2]]; [contradiction|]. apply A2; auto.
    intros Lk. destruct (Lg Lk) as (X1 & X2 & X3). auto.
Qed.

Lemma cond_normalised (p : pd R) (L keys : list string) (q : pd R) :
  valid_pd p L -> in_name_order p L -> fine_scale p -> ~ log_scaled p ->
  NoDup keys -> incl keys (od_keys (p_marg p)) -> incl keys L -> rest p L keys <> [] ->
  conditionalise p keys = Ok q ->
  exists L', conditioned p L keys q L' /\
    forall a, in_bounds p L a -> (npz <= marginal_at p L keys a)%R ->
      sum_over (sized p (rest p L keys)) (prob_at q L') a = 1%R.
Proof.
  intros V O FS NL NK IM Hi NR E.
  assert (M : movable p L keys) by (apply (cond_iff p L V O keys NK IM FS); eauto).
  destruct (cond_ok p L V O keys NK IM FS M) as (q' & L' & E' & Vq & P & Mq & Cq & Sq & Vv & A1 & _).
  rewrite E in E'. injection E' as <-.
  exists L'. split; [unfold conditioned; auto 10|]. intros a Ba Hm.
  apply (cond_sums_to_one p L V keys q L' FS E Vq P); auto.
  intros Lk. contradiction.
Qed.

Lemma cond_undivided (p : pd R) (L keys : list string) (q : pd R) :
  valid_pd p L -> in_name_order p L -> fine_scale p -> ~ log_scaled p ->
  NoDup keys -> incl keys (od_keys (p_marg p)) -> incl keys L -> rest p L keys = [] ->
  conditionalise p keys = Ok q ->
  exists L', conditioned p L keys q L' /\
    forall a, in_bounds p L a -> prob_at q L' a = prob_at p L a.
Proof.
  intros V O FS NL NK IM Hi NR E.
  assert (M : movable p L keys) by (apply (cond_iff p L V O keys NK IM FS); eauto).
  destruct (cond_ok p L V O keys NK IM FS M) as (q' & L' & E' & Vq & P & Mq & Cq & Sq & Vv & _ & _ & A3 & _).
  rewrite E in E'. injection E' as <-.
  exists L'. split; [unfold conditioned; auto 10|]. intros a Ba. apply A3; auto. intros Lk. contradiction.
Qed.

(** An inner column: one with marginal columns before and behind it. *)
Lemma inner_not_movable (p : pd R) (L : list string) (k : string) (l1 l2 : list string) :
  valid_pd p L -> marg_columns p L = l1 ++ k :: l2 -> l1 <> [] -> l2 <> [] -> ~ movable p L [k].
Proof.
  intros V E N1 N2 M.
  assert (ND : NoDup (marg_columns p L)) by (apply NoDup_filter, (vp_axes _ _ V)).
  assert (Ik : In k L).
  { assert (X : In k (marg_columns p L)) by (rewrite E; apply in_or_app; right; left; reflexivity).
    apply filter_In in X. apply X. }
  assert (EB : restrict [k] L = [k]).
  { pose proof (vp_axes _ _ V) as NL. clear -NL Ik. unfold restrict.
    induction L as [|x L IH]; [destruct Ik|]. inversion NL as [|? ? Hx NL']; subst. cbn [filter].
    destruct (mem_str x [k]) eqn:Mx.
    - apply mem_str_iff in Mx. destruct Mx as [<-|[]]. f_equal.
      clear -Hx. induction L as [|y L IH]; [reflexivity|]. cbn [filter].
      assert (My : mem_str y [k] = false) by (apply mem_str_false; intros [<-|[]]; apply Hx; left; reflexivity).
      rewrite My. apply IH. intros C. apply Hx. right. exact C.
    - destruct Ik as [<-|Ik]; [|auto]. apply mem_str_false in Mx. exfalso. apply Mx. left. reflexivity. }
  assert (One : forall A B C D, A ++ k :: B = C ++ k :: D -> NoDup (A ++ k :: B) -> A = C /\ B = D).
  { clear. induction A as [|x A IH]; intros B C D H N.
    - destruct C as [|c C]; cbn in H; inversion H; subst; auto.
      cbn in N. inversion N as [|? ? Hx _]; subst. exfalso. apply Hx. apply in_or_app. right. left. reflexivity.
    - destruct C as [|c C]; cbn in H; inversion H; subst.
      + cbn in N. inversion N as [|? ? Hx _]; subst. exfalso. apply Hx. apply in_or_app. right. left. reflexivity.
      + cbn in N. inversion N; subst. destruct (IH _ _ _ H2 H4) as [-> ->]. auto. }
  rewrite E in ND. destruct M as [M|M].
  - unfold last_block in M. cbv zeta in M. rewrite EB in M. destruct M as (A & EA & _).
    rewrite E in EA. destruct (One _ _ _ _ EA ND) as [_ ->]. contradiction.
  - unfold first_block in M. cbv zeta in M. rewrite EB in M. destruct M as (A & EA & _).
    rewrite E in EA. change ([k] ++ A) with ([] ++ k :: A) in EA. destruct (One _ _ _ _ EA ND) as [-> _]. contradiction.
Qed.

Lemma cond_inner_raises (p : pd R) (L : list string) (k : string) (l1 l2 : list string) :
  valid_pd p L -> in_name_order p L -> fine_scale p ->
  marg_columns p L = l1 ++ k :: l2 -> l1 <> [] -> l2 <> [] ->
  exists e, conditionalise p [k] = Err e.
Proof.
  intros V O FS E N1 N2. destruct (conditionalise p [k]) as [q|e] eqn:Eq; [|eauto].
  exfalso. apply (inner_not_movable p L k l1 l2 V E N1 N2).
  apply (cond_iff p L V O [k]); eauto.
  - constructor; [intros []|constructor].
  - intros x [<-|[]].
    assert (X : In k (marg_columns p L)) by (rewrite E; apply in_or_app; right; left; reflexivity).
    apply filter_In in X. apply mem_str_iff, X.
Qed.
End Gen.

Lemma npz_third : (npz <= / 3)%R.
Proof. rewrite npz_eq. apply Rinv_le_contravar; [lra|]. apply IZR_le. vm_compute. discriminate. Qed.

Section Ex.
Let F : Fmt R := fmt_ex.
Existing Instance F.
Local Open Scope R_scope.

Lemma ex_c16 : exists p, ex_make = Ok p /\
  let L := ["x"; "y"; "z"]%string in let keys := ["y"]%string in
  valid_pd p L /\ in_name_order p L /\ fine_scale p /\ ~ log_scaled p /\
  NoDup keys /\ incl keys (od_keys (p_marg p)) /\ incl keys L /\ movable p L keys /\ rest p L keys = ["x"%string] /\
  exists a, a = (fun k => if String.eqb k "y" then 2 else 1)%nat /\ in_bounds p L a /\
    prob_at p L a = / 6 /\ marginal_at p L keys a = / 3 /\ npz <= marginal_at p L keys a.
Proof.
  destruct ex_ok as (p & E & V & K & M & C & P & S & Vx & Vy & Vz & Vw).
  exists p. split; [exact E|]. cbv zeta.
  assert (R1 : rest p ["x"; "y"; "z"]%string ["y"]%string = ["x"%string]).
  { unfold rest, marg_columns. rewrite M. reflexivity. }
  assert (PA : forall a, prob_at p ["x"; "y"; "z"]%string a = / 6).
  { intros a. unfold prob_at. rewrite P, S. cbn [get ex_prob spec_of].
    unfold denote. rewrite log_kind_one, factor_one. lra. }
  assert (MA : forall a, marginal_at p ["x"; "y"; "z"]%string ["y"]%string a = / 3).
  { intros a. unfold marginal_at. rewrite R1. cbn [sized map sum_over]. unfold size_of. rewrite Vx.
    cbn [length sum_n sum_over]. rewrite !PA. lra. }
  split; [exact V|]. split; [split; [rewrite K, M, C; reflexivity|unfold key_ordered; rewrite K; reflexivity]|].
  split; [apply (fine_plain p S)|]. split; [apply (fine_plain p S)|].
  split; [repeat constructor; intros []|].
  split; [rewrite M; intros x [<-|[]]; cbn; auto|]. split; [intros x [<-|[]]; cbn; auto|].
  split.
  { left. exists ["x"%string]. unfold marg_columns. rewrite M. split; [reflexivity|]. left. discriminate. }
  split; [exact R1|]. eexists. split; [reflexivity|].
  split.
  { intros k Hk. unfold size_of. cbn in Hk. destruct Hk as [<-|[<-|[<-|[]]]]; [rewrite Vx|rewrite Vy|rewrite Vz]; cbn; lia. }
  split; [apply PA|]. split; [apply MA|]. rewrite MA. apply npz_third.
Qed.

(** p(x,y,w=5|z) cannot be conditioned on x: the conditional column is in the way. *)
Lemma ex_c17 : exists p e, ex_make = Ok p /\ valid_pd p ["x"; "y"; "z"]%string /\
  In "x"%string (od_keys (p_marg p)) /\ conditionalise p ["x"%string] = Err e.
Proof.
  destruct ex_ok as (p & E & V & K & M & C & P & S & Vx & Vy & Vz & Vw).
  assert (O : in_name_order p ["x"; "y"; "z"]%string) by (split; [rewrite K, M, C; reflexivity|unfold key_ordered; rewrite K; reflexivity]).
  assert (NM : ~ movable p ["x"; "y"; "z"]%string ["x"%string]).
  { intros [H|H].
    - destruct H as (A & H & _). unfold marg_columns in H. rewrite M in H. cbn in H.
      destruct A as [|a A]; cbn in H; [discriminate|]. injection H as <- H. destruct A as [|a A]; cbn in H; [discriminate|].
      injection H as <- H. destruct A; discriminate.
    - destruct H as (A & H & _ & H2). unfold marg_columns, cond_columns in *. rewrite M in H. rewrite C in H2. cbn in H.
      injection H as <-. cbn in H2. destruct H2; discriminate. }
  destruct (conditionalise p ["x"%string]) as [q|e] eqn:Eq.
  - exfalso. apply NM. apply (cond_iff p _ V O ["x"%string]); eauto.
    + repeat constructor. intros [].
    + rewrite M. intros x [<-|[]]. cbn. auto.
    + apply (fine_plain p S).
  - exists p, e. rewrite M. cbn. auto.
Qed.

(** conditioning it on y and x at once leaves no marginal column *)
Lemma ex_undivided : exists p q, ex_make = Ok p /\ 
  let L := ["x"; "y"; "z"]%string in let keys := ["x"; "y"]%string in
  valid_pd p L /\ in_name_order p L /\ fine_scale p /\ ~ log_scaled p /\
  NoDup keys /\ incl keys (od_keys (p_marg p)) /\ incl keys L /\ rest p L keys = [] /\
  conditionalise p keys = Ok q.
Proof.
  destruct ex_ok as (p & E & V & K & M & C & P & S & Vx & Vy & Vz & Vw).
  assert (O : in_name_order p ["x"; "y"; "z"]%string) by (split; [rewrite K, M, C; reflexivity|unfold key_ordered; rewrite K; reflexivity]).
  assert (NK : NoDup ["x"; "y"]%string) by (repeat constructor; cbn; intuition discriminate).
  assert (IM : incl ["x"; "y"]%string (od_keys (p_marg p))) by (rewrite M; intros x [<-|[<-|[]]]; cbn; auto).
  destruct (fine_plain p S) as [FS NL].
  destruct (proj2 (cond_iff p _ V O _ NK IM FS)) as [q Eq].
  - left. exists []. unfold marg_columns, cond_columns. rewrite M, C. split; [reflexivity|]. left. discriminate.
  - exists p, q. split; [exact E|]. cbv zeta. repeat (split; [assumption|]).
    split; [intros x [<-|[<-|[]]]; cbn; auto|]. split; [|exact Eq].
    unfold rest, marg_columns. rewrite M. reflexivity.
Qed.

(** p(x,y,z): y is an inner column. *)
Definition ex3_vals : odict (value R) :=
  [("x", VArr (of_list 0 [1; 2])); ("y", VArr (of_list 0 [1; 2; 3])); ("z", VArr (of_list 0 [7; 8]))]%string.
Definition ex3_dims : odict (option Z) :=
  [("x", Some 0%Z); ("y", Some 1%Z); ("z", Some 2%Z)]%string.
Definition ex3_make := make_pd "x,y,z" ex3_vals (Some ex3_dims) (Some (mkT [2; 3; 2]%nat (fun _ => / 12))) (PSFloat 1).

Lemma ex_inner : exists p, ex3_make = Ok p /\ let L := ["x"; "y"; "z"]%string in
  valid_pd p L /\ in_name_order p L /\ fine_scale p /\ marg_columns p L = ["x"%string] ++ "y"%string :: ["z"%string].
Proof.
  destruct (@make_pd_ok F ex3_vals ex3_dims ["x"; "y"; "z"]%string
              [("x", "x"); ("y", "y"); ("z", "z")]%string []
              (mkT [2; 3; 2]%nat (fun _ => / 12)) (PSFloat 1) (Lin 1)) as (q & E & V & K & M & C & P & S & Vr).
  - repeat constructor; cbn; intuition discriminate.
  - discriminate.
  - cbn. intros k Hk. intuition (subst; discriminate).
  - repeat constructor; cbn; intuition discriminate.
  - intros k Hk. cbn in *. tauto.
  - intros k v G Hk.
    assert (Hin : In k (od_keys ex3_vals)) by (eapply od_get_some_key; eauto).
    cbn in Hin, Hk. tauto.
  - intros [|[|[|j]]] k Hj; cbn in Hj; inversion Hj; subst; try (destruct j; discriminate);
    (eexists; split; [reflexivity|]; cbn; repeat split; auto; try discriminate; lia).
  - intros k Hk. cbn in *. tauto.
  - repeat constructor; cbn; intuition discriminate.
  - reflexivity.
  - apply good_keyed. reflexivity.
  - apply good_keyed. reflexivity.
  - cbn. repeat constructor.
  - cbn. assert (H : n_eqb 1 n1 = true) by (apply Reqb_iff; reflexivity). rewrite H. reflexivity.
  - cbn. assert (H : n_eqb 1 n1 = true) by (apply Reqb_iff; reflexivity). rewrite H. reflexivity.
  - exists q. split; [exact E|]. cbv zeta. split; [exact V|]. split.
    + split; [rewrite K, M, C; reflexivity|]. unfold key_ordered. rewrite K. reflexivity.
    + split; [apply (fine_plain q S)|]. unfold marg_columns. rewrite M. reflexivity.
Qed.
End Ex.
