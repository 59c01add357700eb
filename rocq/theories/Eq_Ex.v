(** Examples for comparison of distributions (C244). *)
From Coq Require Import String ZArith Bool Arith Lia Reals Lra List.
From Verif Require Import Base Num RNumLemmas Tensor TensorLemmas OdLemmas PScales PScales_Spec Names Distr PDModel PD_Spec PD_Examples EqModel Eq_Spec Eq_Proofs.
Import ListNotations.
Local Open Scope nat_scope.

Section Ex.
Let F : Fmt R := fmt_ex.
Existing Instance F.

Lemma check_shape (d : dist R) t t' : shape t' = shape t -> check_prob d (Some t) = Ok tt -> check_prob d (Some t') = Ok tt.
Proof. unfold check_prob, ndim. intros ->. auto. Qed.

Lemma made_again name vals dims t t' s s' ps (p : pd R) : make_pd name vals dims (Some t) s = Ok p ->
  shape t' = shape t -> eval_pscale s' = Ok ps -> exists q, make_pd name vals dims (Some t') s' = Ok q /\ p_prob q = Some t'.
Proof.
  unfold make_pd. intros H St Es. apply bindE in H. destruct H as ([m c] & E1 & H). rewrite E1. cbn [bind].
  apply bindE in H. destruct H as (d & E2 & H). rewrite E2. cbn [bind].
  apply bindE in H. destruct H as ([m' c'] & E3 & H). rewrite E3. cbn [bind].
  apply bindE in H. destruct H as (ps' & _ & H). rewrite Es. cbn [bind]. apply bindE in H. destruct H as ([] & E4 & _).
  rewrite (check_shape _ _ _ St E4). cbn [bind]. eexists. split; reflexivity.
Qed.

Lemma ones_pos j n m : 0 < n -> 0 < prod_list (repeat 1 j ++ n :: repeat 1 m).
Proof.
  intros Pn. assert (O : forall m, prod_list (repeat 1 m) = 1) by (intros m'; induction m' as [|m' IH]; [reflexivity|]; change (1 * prod_list (repeat 1 m') = 1); lia).
  induction j as [|j IH].
  - change (0 < n * prod_list (repeat 1 m)). rewrite O. lia.
  - change (repeat 1 (S j) ++ n :: repeat 1 m) with (1 :: (repeat 1 j ++ n :: repeat 1 m)).
    unfold prod_list in *. cbn [fold_right]. lia.
Qed.

Lemma valid_values (p : pd R) L : valid_pd p L -> forall k v, od_get (p_vals p) k = Some v -> ~ In k L \/ (In k L /\ exists a, v = VArr a /\ 0 < tsize a).
Proof.
  intros V k v G. destruct (in_dec string_dec k L) as [I|I]; [|auto].
  right. split; [exact I|]. apply In_nth_error in I. destruct I as (j & J). destruct (vp_column p L V j k J) as (a & n & Ga & Pn & Sa & _).
  exists a. split; [congruence|]. unfold tsize. rewrite Sa. apply ones_pos. exact Pn.
Qed.

Lemma ex_compared : exists p q : pd R, ex_make = Ok p /\
  make_pd "x,y,w|z" ex_vals (Some ex_dims) (Some (mkT [2; 3; 2] (fun _ => 1%R))) (PSFloat 3%R) = Ok q /\ p_prob p <> p_prob q /\
  NoDup (p_keylist p) /\ comparable p p /\ same_values p p /\ comparable p q /\ same_values p q /\
  (exists k v, od_get (p_vals p) k = Some v /\ 1 < elements v) /\
  (forall k v, In (k, v) (p_vals p) -> negb (String.eqb k "w") = true \/ (exists x, v = VNum x) \/ exists x, v = VStr x).
Proof.
  destruct ex_ok as (p & E & V & K & M & C & P & Ps & Vx & Vy & Vz & Vw).
  destruct (made_again _ _ _ _ (mkT [2; 3; 2] (fun _ => 1%R)) _ (PSFloat 3%R) (Lin 3%R) p E) as (q & Q & Pq); [reflexivity| |].
  { cbn [eval_pscale]. rewrite (proj2 (Reqb_false_iff 3 n1)), (proj2 (Reqb_false_iff 3 n0)); [reflexivity| |]; unfold n0, n1; cbn; lra. }
  exists p, q. split; [exact E|]. split; [exact Q|].
  split.
  { rewrite P, Pq. intros H. injection H as H. apply (f_equal (fun f : list nat -> R => f [])) in H. cbn in H. lra. }
  pose proof (vp_keys p _ V) as ND. split; [exact ND|].
  destruct (made_vals F _ _ _ _ _ p E) as (d & D & Vp). destruct (made_vals F _ _ _ _ _ q Q) as (d' & D' & Vq).
  assert (EV : p_vals p = p_vals q) by (rewrite Vp, Vq; exact (dist_vals _ _ _ _ _ _ D D')).
  assert (KV : p_keylist q = p_keylist p) by (unfold p_keylist, d_keylist; fold (p_vals p); fold (p_vals q); rewrite EV; reflexivity).
  clear D D' Vp Vq E Q.
  assert (W : forall k v, od_get (p_vals p) k = Some v -> (k = "w"%string /\ exists x, v = VNum x) \/ (k <> "w"%string /\ exists a, v = VArr a /\ 0 < tsize a)).
  { intros k v G. destruct (valid_values p _ V k v G) as [I|(I & A)]; [left|right; split; [intros ->; cbn in I; intuition discriminate|exact A]].
    assert (Ik : In k (p_keylist p)) by (apply od_get_in in G; apply (in_map fst) in G; exact G).
    rewrite K in Ik. cbn in Ik, I. assert (k = "w"%string) as -> by intuition. split; [reflexivity|].
    unfold variable in Vw. rewrite G in Vw. injection Vw as Vw. unfold var_of in Vw. destruct v as [x| | |a|]; try discriminate; [exists x; reflexivity|].
    destruct (shape a); discriminate. }
  assert (CP : comparable p p).
  { split; [exact ND|]. split; [exact ND|]. intros k v w G1 G2. rewrite G1 in G2. injection G2 as <-.
    destruct (W k v G1) as [(_ & x & ->)|(_ & a & -> & Z)]; cbn; [auto|]. rewrite to_list_length. auto. }
  assert (SP : same_values p p).
  { split; [reflexivity|]. intros k v w G1 G2. rewrite G1 in G2. injection G2 as <-.
    destruct (W k v G1) as [(_ & x & ->)|(_ & a & -> & Z)]; cbn; auto. }
  split; [exact CP|]. split; [exact SP|]. split; [unfold comparable in *; rewrite KV, <- EV; exact CP|].
  split; [unfold same_values in *; rewrite KV, <- EV; exact SP|]. split.
  - unfold variable in Vx. destruct (od_get (p_vals p) "x") as [v|] eqn:G; [|discriminate]. exists "x"%string, v. split; [exact G|].
    injection Vx as Vx. unfold var_of in Vx. destruct v as [x| | |a|]; try discriminate. destruct (shape a); [discriminate|].
    injection Vx as Vx. unfold elements. rewrite Vx. cbn [length]. lia.
  - intros k v I. destruct (W k v (od_in_get _ _ _ ND I)) as [(-> & x & ->)|(N & _)]; [right; left; exists x; reflexivity|].
    left. apply String.eqb_neq in N. rewrite N. reflexivity.
Qed.

End Ex.
