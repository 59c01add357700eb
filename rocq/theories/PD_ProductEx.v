(** Examples for products: a prior p(x), likelihoods p(y|x) and samples. *)
From Coq Require Import Ascii String ZArith QArith Reals Lra Bool Arith Lia Permutation List.
From Verif Require Import Base Num Tensor TensorBcast OdLemmas TensorLemmas RNumLemmas PScales
  PScales_Spec PScales_Proofs Names Names_Spec Names_Proofs Distr Distr_Proofs PDModel PDUtils PD_Spec PD_Product_Spec
  PD_Make PD_Sums PD_Valid PD_Marg PD_Examples PD_Product1 PScales_Prod.
Import ListNotations.
Local Open Scope nat_scope.

Section Ex.
Let F : Fmt R := fmt_ex.
Existing Instance F.
Local Open Scope R_scope.

(** p(x), x being 1 or 2. *)
Definition pri_vals : odict (value R) := [("x", VArr (of_list 0 [1; 2]))]%string.
Definition pri_prob : tensor R := of_list 0 [/ 4; 3 / 4].
Definition pri_make := make_pd "x" pri_vals (Some [("x", Some 0%Z)]%string) (Some pri_prob) (PSFloat 1).

Lemma pri_ok : exists p, pri_make = Ok p /\ valid_pd p ["x"]%string /\
  p_keylist p = ["x"]%string /\ p_marg p = [("x", "x")]%string /\ p_cond p = [] /\
  p_prob p = Some pri_prob /\ p_pscale p = Lin 1 /\ variable p "x" = Some (Col [1; 2]).
Proof.
  destruct (@make_pd_ok F pri_vals [("x", Some 0%Z)]%string ["x"]%string [("x", "x")]%string []
              pri_prob (PSFloat 1) (Lin 1)) as (q & E & V & K & M & C & P & S & Vr).
  - repeat constructor; cbn; intuition discriminate.
  - discriminate.
  - cbn. intros k Hk. intuition (subst; discriminate).
  - repeat constructor; cbn; intuition discriminate.
  - intros k Hk. cbn in *. tauto.
  - intros k v G Hk.
    assert (Hin : In k (od_keys pri_vals)) by (eapply od_get_some_key; eauto).
    cbn in Hin, Hk. tauto.
  - intros [|j] k Hj; cbn in Hj; inversion Hj; subst; try (destruct j; discriminate);
    (eexists; split; [reflexivity|]; cbn; repeat split; auto; try discriminate; lia).
  - intros k Hk. cbn in *. tauto.
  - repeat constructor; cbn; intuition discriminate.
  - reflexivity.
  - apply good_keyed. reflexivity.
  - apply good_keyed. reflexivity.
  - cbn. repeat constructor.
  - cbn. assert (H : n_eqb 1 n1 = true) by (apply Reqb_iff; reflexivity). rewrite H. reflexivity.
  - cbn. assert (H : n_eqb 1 n1 = true) by (apply Reqb_iff; reflexivity). rewrite H. reflexivity.
  - exists q. split; [exact E|]. split; [exact V|]. split; [exact K|]. rewrite M, C.
    repeat (split; [reflexivity || assumption|]). rewrite Vr. reflexivity.
Qed.

(** p(y|x), with x on axis 0 and y on axis 1; x is 1 or x1. *)
Definition lik_vals (x1 : R) : odict (value R) :=
  [("y", VArr (of_list 0 [3; 4; 5])); ("x", VArr (of_list 0 [1; x1]))]%string.
Definition lik_prob : tensor R := mkT [2; 3]%nat (fun _ => / 3).
Definition lik_make (x1 : R) :=
  make_pd "y|x" (lik_vals x1) (Some [("y", Some 1%Z); ("x", Some 0%Z)]%string) (Some lik_prob) (PSFloat 1).

Lemma lik_ok x1 : exists p, lik_make x1 = Ok p /\ valid_pd p ["x"; "y"]%string /\
  p_keylist p = ["y"; "x"]%string /\ p_marg p = [("y", "y")]%string /\ p_cond p = [("x", "x")]%string /\
  p_prob p = Some lik_prob /\ p_pscale p = Lin 1 /\ variable p "x" = Some (Col [1; x1]) /\
  variable p "y" = Some (Col [3; 4; 5]).
Proof.
  destruct (@make_pd_ok F (lik_vals x1) [("y", Some 1%Z); ("x", Some 0%Z)]%string ["x"; "y"]%string
              [("y", "y")]%string [("x", "x")]%string
              lik_prob (PSFloat 1) (Lin 1)) as (q & E & V & K & M & C & P & S & Vr).
  - repeat constructor; cbn; intuition discriminate.
  - discriminate.
  - cbn. intros k Hk. intuition (subst; discriminate).
  - repeat constructor; cbn; intuition discriminate.
  - intros k Hk. cbn in *. tauto.
  - intros k v G Hk.
    assert (Hin : In k (od_keys (lik_vals x1))) by (eapply od_get_some_key; eauto).
    cbn in Hin, Hk. tauto.
  - intros [|[|j]] k Hj; cbn in Hj; inversion Hj; subst; try (destruct j; discriminate);
    (eexists; split; [reflexivity|]; cbn; repeat split; auto; try discriminate; lia).
  - intros k Hk. cbn in *. tauto.
  - repeat constructor; cbn; intuition discriminate.
  - reflexivity.
  - apply good_keyed. reflexivity.
  - apply good_keyed. reflexivity.
  - cbn. repeat constructor.
  - cbn. assert (H : n_eqb 1 n1 = true) by (apply Reqb_iff; reflexivity). rewrite H. reflexivity.
  - cbn. assert (H : n_eqb 1 n1 = true) by (apply Reqb_iff; reflexivity). rewrite H. reflexivity.
  - exists q. split; [exact E|]. split; [exact V|]. split; [exact K|]. rewrite M, C.
    repeat (split; [reflexivity || assumption|]). rewrite !Vr. split; reflexivity.
Qed.

Lemma ex_c20 : exists p q : pd R, pri_make = Ok p /\ ex_make = Ok q /\
  In "x"%string (od_keys (p_marg p)) /\ In "x"%string (od_keys (p_marg q)) /\
  [p; q] = [] ++ p :: [] ++ q :: [] /\ ~ repetitions [p; q].
Proof.
  destruct pri_ok as (p & E & V & K & M & C & _). destruct ex_ok as (q & E' & V' & K' & M' & C' & _).
  exists p, q. split; [exact E|]. split; [exact E'|]. rewrite M, M'. cbn [map fst od_keys].
  split; [left; auto|]. split; [left; auto|]. split; [reflexivity|].
  intros (m & c & H & _). pose proof (H p) as Hp. pose proof (H q) as Hq.
  rewrite M in Hp. rewrite M' in Hq. cbn in Hp, Hq. destruct Hp as [<- _]; auto. destruct Hq as [Hq _]; auto. discriminate.
Qed.

Lemma ex_c21 : exists (p q : pd R) v w, pri_make = Ok p /\ lik_make 7 = Ok q /\
  first_two [p; q] "x" p q /\ In q [p; q] /\ In p [p; q] /\ valid_pd q ["x"; "y"]%string /\
  In "x"%string ["x"; "y"]%string /\ od_get (p_cond q) "x" = Some "x"%string /\ od_get (p_marg p) "x" = Some "x"%string /\
  od_get (p_vals p) "x" = Some v /\ od_get (p_vals q) "x" = Some w /\ differ (raveled_value v) (raveled_value w).
Proof.
  destruct pri_ok as (p & E & V & K & M & C & _ & _ & Vx). destruct (lik_ok 7) as (q & E' & V' & K' & M' & C' & _ & _ & Vx' & _).
  unfold variable in Vx, Vx'.
  destruct (od_get (p_vals p) "x") as [v|] eqn:Gv; [|discriminate].
  destruct (od_get (p_vals q) "x") as [w|] eqn:Gw; [|discriminate].
  exists p, q, v, w. split; [exact E|]. split; [exact E'|].
  split; [exists [], [], []; split; [reflexivity|intros r []]|].
  split; [cbn; auto|]. split; [cbn; auto|]. split; [exact V'|]. split; [cbn; auto|].
  rewrite M, C'. split; [reflexivity|]. split; [reflexivity|]. split; [exact Gv|]. split; [exact Gw|].
  assert (Rv : raveled_value v = [1; 2]).
  { destruct v as [| | |a|]; cbn in Vx; try discriminate. destruct (shape a); [discriminate|]. cbn. congruence. }
  assert (Rw : raveled_value w = [1; 7]).
  { destruct w as [| | |a|]; cbn in Vx'; try discriminate. destruct (shape a); [discriminate|]. cbn. congruence. }
  rewrite Rv, Rw. left. exists 1%nat, 2, 7. split; [reflexivity|]. split; [reflexivity|].
  rewrite Rabs_left by lra. rewrite Rabs_right by lra. lra.
Qed.

(** The likelihood on (x,y) times the prior on x. *)
Definition ex_axes (p : pd R) : list string := if mem_str "y" (p_keylist p) then ["x"; "y"]%string else ["x"]%string.

Lemma ex_c18 : exists p q : pd R, pri_make = Ok p /\ lik_make 2 = Ok q /\ multipliable [q; p] ex_axes /\
  exists a, a = (fun k => if String.eqb k "y" then 2 else 1)%nat /\ log_safe [q; p] ex_axes a /\
    map (fun r => prob_at r (ex_axes r) a) [q; p] = [/ 3; 3 / 4].
Proof.
  destruct pri_ok as (p & E & V & K & M & C & P & S & Vx). destruct (lik_ok 2) as (q & E' & V' & K' & M' & C' & P' & S' & Vx' & Vy').
  exists p, q. split; [exact E|]. split; [exact E'|].
  assert (Ap : ex_axes p = ["x"]%string) by (unfold ex_axes; rewrite K; reflexivity).
  assert (Aq : ex_axes q = ["x"; "y"]%string) by (unfold ex_axes; rewrite K'; reflexivity).
  assert (LN : log_kind (PSFloat 1) = false) by (unfold log_kind; destruct (Req_EM_T 1 0); [lra|reflexivity]).
  assert (NU : forall r k, In r [q; p] -> ~ unbound [q; p] r k).
  { intros r k I [H1 H2]. apply H2. unfold marginals. cbn [flat_map]. rewrite M, M'. destruct I as [<-|[<-|[]]]; [rewrite C' in H1|rewrite C in H1]; cbn in *; tauto. }
  split.
  - constructor.
    + intros r [<-|[<-|[]]]; [rewrite Aq|rewrite Ap]; assumption.
    + left. exists p. rewrite Ap. split; [cbn; auto|discriminate].
    + intros l1 r l2 r' l3 k Eq (z & H). exfalso. assert (I : In r [q; p]) by (rewrite Eq; apply in_elt). assert (Kr : In k (p_keylist r)) by (eapply od_get_some_key; eauto).
      destruct I as [<-|[<-|[]]]; [rewrite K' in Kr|rewrite K in Kr]; cbn in Kr; destruct Kr as [<-|Kr];
        try destruct Kr as [<-|[]]; try destruct Kr; unfold variable in *; rewrite H in *; discriminate.
    + assert (Y : forall r k, In r [q; p] -> In k (ex_axes r) -> entry r k = Some k).
      { intros r k [<-|[<-|[]]]; unfold entry; [rewrite Aq, M', C'|rewrite Ap, M, C]; intros [<-|H]; try reflexivity; [destruct H as [<-|[]]; reflexivity|destruct H]. }
      intros r r' k I I' H H'. rewrite (Y r k), (Y r' k); auto.
    + assert (X : forall r k, In r [q; p] -> In k (p_keylist r) -> variable r k = if String.eqb k "x" then Some (Col [1; 2]) else Some (Col [3; 4; 5])).
      { intros r k [<-|[<-|[]]]; [rewrite K'|rewrite K]; intros [<-|H]; try assumption; [destruct H as [<-|[]]; assumption|destruct H]. }
      intros r r' k I I' H H'. rewrite (X r k), (X r' k); auto.
    + unfold marginals. cbn [flat_map]. rewrite M, M'. cbn. repeat constructor; cbn; intuition discriminate.
    + intros r r' k k' I I' H. destruct (NU r k I H).
    + intros l1 r l2 r' l3 k H HU. exfalso. apply (NU r k); [rewrite H; apply in_elt|exact HU].
    + left. intros r [<-|[<-|[]]]; [rewrite S'|rewrite S]; cbn [spec_of]; (split; [split; cbn; [exact Logic.I|lra]|exact LN]).
  - eexists. split; [reflexivity|]. split.
    + intros (r & I & H). exfalso. unfold log_scaled in H. destruct I as [<-|[<-|[]]]; [rewrite S' in H|rewrite S in H]; cbn [spec_of] in H; congruence.
    + cbn [map]. rewrite Ap, Aq. unfold prob_at. rewrite P, P', S, S'. cbn [spec_of]. unfold denote. rewrite LN.
      unfold factor. destruct (Req_EM_T 1 0); [lra|]. cbn. f_equal; [lra|]. f_equal; lra.
Qed.

(** p(n={3}|x=5) and p(x=5), of scalars only and in logarithms. *)
Definition cnt_vals : odict (value R) := [("n", VSet [SEint 3]); ("x", VNum 5)]%string.
Definition cnt_make := make_pd "n|x" cnt_vals (Some []) (Some (tscalar (-2))) (PSCplx 0 0).
Definition pnt_make := make_pd "x" [("x", VNum 5)]%string (Some []) (Some (tscalar (-1))) (PSCplx 0 0).

Lemma log_zero_ok : eval_pscale (PSCplx 0 0) = Ok (Log 0 0).
Proof.
  cbn. assert (H : n_eqb 0 n0 = true) by (apply Reqb_iff; reflexivity). rewrite ?H. cbn.
  assert (H' : n_eqb 0 n1 = false) by (apply not_true_is_false; intros Q; apply Reqb_iff in Q; unfold n1 in Q; cbn in Q; lra).
  rewrite ?H'. reflexivity.
Qed.

Lemma cnt_ok : exists p, cnt_make = Ok p /\ valid_pd p [] /\
  p_keylist p = ["n"; "x"]%string /\ p_marg p = [("n", "n={3}")]%string /\ p_cond p = [("x", "x=5")]%string /\
  p_prob p = Some (tscalar (-2)) /\ p_pscale p = Log 0 0 /\ variable p "n" = Some (Scal (VSet [SEint 3])) /\ variable p "x" = Some (Scal (VNum 5)).
Proof.
  destruct (@make_pd_ok F cnt_vals [] [] [("n", "n")]%string [("x", "x")]%string
              (tscalar (-2)) (PSCplx 0 0) (Log 0 0)) as (q & E & V & K & M & C & P & S & Vr).
  - repeat constructor; cbn; intuition discriminate.
  - discriminate.
  - cbn. intros k Hk. intuition (subst; discriminate).
  - constructor.
  - intros k [].
  - intros k v G _. split; [|left; reflexivity]. apply od_get_in in G. cbn in G. destruct G as [G|[G|[]]]; injection G as <- <-; reflexivity.
  - intros [|j] k Hj; discriminate.
  - intros k [].
  - constructor.
  - reflexivity.
  - apply good_keyed. reflexivity.
  - apply good_keyed. reflexivity.
  - cbn. repeat constructor.
  - apply log_zero_ok.
  - apply log_zero_ok.
  - exists q. split; [exact E|]. split; [exact V|]. split; [exact K|]. rewrite M, C.
    repeat (split; [reflexivity || assumption|]). rewrite !Vr. split; reflexivity.
Qed.

Lemma pnt_ok : exists p, pnt_make = Ok p /\ valid_pd p [] /\
  p_keylist p = ["x"]%string /\ p_marg p = [("x", "x=5")]%string /\ p_cond p = [] /\
  p_prob p = Some (tscalar (-1)) /\ p_pscale p = Log 0 0 /\ variable p "x" = Some (Scal (VNum 5)).
Proof.
  destruct (@make_pd_ok F [("x", VNum 5)]%string [] [] [("x", "x")]%string []
              (tscalar (-1)) (PSCplx 0 0) (Log 0 0)) as (q & E & V & K & M & C & P & S & Vr).
  - repeat constructor; cbn; intuition discriminate.
  - discriminate.
  - cbn. intros k Hk. intuition (subst; discriminate).
  - constructor.
  - intros k [].
  - intros k v G _. split; [|left; reflexivity]. apply od_get_in in G. cbn in G. destruct G as [G|[]]; injection G as <- <-; reflexivity.
  - intros [|j] k Hj; discriminate.
  - intros k [].
  - constructor.
  - reflexivity.
  - apply good_keyed. reflexivity.
  - apply good_keyed. reflexivity.
  - cbn. repeat constructor.
  - apply log_zero_ok.
  - apply log_zero_ok.
  - exists q. split; [exact E|]. split; [exact V|]. split; [exact K|]. rewrite M, C.
    repeat (split; [reflexivity || assumption|]). rewrite !Vr. reflexivity.
Qed.

Lemma ex_c18_scalars : exists p q : pd R, cnt_make = Ok p /\ pnt_make = Ok q /\ multipliable [p; q] (fun _ => []) /\
  (forall a, log_safe [p; q] (fun _ => []) a) /\ forall a, map (fun r => prob_at r [] a) [p; q] = [exp (-2); exp (-1)].
Proof.
  destruct cnt_ok as (p & E & V & K & M & C & P & S & Vn & Vx). destruct pnt_ok as (q & E' & V' & K' & M' & C' & P' & S' & Vx').
  exists p, q. split; [exact E|]. split; [exact E'|].
  assert (NU : forall r k, In r [p; q] -> ~ unbound [p; q] r k).
  { intros r k I [H1 H2]. apply H2. unfold marginals. cbn [flat_map]. rewrite M, M'. destruct I as [<-|[<-|[]]]; [rewrite C in H1|rewrite C' in H1]; cbn in *; tauto. }
  split; [|split].
  - constructor.
    + intros r [<-|[<-|[]]]; assumption.
    + right. split; [cbn; lia|]. intros r [<-|[<-|[]]]; [rewrite M|rewrite M']; discriminate.
    + intros l1 r l2 r' l3 k Eq (z & H) H'. destruct l1 as [|? [|? l1]]; cbn in Eq; [|destruct l2; discriminate|destruct l1; discriminate].
      destruct l2 as [|? l2]; [|destruct l2; discriminate]. injection Eq as <- <- _. rewrite K' in H'. destruct H' as [<-|[]].
      unfold variable in Vx. rewrite H in Vx. discriminate.
    + intros r r' k _ _ [].
    + assert (X : forall r k, In r [p; q] -> In k (p_keylist r) -> variable r k = if String.eqb k "x" then Some (Scal (VNum 5)) else Some (Scal (VSet [SEint 3]))).
      { intros r k [<-|[<-|[]]]; [rewrite K|rewrite K']; intros [<-|H]; try assumption; [destruct H as [<-|[]]; assumption|destruct H]. }
      intros r r' k I I' H H'. rewrite (X r k), (X r' k); auto.
    + unfold marginals. cbn [flat_map]. rewrite M, M'. cbn. repeat constructor; cbn; intuition discriminate.
    + intros r r' k k' I I' H. destruct (NU r k I H).
    + intros l1 r l2 r' l3 k H HU. exfalso. apply (NU r k); [rewrite H; apply in_elt|exact HU].
    + right. intros r [<-|[<-|[]]]; [rewrite S|rewrite S']; right; reflexivity.
  - intros a _ r I H. exfalso. apply H. unfold log_scaled. destruct I as [<-|[<-|[]]]; [rewrite S|rewrite S']; reflexivity.
  - intros a. cbn [map]. unfold prob_at. rewrite P, P', S, S'. unfold denote. cbn. rewrite log_offset_0, exp_0. f_equal; [lra|]. f_equal. lra.
Qed.
End Ex.

(** At Q, where products compute. *)
Definition fmt_q : Fmt Q := fun q => fmt_Z (Qnum q).

Lemma ex_scalar_mismatch :
  exists p q r : pd Q,
    od_get (p_marg p) "x" <> None /\ od_get (p_vals p) "x" = Some (VNum 5%Q) /\
    od_get (p_cond q) "x" <> None /\ od_get (p_vals q) "x" = Some (VNum 6%Q) /\
    @product Q _ fmt_q [p; q] PSNone = Ok (Some r) /\ od_get (p_vals r) "x" = Some (VNum 5%Q).
Proof.
  pose (mp := @make_pd Q _ fmt_q "x" [("x", VNum 5%Q)]%string (Some []) (Some (tscalar (1#2))) (PSFloat 1%Q)).
  pose (mq := @make_pd Q _ fmt_q "y|x" [("y", VNum 1%Q); ("x", VNum 6%Q)]%string (Some []) (Some (tscalar (1#3))) (PSFloat 1%Q)).
  assert (H : exists p, mp = Ok p /\
    exists q, mq = Ok q /\ exists r, @product Q _ fmt_q [p; q] PSNone = Ok (Some r) /\
    (match od_get (p_marg p) "x" with None => false | _ => true end, od_get (p_vals p) "x",
     match od_get (p_cond q) "x" with None => false | _ => true end, od_get (p_vals q) "x", od_get (p_vals r) "x") =
    (true, Some (VNum 5%Q), true, Some (VNum 6%Q), Some (VNum 5%Q))).
  { destruct mp as [p|] eqn:Ep; [|vm_compute in Ep; discriminate]. exists p. split; [reflexivity|].
    destruct mq as [q|] eqn:Eq; [|vm_compute in Eq; discriminate]. exists q. split; [reflexivity|].
    vm_compute in Ep. vm_compute in Eq. injection Ep as <-. injection Eq as <-.
    destruct (product _ _) as [[r|]|] eqn:Er; vm_compute in Er; try discriminate.
    exists r. split; [reflexivity|]. injection Er as <-. vm_compute. reflexivity. }
  destruct H as (p & _ & q & _ & r & Er & H).
  exists p, q, r. injection H as H1 H2 H3 H4 H5.
  split; [destruct (od_get (p_marg p) "x"); discriminate|]. split; [exact H2|].
  split; [destruct (od_get (p_cond q) "x"); discriminate|]. auto.
Qed.

(** p(x|z) and p(y|z) with the same column z cannot be multiplied. *)
Definition xz_q : result (pd Q) := @make_pd Q _ fmt_q "x|z"
  [("x", VArr (of_list 0 [1; 2])); ("z", VArr (of_list 0 [7; 8; 9]))]%string%Q (Some [("x", Some 0%Z); ("z", Some 1%Z)]%string)
  (Some (mkT [2; 3]%nat (fun _ => (1#2)%Q))) (PSFloat 1%Q).
Definition yz_q : result (pd Q) := @make_pd Q _ fmt_q "y|z"
  [("y", VArr (of_list 0 [3; 4])); ("z", VArr (of_list 0 [7; 8; 9]))]%string%Q (Some [("y", Some 0%Z); ("z", Some 1%Z)]%string)
  (Some (mkT [2; 3]%nat (fun _ => (1#2)%Q))) (PSFloat 1%Q).

Lemma ex_common_column : exists p q, xz_q = Ok p /\ yz_q = Ok q /\ @product Q _ fmt_q [p; q] PSNone = Err TypeError.
Proof.
  destruct xz_q as [p|] eqn:Ep; [|vm_compute in Ep; discriminate]. destruct yz_q as [q|] eqn:Eq; [|vm_compute in Eq; discriminate].
  exists p, q. split; [reflexivity|]. split; [reflexivity|].
  vm_compute in Ep. vm_compute in Eq. injection Ep as <-. injection Eq as <-. vm_compute. reflexivity.
Qed.
