(** Repetitions at R. *)
From Coq Require Import String ZArith Reals Lra Bool Arith Lia List.
From Verif Require Import Base OdLemmas Num RNumLemmas Tensor PScales Names Distr PDModel PDUtils PD_Spec PD_Product_Spec PD_Examples PD_Counts.
Import ListNotations.

Definition rep (v : R) (m : Z) (a : R) : result (pd R) :=
  @make_pd R _ fmt_ex "x,n" [("x", VNum v); ("n", VSet [SEint m])]%string (Some []) (Some (tscalar a)) (PSFloat 1%R).

Lemma one1 : n_eqb 1%R (@n1 R RNum) = true. Proof. apply Reqb_iff. reflexivity. Qed.
Lemma one2 : n_eqb (@n1 R RNum) (@n1 R RNum) = true. Proof. apply Reqb_iff. reflexivity. Qed.

Lemma mul111 : n_mul (n_mul (@n1 R RNum) n1) n1 = n1. Proof. change (1 * 1 * 1 = 1)%R. lra. Qed.
Lemma one0 : n_eqb (@n1 R RNum) (n_ofZ 0) = false. Proof. apply Reqb_false_iff. change (1 <> 0)%R. lra. Qed.
Lemma zero0 : n_eqb (@n0 R RNum) n0 = true. Proof. apply Reqb_iff. reflexivity. Qed.

Lemma ex_counts (v w a b : R) : exists p q r, rep v 2 a = Ok p /\ rep w 3 b = Ok q /\
  @product R _ fmt_ex [p; q] PSNone = Ok (Some r) /\ overlapping [p; q] /\
  od_keys (p_vals p) = ["x"; "n"]%string /\ od_keys (p_vals q) = ["x"; "n"]%string /\
  hold_counts [p; q] "n" [2; 3]%Z /\
  od_get (p_vals p) "x" = Some (VNum v) /\ od_get (p_vals q) "x" = Some (VNum w) /\
  (forall s, In s [p; q] -> ~ counted s "x").
Proof.
  destruct (rep v 2 a) as [p|] eqn:Ep; [|exfalso; revert Ep; cbv -[n_eqb n_leb n_ltb n_ofZ n1 n0 n_mul RNum R1 IZR]; rewrite ?one1; discriminate].
  destruct (rep w 3 b) as [q|] eqn:Eq; [|exfalso; revert Eq; cbv -[n_eqb n_leb n_ltb n_ofZ n1 n0 n_mul RNum R1 IZR]; rewrite ?one1; discriminate].
  exists p, q. revert Ep Eq.
  cbv -[product overlapping hold_counts counted od_get od_keys n_eqb n_leb n_ltb n_ofZ n1 n0 n_mul RNum R1 IZR In not]; rewrite ?one1. intros Ep Eq.
  injection Ep as <-. injection Eq as <-.
  match goal with |- context [@product R RNum ?f ?l ?g] => assert (X : exists r, @product R RNum f l g = Ok (Some r)) end.
  { eexists. cbv -[n_eqb n_leb n_ltb n_ofZ n1 n0 n_mul RNum R1 IZR]. repeat (rewrite ?mul111, ?one1, ?one2, ?one0, ?zero0; cbv -[n_eqb n_leb n_ltb n_ofZ n1 n0 n_mul RNum R1 IZR]). reflexivity. }
  destruct X as [r X]. exists r. split; [reflexivity|]. split; [reflexivity|]. split; [exact X|].
  split; [eexists [], _, [], _, [], "x"%string; split; [reflexivity|cbn; auto]|].
  split; [reflexivity|]. split; [reflexivity|]. split; [repeat constructor|]. split; [reflexivity|]. split; [reflexivity|].
  intros s [<-|[<-|[]]] [z C]; discriminate C.
Qed.
