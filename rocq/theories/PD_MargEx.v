(** A distribution of which two variables share an axis and that can be marginalised. *)
From Coq Require Import String ZArith Reals Lra Bool Arith Lia List.
From Verif Require Import Base OdLemmas Num RNumLemmas Tensor PScales Names Distr PDModel PD_Spec PD_Examples PD_CountsEx.
Import ListNotations.

Section G.
Context {T : Type} {N : Num T} {F : Fmt T} (a b one : T).

Definition zxyw_make : result (@pd T) := make_pd "z,x,y,w"
  [("z", VArr (of_list n0 [a; b])); ("x", VArr (of_list n0 [a; b])); ("y", VArr (of_list n0 [b; a])); ("w", VArr (of_list n0 [b; a]))]%string
  (Some [("z", Some 1%Z); ("x", Some 0%Z); ("y", Some 0%Z); ("w", Some 2%Z)]%string)
  (Some (mkT [2; 2; 2]%nat (fun _ => one))) (PSFloat one).

Hypothesis H1 : n_eqb one (@n1 T N) = true.
Hypothesis H2 : n_eqb (@n1 T N) n1 = true.

Lemma zxyw_ok : exists p q v, zxyw_make = Ok p /\ marginalise p ["x"; "y"]%string = Ok q /\
  NoDup (p_keylist p) /\ d_aresing (p_d p) = map (fun kv => issingleton (snd kv)) (p_vals p) /\
  incl ["x"; "y"]%string (before "w" (p_keylist p)) /\ od_get (p_vals p) "w" = Some v /\ issingleton v = false /\
  od_get (p_dims p) "x" = Some (Some 0%Z) /\ od_get (p_dims p) "y" = Some (Some 0%Z) /\
  od_get (p_dims p) "w" = Some (Some 2%Z) /\ od_get (p_dims q) "w" = Some (Some 0%Z).
Proof.
  destruct zxyw_make as [p|] eqn:Ep; [|exfalso; revert Ep; cbv -[n_eqb n_leb n_ltb n_ofZ n1 n0 n_mul]; rewrite ?H1; discriminate].
  exists p. revert Ep. cbv -[marginalise d_aresing p_vals p_dims p_keylist issingleton od_get n_eqb n_leb n_ltb n_ofZ n1 n0 n_mul before incl]; rewrite ?H1.
  intros Ep. injection Ep as <-.
  match goal with |- context [@marginalise T N ?f ?l ?g] => assert (X : exists r, @marginalise T N f l g = Ok r /\ od_get (p_dims r) "w" = Some (Some 0%Z)) end.
  { eexists. cbv -[n_eqb n_leb n_ltb n_ofZ n1 n0 n_mul n_add]. repeat (rewrite ?H1, ?H2; cbv -[n_eqb n_leb n_ltb n_ofZ n1 n0 n_mul n_add]). split; reflexivity. }
  destruct X as (q & X & Y). exists q. eexists. split; [reflexivity|]. split; [exact X|].
  split; [repeat constructor; cbn; intuition discriminate|]. split; [reflexivity|].
  split; [intros k [<-|[<-|[]]]; cbn; auto|]. split; [reflexivity|]. split; [reflexivity|]. repeat (split; [reflexivity|]). exact Y.
Qed.
End G.

(* p(z,x,y,w) with x and y along the first axis, z along the second and w along the third. *)
Lemma zxyw_real (F : Fmt R) : exists (p q : pd R) v, marginalise p ["x"; "y"]%string = Ok q /\ NoDup (p_keylist p) /\
  d_aresing (p_d p) = map (fun kv => issingleton (snd kv)) (p_vals p) /\
  incl ["x"; "y"]%string (before "w" (p_keylist p)) /\ od_get (p_vals p) "w"%string = Some v /\ issingleton v = false /\
  od_get (p_dims p) "x"%string = Some (Some 0%Z) /\ od_get (p_dims p) "y"%string = Some (Some 0%Z) /\
  od_get (p_dims p) "w"%string = Some (Some 2%Z) /\ od_get (p_dims q) "w"%string = Some (Some 0%Z).
Proof.
  destruct (@zxyw_ok R RNum F 1%R 2%R 1%R) as (p & q & v & _ & X); [apply Reqb_iff; reflexivity|apply Reqb_iff; reflexivity|].
  exists p, q, v. exact X.
Qed.
