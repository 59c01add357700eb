(** A distribution for the examples about assignments. *)
From Coq Require Import Ascii String ZArith Reals Lra Bool Arith Lia Permutation List.
From Verif Require Import Base Num Tensor OdLemmas PScales PScales_Spec Names Names_Spec Names_Proofs Distr Distr_Spec Distr_Proofs PDModel PD_Spec
  PD_Sort_Spec PD_Examples PD_SortEx PD_Marg PDSetModel PDSet_Spec PDSet_Proofs.
Import ListNotations.
Local Open Scope R_scope.

Lemma made_keys {F : Fmt R} name (vals : odict (value R)) dims n pr ps p :
  NoDup (od_keys vals) -> vals <> [] -> naxes dims n -> make_pd name vals (Some dims) pr ps = Ok p -> p_keylist p = od_keys vals.
Proof.
  intros ND NE NA H. unfold make_pd in H.
  destruct (str_margcond name) as [[m0 c0]|]; cbn [bind] in H; [|discriminate].
  destruct (make_dist name vals (Some dims)) as [d|] eqn:Ed; cbn [bind] in H; [|discriminate].
  destruct (override_names _ _) as [[m c]|]; cbn [bind] in H; [|discriminate].
  destruct (eval_pscale ps) as [s|]; cbn [bind] in H; [|discriminate].
  destruct (check_prob _ _) as [[]|]; cbn [bind] in H; [|discriminate]. injection H as <-.
  destruct (make_dist_result _ vals dims n d ND NE NA Ed) as (_ & K & _). exact K.
Qed.

Section Ex.
Let F : Fmt R := fmt_ex.
Existing Instance F.

(** p(x,u|z), x and u along axis 0 (three values), z along axis 1 (two values). *)
Lemma ex_ready : exists p, srt_make = Ok p /\ ready p 2 /\ p_shape p = [3; 2]%nat /\ p_pscale p = Lin 1 /\
  p_prob p = Some srt_prob /\ NoDup (od_keys (p_dims p)) /\ p_keylist p = ["x"; "u"; "z"]%string /\
  (exists a, column (p_vals p) "z" a /\ tsize a = 2%nat) /\ on_axis 2 (p_dims p) "z" 1.
Proof.
  assert (ND : NoDup (od_keys srt_vals)) by (repeat constructor; cbn; intuition discriminate).
  assert (NE : srt_vals <> []) by discriminate.
  assert (NA : naxes srt_dims 2).
  { split; [|right; exists "z"%string, 1%Z; split; [cbn; auto|reflexivity]].
    intros k d [E1|[E1|[E1|[]]]]; injection E1 as <- <-; reflexivity. }
  destruct srt_ok as (p & E & V & Sh & S & P & D & _). exists p. split; [exact E|]. split.
  { split; [exact V|]. exact (made_flags _ _ _ _ _ _ _ ND NE NA E). }
  do 3 (split; [assumption|]). rewrite D. split; [repeat constructor; cbn; intuition discriminate|].
  assert (O : on_axis 2 srt_dims "z" 1) by (exists 1%Z; split; [reflexivity|split; [left; split; [lia|reflexivity]|lia]]).
  assert (KL : p_keylist p = ["x"; "u"; "z"]%string).
  { rewrite (made_keys _ _ _ _ _ _ _ ND NE NA E). reflexivity. }
  split; [exact KL|]. split; [|exact O].
  assert (I : In "z"%string (od_keys (p_vals p))) by (change (In "z"%string (p_keylist p)); rewrite KL; cbn; auto).
  apply od_key_get in I. destruct I as (v & G). destruct (lo_described _ _ V) as (_ & D2 & _).
  destruct (D2 _ _ G) as [[_ N]|(a & j & C & O')].
  - destruct N as [N|N]; rewrite D in N; discriminate.
  - exists a. split; [exact C|]. rewrite <- D in O. pose proof (lo_size _ _ V _ _ _ C O) as X. rewrite Sh in X. cbn in X. congruence.
Qed.
End Ex.
