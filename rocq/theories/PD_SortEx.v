(** Examples for sorting. *)
From Coq Require Import Ascii String ZArith QArith Reals Lra Bool Arith Lia Permutation Sorted List.
From Verif Require Import Base Num Tensor TensorBcast OdLemmas TensorLemmas RNumLemmas PScales PScales_Spec Names Names_Spec
  Names_Proofs Distr Distr_Spec Distr_Proofs PDModel PDUtils PD_Spec PD_Make PD_Valid PD_Marg PD_MakeGen PD_Examples PD_ProductEx PD_Sort_Spec PD_Sort.
Import ListNotations.
Local Open Scope nat_scope.

Section Ex.
Let F : Fmt R := fmt_ex.
Existing Instance F.

(** p(x,u|z): x and u along axis 0, z along axis 1. *)
Definition srt_vals : odict (value R) :=
  [("x", VArr (of_list 0 [3; 1; 2])); ("u", VArr (of_list 0 [7; 8; 9])); ("z", VArr (of_list 0 [5; 6]))]%string%R.
Definition srt_dims : odict (option Z) := [("x", Some 0%Z); ("u", Some 0%Z); ("z", Some 1%Z)]%string.
Definition srt_prob : tensor R := mkT [3; 2] (fun idx => match idx with [0; _] => / 2 | [1; _] => / 3 | _ => / 6 end)%R.
Definition srt_make := make_pd "x,u|z" srt_vals (Some srt_dims) (Some srt_prob) (PSFloat 1%R).

Lemma one_scale : eval_pscale (PSFloat 1%R) = Ok (Lin 1%R).
Proof. cbn. assert (H : n_eqb 1%R n1 = true) by (apply Reqb_iff; reflexivity). rewrite H. reflexivity. Qed.

Lemma srt_ok : exists p, srt_make = Ok p /\ laid_out p 2 /\ p_shape p = [3; 2] /\ p_pscale p = Lin 1%R /\ p_prob p = Some srt_prob /\
  p_dims p = srt_dims /\ variable p "x" = Some (Col [3; 1; 2]%R) /\ variable p "u" = Some (Col [7; 8; 9]%R) /\ variable p "z" = Some (Col [5; 6]%R).
Proof.
  assert (ND : NoDup (od_keys srt_vals)) by (repeat constructor; cbn; intuition discriminate).
  assert (NA : naxes srt_dims 2).
  { split; [|right; exists "z"%string, 1%Z; split; [cbn; auto|reflexivity]].
    intros k d [E|[E|[E|[]]]]; injection E as <- <-; reflexivity. }
  assert (AXx : forall k, k = "x"%string \/ k = "u"%string -> on_axis 2 srt_dims k 0).
  { intros k [-> | ->]; exists 0%Z; (split; [reflexivity|split; [left; split; [lia|reflexivity]|lia]]). }
  assert (AXz : on_axis 2 srt_dims "z" 1) by (exists 1%Z; split; [reflexivity|split; [left; split; [lia|reflexivity]|lia]]).
  assert (De : describes srt_vals srt_dims 2).
  { split; [|split].
    - cbn. intros k H. intuition (subst; discriminate).
    - intros k v G. assert (K : In k (od_keys srt_vals)) by (eapply od_get_some_key; eauto). right.
      cbn in K. destruct K as [<-|[<-|[<-|[]]]]; injection G as <-.
      + eexists _, 0. split; [split; [reflexivity|split; [discriminate|reflexivity]]|]. apply AXx. auto.
      + eexists _, 0. split; [split; [reflexivity|split; [discriminate|reflexivity]]|]. apply AXx. auto.
      + eexists _, 1. split; [split; [reflexivity|split; [discriminate|reflexivity]]|]. exact AXz.
    - intros [|[|j]] J; [| |lia].
      + exists "x"%string, (of_list 0 [3; 1; 2])%R. split; [split; [reflexivity|split; [discriminate|reflexivity]]|]. apply AXx. auto.
      + exists "z"%string, (of_list 0 [5; 6])%R. split; [split; [reflexivity|split; [discriminate|reflexivity]]|]. exact AXz. }
  destruct (make_pd_gen srt_vals srt_dims 2 [("x", "x"); ("u", "u")]%string [("z", "z")]%string (PSFloat 1%R) (Lin 1%R)) as (d & Ed & Hok & _); auto.
  { discriminate. } { apply good_keyed. reflexivity. } { exact one_scale. }
  unfold srt_vals in Ed. cbn in Ed. injection Ed as <-.
  destruct (Hok srt_prob) as (q & Eq & Q1 & Q2 & Q3 & Q4 & Q5 & Q6 & Q7); [reflexivity|].
  cbn in Q1, Q2, Q3, Q4, Q5.
  exists q. split; [exact Eq|]. unfold variable. rewrite Q1, Q2, Q3, Q6, Q7.
  split.
  - assert (GX : forall k v, od_get (p_vals q) k = Some v -> exists a, v = VArr a /\ shape a <> [] /\
       (tsize a = list_max (shape a) /\ 0 < tsize a) /\ ((k = "x"%string \/ k = "u"%string) /\ tsize a = 3 \/ k = "z"%string /\ tsize a = 2)).
    { intros k v G. assert (K : In k (od_keys (p_vals q))) by (eapply od_get_some_key; exact G). rewrite Q1 in *. cbn in K.
      destruct K as [<-|[<-|[<-|[]]]]; cbn in G; injection G as <-; eexists; (split; [reflexivity|]);
      (split; [discriminate|]); (split; [split; [reflexivity|match goal with |- 0 < ?x => let y := eval vm_compute in x in change x with y end; lia]|]); auto; right; auto. }
    assert (NX : forall k, od_get (p_dims q) k <> None -> k = "x"%string \/ k = "u"%string \/ k = "z"%string).
    { intros k H. destruct (od_get (p_dims q) k) eqn:G; [|contradiction]. apply od_get_some_key in G. rewrite Q2 in G. cbn in G. intuition. }
    assert (Q2' : p_dims q = srt_dims) by exact Q2. clear Q2.
    assert (KL : p_keylist q = ["x"; "u"; "z"]%string) by (unfold p_keylist, d_keylist; change (d_vals (p_d q)) with (p_vals q); rewrite Q1; reflexivity).
    assert (SHq : p_shape q = [3; 2]) by exact Q3.
    constructor; rewrite ?KL, ?Q2', ?SHq, ?Q4, ?Q5; auto.
    + discriminate.
    + intros k d G. apply od_get_in in G. destruct G as [E|[E|[E|[]]]]; injection E as <- <-; lia.
    + intros k [<-|[<-|[<-|[]]]]; discriminate.
    + split; [change (od_keys (p_vals q)) with (p_keylist q); rewrite KL; cbn; intros k H; intuition (subst; discriminate)|]. split.
      * intros k v G. right. destruct (GX k v G) as (a & -> & N & [M1 _] & [[X _]|[X _]]).
        -- exists a, 0. split; [split; [exact G|split; assumption]|]. apply AXx, X.
        -- exists a, 1. subst k. split; [split; [exact G|split; assumption]|]. exact AXz.
      * intros [|[|j]] J; [| |lia].
        -- destruct (od_key_get (p_vals q) "x") as (v & G); [rewrite Q1; cbn; auto|].
           destruct (GX _ v G) as (a & -> & N & [M1 _] & _). exists "x"%string, a. split; [split; [exact G|split; assumption]|]. apply AXx. auto.
        -- destruct (od_key_get (p_vals q) "z") as (v & G); [rewrite Q1; cbn; auto|].
           destruct (GX _ v G) as (a & -> & N & [M1 _] & _). exists "z"%string, a. split; [split; [exact G|split; assumption]|]. exact AXz.
    + intros k G. destruct (GX k _ G) as (a & E & _). discriminate.
    + intros k a j [G C] (z & D & O & J). destruct (GX k _ G) as (a' & E & N & _ & T). injection E as <-.
      destruct T as [[[-> | ->] T]|[-> T]]; cbn in D; injection D as <-; rewrite T; [assert (j = 0) by lia|assert (j = 0) by lia|assert (j = 1) by lia]; subst j; reflexivity.
    + intros k a [G C]. destruct (GX k _ G) as (a' & E & N & [_ M] & T). injection E as <-. exact M.
    + exists srt_prob. auto.
    + rewrite Q7. exact one_scale.
    + apply good_keyed. reflexivity.
    + intros k v e G S. destruct (GX k v G) as (a & -> & N & _). rewrite arr_not_singleton in S by exact N. discriminate.
    + rewrite <- Q4, <- Q5. apply (make_pd_name_is _ _ _ _ _ _ Eq).
  - repeat split; reflexivity.
Qed.

Lemma ex_sort : exists p, srt_make = Ok p /\ laid_out p 2 /\
  on_axis 2 (p_dims p) "x" 0 /\ on_axis 2 (p_dims p) "u" 0 /\ argsort [3; 1; 2]%R [1; 2; 0] /\
  variable p "x" = Some (Col [3; 1; 2]%R) /\ pick [3; 1; 2]%R [1; 2; 0] = [1; 2; 3]%R /\
  variable p "u" = Some (Col [7; 8; 9]%R) /\ pick [7; 8; 9]%R [1; 2; 0] = [8; 9; 7]%R /\
  prob_pos p [0; 1] = (/ 2)%R /\ moved 0 (nth 2 [1; 2; 0] 0) [2; 1] = [0; 1].
Proof.
  destruct srt_ok as (p & E & V & Sh & S & P & D & Vx & Vu & Vz). exists p. split; [exact E|]. split; [exact V|]. rewrite D.
  split; [exists 0%Z; split; [reflexivity|split; [left; split; [lia|reflexivity]|lia]]|].
  split; [exists 0%Z; split; [reflexivity|split; [left; split; [lia|reflexivity]|lia]]|].
  split.
  { split.
    - cbn. apply Permutation_sym. apply (Permutation_trans (l' := [1; 0; 2])); [constructor|]. apply perm_skip, perm_swap.
    - cbn. repeat constructor; lra. }
  split; [exact Vx|]. split; [reflexivity|]. split; [exact Vu|]. split; [reflexivity|]. split; [|reflexivity].
  unfold prob_pos. rewrite P, S. cbn [spec_of]. unfold denote. rewrite log_kind_one, factor_one. cbn. lra.
Qed.

Lemma ex_sort_scalar : exists p, ex_make = Ok p /\ laid_out p 3 /\ In "w"%string (p_keylist p) /\ od_get (p_dims p) "w" = Some None.
Proof.
  destruct ex_ok as (p & E & V & K & _). exists p. split; [exact E|]. split; [apply (valid_laid_out p _ V)|].
  assert (I : In "w"%string (p_keylist p)) by (rewrite K; cbn; auto). split; [exact I|].
  apply (vp_dim_scalar p _ V _ I). cbn. intuition discriminate.
Qed.
End Ex.

(** x on axis 1 and u on axis -1, of two: the same axis. *)
Definition neg_make : result (pd Q) := @make_pd Q _ fmt_q "z,x,u"
  [("z", VArr (of_list 0 [5; 6])); ("x", VArr (of_list 0 [3; 1])); ("u", VArr (of_list 0 [7; 8]))]%string%Q
  (Some [("z", Some 0%Z); ("x", Some 1%Z); ("u", Some (-1)%Z)]%string)
  (Some (mkT [2; 2] (fun _ => (1#4)%Q))) (PSFloat 1%Q).

Lemma ex_sort_negative : exists p q, neg_make = Ok p /\ @sorted Q _ fmt_q p "x" [1; 0] = Ok q /\
  option_map raveled_value (od_get (p_vals q) "x") = Some [1; 3]%Q /\
  option_map raveled_value (od_get (p_vals q) "u") = Some [7; 8]%Q.
Proof.
  destruct neg_make as [p|] eqn:Ep; [|vm_compute in Ep; discriminate]. exists p. vm_compute in Ep. injection Ep as <-.
  destruct (sorted _ _ _) as [q|] eqn:Eq; vm_compute in Eq; [|discriminate]. exists q.
  split; [reflexivity|]. split; [reflexivity|]. injection Eq as <-. split; vm_compute; reflexivity.
Qed.
