(** Which divisions succeed, and what their quotients are for any axis orders. *)
From Coq Require Import Ascii String ZArith Reals Lra Bool Arith Lia Permutation List.
From Verif Require Import Base Num Tensor TensorBcast OdLemmas TensorLemmas RNumLemmas PScales
  PScales_Spec PScales_Proofs Names Names_Spec Names_Proofs Distr PDModel PDUtils PD_Spec PD_Make PD_Sums
  PD_Valid PD_Marg PD_Align PD_Div_Spec PD_Div PD_Bayes.
Import ListNotations.
Local Open Scope nat_scope.

Lemma place_ravel (sz : string -> nat) (L : list string) (a : assignment) : forall acc,
  fold_left (fun acc k => acc * sz k + a k) L acc = acc * prod_list (map sz L) + ravel (map sz L) (map a L).
Proof.
  unfold prod_list. induction L as [|k L IH]; intros acc; cbn [fold_left map ravel fold_right]; [lia|].
  rewrite IH. unfold prod_list. lia.
Qed.

Lemma place_is (sz : string -> nat) (L : list string) (a : assignment) : place sz L a = ravel (map sz L) (map a L).
Proof. unfold place. rewrite place_ravel. lia. Qed.

Section Exact.
Context {F : Fmt R}.

Lemma div_places (p : pd R) (L : list string) (q : pd R) (L2 : list string) :
  matching p L q L2 -> fine_scale p -> fine_scale q ->
  (forall k, In k L2 -> In k (od_keys (p_cond q)) -> size_of q k = 1) ->
  (L2 = [] -> forall k, In k (od_keys (p_marg p)) -> ~ In k L -> In k (od_keys (p_marg q))) ->
  exists r, truediv p q = Ok r /\ quotient_of p L q r /\
    forall a b, in_bounds p L a -> in_bounds q L2 b ->
      place (size_of q) L2 b = place (size_of p) (restrict (od_keys (p_marg q)) L) a ->
      (prob_at p L a <= npi)%R -> (npz <= prob_at q L2 b <= npi)%R ->
      (log_scaled p -> (npz <= prob_at p L a / prob_at q L2 b)%R) ->
      prob_at r L a = (prob_at p L a / prob_at q L2 b)%R.
Proof.
  intros [V V2 HC HI HV] FS FS2 H1 HS.
  assert (HP : forall k, In k L2 -> ~ In k (dkeys q) -> size_of q k = 1).
  { intros k K N. apply H1; [exact K|]. assert (Q := vp_incl _ _ V2 k K). apply (vp_key_iff q L2 V2) in Q. destruct Q; [contradiction|assumption]. }
  destruct (div_gen p q L L2 V V2 HC HI HV HP HS FS FS2) as (r & E & Vr & Mr & Cr & Sr & Vv & Pr).
  exists r. split; [exact E|]. split.
  - split; [exact Vr|]. split; [exact Mr|]. split; [|auto].
    intros k. rewrite Cr. unfold dcond, od_keys. rewrite map_app, map_map. cbn [dent fst]. rewrite map_id, in_app_iff, filter_In, mem_str_iff.
    change (map fst (p_cond p)) with (od_keys (p_cond p)). unfold dkeys.
    change (map fst (p_marg q)) with (od_keys (p_marg q)).
    assert (Q : In k (od_keys (p_marg q)) -> In k (p_keylist p)) by (intros K; apply (vp_key_iff p L V); left; apply HI, K).
    tauto.
  - intros a b Ha Hb Hp. rewrite !place_is in Hp. apply (Pr a b Ha Hb Hp).
Qed.

Lemma div_scalars_refused (p : pd R) (L : list string) (q : pd R) k :
  matching p L q [] -> In k (od_keys (p_marg p)) -> ~ In k L -> ~ In k (od_keys (p_marg q)) ->
  truediv p q = Err AssertionError.
Proof.
  intros [V V2 HC HI HV] K NL NQ. unfold truediv.
  destruct (seteq_str (od_keys (p_cond p)) (od_keys (p_cond q))); [|reflexivity]. cbn [assert_ bind]. cbv zeta.
  rewrite (issing_iff q [] V2). cbn [negb orb].
  match goal with |- bind (assert_ ?b) _ = _ => assert (Q : b = false); [|rewrite Q; reflexivity] end.
  match goal with |- seteq_str ?x ?y = false => destruct (seteq_str x y) eqn:E; [|reflexivity]; exfalso; apply seteq_str_iff in E; destruct E as [E _] end.
  apply NQ, E. apply in_map_iff.
  assert (Kk : In k (p_keylist p)) by (apply (vp_key_iff p L V); auto).
  destruct (vp_get p k Kk) as (v & G). exists ((k, v), issingleton v). split; [reflexivity|]. apply filter_In. split.
  - rewrite (vp_items p L V). apply in_map_iff. exists (k, v). split; [reflexivity|]. apply od_get_in. exact G.
  - cbn [fst snd]. apply andb_true_iff. split; [|apply od_mem_iff; exact K]. apply (vp_sing p L V k v G). exact NL.
Qed.

Lemma div_iff (p : pd R) (L : list string) (q : pd R) (L2 : list string) :
  matching p L q L2 -> fine_scale p -> fine_scale q ->
  ((exists r, truediv p q = Ok r) <->
   (forall k, In k L2 -> In k (od_keys (p_cond q)) -> size_of q k = 1) /\
   (L2 = [] -> forall k, In k (od_keys (p_marg p)) -> ~ In k L -> In k (od_keys (p_marg q)))).
Proof.
  intros HM FS FS2. split.
  - intros (r & E). split.
    + intros k K C. assert (V2 := mt_divisor _ _ _ _ HM).
      destruct (Nat.le_gt_cases 2 (size_of q k)) as [B|B].
      { destruct (div_conditional_column p L q L2 k HM K C B) as (e & E'). congruence. }
      destruct (vp_axis q L2 V2 k K) as (a & Ga & _ & Ta & Pa & _). destruct (vp_tsize q L2 V2 k a K Ga) as (T1 & Sh & _).
      assert (0 < size_of q k); [|lia].
      unfold size_of, variable. rewrite Ga. cbn. destruct (shape a); [contradiction|]. rewrite to_list_length. lia.
    + intros -> k K NL. destruct (in_dec string_dec k (od_keys (p_marg q))) as [I|N]; [exact I|].
      rewrite (div_scalars_refused p L q k HM K NL N) in E. discriminate.
  - intros [H1 HS]. destruct (div_places p L q L2 HM FS FS2 H1 HS) as (r & E & _). eauto.
Qed.

(** p(x,y) over q(x,y) with the axes exchanged. *)
Lemma div_exchanged (p q : pd R) (x y : string) (n : nat) :
  x <> y -> matching p [x; y] q [y; x] -> fine_scale p -> fine_scale q ->
  In x (od_keys (p_marg q)) -> In y (od_keys (p_marg q)) -> size_of p x = n -> size_of p y = n ->
  exists r, truediv p q = Ok r /\ quotient_of p [x; y] q r /\
    forall a, (a x < n) -> (a y < n) ->
      let b := exchanged x y a in
      (prob_at p [x; y] a <= npi)%R -> (npz <= prob_at q [y; x] b <= npi)%R ->
      (log_scaled p -> (npz <= prob_at p [x; y] a / prob_at q [y; x] b)%R) ->
      prob_at r [x; y] a = (prob_at p [x; y] a / prob_at q [y; x] b)%R.
Proof.
  intros XY HM FS FS2 Mx My Sx Sy.
  assert (Qx : size_of q x = n) by (unfold size_of; rewrite (mt_same _ _ _ _ HM x Mx); exact Sx).
  assert (Qy : size_of q y = n) by (unfold size_of; rewrite (mt_same _ _ _ _ HM y My); exact Sy).
  destruct (vp_marg_cond q _ (mt_divisor _ _ _ _ HM)) as (_ & _ & D).
  destruct (div_places p [x; y] q [y; x] HM FS FS2) as (r & E & Q & P).
  { intros k [<-|[<-|[]]] C; exfalso; [exact (D _ My C)|exact (D _ Mx C)]. }
  { discriminate. }
  exists r. split; [exact E|]. split; [exact Q|]. intros a Ax Ay b.
  assert (Bx : b x = a y) by (unfold b, exchanged; rewrite String.eqb_refl; reflexivity).
  assert (By : b y = a x) by (unfold b, exchanged; destruct (String.eqb_spec y x); [congruence|]; rewrite String.eqb_refl; reflexivity).
  apply P.
  - intros k [<-|[<-|[]]]; congruence.
  - intros k [<-|[<-|[]]]; rewrite ?Bx, ?By; congruence.
  - unfold restrict. cbn [filter]. rewrite (proj2 (mem_str_iff x _) Mx), (proj2 (mem_str_iff y _) My).
    unfold place. cbn [fold_left]. rewrite Bx, By, Qx, Qy, Sx, Sy. reflexivity.
Qed.
End Exact.
