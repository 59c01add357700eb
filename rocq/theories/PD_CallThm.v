(** The property theorems about slicing, and cases meeting their hypotheses. *)
From Coq Require Import Ascii String ZArith Reals Lra Bool Arith Lia Permutation Sorted List.
From Verif Require Import Base Num Tensor TensorBcast OdLemmas TensorLemmas RNumLemmas PScales
  PScales_Spec PScales_Proofs Names Names_Spec Names_Proofs Distr PDModel PD_Spec PD_Make PD_Sums
  PD_Valid PD_Marg PD_Simple_Spec PD_Rekey PD_SortEx PD_Examples PD_ProdThm PD_Call_Spec PD_Call PD_Call2.
Import ListNotations.
Local Open Scope nat_scope.

Lemma slice_ok (F : Fmt R) (p : pd R) (L : list string) (values : odict R) (at_ : assignment) :
  valid_pd p L -> key_ordered p L -> incl (od_keys values) (p_keylist p) -> locates p values at_ ->
  (forall k x, od_get values k = Some x -> In k L -> simple_key k /\ good_entry (k ++ "=" ++ fmt x)%string) ->
  let ks := restrict (od_keys values) L in
  exists q, call p values false = Ok q /\ valid_pd q (without ks L) /\ p_keylist q = p_keylist p /\
    od_keys (p_marg q) = od_keys (p_marg p) /\ od_keys (p_cond q) = od_keys (p_cond p) /\ p_pscale q = p_pscale p /\
    (forall k x, In k ks -> od_get values k = Some x -> variable q k = Some (Scal (VNum x))) /\
    (forall k, ~ In k ks -> variable q k = variable p k) /\
    forall a, prob_at q (without ks L) a = prob_at p L (placed ks at_ a).
Proof.
  intros V KO VN LOC NM ks.
  assert (AS : forall k x, od_get values k = Some x -> asked values k = x) by (intros k x G; unfold asked; rewrite G; reflexivity).
  assert (GK : forall k, In k ks -> exists x, od_get values k = Some x) by (intros k K; apply od_key_get; unfold ks in K; apply in_restrict in K; tauto).
  destruct (call_gen p L V values at_ LOC VN) as (q & E & Vq & K1 & K2 & K3 & K4 & W1 & W2 & P).
  - apply key_ordered_aligned; auto. intros k K. apply in_restrict in K. tauto.
  - intros k K. destruct (GK k K) as (x & G). unfold newname. rewrite (AS k x G). apply NM; auto. apply in_restrict in K. tauto.
  - exists q. do 6 (split; [assumption|]). split; [|split; assumption].
    intros k x K G. rewrite <- (AS k x G). apply W1, K.
Qed.

(** A value given for a scalar variable is not looked at. *)
Lemma slice_scalar (F : Fmt R) (p : pd R) (L : list string) (k : string) (x : R) :
  valid_pd p L -> key_ordered p L -> In k (p_keylist p) -> ~ In k L ->
  exists q, call p [(k, x)] false = Ok q /\ valid_pd q L /\ p_keylist q = p_keylist p /\ 
    (forall j, variable q j = variable p j) /\ forall a, prob_at q L a = prob_at p L a.
Proof.
  intros V KO Kk NL.
  assert (R0 : restrict (od_keys [(k, x)]) L = []).
  { unfold restrict. cbn [od_keys map fst]. clear - NL. induction L as [|y l IH]; [reflexivity|]. cbn in *.
    destruct (String.eqb_spec y k); [subst; tauto|]. cbn. apply IH. tauto. }
  assert (W0 : without [] L = L) by (unfold without; cbn; clear; induction L; cbn; congruence).
  destruct (slice_ok F p L [(k, x)] (fun _ => 0) V KO) as (q & E & Vq & K1 & _ & _ & _ & _ & W2 & P).
  - intros y [<-|[]]. exact Kk.
  - intros y v l G W. cbn in G. destruct (String.eqb_spec y k) as [->|]; [|discriminate]. exfalso.
    destruct (od_key_get (p_vals p) k Kk) as (w & Gw). destruct (vp_scalar _ _ V k w Gw NL) as [S1 _].
    unfold variable in W. rewrite Gw in W. unfold var_of in W. destruct w as [| | |b|]; try discriminate.
    unfold issingleton in S1. cbn in S1. destruct (shape b); [discriminate|]. cbn in S1. discriminate.
  - intros y v G I. cbn in G. destruct (String.eqb_spec y k) as [->|]; [contradiction|discriminate].
  - cbn zeta in *. rewrite R0, W0 in *. exists q. do 3 (split; [assumption|]). split; [intros j; apply W2; intros []|].
    intros a. rewrite P. reflexivity.
Qed.

Lemma col_array (F : Fmt R) (p : pd R) (L : list string) k l : valid_pd p L -> In k L -> variable p k = Some (Col l) ->
  exists a, od_get (p_vals p) k = Some (VArr a) /\ to_list a = l /\ tsize a = length l.
Proof.
  intros V KL W. destruct (vp_axis p L V k KL) as (a & Ga & Sa & _). exists a. split; [exact Ga|].
  unfold variable in W. rewrite Ga in W. unfold var_of in W. destruct (shape a); [destruct (pos k L); discriminate|].
  injection W as <-. split; [reflexivity|]. symmetry. apply to_list_length.
Qed.

Lemma sorted_same l : forall m, StronglySorted lt l -> StronglySorted lt m -> (forall i, In i l <-> In i m) -> l = m.
Proof.
  induction l as [|x l IH]; intros [|y m] S1 S2 H; [reflexivity| | |].
  - exfalso. apply (H y). left. reflexivity.
  - exfalso. apply (H x). left. reflexivity.
  - inversion S1 as [|? ? S1' F1]; subst. inversion S2 as [|? ? S2' F2]; subst. rewrite Forall_forall in F1, F2.
    assert (x = y).
    { pose proof (proj1 (H x) (or_introl eq_refl)) as [|H1]; [auto|]. pose proof (proj2 (H y) (or_introl eq_refl)) as [|H2]; [auto|].
      specialize (F1 _ H2). specialize (F2 _ H1). lia. }
    subst y. f_equal. apply IH; auto. intros i. split; intros I.
    + destruct (proj1 (H i) (or_intror I)) as [<-|]; [|assumption]. specialize (F1 _ I). lia.
    + destruct (proj2 (H i) (or_intror I)) as [<-|]; [|assumption]. specialize (F2 _ I). lia.
Qed.

(** Keeping the axis, first axis. *)
Lemma keep_first (F : Fmt R) (p : pd R) (L : list string) (k : string) (x : R) (keepdims : bool) (l : list R) (ms : list nat) :
  valid_pd p (k :: L) -> variable p k = Some (Col l) -> simple_key k ->
  ms <> [] -> keepdims = true \/ length ms <> 1 ->
  StronglySorted lt ms -> (forall i, In i ms <-> i < length l /\ nth i l 0%R = x) ->
  exists q, call p [(k, x)] keepdims = Ok q /\ valid_pd q (k :: L) /\ p_keylist q = p_keylist p /\
    od_keys (p_marg q) = od_keys (p_marg p) /\ od_keys (p_cond q) = od_keys (p_cond p) /\ p_pscale q = p_pscale p /\
    variable q k = Some (Col (repeat x (length ms))) /\
    (forall j, j <> k -> variable q j = variable p j) /\
    forall a, in_bounds q (k :: L) a -> prob_at q (k :: L) a = prob_at p (k :: L) (upd a k (nth (a k) ms 0)).
Proof.
  intros V W SK NE AP SS IM. assert (KL : In k (k :: L)) by (left; reflexivity).
  destruct (col_array F p _ k l V KL W) as (a & Ga & La & Ta).
  assert (EM : matches a x = ms).
  { apply sorted_same; [apply matches_sorted|exact SS|]. intros i. rewrite matches_in, La, Ta, IM. tauto. }
  pose proof (arr_first p (k :: L) V k x keepdims a KL Ga) as H. rewrite EM in H. apply H; auto.
  cbn. rewrite String.eqb_refl. reflexivity.
Qed.

(** Any other axis. *)
Lemma keep_other (F : Fmt R) (p : pd R) (L : list string) (k0 k : string) (x : R) (keepdims : bool) (l : list R) :
  valid_pd p (k0 :: L) -> In k L -> variable p k = Some (Col l) -> 1 < length l ->
  In x l -> keepdims = true \/ (exists i j, i < j < length l /\ nth i l 0%R = x /\ nth j l 0%R = x) ->
  exists e, call p [(k, x)] keepdims = Err e.
Proof.
  intros V KL W Sz IX AP. assert (KL' : In k (k0 :: L)) by (right; exact KL).
  destruct (col_array F p _ k l V KL' W) as (a & Ga & La & Ta).
  apply (arr_other p (k0 :: L) V k x keepdims a KL' Ga).
  - destruct (In_nth l x 0%R IX) as (i & Hi & Ei). intros C. assert (H : In i (matches a x)) by (rewrite matches_in, La, Ta; auto).
    rewrite C in H. destruct H.
  - destruct AP as [->|(i & j & [Hij Hj] & Ei & Ej)]; [auto|]. right. intros C.
    assert (H1 : In i (matches a x)) by (rewrite matches_in, La, Ta; split; [lia|exact Ei]).
    assert (H2 : In j (matches a x)) by (rewrite matches_in, La, Ta; auto).
    destruct (matches a x) as [|m [|]]; try discriminate. destruct H1 as [->|[]], H2 as [->|[]]. lia.
  - pose proof (vp_axes _ _ V) as ND. inversion ND as [|? ? N0 _]; subst. cbn.
    destruct (String.eqb_spec k0 k) as [->|]; [contradiction|lia].
  - unfold size_of. rewrite W. exact Sz.
Qed.

(** *** examples *)
Local Open Scope R_scope.
(** p(x,y,w=5|z) at y = 2. *)
Lemma ex_slice : exists p : pd R, ex_make = Ok p /\ let L := ["x"; "y"; "z"]%string in let values := [("y"%string, 2); ("w"%string, 6)] in
  @valid_pd fmt_ex p L /\ key_ordered p L /\ incl (od_keys values) (p_keylist p) /\ locates p values (fun _ => 1%nat) /\
  (forall k x, od_get values k = Some x -> In k L -> simple_key k /\ good_entry (k ++ "=" ++ @fmt R fmt_ex x)%string).
Proof.
  destruct ex_ok as (p & E & V & K & M & C & P & Ps & Vx & Vy & Vz & Vw). exists p. split; [exact E|]. cbn zeta. split; [exact V|].
  split; [unfold key_ordered; rewrite K; reflexivity|]. split; [rewrite K; intros y H; cbn in *; intuition|]. split.
  - intros k x l G W. cbn in G. destruct (String.eqb_spec k "y") as [->|].
    + injection G as <-. rewrite Vy in W. injection W as <-. split; [cbn; lia|]. split; [reflexivity|].
      intros j Hj Ej. cbn in Hj. destruct j as [|[|[|j]]]; cbn in Ej; try lia; try reflexivity; exfalso; lra.
    + destruct (String.eqb_spec k "w") as [->|]; [congruence|discriminate].
  - intros k x G I. cbn in G. destruct (String.eqb_spec k "y") as [->|].
    + split; [|apply good_entryb_ok; reflexivity]. split; [apply good_entryb_ok; reflexivity|]. cbn. intuition discriminate.
    + destruct (String.eqb_spec k "w") as [->|]; [cbn in I; intuition discriminate|discriminate].
Qed.

(** The scalar w = 5 at 6. *)
Lemma ex_slice_scalar : exists p : pd R, ex_make = Ok p /\ let L := ["x"; "y"; "z"]%string in
  @valid_pd fmt_ex p L /\ key_ordered p L /\ In "w"%string (p_keylist p) /\ ~ In "w"%string L /\ variable p "w" = Some (Scal (VNum 5)).
Proof.
  destruct ex_ok as (p & E & V & K & M & C & P & Ps & Vx & Vy & Vz & Vw). exists p. split; [exact E|]. cbn zeta. split; [exact V|].
  split; [unfold key_ordered; rewrite K; reflexivity|]. split; [rewrite K; cbn; auto|]. split; [cbn; intuition discriminate|exact Vw].
Qed.

(** p(x,y) at x = 2, keeping the axis, and at y = 3. *)
Lemma ex_keep : exists p : pd R, scl_make (/ 6) (PSFloat 1) = Ok p /\
  @valid_pd fmt_ex p ["x"; "y"]%string /\ variable p "x" = Some (Col [1; 2]) /\ simple_key "x" /\
  StronglySorted lt [1%nat] /\ (forall i, In i [1%nat] <-> (i < length [1; 2])%nat /\ nth i [1; 2] 0 = 2) /\
  variable p "y" = Some (Col [1; 2; 3]) /\ In "y"%string ["y"]%string /\ (1 < length [1; 2; 3])%nat /\ In 3 [1; 2; 3].
Proof.
  destruct (scl_ok (/ 6) (PSFloat 1) (Lin 1) one_scale) as (p & E & V & K & M & Ps & P & Vx & Vy). exists p. split; [exact E|].
  split; [exact V|]. split; [exact Vx|]. split; [exact simple_x|]. split; [repeat constructor|]. split.
  - intros i. cbn [In length]. split.
    + intros [<-|[]]. split; [lia|reflexivity].
    + intros [H Ei]. destruct i as [|[|i]]; [cbn in Ei; lra|auto|lia].
  - split; [exact Vy|]. split; [left; reflexivity|]. split; [cbn; lia|cbn; auto].
Qed.
