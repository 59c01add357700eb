(** Proofs about variables. *)
From Coq Require Import String ZArith Reals Lra Lia Bool Arith List Permutation.
From Verif Require Import Base Num RNumLemmas Likelihoods Lik_Proofs Lik_Slice VariableModel Var_Spec.
Import ListNotations.
Local Open Scope R_scope.

Lemma as_num_num v : as_num v = num v.
Proof. destruct v as [[|]|z|x]; reflexivity. Qed.

Lemma v_leb_iff a b : v_leb (T := R) a b = true <-> num a <= num b.
Proof. unfold v_leb. rewrite Rleb_iff, !as_num_num. tauto. Qed.

Lemma v_leb_false a b : v_leb (T := R) a b = false <-> num b < num a.
Proof. unfold v_leb. rewrite Rleb_false_iff, !as_num_num. tauto. Qed.

Lemma atom_leb_iff a b : atom_leb (T := R) a b = true <-> limit_le a b.
Proof.
  destruct a as [x|[|]], b as [y|[|]]; cbn; try tauto; try (split; [discriminate|tauto]).
  apply v_leb_iff.
Qed.

Lemma limit_total a b : limit_le a b \/ limit_le b a.
Proof. destruct a as [x|[|]], b as [y|[|]]; cbn; try tauto. lra. Qed.

Lemma atom_ltb_iff a b : atom_ltb (T := R) a b = true <-> ~ limit_le b a.
Proof.
  unfold atom_ltb. rewrite negb_true_iff, <- not_true_iff_false, atom_leb_iff. tauto.
Qed.

(** ** Membership *)

Lemma over_iff e (x : R) :
  (if is_tup e then atom_ltb (atom_of e) (AV (PF x)) else atom_leb (atom_of e) (AV (PF x))) = true <-> over e x.
Proof.
  destruct e as [a|a]; cbn [is_tup atom_of].
  - rewrite atom_leb_iff. destruct a as [v|[|]]; cbn; intuition discriminate.
  - rewrite atom_ltb_iff. destruct a as [v|[|]]; cbn; try (intuition discriminate). lra.
Qed.

Lemma under_iff e (x : R) :
  (if is_tup e then atom_ltb (AV (PF x)) (atom_of e) else atom_leb (AV (PF x)) (atom_of e)) = true <-> under e x.
Proof.
  destruct e as [a|a]; cbn [is_tup atom_of].
  - rewrite atom_leb_iff. destruct a as [v|[|]]; cbn; intuition discriminate.
  - rewrite atom_ltb_iff. destruct a as [v|[|]]; cbn; try (intuition discriminate). lra.
Qed.

Lemma inside_interval e0 e1 v : exists b, inside (interval e0 e1) v = Some b /\
  (b = true <-> over e0 (num v) /\ under e1 (num v)).
Proof.
  cbn [inside interval vs_vset vs_vtype]. eexists. split; [reflexivity|].
  rewrite andb_true_iff.
  assert (A : forall a, atom_leb (T := R) a (AV v) = atom_leb a (AV (PF (num v)))).
  { intros [w|[|]]; reflexivity. }
  assert (B : forall a, atom_leb (T := R) (AV v) a = atom_leb (AV (PF (num v))) a).
  { intros [w|[|]]; reflexivity. }
  unfold atom_ltb. rewrite A, A, B, B. pose proof (over_iff e0 (num v)) as O. pose proof (under_iff e1 (num v)) as U.
  unfold atom_ltb in O, U. rewrite O, U. tauto.
Qed.

Lemma inside_interval_iff e0 e1 v : inside (interval e0 e1) v = Some true <-> over e0 (num v) /\ under e1 (num v).
Proof.
  destruct (inside_interval e0 e1 v) as (b & -> & H). rewrite <- H. split; congruence.
Qed.

Lemma inside_discrete t vals v : t <> VFloat ->
  exists b, inside (discrete t vals) v = Some b /\ (b = true <-> In (num v) (map num vals)).
Proof.
  intros H. cbn [inside discrete vs_vset vs_vtype]. destruct t; try congruence;
    (eexists; split; [reflexivity|]; rewrite existsb_exists; rewrite in_map_iff; split;
     [intros (e & I & E); apply in_map_iff in I; destruct I as (w & <- & I); cbn in E; exists w;
      unfold v_eqb in E; rewrite !as_num_num in E; apply Reqb_iff in E; auto
     |intros (w & E & I); exists (Bare (AV w)); split; [apply in_map_iff; eauto|];
      cbn; unfold v_eqb; rewrite !as_num_num, E; apply Reqb_refl]).
Qed.

(** ** Construction *)

Lemma cast_vtype t v : vtype_of (cast (T := R) t v) = t.
Proof. destruct t, v; reflexivity. Qed.

Lemma cast_loop_ok own l : forall vt l' vt', cast_loop (T := R) own vt l = Ok (l', vt') ->
  (forall t, vt = Some t -> vt' = Some t) /\ (l <> [] -> exists t, vt' = Some t) /\ length l' = length l /\
  (forall t, vt' = Some t -> Forall (typed t) l').
Proof.
  induction l as [|e l IH]; intros vt l' vt' H; cbn in H.
  - inversion H; subst. split; auto. split; [congruence|]. split; auto.
  - match type of H with bind ?x _ = _ => destruct x as [[e' vt1]|] eqn:E; [|discriminate] end.
    cbn in H. destruct (cast_loop own vt1 l) as [[r vt2]|] eqn:E2; [|discriminate]. cbn in H.
    inversion H; subst; clear H. destruct (IH _ _ _ E2) as (A & B & C & D).
    assert (G : (forall t, vt = Some t -> vt1 = Some t) /\ exists t, vt1 = Some t /\ typed t e').
    { destruct e as [[v|b]|[v|b]].
      - destruct vt as [t|].
        + destruct own; [|destruct (vtype_eqb t (vtype_of v)); [|discriminate]];
            inversion E; subst; (split; [auto|]; exists t; split; auto; apply cast_vtype).
        + inversion E; subst. split; [discriminate|]. eexists. split; [reflexivity|]. apply cast_vtype.
      - inversion E; subst. destruct vt as [t|]; (split; [congruence|]; eexists; split; [reflexivity|exact I]).
      - inversion E; subst. destruct vt as [t|]; (split; [congruence|]; eexists; split; [reflexivity|apply cast_vtype]).
      - inversion E; subst. destruct vt as [t|]; (split; [congruence|]; eexists; split; [reflexivity|exact I]). }
    destruct G as (G1 & t1 & -> & G2). specialize (A _ eq_refl). subst vt'.
    split; [intros t Ht; rewrite (G1 t Ht); auto|]. split; [eauto|]. split; [cbn; lia|].
    intros t Et. inversion Et; subst. constructor; auto.
Qed.

Lemma eval_vlims_ok t l l' : eval_vlims (T := R) (Some t) l = Ok l' ->
  Permutation l l' /\ l' <> [] /\
  (t = VFloat -> exists e0 e1, l' = [e0; e1] /\ limit_le (atom_of e0) (atom_of e1)).
Proof.
  intros H. destruct t; cbn in H.
  1,2: destruct l as [|e l]; [discriminate|];
    match type of H with (if ?b then _ else _) = _ => destruct b; [discriminate|] end;
    inversion H; subst; split; [auto|split; [discriminate|discriminate]].
  destruct l as [|e0 [|e1 [|e2 l]]]; try discriminate.
  destruct (atom_ltb (atom_of e1) (atom_of e0)) eqn:E; inversion H; subst.
  - split; [apply perm_swap|]. split; [discriminate|]. intros _. exists e1, e0. split; auto.
    apply atom_ltb_iff in E. destruct (limit_total (atom_of e0) (atom_of e1)); tauto.
  - split; [auto|]. split; [discriminate|]. intros _. exists e0, e1. split; auto.
    apply not_true_iff_false in E. rewrite atom_ltb_iff in E.
    destruct (limit_total (atom_of e0) (atom_of e1)); tauto.
Qed.

Lemma set_vset_made (s s' : vstate R) a : set_vset s a = (s', Ok tt) -> well_made s'.
Proof.
  unfold set_vset. set (norm := match a with ANone => _ | _ => _ end). destruct norm as [l|e]; [|discriminate].
  destruct (cast_loop (vs_vtype s) (vs_vtype s) l) as [[l' vt]|] eqn:C; [|discriminate].
  destruct (eval_vlims vt l') as [l''|] eqn:E; [|discriminate]. intros H. inversion H; subst.
  destruct (cast_loop_ok _ _ _ _ _ C) as (_ & B & L & D).
  assert (NE : l <> []).
  { intros ->. cbn in C. inversion C; subst. destruct (vs_vtype s) as [[| |]|]; discriminate. }
  destruct (B NE) as [t ->]. destruct (eval_vlims_ok _ _ _ E) as (P & NE' & FL).
  exists t, l''. cbn. split; auto. split; auto. split; [|auto].
  specialize (D t eq_refl). rewrite Forall_forall in *. intros x Hx. apply D.
  apply (Permutation_in x (Permutation_sym P) Hx).
Qed.

Lemma set_vtype_first (s : vstate R) a : set_vtype new_state a = (s, Ok tt) -> well_made s.
Proof.
  unfold set_vtype. cbn [vs_vset new_state].
  set (t := match a with ANone => _ | _ => _ end). clearbody t. destruct t as [t|]; [|discriminate].
  apply set_vset_made.
Qed.

Lemma init_state_made vset vt (s : vstate R) : init_state vset vt = (s, Ok tt) -> well_made s.
Proof.
  unfold init_state. intros H. destruct (truth vt) as [[|]|]; [| |discriminate].
  - destruct (set_vtype new_state vt) as [s1 [[]|]] eqn:E1; [|discriminate]. cbn [seq_state] in H.
    destruct (truth vset) as [[|]|]; [|inversion H; subst|discriminate].
    + eapply set_vset_made; eauto.
    + eapply set_vtype_first; eauto.
  - destruct (truth vset) as [[|]|]; [| |discriminate].
    + eapply set_vset_made; eauto.
    + eapply set_vtype_first; eauto.
Qed.

Lemma make_variable_made nm vset vt n (s : vstate R) :
  make_variable nm vset vt = Ok (n, s) -> well_made s /\ nm = Some n /\ valid_name n = true.
Proof.
  unfold make_variable, set_name. intros H. destruct nm as [nm|]; [|discriminate].
  destruct (valid_name nm) eqn:V; [|discriminate]. cbn [bind] in H.
  destruct (is_container vt).
  - destruct (init_state vt vset) as [s1 [[]|]] eqn:E; inversion H; subst. apply init_state_made in E. auto.
  - destruct (init_state vset vt) as [s1 [[]|]] eqn:E; inversion H; subst. apply init_state_made in E. auto.
Qed.

(** Type and set may be given in either order. *)
Lemma make_swap nm vset vt : is_container vset = true -> is_container vt = false ->
  make_variable (T := R) nm vset vt = make_variable nm vt vset.
Proof. intros A B. unfold make_variable. rewrite A, B. reflexivity. Qed.

(** A float variable from two limits in either order. *)
Lemma float_limits nm e0 e1 : valid_name nm = true ->
  exists f0 f1, make_variable (T := R) (Some nm) (AList [e0; e1]) (AType VFloat) = Ok (nm, interval f0 f1) /\
    (forall x, over f0 x /\ under f1 x <->
       (limit_le (atom_of e0) (atom_of e1) /\ over e0 x /\ under e1 x) \/
       (~ limit_le (atom_of e0) (atom_of e1) /\ over e1 x /\ under e0 x)).
Proof.
  intros V. unfold make_variable, set_name. rewrite V. cbn [bind is_container].
  unfold init_state. cbn [truth].
  change (set_vtype new_state (AType VFloat)) with
    (mkVS (T := R) (Some VFloat) (Some (default_vset VFloat)), Ok tt).
  cbn [seq_state].
  set (c := fun e : elem R => match e with
     | Bare (AV v) => Bare (AV (cast VFloat v)) | Tup (AV v) => Tup (AV (cast VFloat v)) | _ => e end).
  assert (CL : cast_loop (T := R) (Some VFloat) (Some VFloat) [e0; e1] = Ok ([c e0; c e1], Some VFloat)).
  { destruct e0 as [[v|b]|[v|b]], e1 as [[w|b']|[w|b']]; reflexivity. }
  assert (LE : forall e e', limit_le (atom_of (c e)) (atom_of (c e')) <-> limit_le (atom_of e) (atom_of e')).
  { intros [[v|[|]]|[v|[|]]] [[w|[|]]|[w|[|]]]; cbn; rewrite ?as_num_num; tauto. }
  assert (OV : forall e x, over (c e) x <-> over e x).
  { intros [[v|[|]]|[v|[|]]] x; cbn; rewrite ?as_num_num; tauto. }
  assert (UN : forall e x, under (c e) x <-> under e x).
  { intros [[v|[|]]|[v|[|]]] x; cbn; rewrite ?as_num_num; tauto. }
  unfold set_vset. cbn [vs_vtype]. rewrite CL. cbn [eval_vlims].
  destruct (atom_ltb (atom_of (c e1)) (atom_of (c e0))) eqn:E.
  - apply atom_ltb_iff in E. rewrite LE in E. exists (c e1), (c e0). split; [reflexivity|].
    intros x. rewrite OV, UN. tauto.
  - apply not_true_iff_false in E. rewrite atom_ltb_iff, LE in E.
    assert (limit_le (atom_of e0) (atom_of e1)).
    { destruct (atom_leb (atom_of e0) (atom_of e1)) eqn:E'; [apply atom_leb_iff; auto|].
      apply not_true_iff_false in E'. rewrite atom_leb_iff in E'. tauto. }
    exists (c e0), (c e1). split; [reflexivity|]. intros x. rewrite OV, UN. tauto.
Qed.
