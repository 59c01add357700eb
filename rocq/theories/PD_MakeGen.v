(** The constructor on values that may share axes. *)
From Coq Require Import Ascii String ZArith Reals Lra Bool Arith Lia Permutation List.
From Verif Require Import Base Num Tensor TensorBcast OdLemmas TensorLemmas RNumLemmas PScales Names Names_Spec
  Names_Proofs Distr Distr_Spec Distr_Proofs PDModel PD_Spec PD_Make.
Import ListNotations.

Section Gen.
Context {T : Type}.

Lemma map_by_key {A B} (f : A -> B) (b0 : B) (d : odict A) : NoDup (od_keys d) ->
  map (fun kv => f (snd kv)) d = map (fun k => match od_get d k with Some v => f v | None => b0 end) (od_keys d).
Proof.
  intros ND. unfold od_keys. rewrite map_map. apply map_ext_in. intros [k v] I. cbn.
  apply od_in_get in I; [|exact ND]. rewrite I. reflexivity.
Qed.

Lemma make_dist_sing name (vals : odict (value T)) dims n d : NoDup (od_keys vals) -> vals <> [] -> naxes dims n ->
  make_dist name vals (Some dims) = Ok d ->
  d_aresing d = map (fun kv => issingleton (snd kv)) (d_vals d) /\
  d_issing d = Some (forallb (fun b => b) (map (fun kv => issingleton (snd kv)) (d_vals d))).
Proof.
  intros ND NE NA H.
  destruct (make_dist_result name vals dims n d ND NE NA H) as (_ & K & _ & _ & _ & Hs & Hc & _).
  assert (De : describes vals dims n) by (apply (make_dist_iff name); eauto).
  assert (E : d_aresing d = map (fun kv => issingleton (kept (snd kv))) vals /\
              d_issing d = Some (forallb (fun b => b) (d_aresing d))).
  { unfold make_dist in H. destruct vals as [|kv0 vals0] eqn:EV; [contradiction|]. rewrite <- EV in *.
    destruct (clean_vals vals) as [vals1|] eqn:CV; cbn [bind] in H; [|discriminate].
    pose proof (clean_inv _ _ CV) as ->.
    destruct (fold_res _ _ _) as [st|]; cbn [bind] in H; [|discriminate].
    destruct (full_shape (s_shape st)); cbn [bind] in H; [|discriminate]. injection H as <-. cbn [d_aresing d_issing].
    rewrite map_map. split; reflexivity. }
  destruct E as [E1 E2]. rewrite E2. assert (Q : d_aresing d = map (fun kv => issingleton (snd kv)) (d_vals d)); [|rewrite <- Q; auto].
  rewrite E1. rewrite (map_by_key (fun v => issingleton (kept v)) false vals ND).
  rewrite (map_by_key (@issingleton T) false (d_vals d)) by (change (NoDup (d_keylist d)); rewrite K; exact ND).
  change (od_keys (d_vals d)) with (d_keylist d). rewrite K. apply map_ext_in. intros k Hk.
  apply od_key_get in Hk. destruct Hk as (v & G). rewrite G.
  destruct De as (_ & D & _). destruct (D k v G) as [[SV _]|(a & j & C & O)].
  - destruct (Hs k v G SV) as [Q _]. rewrite Q. reflexivity.
  - destruct (Hc k a j C O) as (_ & a' & Q1 & Q2 & _). destruct C as [C1 [C2 _]]. assert (v = VArr a) by congruence. subst v.
    rewrite Q1. rewrite arr_not_singleton by (rewrite Q2; unfold along; destruct j; discriminate).
    cbn [kept]. apply arr_not_singleton. exact C2.
Qed.
End Gen.

Section GenR.
Context {F : Fmt R}.

Definition cols_of (vals : odict (value R)) : list string :=
  map fst (filter (fun kv => negb (issingleton (snd kv))) vals).

Lemma cols_of_iff vals k v : NoDup (od_keys vals) -> od_get vals k = Some v ->
  (issingleton v = true <-> ~ In k (cols_of vals)).
Proof.
  intros ND G. unfold cols_of. rewrite in_map_iff. split.
  - intros S ([k' v'] & <- & I). apply filter_In in I. destruct I as [I N]. cbn in *.
    apply od_in_get in I; [|exact ND]. assert (v' = v) by congruence. subst. rewrite S in N. discriminate.
  - intros H. destruct (issingleton v) eqn:S; [reflexivity|]. exfalso. apply H. exists (k, v). split; [reflexivity|].
    apply filter_In. split; [apply od_get_in; exact G|]. cbn. rewrite S. reflexivity.
Qed.

Lemma make_pd_gen (vals : odict (value R)) (dims : odict (option Z)) (n : nat)
    (marg cond : odict string) (ps : pspec R) (psc : pscale R) :
  NoDup (od_keys vals) -> vals <> [] -> naxes dims n -> describes vals dims n ->
  Forall (fun ke => good_entry (snd ke) /\ key_of (snd ke) (fst ke)) (marg ++ cond) ->
  Permutation (od_keys marg ++ od_keys cond) (od_keys vals) ->
  eval_pscale ps = Ok psc ->
  exists d, make_dist (margcond_str (od_vals marg) (od_vals cond)) vals (Some dims) = Ok d /\
   (forall t, shape t = d_shape d -> exists q,
      make_pd (margcond_str (od_vals marg) (od_vals cond)) vals (Some dims) (Some t) ps = Ok q /\
      p_vals q = d_vals d /\ p_dims q = d_dims d /\ p_shape q = d_shape d /\
      p_marg q = map (render (d_vals d) (cols_of (d_vals d))) marg /\
      p_cond q = map (render (d_vals d) (cols_of (d_vals d))) cond /\
      p_prob q = Some t /\ p_pscale q = psc) /\
   (forall t, shape t <> d_shape d ->
      make_pd (margcond_str (od_vals marg) (od_vals cond)) vals (Some dims) (Some t) ps = Err AssertionError).
Proof.
  intros ND NE NA De Gd PM EP.
  destruct (proj2 (make_dist_iff (margcond_str (od_vals marg) (od_vals cond)) vals dims n ND NE NA) De) as (d & Ed).
  exists d. split; [exact Ed|].
  destruct (make_dist_result _ vals dims n d ND NE NA Ed) as (_ & K & Nd & Ls & _ & Hs & Hc & Hax).
  destruct (make_dist_sing _ vals dims n d ND NE NA Ed) as [Sa Si].
  assert (NM : NoDup (od_keys marg ++ od_keys cond)).
  { eapply Permutation_NoDup; [apply Permutation_sym|]; eauto. }
  apply nodup_app_iff in NM. destruct NM as (NM & NC & DJ).
  assert (SM : str_margcond (margcond_str (od_vals marg) (od_vals cond)) = Ok (marg, cond)).
  { apply Forall_app in Gd. destruct Gd as [G1 G2].
    destruct (good_entries_dict _ G1). destruct (good_entries_dict _ G2).
    apply name_round_trip_spec; auto. }
  assert (ND' : NoDup (od_keys (d_vals d))) by (change (NoDup (d_keylist d)); rewrite K; exact ND).
  assert (OV : override_names (combine (d_vals d) (d_aresing d)) (marg, cond)
     = Ok (map (render (d_vals d) (cols_of (d_vals d))) marg, map (render (d_vals d) (cols_of (d_vals d))) cond)).
  { rewrite Sa. apply override_names_ok; auto.
    - intros k v G. apply cols_of_iff; assumption.
    - change (od_keys (d_vals d)) with (d_keylist d). rewrite K. exact PM. }
  assert (SI : forallb (fun b => b) (map (fun kv => issingleton (snd kv)) (d_vals d)) = (n =? 0)).
  { destruct n as [|n]; cbn [Nat.eqb].
    - apply forallb_forall. intros b I. apply in_map_iff in I. destruct I as ([k v] & <- & I). cbn.
      apply od_in_get in I; [|exact ND'].
      assert (Hk : In k (od_keys vals)) by (rewrite <- K; eapply od_get_some_key; eauto).
      apply od_key_get in Hk. destruct Hk as (w & G). destruct De as (_ & D & _).
      destruct (D k w G) as [[SV _]|(a & j & C & O)].
      + destruct (Hs k w G SV) as [Q _]. assert (v = kept w) by congruence. subst v. apply kept_sing. exact SV.
      + destruct O as (z & _ & _ & O). lia.
    - apply not_true_is_false. intros C. rewrite forallb_forall in C.
      destruct (Hax 0) as (k & a & Ca & O & _); [lia|].
      destruct (Hc k a 0 Ca O) as (_ & a' & Q1 & Q2 & _). apply od_get_in in Q1.
      assert (X : In (issingleton (VArr a')) (map (fun kv => issingleton (snd kv)) (d_vals d))).
      { apply in_map_iff. exists (k, VArr a'). auto. }
      apply C in X. rewrite arr_not_singleton in X; [discriminate|]. rewrite Q2. unfold along. discriminate. }
  rewrite SI in Si.
  assert (MK : forall t, make_pd (margcond_str (od_vals marg) (od_vals cond)) vals (Some dims) (Some t) ps =
     let! _ := assert_ (list_eqb Nat.eqb (d_shape d) (shape t)) in
     Ok (mkPD (mkDist (margcond_str (od_vals (map (render (d_vals d) (cols_of (d_vals d))) marg))
                                    (od_vals (map (render (d_vals d) (cols_of (d_vals d))) cond)))
                 (d_vals d) (d_dims d) (d_ndim d) (d_sizes d) (d_shape d) (d_size d) (d_aresing d) (d_issing d))
              (map (render (d_vals d) (cols_of (d_vals d))) marg) (map (render (d_vals d) (cols_of (d_vals d))) cond) (Some t) psc)).
  { intros t. unfold make_pd. rewrite SM. cbn [bind]. rewrite Ed. cbn [bind]. rewrite OV. cbn [bind]. rewrite EP. cbn [bind].
    unfold check_prob. cbn [d_issing d_ndim d_shape]. rewrite Si, Nd. unfold ndim.
    destruct (list_eqb Nat.eqb (d_shape d) (shape t)) eqn:Q.
    - apply list_eqb_nat in Q. rewrite <- Q, Ls. destruct (Nat.eqb_spec n 0) as [->|N0]; cbn [negb assert_ bind].
      + reflexivity.
      + rewrite Nat.eqb_refl. cbn [assert_ bind]. reflexivity.
    - destruct (Nat.eqb_spec n 0) as [->|N0].
      + destruct (Nat.eqb_spec (length (shape t)) 0) as [E0|E0]; [|reflexivity].
        exfalso. destruct (d_shape d); [|discriminate]. destruct (shape t); [|discriminate]. discriminate.
      + destruct (Nat.eqb_spec (length (shape t)) 0) as [E0|E0]; [reflexivity|]. cbn [negb assert_ bind].
        destruct (Nat.eqb_spec n (length (shape t))); reflexivity. }
  split; intros t St; rewrite MK.
  - rewrite St, (proj2 (list_eqb_nat _ _) eq_refl). cbn [assert_ bind]. eexists. split; [reflexivity|].
    repeat split; reflexivity.
  - destruct (list_eqb Nat.eqb (d_shape d) (shape t)) eqn:Q; [|reflexivity].
    apply list_eqb_nat in Q. congruence.
Qed.
End GenR.
