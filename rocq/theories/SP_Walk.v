(** Proofs about walking a sampler that has already been stepped. *)
From Coq Require Import Arith Bool Lia List.
From Verif Require Import Base OdLemmas SPModel SP_Spec SP_Proofs.
Import ListNotations.

Section Walk.
Context {D Rnd Sc : Type}.
Variable eng : engine D Rnd.
Variable cfg : config D Rnd Sc.
Hypothesis ET : engine_total eng cfg.

Notation view := (@view D).
Notation loc_run := (@loc_run D Rnd Sc eng cfg).

(** A walk leaves the state that as many plain steps would. *)
Lemma walk_state n : forall st g rs k st' k' l, walk eng cfg st g n rs k = (st', k', Ok l) ->
  k < k' /\ st' = fst (run eng cfg st (map (EStep g) (map rs (seq k (k' - k))))).
Proof.
  induction n as [|n IH]; intros st g rs k st' k' l H; cbn [walk] in H;
    destruct (resume eng cfg st g (rs k)) as [st1 o] eqn:ER.
  - assert (E : st' = st1 /\ k' = S k) by (destruct o; inversion H; auto). destruct E as [-> ->].
    replace (S k - k) with 1 by lia. cbn. rewrite ER. auto.
  - assert (B : (st' = st1 /\ k' = S k) \/ exists l', walk eng cfg st1 g n rs (S k) = (st', k', Ok l')).
    { destruct o as [o| |e]; [|left; inversion H; auto|discriminate].
      destruct (walk eng cfg st1 g n rs (S k)) as [[st2 k2] [l2|e2]]; inversion H; subst. right. eauto. }
    destruct B as [[-> ->]|[l' E]].
    + replace (S k - k) with 1 by lia. cbn. rewrite ER. auto.
    + destruct (IH _ _ _ _ _ _ _ E) as [L ->]. split; [lia|].
      replace (k' - k) with (S (k' - S k)) by lia. cbn [seq map run]. rewrite ER.
      destruct (run eng cfg st1 _); reflexivity.
Qed.

(** The state and the outcomes after j plain steps. *)
Definition after stop (rs : nat -> Rnd) j :=
  fst (run eng cfg (@new_process D) (ENew stop :: map (EStep 0) (map rs (seq 0 j)))).
Definition results stop (rs : nat -> Rnd) j :=
  outcomes_of 0 (snd (run eng cfg (@new_process D) (ENew stop :: map (EStep 0) (map rs (seq 0 j))))).

Lemma after_view stop rs j :
  let (l, os) := loc_run stop (mkLoc 0 None false) (map rs (seq 0 j)) in
  results stop rs j = os /\ wf (after stop rs j) /\ view (after stop rs j) 0 = Some (stop, l).
Proof.
  pose proof (sampler_view eng cfg [] stop (map (EStep 0) (map rs (seq 0 j))) (no_reset_map _) eq_refl) as H.
  cbn [app] in H. change (created []) with 0 in H. rewrite steps_of_map in H. unfold after, results.
  destruct (run eng cfg new_process (ENew stop :: map (EStep 0) (map rs (seq 0 j)))) as [st os]. exact H.
Qed.

Lemma after_app stop rs j m :
  after stop rs (j + m) = fst (run eng cfg (after stop rs j) (map (EStep 0) (map rs (seq j m)))).
Proof.
  unfold after. rewrite seq_app, !map_app. cbn [SPModel.run]. rewrite run_app.
  destruct (run eng cfg (new_sampler new_process stop) (map (EStep 0) (map rs (seq 0 j)))) as [st1 o1]. cbn [fst].
  cbn [Nat.add]. destruct (run eng cfg st1 _); reflexivity.
Qed.

Lemma open_view stop rs j : (forall s, stop = Some s -> j <= s) ->
  exists os l, length os = j /\ loc_run stop (mkLoc 0 None false) (map rs (seq 0 j)) = (l, map (fun o => Yield o) os) /\
    results stop rs j = map (fun o => Yield o) os /\ wf (after stop rs j) /\
    view (after stop rs j) 0 = Some (stop, l) /\ l_done l = false /\ good_last (l_last l) /\ l_count l = j.
Proof.
  intros B. pose proof (after_view stop rs j) as V.
  destruct (loc_run_open eng cfg stop (map rs (seq 0 j)) (mkLoc 0 None false) ET good_none eq_refl) as (os & l & E & L & DN & GL & C).
  { intros s Hs. cbn. rewrite map_length, seq_length. auto. }
  rewrite E in V. rewrite map_length, seq_length in *. exists os, l. cbn in C. tauto.
Qed.

Lemma view_done st stop l : view st 0 = Some (stop, l) ->
  exists gn, nth_error (p_gens st) 0 = Some gn /\ g_done gn = l_done l.
Proof.
  unfold SP_Proofs.view. destruct (nth_error (p_gens st) 0) as [gn|]; [|discriminate].
  destruct (p_last st 0); [|discriminate]. intros H. inversion H. eauto.
Qed.

Lemma yields_inj (a b : list (@sample_out D Sc)) :
  map (fun o => Yield o : @outcome D Sc) a = map (fun o => Yield o) b -> a = b.
Proof.
  revert b. induction a as [|x a IH]; intros [|y b] H; try discriminate; auto.
  cbn in H. injection H as -> H. f_equal; auto.
Qed.

Lemma walk_within stop k n rs : (forall s, stop = Some s -> k + n < s) ->
  exists os, length os = k + n /\ results stop rs (k + n) = map (fun o => Yield o) os /\
    sp_walk eng cfg (after stop rs k) 0 n rs k = (after stop rs (k + S n), k + S n, Ok (skipn k os)).
Proof.
  intros B. destruct (open_view stop rs k) as (o1 & l1 & L1 & R1 & _ & W1 & V1 & D1 & G1 & C1).
  { intros s Hs. specialize (B s Hs). lia. }
  destruct (open_view stop rs (k + n)) as (o2 & l2 & L2 & R2 & E2 & _).
  { intros s Hs. specialize (B s Hs). lia. }
  destruct (walk_view eng cfg n _ 0 _ rs k ET W1 V1 G1 D1) as (st' & os & l' & E & _ & _ & L & R & _).
  { cbn. rewrite C1. auto. }
  exists o2. split; auto. split; auto. unfold sp_walk. destruct (view_done _ _ _ V1) as (gn & -> & ->).
  rewrite D1, E. f_equal; [f_equal|].
  - destruct (walk_state _ _ _ _ _ _ _ _ E) as [_ ->]. rewrite after_app. do 6 f_equal. lia.
  - f_equal. cbn [fst snd] in R. assert (F : o2 = o1 ++ firstn n os); [|rewrite F, skipn_app, L1, Nat.sub_diag, skipn_all2 by lia; auto].
    apply yields_inj. rewrite seq_app, map_app, loc_run_app, R1 in R2. cbn [Nat.add] in R2.
    replace (S n) with (n + 1) in R by lia. rewrite seq_app, map_app, loc_run_app in R.
    destruct (loc_run_open eng cfg stop (map rs (seq k n)) l1 ET G1 D1) as (oy & ly & EY & LY & DY & GY & CY).
    { intros s Hs. specialize (B s Hs). rewrite map_length, seq_length. lia. }
    rewrite EY in R, R2. pose proof (f_equal snd R2) as H2. cbn [snd] in H2. etransitivity; [symmetry; exact H2|]. rewrite map_app. f_equal.
    destruct (loc_run stop ly (map rs (seq (k + n) 1))) as [lz oz]. pose proof (f_equal snd R) as H4. cbn [snd] in H4.
    rewrite map_length, seq_length in LY. rewrite <- (firstn_map _ n os), <- H4, firstn_app, map_length, LY, Nat.sub_diag, firstn_all2 by (rewrite map_length; lia).
    cbn. rewrite app_nil_r. auto.
Qed.

Lemma walk_beyond s k n rs : k <= s -> s <= k + n ->
  exists os, length os = s /\ results (Some s) rs s = map (fun o => Yield o) os /\
    sp_walk eng cfg (after (Some s) rs k) 0 n rs k = (after (Some s) rs (S s), S s, Ok (skipn k os)).
Proof.
  intros KS SN. destruct (open_view (Some s) rs k) as (o1 & l1 & L1 & R1 & _ & W1 & V1 & D1 & G1 & C1).
  { intros s' Hs. inversion Hs; lia. }
  destruct (open_view (Some s) rs s) as (o2 & l2 & L2 & R2 & E2 & _).
  { intros s' Hs. inversion Hs; lia. }
  destruct (walk_end eng cfg n _ 0 _ rs k (s - k) s ET W1 V1 G1 D1 eq_refl) as (st' & os & l' & E & _ & _ & L & R).
  { cbn. lia. } { lia. }
  exists o2. split; auto. split; auto. unfold sp_walk. destruct (view_done _ _ _ V1) as (gn & -> & ->).
  rewrite D1, E. replace (k + S (s - k)) with (S s) by lia. f_equal; [f_equal|].
  - destruct (walk_state _ _ _ _ _ _ _ _ E) as [_ ->]. assert (KS2 : S s = k + S (s - k)) by lia.
    transitivity (after (Some s) rs (k + S (s - k))); [|rewrite <- KS2; reflexivity].
    rewrite after_app. do 6 f_equal. lia.
  - f_equal. cbn [fst snd] in R. assert (F : o2 = o1 ++ os); [|rewrite F, skipn_app, L1, Nat.sub_diag, skipn_all2 by lia; auto].
    apply yields_inj. replace s with (k + (s - k)) in R2 at 2 by lia.
    rewrite seq_app, map_app, loc_run_app, R1 in R2. cbn [Nat.add] in R2. rewrite R in R2.
    pose proof (f_equal snd R2) as H2. cbn [snd] in H2. etransitivity; [symmetry; exact H2|]. rewrite map_app. reflexivity.
Qed.

Lemma walk_finished s k n rs : s < k ->
  sp_walk eng cfg (after (Some s) rs k) 0 n rs k = (after (Some s) rs k, k, Err AssertionError).
Proof.
  intros SK. destruct (open_view (Some s) rs s) as (o1 & l1 & L1 & R1 & _ & _ & _ & D1 & G1 & C1).
  { intros s' Hs. inversion Hs; lia. }
  pose proof (after_view (Some s) rs k) as V. assert (KS : seq 0 k = seq 0 (s + S (k - S s))) by (f_equal; lia).
  rewrite KS, seq_app, map_app, loc_run_app, R1 in V. cbn [Nat.add seq map SP_Proofs.loc_run] in V.
  unfold loc_step in V. rewrite D1, C1, Nat.ltb_irrefl in V. rewrite loc_run_done in V by auto.
  destruct V as (_ & _ & V). unfold sp_walk. destruct (view_done _ _ _ V) as (gn & -> & ->). reflexivity.
Qed.

Lemma walk_exact stop k n rs :
  match stop with
  | None => True
  | Some s => k + n < s
  end /\
  (exists os, length os = k + n /\ results stop rs (k + n) = map (fun o => Yield o) os /\
    sp_walk eng cfg (after stop rs k) 0 n rs k = (after stop rs (k + S n), k + S n, Ok (skipn k os))) \/
  (exists s, stop = Some s /\ k <= s <= k + n /\
    exists os, length os = s /\ results stop rs s = map (fun o => Yield o) os /\
    sp_walk eng cfg (after stop rs k) 0 n rs k = (after stop rs (S s), S s, Ok (skipn k os))) \/
  (exists s, stop = Some s /\ s < k /\
    sp_walk eng cfg (after stop rs k) 0 n rs k = (after stop rs k, k, Err AssertionError)).
Proof.
  destruct stop as [s|].
  - destruct (Nat.lt_ge_cases (k + n) s) as [L|G].
    + left. split; auto. apply walk_within. intros s' Hs. inversion Hs; lia.
    + right. destruct (Nat.le_gt_cases k s) as [KS|KS].
      * left. exists s. split; auto. split; [lia|]. apply walk_beyond; auto.
      * right. exists s. split; auto. split; [lia|]. apply walk_finished; auto.
  - left. split; auto. apply walk_within. discriminate.
Qed.

End Walk.
