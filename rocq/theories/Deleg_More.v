(** Further proofs about delegation: what is handed over, who proposes by default, how
    samples are made, and reverse proposals. *)
From Coq Require Import String Bool Arith List.
From Verif Require Import Base OdLemmas DelegModel Deleg_Spec Deleg_Proofs.
Import ListNotations.
Set Implicit Arguments.

Section Proofs.
Context {A : Type}.
Implicit Types (d : dstate A) (e : event A) (h : list (event A)).

Lemma handed d e b s : has d b -> names e b -> settings_of d (Its b) = Some s ->
  attribute (called e) (d_own (happen d e)) = attribute (called e) s /\
  (forall k, ~ alike (called e) k -> attribute k (d_own (happen d e)) = attribute k (d_own d)).
Proof.
  intros H Nm Es. cbn in Es. destruct Nm as [k b|k|k]; cbn [called happen]; unfold sd_set; cbn in *.
  - rewrite Es. cbn. rewrite Es. cbn. destruct k; (split; [reflexivity|]); intros [|m| |] Q; cbn in *; tauto.
  - injection Es as <-. destruct k; (split; [reflexivity|]); intros [|m| |] Q; cbn in *; tauto.
  - rewrite Es. cbn. rewrite Es. cbn. destruct k; (split; [reflexivity|]); intros [|m| |] Q; cbn in *; tauto.
Qed.

(** What is set on a process by functions. *)
Lemma own_sets d k k' f : attribute k (d_own (happen d (Set_ k' (DFun f)))) <> None <->
  attribute k (d_own d) <> None \/ alike k k'.
Proof.
  cbn. unfold sd_set. cbn. destruct k' as [|m'| |]; cbn; unfold rf_set_prop, rf_set_tran, rf_set_tfun, fd_set_delta.
  - destruct (negb (s_stoch (d_own d))), (is_set (s_tran (d_own d))); destruct k; cbn; intuition discriminate.
  - destruct (negb (s_stoch (d_own d))), (is_set (s_prop (d_own d))); destruct k; cbn; intuition discriminate.
  - destruct k; cbn; intuition discriminate.
  - destruct k; cbn; intuition discriminate.
Qed.

Lemma set_history h k : forall d, (forall x, In x h -> own_call x \/ sub_call x) ->
  (attribute k (d_own (history d h)) <> None <-> attribute k (d_own d) <> None \/ was_set k h).
Proof.
  induction h as [|e h IH]; intros d H; [split; [tauto|intros [Q|(? & ? & _ & [])]; exact Q]|].
  change (history d (e :: h)) with (history (happen d e) h). rewrite IH by (intros x I; apply H; right; exact I).
  destruct (H e (or_introl eq_refl)) as [(k' & f & ->)|O].
  - rewrite own_sets. unfold was_set. split.
    + intros [[Q|Q]|(k2 & f2 & Q & I)]; [tauto| |]; right; [exists k', f|exists k2, f2]; (split; [exact Q|cbn; auto]).
    + intros [Q|(k2 & f2 & Q & [I|I])]; [tauto| |right; eauto]. injection I as <- _. tauto.
  - destruct (sub_keeps d O) as (_ & -> & _). unfold was_set. split.
    + intros [Q|(k2 & f2 & Q & I)]; [tauto|]. right. exists k2, f2. cbn. auto.
    + intros [Q|(k2 & f2 & Q & [I|I])]; [tauto| |right; eauto]. exfalso. destruct O as (? & ? & ? & O). congruence.
Qed.

Lemma is_set_iff (o : option (setting A)) : is_set o = true <-> o <> None.
Proof. destruct o; cbn; split; congruence. Qed.

Lemma unit_history h : forall d, (forall x, In x h -> own_call x \/ sub_call x) -> d_unit (history d h) = d_unit d.
Proof.
  induction h as [|e h IH]; intros d H; [reflexivity|]. change (history d (e :: h)) with (history (happen d e) h).
  rewrite IH by (intros x I; apply H; right; exact I).
  destruct (H e (or_introl eq_refl)) as [(k & f & ->)|O]; [|apply sub_keeps; exact O].
  cbn. unfold sd_set. cbn. destruct (rf_set k (d_own d) (Some f)). reflexivity.
Qed.

Section New.
Variables (leafs : settings A) (roots : option (settings A)) (u : bool) (h : list (event A)).
Hypothesis H : forall x, In x h -> own_call x \/ sub_call x.
Let d := history (new_sd leafs roots u) h.

Lemma set_new k : attribute k (d_own d) <> None <-> was_set k h.
Proof.
  unfold d. rewrite set_history by exact H. split; [intros [Q|Q]; [|exact Q]|tauto]. exfalso. apply Q. destruct k; reflexivity.
Qed.

Lemma default_proposer : proposer d =
  Ok (if is_set (s_tran (d_own d)) || is_set (s_prop (d_own d)) then Itself else Its (match roots with Some _ => Roots | None => Leafs end)).
Proof.
  unfold proposer. assert (P : d_pobj d = PNone) by (unfold d; rewrite silent_history by exact H; reflexivity). rewrite P.
  destruct (_ || _); [reflexivity|]. f_equal. f_equal. unfold def_pobj. pose proof (roots_history h (new_sd leafs roots u)) as Q.
  fold d in Q. cbn in Q. destruct (d_roots d), roots; try reflexivity; exfalso; [destruct Q as [_ Q]; specialize (Q eq_refl)|destruct Q as [Q _]; specialize (Q eq_refl)]; discriminate.
Qed.

Lemma proposer_new :
  (was_set (KTran false) h \/ was_set KProp h -> proposer d = Ok Itself) /\
  (~ was_set (KTran false) h -> ~ was_set KProp h -> proposer d = Ok (Its (match roots with Some _ => Roots | None => Leafs end))).
Proof.
  rewrite default_proposer. pose proof (set_new (KTran false)) as S1. pose proof (set_new KProp) as S2. cbn [attribute] in *.
  rewrite <- S1, <- S2. clear. destruct (s_tran (d_own d)), (s_prop (d_own d)); cbn; split; try reflexivity; intros; exfalso; intuition congruence.
Qed.

Lemma sampling_new :
  (sampling d = Steps <-> was_set (KTran false) h \/ was_set KTfun h \/ u = true) /\
  (sampling d = Calls <-> ~ was_set (KTran false) h /\ ~ was_set KTfun h /\ u = false /\ ~ was_set KProp h).
Proof.
  pose proof (set_new (KTran false)) as S1. pose proof (set_new KProp) as S2. pose proof (set_new KTfun) as S3. cbn [attribute] in *.
  rewrite <- S1, <- S2, <- S3. assert (Q : d_unit d = u) by (unfold d; rewrite unit_history by exact H; reflexivity).
  unfold sampling. rewrite Q. clear. destruct (s_tran (d_own d)), (s_tfun (d_own d)), (s_prop (d_own d)), u; cbn; intuition congruence.
Qed.
End New.

(** Reverse proposals. *)
Lemma reverse_own d m f : s_stoch (d_own d) = true -> raised d (Set_ (KTran m) (DFun f)) = None ->
  reverses (happen d (Set_ (KTran m) (DFun f))) = m && negb (d_unit d).
Proof.
  cbn. unfold sd_set. cbn. unfold rf_set_tran. intros ->. cbn. destruct (is_set (s_prop (d_own d))); cbn; [discriminate|].
  intros _. unfold reverses. cbn. destruct m; reflexivity.
Qed.

Lemma reverse_kept e d : ~ sets_tran e -> reverses (happen d e) = reverses d.
Proof.
  intros NS. destruct e as [k g|k b f].
  - cbn. unfold sd_set. destruct (leafs_roots d g) as [[| |b]|]; cbn; try reflexivity.
    + destruct g; cbn; try reflexivity. unfold reverses.
      destruct k as [|m| |]; cbn; try reflexivity; [|exfalso; apply NS; repeat eexists].
      unfold rf_set_prop. destruct (negb (s_stoch (d_own d))), (is_set (s_tran (d_own d))); reflexivity.
    + destruct (has_sub d b); cbn; try reflexivity. unfold reverses. destruct k; reflexivity.
  - assert (O : sub_call (SubSet k b f)) by (repeat eexists). destruct (sub_keeps d O) as (_ & Q & U). unfold reverses. rewrite Q, U. reflexivity.
Qed.

Lemma reverse_history h : forall d, (forall x, In x h -> ~ sets_tran x) -> reverses (history d h) = reverses d.
Proof.
  induction h as [|e h IH]; intros d H; [reflexivity|]. change (history d (e :: h)) with (history (happen d e) h).
  rewrite IH by (intros x I; apply H; right; exact I). apply reverse_kept, H. left. reflexivity.
Qed.

Lemma stoch_kept d e : s_stoch (d_own (happen d e)) = s_stoch (d_own d).
Proof.
  destruct e as [k g|k b f].
  - cbn. unfold sd_set. destruct (leafs_roots d g) as [[| |b]|]; cbn; try reflexivity.
    + destruct g; cbn; try reflexivity.
      destruct k as [|m| |]; cbn; try reflexivity.
      * unfold rf_set_prop. destruct (negb (s_stoch (d_own d))), (is_set (s_tran (d_own d))); reflexivity.
      * unfold rf_set_tran. destruct (negb (s_stoch (d_own d))), (is_set (s_prop (d_own d))); reflexivity.
    + destruct (has_sub d b); cbn; try reflexivity. destruct k; reflexivity.
  - assert (O : sub_call (SubSet k b f)) by (repeat eexists). destruct (sub_keeps d O) as (_ & Q & U). rewrite Q. reflexivity.
Qed.
Lemma stoch_history h : forall d, s_stoch (d_own (history d h)) = s_stoch (d_own d).
Proof.
  induction h as [|e h IH]; intros d; [reflexivity|]. change (history d (e :: h)) with (history (happen d e) h).
  rewrite IH. apply stoch_kept.
Qed.
Lemma unit_kept d e : d_unit (happen d e) = d_unit d.
Proof.
  destruct e as [k g|k b f].
  - cbn. unfold sd_set. destruct (leafs_roots d g) as [[| |b]|]; cbn; try reflexivity.
    + destruct g; cbn; try reflexivity. destruct (rf_set _ _ _). reflexivity.
    + destruct (has_sub d b); reflexivity.
  - assert (O : sub_call (SubSet k b f)) by (repeat eexists). destruct (sub_keeps d O) as (_ & Q & U). exact U.
Qed.
Lemma unit_all h : forall d, d_unit (history d h) = d_unit d.
Proof.
  induction h as [|e h IH]; intros d; [reflexivity|]. change (history d (e :: h)) with (history (happen d e) h).
  rewrite IH. apply unit_kept.
Qed.

Lemma reverse_last leafs roots u h1 m f h2 :
  raised (history (new_sd leafs roots u) h1) (Set_ (KTran m) (DFun f)) = None -> (forall x, In x h2 -> ~ sets_tran x) ->
  reverses (history (new_sd leafs roots u) (h1 ++ Set_ (KTran m) (DFun f) :: h2)) = m && negb u.
Proof.
  intros R H. rewrite history_app. change (Set_ (KTran m) (DFun f) :: h2) with ([Set_ (KTran m) (DFun f)] ++ h2)%list.
  rewrite history_app, reverse_history by exact H.
  change (history (history (new_sd leafs roots u) h1) [Set_ (KTran m) (DFun f)]) with (happen (history (new_sd leafs roots u) h1) (Set_ (KTran m) (DFun f))).
  rewrite reverse_own; [rewrite unit_all; reflexivity|rewrite stoch_history; reflexivity|exact R].
Qed.

Lemma reverse_delegated leafs roots u h : (forall x, In x h -> ~ sets_tran x) ->
  reverses (history (new_sd leafs roots u) h) = negb u.
Proof. intros H. rewrite reverse_history by exact H. reflexivity. Qed.
End Proofs.
