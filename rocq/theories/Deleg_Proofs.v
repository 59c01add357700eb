(** Proofs about delegation. *)
From Coq Require Import String Bool Arith List.
From Verif Require Import Base OdLemmas DelegModel Deleg_Spec.
Import ListNotations.
Set Implicit Arguments.

Section Proofs.
Context {A : Type}.
Implicit Types (d : dstate A) (e : event A) (h : list (event A)).

Lemma roots_kept d e : d_roots (happen d e) = None <-> d_roots d = None.
Proof.
  destruct e as [k g|k b f]; cbn.
  - unfold sd_set. destruct (leafs_roots d g) as [[| |b]|]; cbn; try tauto.
    + destruct g; cbn; try tauto. destruct (rf_set k (d_own d) (Some f)); cbn; tauto.
    + destruct (has_sub d b); cbn; tauto.
  - destruct b; cbn.
    + destruct (rf_set k (d_leafs d) f); cbn; tauto.
    + destruct (d_roots d) as [r|] eqn:E; cbn; [|rewrite E; tauto]. destruct (rf_set k r f); cbn. split; discriminate.
Qed.

Lemma history_app d h1 h2 : history d (h1 ++ h2) = history (history d h1) h2.
Proof. unfold history. apply fold_left_app. Qed.

Lemma roots_history h : forall d, d_roots (history d h) = None <-> d_roots d = None.
Proof. induction h as [|e h IH]; intros d; [reflexivity|]. change (history d (e :: h)) with (history (happen d e) h). rewrite IH. apply roots_kept. Qed.

Lemma has_history d h b : has d b -> has (history d h) b.
Proof. intros H Q C. apply (H Q). apply (roots_history h d). exact C. Qed.

Lemma names_sets d e b : has d b -> names e b -> exists s, has_sub d b = Some s /\
  exists k, happen d e = with_own (with_pobj d (PSub b)) (copy_of k (d_own d) s) /\ raised d e = None.
Proof.
  intros H Nm.
  assert (exists s, has_sub d b = Some s) as [s Es].
  { destruct b; cbn; [eauto|]. destruct (d_roots d) eqn:Q; [eauto|]. exfalso. apply (H eq_refl). exact Q. }
  exists s. split; [exact Es|].
  destruct Nm as [k b|k|k]; exists k; cbn; unfold sd_set; cbn in *.
  - rewrite Es. cbn. rewrite Es. auto.
  - injection Es as <-. auto.
  - rewrite Es. cbn. rewrite Es. auto.
Qed.

Lemma own_keeps d e : own_call e -> d_pobj (happen d e) = d_pobj d.
Proof. intros (k & f & ->). cbn. unfold sd_set. cbn. destruct (rf_set k (d_own d) (Some f)); reflexivity. Qed.

Lemma sub_keeps d e : sub_call e -> d_pobj (happen d e) = d_pobj d /\ d_own (happen d e) = d_own d /\ d_unit (happen d e) = d_unit d.
Proof.
  intros (k & b & f & ->). destruct b; cbn.
  - destruct (rf_set k (d_leafs d) f); cbn; auto.
  - destruct (d_roots d) as [r|]; cbn; auto. destruct (rf_set k r f); cbn; auto.
Qed.

Lemma silent_history h : forall d, (forall e, In e h -> own_call e \/ sub_call e) -> d_pobj (history d h) = d_pobj d.
Proof.
  induction h as [|e h IH]; intros d H; [reflexivity|]. change (history d (e :: h)) with (history (happen d e) h).
  rewrite IH by (intros e' I; apply H; right; exact I).
  destruct (H e (or_introl eq_refl)) as [O|O]; [apply own_keeps|apply sub_keeps]; exact O.
Qed.

(** The sub-field named last steps and proposes, whatever functions are set afterwards. *)
Lemma named_stays d h1 e h2 b : has d b -> names e b -> (forall x, In x h2 -> own_call x \/ sub_call x) ->
  stepper (history d (h1 ++ e :: h2)) = Ok (Its b) /\ proposer (history d (h1 ++ e :: h2)) = Ok (Its b).
Proof.
  intros H Nm Si. rewrite history_app. change (e :: h2) with ([e] ++ h2)%list. rewrite history_app.
  set (d1 := history d h1). assert (H1 : has d1 b) by (apply has_history; exact H).
  destruct (names_sets H1 Nm) as (s & _ & k & E & _).
  assert (P : d_pobj (history (history d1 [e]) h2) = PSub b).
  { rewrite silent_history by exact Si. change (history d1 [e]) with (happen d1 e). rewrite E. reflexivity. }
  unfold stepper, proposer. rewrite P. auto.
Qed.

Lemma named_accepted d e b : has d b -> names e b -> raised d e = None.
Proof. intros H Nm. destruct (names_sets H Nm) as (s & _ & k & _ & E). exact E. Qed.

(** The settings it uses are those it has at the time. *)
Lemma sub_set_current d k b f s : has_sub d b = Some s ->
  has_sub (happen d (SubSet k b f)) b = Some (fst (rf_set k s f)).
Proof.
  destruct b; cbn; intros E.
  - injection E as <-. destruct (rf_set k (d_leafs d) f). reflexivity.
  - rewrite E. destruct (rf_set k s f). reflexivity.
Qed.

Lemma never_named d h : d_pobj d = PNone -> (forall x, In x h -> own_call x \/ sub_call x) -> stepper (history d h) = Ok Itself.
Proof. intros P Si. unfold stepper. rewrite silent_history by exact Si. rewrite P. reflexivity. Qed.

(** Calls without argument. *)
Lemma empty_breaks d e h : empty_call e -> (forall x, In x h -> own_call x \/ sub_call x) ->
  raised d e = Some AttributeError /\ d_own (happen d e) = d_own d /\
  stepper (history (happen d e) h) = Err AttributeError /\ proposer (history (happen d e) h) = Err AttributeError.
Proof.
  intros (k & ->) Si. split; [reflexivity|]. split; [reflexivity|].
  unfold stepper, proposer. rewrite silent_history by exact Si. cbn. auto.
Qed.

(** Sampling looks at copies. *)
Lemma sampling_stale h : forall d, (forall x, In x h -> sub_call x) -> sampling (history d h) = sampling d.
Proof.
  induction h as [|e h IH]; intros d H; [reflexivity|]. change (history d (e :: h)) with (history (happen d e) h).
  rewrite IH by (intros e' I; apply H; right; exact I).
  destruct (sub_keeps d (H e (or_introl eq_refl))) as (_ & O & U). unfold sampling. rewrite O, U. reflexivity.
Qed.

Lemma sampling_named d m b s : has_sub d b = Some s ->
  (sampling (happen d (Set_ (KTran m) (DSub b))) = Steps <-> s_tran s <> None \/ s_tfun (d_own d) <> None \/ d_unit d = true).
Proof.
  intros E. cbn. unfold sd_set. cbn. rewrite E. cbn. rewrite E. unfold sampling. cbn.
  destruct (s_tran s); cbn; [split; [left; discriminate|reflexivity]|].
  destruct (s_tfun (d_own d)); cbn; [split; [right; left; discriminate|reflexivity]|].
  destruct (d_unit d); cbn; [split; auto|].
  destruct (s_prop (d_own d)); cbn; (split; [discriminate|intros [H|[H|H]]; congruence]).
Qed.

(** Proposals and transitions together. *)
Lemma own_exclusive h : forall d, ~ both_set (d_own d) -> (forall x, In x h -> own_call x \/ sub_call x) -> accepted d h -> ~ both_set (d_own (history d h)).
Proof.
  induction h as [|e h IH]; intros d NB Si Ac; [exact NB|]. change (history d (e :: h)) with (history (happen d e) h).
  destruct Ac as [R Ac]. apply IH; [|intros x I; apply Si; right; exact I|exact Ac].
  destruct (Si e (or_introl eq_refl)) as [(k & f & ->)|O].
  - cbn in *. unfold sd_set in *. cbn in *. unfold rf_set in *. unfold both_set in *.
    destruct k as [|m| |]; cbn in *.
    + destruct (s_stoch (d_own d)); cbn in *; [|discriminate]. destruct (s_tran (d_own d)) eqn:Q; cbn in *; [discriminate|]. rewrite Q. tauto.
    + destruct (s_stoch (d_own d)); cbn in *; [|discriminate]. destruct (s_prop (d_own d)) eqn:Q; cbn in *; [discriminate|]. rewrite Q. tauto.
    + exact NB.
    + exact NB.
  - destruct (sub_keeps d O) as (_ & -> & _). exact NB.
Qed.

Lemma refused_stays (s : settings A) g f : s_stoch s = true -> s_tran s = Some (Wrapped g) ->
  snd (rf_set KProp s (Some f)) = Some AssertionError /\
  s_prop (fst (rf_set KProp s (Some f))) = Some (Raw f) /\
  proposes_by (fst (rf_set KProp s (Some f))) = Ok (ByTran g) /\
  proposes_by (fst (rf_set (KTran false) (fst (rf_set KProp s (Some f))) None)) = Err AttributeError.
Proof. intros St Tr. cbn. rewrite St, Tr. cbn. rewrite Tr. auto. Qed.

Lemma refused_breaks (s : settings A) g f m : s_stoch s = true -> s_prop s = Some (Wrapped g) -> s_tran s = None ->
  proposes_by s = Ok (ByProp g) /\
  snd (rf_set (KTran m) s (Some f)) = Some AssertionError /\
  proposes_by (fst (rf_set (KTran m) s (Some f))) = Err AttributeError.
Proof. intros St Pr Tr. cbn. rewrite St, Pr. cbn. unfold proposes_by. cbn. rewrite Pr, Tr. auto. Qed.

Lemma delegated_both d b s p t : has_sub d b = Some s -> s_prop s = Some p -> s_tran (d_own d) = Some t ->
  raised d (Set_ KProp (DSub b)) = None /\ both_set (d_own (happen d (Set_ KProp (DSub b)))) /\
  sampling (happen d (Set_ KProp (DSub b))) = Steps /\ stepper (happen d (Set_ KProp (DSub b))) = Ok (Its b).
Proof.
  intros E P Tr. unfold both_set, sampling, stepper. cbn. unfold sd_set. cbn. rewrite E. cbn. rewrite E. cbn. rewrite P, Tr. cbn.
  repeat split; congruence.
Qed.

(** Comparison. *)
Lemma same_keys_iff l m : same_keys l m = true <-> (forall k, In k l <-> In k m).
Proof.
  unfold same_keys. rewrite andb_true_iff, !forallb_forall. split.
  - intros [H1 H2] k. split; intros I; apply mem_str_iff; auto.
  - intros H. split; intros k I; apply mem_str_iff; apply H; exact I.
Qed.

Lemma eq_same_class x y : o_class x = o_class y -> o_class x <> ClOther ->
  (py_eq x y = true <-> same_names x y) /\ py_ne x y = negb (py_eq x y).
Proof.
  intros E Nn. unfold py_eq, py_ne, dunder_eq. rewrite <- E.
  destruct (o_class x); [| |congruence]; (split; [apply same_keys_iff|reflexivity]).
Qed.

Lemma eq_other x y : o_class x <> o_class y \/ o_class x = ClOther ->
  py_eq x y = Nat.eqb (o_id x) (o_id y) /\ py_ne x y = false.
Proof.
  intros C. assert (D : dunder_eq x y = obj_eq x y /\ dunder_eq y x = obj_eq y x).
  { unfold dunder_eq. destruct (o_class x), (o_class y); auto; destruct C; congruence. }
  destruct D as [D D']. unfold py_eq, py_ne. rewrite D, D'. unfold obj_eq. rewrite (Nat.eqb_sym (o_id y)).
  destruct (Nat.eqb (o_id x) (o_id y)); auto.
Qed.
End Proofs.
