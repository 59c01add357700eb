(** Samplers alone and in turn; the order of values; scipy objects. *)
From Coq Require Import String Ascii ZArith Reals Lra Bool Arith Lia Permutation List.
From Verif Require Import Base Num Tensor TensorLemmas OdLemmas RNumLemmas PScales PScales_Spec PScales_Proofs Names Names_Spec Distr PDModel PD_Spec Likelihoods
  VariableModel RVModel RV_Spec FieldModel Field_Spec RFModel RF_Spec SDModel SD_Spec SPModel SP_Spec SP_Proofs SP_Scores CondCovModel CondCov_Spec CondCov_Proofs
  ChainModel Chain_Spec Chain_Proofs Chain_Run Chain_Thm GibbsModel Gibbs_Spec Gibbs_Run Gibbs_Proofs Gibbs_Thm.
Import ListNotations.

(** *** Numbers *)
Definition indices {A} (evs : list (event A)) : list nat := flat_map (fun e => match e with EStep i _ => [i] | _ => [] end) evs.

Lemma run_indices {D A Sc} (eng : engine D A) (cfg : config D A Sc) evs : forall st, map fst (snd (run eng cfg st evs)) = indices evs.
Proof.
  induction evs as [|[s|i r|] evs IH]; intros st; cbn [SPModel.run indices flat_map app]; [reflexivity|apply IH| |apply IH].
  destruct (resume eng cfg st i r) as [st' o]. specialize (IH st'). destruct (run eng cfg st' evs) as [st2 os]. cbn [snd map fst] in *. f_equal. exact IH.
Qed.

Lemma placed_indices {F : Fmt R} {TR : Trunc R} (G : gibbs R) m evs : forall st pos, indices (placed G m st pos evs) = indices evs.
Proof.
  induction evs as [|[s|i r|] evs IH]; intros st pos; cbn [placed indices flat_map app]; [reflexivity|apply IH| |apply IH]. f_equal. apply IH.
Qed.

Fixpoint places (k g : nat) (l : list nat) : list nat :=
  match l with [] => [] | i :: l' => if Nat.eqb i g then k :: places (S k) g l' else places (S k) g l' end.

Lemma numbers_places {D Sc} g (os : list (nat * @outcome D Sc)) : (forall io, In io os -> exists o, snd io = Yield o) -> forall k,
  numbers_of k g os = places k g (map fst os).
Proof.
  induction os as [|[i o] os IH]; intros H k; [reflexivity|]. destruct (H (i, o) (or_introl eq_refl)) as (o' & E). cbn in E. subst o.
  cbn [numbers_of map fst places]. rewrite IH by (intros io I; apply H; right; exact I). reflexivity.
Qed.

Lemma places_app g l1 l2 : forall k, places k g (l1 ++ l2) = (places k g l1 ++ places (k + length l1) g l2)%list.
Proof.
  induction l1 as [|i l1 IH]; intros k; cbn [places app length]; [rewrite Nat.add_0_r; reflexivity|].
  rewrite IH, Nat.add_succ_r, <- Nat.add_succ_l. destruct (Nat.eqb i g); reflexivity.
Qed.

Lemma places_zero l : forall k, places k 0 (map (fun _ : grnd R => 0) l) = seq k (length l).
Proof. induction l as [|r l IH]; intros k; [reflexivity|]. cbn. f_equal. apply IH. Qed.

Lemma places_seq g c : forall k a, places k g (seq a c) = if (a <=? g) && (g <? a + c) then [k + (g - a)] else [].
Proof.
  induction c as [|c IH]; intros k a; cbn [seq places].
  - destruct (Nat.leb_spec a g); [|reflexivity]. destruct (Nat.ltb_spec g (a + 0)); [lia|reflexivity].
  - rewrite IH. destruct (Nat.eqb_spec a g) as [->|N].
    + destruct (Nat.leb_spec (S g) g); [lia|]. destruct (Nat.leb_spec g g); [|lia]. destruct (Nat.ltb_spec g (g + S c)); [|lia]. cbn. f_equal. lia.
    + destruct (Nat.leb_spec (S a) g), (Nat.leb_spec a g); try lia; [|reflexivity]. cbn [andb].
      destruct (Nat.ltb_spec g (S a + c)), (Nat.ltb_spec g (a + S c)); try lia; [|reflexivity]. f_equal. lia.
Qed.

Lemma places_rounds {A} m g (rounds : list A) : g < m -> forall k,
  places k g (flat_map (fun _ => seq 0 m) rounds) = map (fun j => k + g + m * j) (seq 0 (length rounds)).
Proof.
  intros L. induction rounds as [|r rounds IH]; intros k; [reflexivity|]. cbn [flat_map length seq map]. rewrite places_app, places_seq, seq_length.
  rewrite (proj2 (Nat.leb_le 0 g)), (proj2 (Nat.ltb_lt g (0 + m))) by lia. cbn [andb app]. f_equal; [lia|].
  rewrite IH. rewrite <- seq_shift, map_map. apply map_ext. intros j. lia.
Qed.

Lemma map_step_indices {A} (l : list nat) (r : nat -> A) : indices (map (fun g => EStep g (r g)) l) = l.
Proof. induction l as [|i l IH]; [reflexivity|]. cbn. f_equal. exact IH. Qed.

Lemma indices_app {A} (l1 l2 : list (event A)) : indices (l1 ++ l2) = (indices l1 ++ indices l2)%list.
Proof. unfold indices. apply flat_map_app. Qed.

Lemma indices_news {A} m : indices (repeat (@ENew A None) m) = [].
Proof. induction m; [reflexivity|exact IHm]. Qed.

Lemma steps_news {A} m g : steps_of g (repeat (@ENew A None) m) = [].
Proof. induction m; [reflexivity|exact IHm]. Qed.

Lemma created_news {A} m : created (repeat (@ENew A None) m) = m.
Proof. unfold created. induction m; [reflexivity|]. cbn. f_equal. exact IHm. Qed.

Lemma steps_app {A} g (l1 l2 : list (event A)) : steps_of g (l1 ++ l2) = (steps_of g l1 ++ steps_of g l2)%list.
Proof. unfold steps_of. apply flat_map_app. Qed.

Lemma steps_seq {A} (r : nat -> A) g c : forall a, steps_of g (map (fun i => EStep i (r i)) (seq a c)) = if (a <=? g) && (g <? a + c) then [r g] else [].
Proof.
  induction c as [|c IH]; intros a; cbn [seq map].
  - destruct (Nat.leb_spec a g); [|reflexivity]. destruct (Nat.ltb_spec g (a + 0)); [lia|reflexivity].
  - change (steps_of g (EStep a (r a) :: map (fun i => EStep i (r i)) (seq (S a) c))) with
      ((if Nat.eqb a g then [r a] else []) ++ steps_of g (map (fun i => EStep i (r i)) (seq (S a) c)))%list. rewrite IH.
    destruct (Nat.eqb_spec a g) as [->|N].
    + destruct (Nat.leb_spec (S g) g); [lia|]. destruct (Nat.leb_spec g g); [|lia]. destruct (Nat.ltb_spec g (g + S c)); [|lia]. reflexivity.
    + destruct (Nat.leb_spec (S a) g), (Nat.leb_spec a g); try lia; [|reflexivity]. cbn [andb].
      destruct (Nat.ltb_spec g (S a + c)), (Nat.ltb_spec g (a + S c)); try lia; reflexivity.
Qed.

Definition turns (m : nat) (rounds : list (nat -> grnd R)) : list (event (grnd R)) := flat_map (fun r => map (fun g => EStep g (r g)) (seq 0 m)) rounds.

Lemma turns_steps m g rounds : g < m -> steps_of g (turns m rounds) = map (fun r => r g) rounds.
Proof.
  intros L. unfold turns. induction rounds as [|r rounds IH]; [reflexivity|]. cbn [flat_map map]. rewrite steps_app, steps_seq, IH.
  rewrite (proj2 (Nat.leb_le 0 g)), (proj2 (Nat.ltb_lt g (0 + m))) by lia. reflexivity.
Qed.

Lemma turns_indices m rounds : indices (turns m rounds) = flat_map (fun _ => seq 0 m) rounds.
Proof. unfold turns. induction rounds as [|r rounds IH]; [reflexivity|]. cbn [flat_map]. rewrite indices_app, map_step_indices, IH. reflexivity. Qed.

Lemma outcomes_in {D Sc} i (o : @outcome D Sc) os : In (i, o) os -> In o (outcomes_of i os).
Proof. intros I. unfold outcomes_of. apply in_map_iff. exists (i, o). split; [reflexivity|]. apply filter_In. split; [exact I|]. apply Nat.eqb_refl. Qed.

Section Scans.
Context {F : Fmt R} {TR : Trunc R}.
Variables (G : gibbs R) (m : rule) (fine : grnd R -> Prop) (names : list string) (start : list R)
  (dens : list R -> R) (prop : nat -> list R -> grnd R -> list R) (acc : option (list R -> list R -> R)).
Hypothesis H : scans_as G m fine names start dens prop acc.

Lemma scans_alone rs : Forall fine rs ->
  exists samples, outcomes_of 0 (gb_run G m None (alone rs)) = map (fun s => Yield (OutFull s)) samples /\
    Forall2 (sample_at names dens) samples (tfun_samples prop acc start (combine (seq 0 (length rs)) rs)).
Proof.
  intros FR. assert (ST : steps_of 0 (map (EStep 0) rs) = rs) by (clear; induction rs as [|r l IH]; [reflexivity|]; cbn; f_equal; exact IH).
  destruct (H [] None (map (EStep 0) rs)) as (ss & A & B & C & D).
  - intros I. cbn in I. apply in_map_iff in I. destruct I as (x & E & _). discriminate.
  - reflexivity.
  - intros i r I. cbn in I. apply in_map_iff in I. destruct I as (x & E & I). injection E as <- <-. rewrite Forall_forall in FR. apply FR. exact I.
  - cbn [created app filter length] in *. rewrite ST in *. cbn [given_samples] in B. rewrite B, Nat.sub_diag in A. cbn [repeat] in A. rewrite app_nil_r in A.
    exists ss. fold (alone rs) in *. split; [exact A|].
    assert (IX : map fst (gb_run G m None (alone rs)) = map (fun _ => 0) rs).
    { unfold gb_run. rewrite run_indices, placed_indices. unfold alone. cbn [indices flat_map app]. fold (indices (map (EStep 0) rs)).
      clear. induction rs as [|r l IH]; [reflexivity|]. cbn. f_equal. exact IH. }
    rewrite numbers_places, IX, places_zero in D; [exact D|].
    intros [i o] I. assert (Z : i = 0).
    { assert (J : In i (map fst (gb_run G m None (alone rs)))) by (apply in_map_iff; exists (i, o); auto). rewrite IX in J. apply in_map_iff in J. destruct J as (x & <- & _). reflexivity. }
    subst i. apply outcomes_in in I. rewrite A in I. apply in_map_iff in I. destruct I as (s & <- & _). eexists. reflexivity.
Qed.

Lemma scans_turns b rounds g : (forall r i, In r rounds -> fine (r i)) -> g < b ->
  exists samples, outcomes_of g (gb_run G m None (in_turn b rounds)) = map (fun s => Yield (OutFull s)) samples /\
    Forall2 (sample_at names dens) samples (tfun_samples prop acc start (combine (map (fun j => g + b * j) (seq 0 (length rounds))) (map (fun r => r g) rounds))).
Proof.
  intros FR L. set (os := gb_run G m None (in_turn b rounds)).
  assert (Q : forall g, g < b -> exists samples, outcomes_of g os = map (fun s => Yield (OutFull s)) samples /\
    Forall2 (sample_at names dens) samples (tfun_samples prop acc start (combine (numbers_of 0 g os) (map (fun r => r g) rounds)))).
  { clear g L. intros g L.
    assert (EV : in_turn b rounds = (repeat (ENew None) g ++ ENew None :: (repeat (ENew None) (b - g - 1) ++ turns b rounds))%list).
    { unfold in_turn, turns. replace b with (g + S (b - g - 1)) at 1 by lia. rewrite repeat_app, <- app_assoc. reflexivity. }
    assert (NS : forall k, ~ In EReset (repeat (@ENew (grnd R) None) k) /\ forall i r, ~ In (EStep i r) (repeat (@ENew (grnd R) None) k)).
    { intros k. split; [|intros i r]; intros I; apply repeat_spec in I; discriminate. }
    assert (TS : forall e, In e (turns b rounds) -> exists r i, In r rounds /\ e = EStep i (r i)).
    { intros e I. unfold turns in I. apply in_flat_map in I. destruct I as (r & I1 & I2). apply in_map_iff in I2. destruct I2 as (i & <- & _). eauto. }
    destruct (H (repeat (ENew None) g) None (repeat (ENew None) (b - g - 1) ++ turns b rounds)%list) as (ss & A & B & C & D).
    - intros I. repeat (apply in_app_or in I; destruct I as [I|I]); try (apply NS in I; destruct I). apply TS in I. destruct I as (r & i & _ & E). discriminate.
    - apply steps_news.
    - intros i r I. repeat (apply in_app_or in I; destruct I as [I|I]); try (apply NS in I; destruct I). apply TS in I. destruct I as (r' & i' & I & E).
      injection E as -> ->. apply FR. exact I.
    - rewrite created_news in *. rewrite <- EV in *. fold os in A, B, C, D. rewrite steps_app, steps_news, turns_steps in * by exact L. cbn [app] in *.
      cbn [given_samples] in B. rewrite B, Nat.sub_diag in A. cbn [repeat] in A. rewrite app_nil_r in A. exists ss. auto. }
  destruct (Q g L) as (ss & A & D). exists ss. split; [exact A|].
  assert (IX : map fst os = flat_map (fun _ => seq 0 b) rounds).
  { unfold os, gb_run. rewrite run_indices, placed_indices. unfold in_turn. rewrite indices_app, indices_news. exact (turns_indices b rounds). }
  rewrite numbers_places, IX, places_rounds in D; [exact D|exact L|].
  intros [i o] I. assert (Z : i < b).
  { assert (J : In i (map fst os)) by (apply in_map_iff; exists (i, o); auto). rewrite IX in J. apply in_flat_map in J. destruct J as (x & _ & J). apply in_seq in J. lia. }
  apply outcomes_in in I. destruct (Q i Z) as (s' & A' & _). rewrite A' in I. apply in_map_iff in I. destruct I as (s & <- & _). eexists. reflexivity.
Qed.
End Scans.

(** *** A variable outside the blocks drawn keeps its value *)
Lemma tfun_keeps names c sc i v steps : (forall j, In j (map fst steps) -> ~ In i (sc j)) -> forall x, nth i x 0%R = v ->
  Forall (fun y => nth i y 0%R = v) (tfun_chain (by_scan names c sc) None x steps).
Proof.
  induction steps as [|[j r] steps IH]; intros HS x E; [constructor|]. cbn [tfun_chain decided].
  assert (K : nth i (by_scan names c sc j x r) 0%R = v).
  { unfold by_scan. rewrite drawn_keeps; [exact E|]. apply HS. left. reflexivity. }
  constructor; [exact K|]. apply IH; [|exact K]. intros k I. apply HS. right. exact I.
Qed.

Lemma samples_keep names c sc i v steps : (forall j, In j (map fst steps) -> ~ In i (sc j)) -> forall x, nth i x 0%R = v ->
  Forall (fun y => nth i y 0%R = v) (tfun_samples (by_scan names c sc) None x steps).
Proof.
  destruct steps as [|[j r] steps]; intros HS x E; [constructor|]. cbn [tfun_samples].
  assert (K : nth i (by_scan names c sc j x r) 0%R = v).
  { unfold by_scan. rewrite drawn_keeps; [exact E|]. apply HS. left. reflexivity. }
  constructor; [exact K|]. apply tfun_keeps; [|exact K]. intros k I. apply HS. right. exact I.
Qed.

Lemma block_other n t j i : In i (block n t j) -> i / t = j mod blocks n t.
Proof. unfold block. rewrite filter_In. intros [_ E]. apply Nat.eqb_eq. exact E. Qed.

Lemma Forall2_right {A B} (P : A -> B -> Prop) (Q : B -> Prop) l m : Forall2 P l m -> Forall Q m -> Forall (fun a => exists b, P a b /\ Q b) l.
Proof. induction 1 as [|a b l m HP HH IH]; intros HQ; inversion HQ; subst; constructor; eauto. Qed.

Lemma Forall_all {A I} (Q : I -> A -> Prop) l : (forall i, Forall (Q i) l) -> Forall (fun a => forall i, Q i a) l.
Proof. intros H. apply Forall_forall. intros a Ia i. specialize (H i). rewrite Forall_forall in H. apply H. exact Ia. Qed.

Lemma turns_stuck {F : Fmt R} {TR : Trunc R} (G : gibbs R) names start dens c n t :
  scans_as G GibbsRule (fun _ => True) names start dens (by_scan names c (scan n (Some t))) None -> 0 < t -> 0 < n ->
  forall rounds g, g < blocks n t ->
  exists samples, outcomes_of g (gb_run G GibbsRule None (in_turn (blocks n t) rounds)) = map (fun s => Yield (OutFull s)) samples /\
    length samples = length rounds /\
    Forall (fun s => exists x, sample_at names dens s x /\ forall i, i / t <> g -> nth i x 0%R = nth i start 0%R) samples.
Proof.
  intros H T N rounds g L. destruct (scans_turns G GibbsRule _ _ _ _ _ _ H (blocks n t) rounds g (fun _ _ _ => I) L) as (ss & A & D).
  exists ss. split; [exact A|]. split.
  - rewrite (Forall2_len D). assert (TL : forall p a x steps, length (tfun_samples p a x steps) = length steps).
    { intros p a x [|[j r] steps]; [reflexivity|]. cbn. f_equal. generalize (p j x r). induction steps as [|[j' r'] steps IH]; intros z; [reflexivity|]. cbn. f_equal. apply IH. }
    rewrite TL, combine_length, !map_length, seq_length. lia.
  - eapply Forall2_right; [exact D|]. apply Forall_all. intros i. destruct (Nat.eq_dec (i / t) g) as [E|E].
    + apply Forall_forall. intros a _ C. contradiction.
    + eapply Forall_impl; [intros a Ha _; exact Ha|]. apply samples_keep; [|reflexivity].
      intros j I C. apply in_map_iff in I. destruct I as ([j' r] & E' & I). cbn in E'. subst j'. apply in_combine_l in I. apply in_map_iff in I. destruct I as (q & <- & _).
      cbn [scan] in C. apply block_other in C. apply E. rewrite C. symmetry. apply (Nat.mod_unique _ _ q); lia.
Qed.

(** *** Any order *)
Section Order.
Context {F : Fmt R} {TR : Trunc R}.
Variable vs : list (rv R).
Let names := names_of vs.
Let n := length vs.
Hypothesis PR : printable F.
Hypothesis NE : vs <> [].
Hypothesis NA : named_apart names.
Hypothesis UP : unprimed names.
Hypothesis RV : forall v, In v vs -> vs_vset (rv_state v) <> None.
Hypothesis SC : scales_ok vs.

Lemma zip_perm_gives ks (xs : list (pyval R)) : Permutation ks names -> length xs = length ks -> gives vs (combine ks xs) (map (look (combine ks xs)) names).
Proof.
  intros PM L. unfold gives. fold names. rewrite zip_keys by exact L.
  assert (ND : NoDup ks) by (eapply Permutation_NoDup; [symmetry; exact PM|apply NA]).
  split; [exact ND|]. split; [intros k I; eapply Permutation_in; [exact PM|exact I]|].
  assert (K : forall k, In k names -> od_get (combine ks xs) k = Some (look (combine ks xs) k)).
  { intros k I. apply (Permutation_in _ (Permutation_sym PM)) in I. apply In_nth_error in I. destruct I as (i & I).
    assert (B : i < length ks) by (apply nth_error_Some; congruence). destruct (nth_error xs i) as [x|] eqn:X; [|apply nth_error_None in X; lia].
    unfold look. rewrite (zip_get ks xs i k x ND I X). reflexivity. }
  revert K. generalize names as l. induction l as [|k l IH]; intros K; [constructor|]. cbn. constructor; [apply K; left; reflexivity|]. apply IH. intros k' I. apply K. right. exact I.
Qed.

Lemma step_order : exists d0, make_sd vs [] None = Ok d0 /\ forall fn h given d tran tf ts c G start (reverse : bool) ks xs r,
  elementwise names h fn -> sd_set_prob d0 (Some fn) given = Ok d ->
  (forall t, tran = Some t -> exists qd, computes names qd (match t with TranOne q => q | TranTwo q q' => if reverse then q' else q end)) ->
  set_tfun d tran tf ts start = Ok G -> not_negative ts -> Permutation ks names -> length xs = n -> draws ks c (forward tf) ->
  let ys := by_scan ks c (scan n (at_a_time ts)) 0 xs r in
  exists pos pr, gb_step G reverse (combine ks (map PF xs)) None r = (pos, Ok pr) /\
    forall i k, nth_error ks i = Some k -> od_get (cd_held pr) k = Some (PF (nth i xs 0%R)) /\ od_get (cd_held pr) (k ++ "'")%string = Some (PF (nth i ys 0%R)).
Proof.
  destruct (called_at vs PR NE NA RV SC) as (d0 & E0 & H0). exists d0. split; [exact E0|].
  intros fn h given d tran tf ts c G start reverse ks xs r EL ES TC ET NN PM L DR ys.
  destruct (H0 fn h given d EL ES) as (K1 & K2 & K3 & _). clear H0.
  unfold set_tfun in ET. destruct (assert_ _) as [u|e]; [|discriminate]. cbn [bind] in ET. injection ET as <-.
  assert (LK : length ks = n) by (rewrite (Permutation_length PM); unfold names, names_of; apply map_length).
  assert (ND : NoDup ks) by (eapply Permutation_NoDup; [symmetry; exact PM|apply NA]).
  assert (LY : length ys = n) by (unfold ys, by_scan; rewrite drawn_length; exact L).
  set (G := mkGibbs d tran tf ts start).
  assert (NP : 0 < length ks) by (rewrite LK; unfold n; clear -NE; destruct vs; [congruence|cbn; lia]).
  destruct (window_scan ks ts 0 None NN NP) as (pos' & EW & _).
  { unfold pos_at. destruct (at_a_time ts) as [t|]; [|exact I].
    assert (Z : 0 mod blocks (length ks) t = 0) by (destruct (blocks (length ks) t); [reflexivity|apply Nat.mod_0_l; discriminate]). rewrite Z. reflexivity. }
  assert (EV : eval_tfun G false (combine ks (map PF xs)) None r = (pos', Ok (combine ks (map PF ys)))).
  { unfold eval_tfun, G. cbn [gb_tfun gb_tsteps]. rewrite zip_keys by (rewrite map_length, LK; exact L). rewrite EW. f_equal.
    assert (EF : match tf with TfOne f => f | TfTwo f _ => f end = forward tf) by (destruct tf; reflexivity). rewrite EF.
    rewrite (fold_draws ks c (forward tf) r ND DR); [unfold ys, by_scan; rewrite LK; reflexivity|rewrite LK; exact L|]. intros i. apply scan_bound. exact NN. }
  assert (CQ : exists qd, computes names qd (gb_cond G reverse)).
  { unfold gb_cond, G. cbn [gb_tran gb_sd]. destruct tran as [t|]; [exact (TC t eq_refl)|]. eexists. apply computes_const. }
  destruct CQ as (qd & CQ).
  assert (LX : length (map (@PF R) xs) = length ks) by (rewrite map_length, LK; exact L).
  assert (LY' : length (map (@PF R) ys) = length ks) by (rewrite map_length, LK; exact LY).
  pose proof (zip_perm_gives ks (map PF xs) PM LX) as G1. pose proof (zip_perm_gives ks (map PF ys) PM LY') as G2.
  destruct (step_to_ok vs PR NE NA UP d (gb_cond G reverse) _ _ _ _ qd K1 K2 K3 G1 G2 CQ) as (p & E & _).
  exists pos'. eexists. split.
  { unfold gb_step. assert (KN : known (gb_keys G) (combine ks (map PF xs)) = combine ks (map PF xs)).
    { unfold known, gb_keys, G. cbn [gb_sd]. rewrite K2. fold names.
      assert (HH : forall kv, In kv (combine ks (map (@PF R) xs)) -> mem_str (fst kv) names = true).
      { intros [k x] I. apply mem_str_iff. apply in_combine_l in I. eapply Permutation_in; [exact PM|exact I]. }
      revert HH. generalize (combine ks (map (@PF R) xs)) as l. induction l as [|kv l IH]; intros HH; [reflexivity|]. cbn. rewrite HH by (left; reflexivity). f_equal. apply IH. intros z I. apply HH. right. exact I. }
    rewrite KN, EV. cbn [bind]. unfold G at 1. cbn [gb_sd]. rewrite E. reflexivity. }
  intros i k I. cbn [cd_held].
  assert (IN : In k names) by (eapply Permutation_in; [exact PM|]; eapply nth_error_In; exact I).
  destruct (In_nth_error _ _ IN) as (j & J).
  assert (LL : forall ws : list (pyval R), length (map (look (combine ks ws)) names) = length (names_of vs)) by (intros; rewrite map_length; reflexivity).
  destruct (held_get vs NA UP (map (look (combine ks (map PF xs))) names) (map (look (combine ks (map PF ys))) names) j k (LL _) (LL _) J) as [-> ->].
  rewrite !nth_error_map, J. cbn [option_map].
  assert (B : i < n) by (rewrite <- LK; apply nth_error_Some; congruence).
  assert (LO : forall zs, length zs = n -> look (combine ks (map (@PF R) zs)) k = PF (nth i zs 0%R)).
  { intros zs LZ. unfold look. rewrite (zip_get ks (map PF zs) i k (PF (nth i zs 0%R)) ND I); [reflexivity|]. rewrite nth_error_map, (nth_error_nth' zs 0%R) by lia. reflexivity. }
  rewrite !LO by assumption. split; reflexivity.
Qed.
End Order.

(** *** scipy objects *)
Local Open Scope R_scope.
Section Scipy.
Variables (inv : nat -> (nat -> nat -> R) -> nat -> nat -> R) (Phi PhiInv : R -> R) (n : nat) (mean : nat -> R) (cov prec : nat -> nat -> R)
  (lims : nat -> R * R) (junk : nat -> R).
Hypothesis SY : symmetric n cov.
Hypothesis PD : positive_definite n cov.
Hypothesis IP : is_inverse n cov prec.
Hypothesis IC : forall i, (i < n)%nat -> is_inverse (n - 1) (minor cov i) (inv (n - 1)%nat (minor cov i)).

Definition sargs (x : list R) (i : nat) : list (carg R) := map (fun j => if Nat.eqb j i then CSet 0%Z else CNum (nth j x 0)) (seq 0 (length x)).

Lemma sargs_asks x i : length x = n -> (i < n)%nat -> asks n i 0%Z (fun j => nth j x 0) (sargs x i).
Proof.
  intros L B. unfold asks, sargs. rewrite map_length, seq_length. split; [exact L|]. split; [exact B|].
  assert (NS : forall j, (j < n)%nat -> nth_error (seq 0 (length x)) j = Some j).
  { intros j Bj. rewrite (nth_error_nth' _ 0%nat) by (rewrite seq_length; lia). rewrite seq_nth by lia. reflexivity. }
  split.
  - rewrite nth_error_map, NS by exact B. cbn. rewrite Nat.eqb_refl. reflexivity.
  - intros j Bj N. rewrite nth_error_map, NS by exact Bj. cbn. destruct (Nat.eqb_spec j i); [contradiction|reflexivity].
Qed.

(** What scipy conditionals draw. *)
Definition scipy_draw (x : list R) (i : nat) (u : nat -> R) : R :=
  match interp PhiInv (make_cc inv Phi n mean cov lims) (sargs x i) u junk with Ok (UScalar y) => y | _ => 0 end.

Lemma scipy_value x i u : length x = n -> (i < n)%nat ->
  exists m s, conditional_gaussian n prec mean (fun j => nth j x 0) i m s /\
    (let lo := Phi ((fst (lims i) - mean i) / s) in let hi := Phi ((snd (lims i) - mean i) / s) in
     scipy_draw x i u = m + s * PhiInv (lo + (hi - lo) * u 0%nat)) /\
    interp PhiInv (make_cc inv Phi n mean cov lims) (sargs x i) u junk = Ok (UScalar (scipy_draw x i u)).
Proof.
  intros L B. destruct (interp_gaussian inv Phi PhiInv n mean cov prec lims i 0%Z _ _ u junk SY PD IP (IC i B) (sargs_asks x i L B)) as (m & s & CG & _ & _ & _ & E).
  exists m, s. split; [exact CG|]. unfold scipy_draw. rewrite E. cbn [umap uniform]. split; reflexivity.
Qed.

Lemma od_set_sargs (ks : list string) (x : list R) i k : NoDup ks -> length x = length ks -> nth_error ks i = Some k ->
  map (fun kx => match snd kx with Some y => CNum (as_num y) | None => CSet 0%Z end)
    (od_set (map (fun kx => (fst kx, Some (snd kx))) (combine ks (map (@PF R) x))) k None) = sargs x i.
Proof.
  unfold sargs. revert x i. induction ks as [|a ks IH]; intros x i ND L I; [destruct i; discriminate|].
  destruct x as [|z x]; [discriminate|]. inversion ND as [|a' l' NI ND']; subst. cbn [length seq map combine fst snd].
  destruct i as [|i].
  - injection I as <-. cbn [od_set]. rewrite String.eqb_refl. cbn [map snd Nat.eqb]. f_equal.
    rewrite map_map. cbn [snd]. injection L as L. clear -L. rewrite <- seq_shift, map_map. cbn [Nat.eqb nth].
    revert ks L. induction x as [|y x IH]; intros [|k ks] L; try discriminate; [reflexivity|]. cbn [map combine length seq snd]. f_equal.
    injection L as L. rewrite (IH ks L). rewrite <- seq_shift, map_map. reflexivity.
  - cbn in I. cbn [od_set]. destruct (String.eqb_spec k a) as [->|N]; [exfalso; apply NI; eapply nth_error_In; exact I|].
    cbn [map snd Nat.eqb as_num nth]. f_equal. rewrite (IH x i ND') by (auto). rewrite <- seq_shift, map_map. reflexivity.
Qed.

Lemma scipy_draws ks : NoDup ks -> length ks = n -> draws ks scipy_draw (sample_cond_cov PhiInv (make_cc inv Phi n mean cov lims) junk).
Proof.
  intros ND LK x i k u L I. unfold sample_cond_cov. rewrite (od_set_sargs ks x i k ND L I).
  assert (B : (i < n)%nat) by (rewrite <- LK; apply nth_error_Some; congruence).
  destruct (scipy_value x i u (eq_trans L LK) B) as (_ & _ & _ & _ & ->). reflexivity.
Qed.

Lemma scipy_any : exists c, (forall ks, NoDup ks -> length ks = n -> draws ks c (sample_cond_cov PhiInv (make_cc inv Phi n mean cov lims) junk)) /\
  forall x i u, length x = n -> (i < n)%nat -> exists m s, conditional_gaussian n prec mean (fun j => nth j x 0) i m s /\
    let lo := Phi ((fst (lims i) - mean i) / s) in let hi := Phi ((snd (lims i) - mean i) / s) in
    c x i u = m + s * PhiInv (lo + (hi - lo) * u 0%nat).
Proof.
  exists scipy_draw. split; [exact scipy_draws|]. intros x i u L B. destruct (scipy_value x i u L B) as (m & s & CG & V & _). exists m, s. split; assumption.
Qed.
End Scipy.
