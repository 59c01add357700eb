(** Proofs about samplers. *)
From Coq Require Import Arith Bool Lia List.
From Verif Require Import Base OdLemmas SPModel SP_Spec.
Import ListNotations.

Section Proofs.
Context {D Rnd Sc : Type}.
Variable eng : engine D Rnd.
Variable cfg : config D Rnd Sc.

Notation proc := (process D).
Notation outc := (@outcome D Sc).
Notation resume := (@resume D Rnd Sc eng cfg).
Notation run := (@run D Rnd Sc eng cfg).
Notation advance := (@advance D Rnd Sc eng cfg).

(** The local state of one sampler. *)
Record loc : Type := mkLoc { l_count : nat; l_last : option (opqr D); l_done : bool }.

Definition loc_step (stop : option nat) (l : loc) (r : Rnd) : loc * outc :=
  if l_done l then (l, Stopped)
  else
    let go := match advance (l_last l) r with
              | Ok (out, last') => (mkLoc (S (l_count l)) last' false, Yield out)
              | Err e => (mkLoc (S (l_count l)) (l_last l) true, Raised e)
              end in
    match stop with
    | None => go
    | Some n => if l_count l <? n then go else (mkLoc 0 None true, Stopped)
    end.

Fixpoint loc_run (stop : option nat) (l : loc) (rs : list Rnd) : loc * list outc :=
  match rs with
  | [] => (l, [])
  | r :: rs' => let (l', o) := loc_step stop l r in
                let (l'', os) := loc_run stop l' rs' in (l'', o :: os)
  end.

Definition view (st : proc) (g : nat) : option (option nat * loc) :=
  match nth_error (p_gens st) g, p_last st g with
  | Some gn, Some la => Some (g_stop gn, mkLoc (p_counter st g) la (g_done gn))
  | _, _ => None
  end.

Record wf (st : proc) : Prop := {
  wf_samplers : p_samplers st = seq 0 (length (p_gens st));
  wf_ids : forall g gn, nth_error (p_gens st) g = Some gn -> g_id gn = g;
  wf_last : forall g, g < length (p_gens st) -> exists la, p_last st g = Some la
}.

Lemma set_nth_length {A} n (x : A) l : length (set_nth n x l) = length l.
Proof. revert n. induction l as [|y l IH]; intros [|n]; cbn; auto. Qed.

Lemma nth_error_set_nth {A} n (x : A) l m :
  nth_error (set_nth n x l) m = if (m =? n) && (n <? length l) then Some x else nth_error l m.
Proof.
  revert n m. induction l as [|y l IH]; intros [|n] [|m]; cbn; auto.
  - rewrite andb_false_r. auto.
  - apply IH.
Qed.

Lemma nth_error_seq n k : k < n -> nth_error (seq 0 n) k = Some k.
Proof.
  intros H. rewrite (nth_error_nth' _ 0) by (rewrite seq_length; auto). rewrite seq_nth by auto. auto.
Qed.

Lemma wf_get st g gn : wf st -> nth_error (p_gens st) g = Some gn -> get_sampler st (g_id gn) = Ok g.
Proof.
  intros W H. unfold get_sampler. rewrite (wf_ids st W g gn H), (wf_samplers st W).
  rewrite nth_error_seq; auto. apply nth_error_Some. congruence.
Qed.

Lemma view_lt st g v : view st g = Some v -> g < length (p_gens st).
Proof.
  unfold view. destruct (nth_error (p_gens st) g) eqn:E; [|discriminate].
  intros _. apply nth_error_Some. congruence.
Qed.

Lemma finish_view st g gn g' : nth_error (p_gens st) g = Some gn ->
  view (finish st g gn) g' =
  if g' =? g then match p_last st g with
                  | Some la => Some (g_stop gn, mkLoc (p_counter st g) la true)
                  | None => None
                  end
  else view st g'.
Proof.
  intros H. assert (L : g < length (p_gens st)) by (apply nth_error_Some; congruence).
  unfold view, finish. cbn. rewrite nth_error_set_nth.
  apply Nat.ltb_lt in L. rewrite L, andb_true_r. destruct (Nat.eqb_spec g' g); subst; auto.
Qed.

Lemma finish_wf st g gn : wf st -> nth_error (p_gens st) g = Some gn -> wf (finish st g gn).
Proof.
  intros W H. constructor; cbn.
  - rewrite set_nth_length. apply (wf_samplers st W).
  - intros g' gn' H'. rewrite nth_error_set_nth in H'.
    destruct ((g' =? g) && (g <? length (p_gens st))) eqn:B.
    + inversion H'; subst. cbn. apply andb_true_iff in B. destruct B as [B _]. apply Nat.eqb_eq in B. subst.
      apply (wf_ids st W g gn H).
    + apply (wf_ids st W g' gn' H').
  - rewrite set_nth_length. apply (wf_last st W).
Qed.

(** One step touches one sampler only. *)
Lemma resume_local st g r v : wf st -> view st g = Some v ->
  let (st', o) := resume st g r in
  let (l', o') := loc_step (fst v) (snd v) r in
  o = o' /\ wf st' /\ length (p_gens st') = length (p_gens st) /\
  view st' g = Some (fst v, l') /\ (forall g', g' <> g -> view st' g' = view st g').
Proof.
  intros W HV. unfold view in HV.
  destruct (nth_error (p_gens st) g) as [gn|] eqn:E; [|discriminate].
  destruct (p_last st g) as [la|] eqn:EL; [|discriminate]. inversion HV; subst; clear HV. cbn [fst snd].
  unfold resume, SPModel.resume. rewrite E. unfold loc_step. cbn [l_done l_last l_count].
  destruct (g_done gn) eqn:DN.
  { split; auto. split; auto. split; auto. split; auto. unfold view. rewrite E, EL, DN. reflexivity. }
  assert (GS := wf_get st g gn W E).
  assert (GO :
    let (st', o) := match sp_next eng cfg st (g_id gn) r with
                    | (st', Ok out) => (st', Yield out)
                    | (st', Err e) => (finish st' g gn, Raised e)
                    end in
    let (l', o') := match advance la r with
              | Ok (out, last') => (mkLoc (S (p_counter st g)) last' false, Yield out)
              | Err e => (mkLoc (S (p_counter st g)) la true, Raised e)
              end in
    o = o' /\ wf st' /\ length (p_gens st') = length (p_gens st) /\
    view st' g = Some (g_stop gn, l') /\ (forall g', g' <> g -> view st' g' = view st g')).
  { unfold sp_next. rewrite GS, EL. destruct (advance la r) as [[out last']|e] eqn:EA.
    - split; auto. split.
      { constructor; cbn; try apply W. intros x Hx. unfold set_fun. destruct (x =? g); eauto. apply (wf_last st W); auto. }
      split; auto. split.
      + unfold view. cbn. rewrite E. unfold set_fun. rewrite !Nat.eqb_refl, DN. reflexivity.
      + intros x Hx. unfold view. cbn. unfold set_fun. apply Nat.eqb_neq in Hx. rewrite Hx. reflexivity.
    - set (st1 := mkProc (p_gens st) (p_samplers st) (set_fun (p_counter st) g (S (p_counter st g))) (p_last st)).
      assert (W1 : wf st1) by (constructor; apply W).
      split; auto. split; [apply finish_wf; auto|]. split.
      { unfold finish. cbn. apply set_nth_length. }
      assert (E1 : nth_error (p_gens st1) g = Some gn) by auto.
      split; [|intros x Hx]; rewrite (finish_view st1 g gn _ E1).
      + rewrite Nat.eqb_refl. cbn. rewrite EL. unfold set_fun. rewrite Nat.eqb_refl. reflexivity.
      + pose proof Hx as Hx'. apply Nat.eqb_neq in Hx'. rewrite Hx'. unfold view. cbn. unfold set_fun. rewrite Hx'. reflexivity. }
  destruct (g_stop gn) as [n|] eqn:ES.
  - rewrite GS. destruct (p_counter st g <? n) eqn:LT.
    + exact GO.
    + unfold reset_one. rewrite GS. cbn [bind]. split; auto.
      set (st1 := mkProc _ _ _ _).
      assert (W1 : wf st1).
      { constructor; cbn; try apply W. intros x Hx. unfold set_fun. destruct (x =? g); eauto. apply (wf_last st W); auto. }
      assert (E1 : nth_error (p_gens st1) g = Some gn) by auto.
      split; [apply finish_wf; auto|]. split; [cbn; apply set_nth_length|].
      split; [|intros x Hx]; rewrite (finish_view st1 g gn _ E1).
      * rewrite Nat.eqb_refl. cbn. unfold set_fun. rewrite Nat.eqb_refl, ES. reflexivity.
      * pose proof Hx as Hx'. apply Nat.eqb_neq in Hx'. rewrite Hx'. unfold view. cbn. unfold set_fun. rewrite Hx'. reflexivity.
  - exact GO.
Qed.

Lemma resume_missing st g r : length (p_gens st) <= g -> resume st g r = (st, Raised NameError).
Proof.
  intros H. unfold resume, SPModel.resume.
  destruct (nth_error (p_gens st) g) eqn:E; auto. exfalso.
  assert (g < length (p_gens st)) by (apply nth_error_Some; congruence). lia.
Qed.

Lemma wf_view st g : wf st -> g < length (p_gens st) -> exists v, view st g = Some v.
Proof.
  intros W H. unfold view. destruct (nth_error (p_gens st) g) eqn:E.
  - destruct (wf_last st W g H) as (la & ->). eauto.
  - apply nth_error_None in E. lia.
Qed.

Lemma new_wf st stop : wf st -> wf (new_sampler st stop).
Proof.
  intros W. constructor; cbn.
  - rewrite app_length, (wf_samplers st W). cbn. rewrite Nat.add_1_r, seq_S. auto.
  - intros g gn H. destruct (Nat.lt_ge_cases g (length (p_gens st))) as [L|L].
    + rewrite nth_error_app1 in H by auto. apply (wf_ids st W g gn H).
    + rewrite nth_error_app2 in H by auto.
      destruct (g - length (p_gens st)) as [|m] eqn:M; cbn in H; [|destruct m; discriminate].
      inversion H; subst. cbn. rewrite (wf_samplers st W), seq_length. lia.
  - intros g H. unfold set_fun. destruct (Nat.eqb_spec g (length (p_gens st))); eauto.
    apply (wf_last st W). rewrite app_length in H. cbn in H. lia.
Qed.

Lemma new_view st stop g : g < length (p_gens st) -> view (new_sampler st stop) g = view st g.
Proof.
  intros H. unfold view. cbn. rewrite nth_error_app1 by auto. unfold set_fun.
  destruct (Nat.eqb_spec g (length (p_gens st))); [lia|]. auto.
Qed.

Lemma new_view_self st stop :
  view (new_sampler st stop) (length (p_gens st)) = Some (stop, mkLoc 0 None false).
Proof.
  unfold view. cbn. rewrite nth_error_app2, Nat.sub_diag by auto. cbn. unfold set_fun.
  rewrite Nat.eqb_refl. auto.
Qed.

Lemma run_local evs : forall st g v, wf st -> no_reset evs -> view st g = Some v ->
  let (st', os) := run st evs in
  let (l', os') := loc_run (fst v) (snd v) (steps_of g evs) in
  outcomes_of g os = os' /\ wf st' /\ view st' g = Some (fst v, l').
Proof.
  induction evs as [|[stop|g' r|] evs IH]; intros st g v W NR HV.
  - cbn. split; auto. split; auto. rewrite HV. destruct v; auto.
  - cbn [SPModel.run steps_of flat_map app]. apply (IH (new_sampler st stop) g v).
    + apply new_wf; auto.
    + intros C. apply NR. right. auto.
    + rewrite new_view; auto. eapply view_lt; eauto.
  - assert (NR' : no_reset evs) by (intros C; apply NR; right; auto).
    cbn [SPModel.run steps_of flat_map].
    destruct (Nat.eqb_spec g' g) as [->|N].
    + cbn [app loc_run]. pose proof (resume_local st g r v W HV) as RL.
      destruct (resume st g r) as [st1 o] eqn:ER. destruct (loc_step (fst v) (snd v) r) as [l1 o1] eqn:EL.
      destruct RL as (-> & W1 & _ & V1 & _).
      specialize (IH st1 g (fst v, l1) W1 NR' V1). cbn [fst snd] in IH.
      fold (steps_of g evs).
      destruct (run st1 evs) as [st2 os] eqn:E2.
      destruct (loc_run (fst v) l1 (steps_of g evs)) as [l2 os2] eqn:E3.
      destruct IH as (<- & W2 & V2). split; auto.
      unfold outcomes_of. cbn. rewrite Nat.eqb_refl. reflexivity.
    + cbn [app]. assert (S1 : exists st1 o, resume st g' r = (st1, o) /\ wf st1 /\ view st1 g = Some v).
      { destruct (Nat.lt_ge_cases g' (length (p_gens st))) as [L|L].
        - destruct (wf_view st g' W L) as (v' & HV').
          pose proof (resume_local st g' r v' W HV') as RL.
          destruct (resume st g' r) as [st1 o] eqn:ER. destruct (loc_step (fst v') (snd v') r) as [l1 o1] eqn:EL.
          destruct RL as (_ & W1 & _ & _ & V1). exists st1, o. split; auto. split; auto. rewrite V1; auto.
        - exists st, (Raised NameError). rewrite resume_missing by auto. auto. }
      destruct S1 as (st1 & o & ER & W1 & V1). rewrite ER.
      specialize (IH st1 g v W1 NR' V1). fold (steps_of g evs).
      destruct (run st1 evs) as [st2 os] eqn:E2.
      destruct (loc_run (fst v) (snd v) (steps_of g evs)) as [l2 os2] eqn:E3.
      destruct IH as (<- & W2 & V2). split; auto.
      unfold outcomes_of. cbn. apply Nat.eqb_neq in N. rewrite N. reflexivity.
  - exfalso. apply NR. left. auto.
Qed.

Lemma run_app evs1 evs2 st :
  run st (evs1 ++ evs2) =
  let (st1, o1) := run st evs1 in let (st2, o2) := run st1 evs2 in (st2, o1 ++ o2).
Proof.
  revert st. induction evs1 as [|[stop|g r|] evs1 IH]; intros st; cbn [app SPModel.run].
  - destruct (run st evs2); auto.
  - apply IH.
  - destruct (resume st g r) as [st1 o]. rewrite IH. destruct (run st1 evs1) as [st2 o2].
    destruct (run st2 evs2); auto.
  - apply IH.
Qed.

Lemma run_wf evs : forall st, wf st -> no_reset evs ->
  wf (fst (run st evs)) /\
  length (p_gens (fst (run st evs))) = length (p_gens st) + created evs.
Proof.
  induction evs as [|[stop|g r|] evs IH]; intros st W NR.
  - cbn. auto.
  - cbn [SPModel.run]. destruct (IH (new_sampler st stop)) as [A B].
    + apply new_wf; auto.
    + intros C. apply NR. right. auto.
    + split; auto. rewrite B. cbn. rewrite app_length. cbn. unfold created. cbn. lia.
  - assert (NR' : no_reset evs) by (intros C; apply NR; right; auto).
    assert (S1 : exists st1 o, resume st g r = (st1, o) /\ wf st1 /\ length (p_gens st1) = length (p_gens st)).
    { destruct (Nat.lt_ge_cases g (length (p_gens st))) as [L|L].
      - destruct (wf_view st g W L) as (v' & HV').
        pose proof (resume_local st g r v' W HV') as RL.
        destruct (resume st g r) as [st1 o] eqn:ER. destruct (loc_step (fst v') (snd v') r) as [l1 o1] eqn:EL.
        destruct RL as (_ & W1 & LE & _). exists st1, o. auto.
      - exists st, (Raised NameError). rewrite resume_missing by auto. auto. }
    destruct S1 as (st1 & o & ER & W1 & LE). cbn [SPModel.run]. rewrite ER.
    destruct (IH st1 W1 NR') as [A B]. destruct (run st1 evs) as [st2 os]. cbn [fst] in *.
    split; auto. rewrite B, LE. reflexivity.
  - exfalso. apply NR. left. auto.
Qed.

Lemma new_process_wf : wf (@new_process D).
Proof.
  constructor; cbn; auto.
  - intros [|g] gn H; discriminate.
  - intros g H. lia.
Qed.

Lemma outcomes_app g (o1 o2 : list (nat * outc)) :
  outcomes_of g (o1 ++ o2) = outcomes_of g o1 ++ outcomes_of g o2.
Proof. unfold outcomes_of. rewrite filter_app, map_app. auto. Qed.

Lemma outcomes_none evs st g : steps_of g evs = [] -> outcomes_of g (snd (run st evs)) = [].
Proof.
  revert st. induction evs as [|[stop|g' r|] evs IH]; intros st H; cbn [SPModel.run].
  - auto.
  - apply IH. auto.
  - cbn in H. destruct (Nat.eqb_spec g' g); [discriminate|]. cbn in H.
    destruct (resume st g' r) as [st1 o]. specialize (IH st1 H).
    destruct (run st1 evs) as [st2 os]. unfold outcomes_of in *. cbn in *.
    apply Nat.eqb_neq in n. rewrite n. auto.
  - apply IH. auto.
Qed.

Lemma steps_of_map (rs : list Rnd) : steps_of 0 (map (EStep 0) rs) = rs.
Proof. induction rs as [|r rs IH]; cbn; auto. f_equal. auto. Qed.

Lemma no_reset_map (rs : list Rnd) : no_reset (map (@EStep Rnd 0) rs).
Proof. unfold no_reset. intros C. apply in_map_iff in C. destruct C as (x & C & _). discriminate. Qed.

(** The sampler created after [pre] behaves as if alone. *)
Lemma sampler_view pre stop post : no_reset (pre ++ post) -> steps_of (created pre) pre = [] ->
  let (st, os) := run new_process (pre ++ ENew stop :: post) in
  let (l, os') := loc_run stop (mkLoc 0 None false) (steps_of (created pre) post) in
  outcomes_of (created pre) os = os' /\ wf st /\ view st (created pre) = Some (stop, l).
Proof.
  intros NR SP. assert (NR1 : no_reset pre) by (intros C; apply NR, in_or_app; auto).
  assert (NR2 : no_reset post) by (intros C; apply NR, in_or_app; auto).
  rewrite run_app. destruct (run_wf pre new_process new_process_wf NR1) as [W1 L1].
  pose proof (outcomes_none pre new_process _ SP) as O1.
  destruct (run new_process pre) as [st1 o1]. cbn [fst snd] in *. cbn [SPModel.run].
  cbn in L1. pose proof (new_view_self st1 stop) as NV. rewrite L1 in NV.
  pose proof (run_local post (new_sampler st1 stop) (created pre) _ (new_wf st1 stop W1) NR2 NV) as RL.
  cbn [fst snd] in RL.
  destruct (run (new_sampler st1 stop) post) as [st2 o2].
  destruct (loc_run stop (mkLoc 0 None false) (steps_of (created pre) post)) as [l os'].
  destruct RL as (E & W & V). rewrite outcomes_app, O1. auto.
Qed.

Lemma samplers_independent pre stop post :
  no_reset (pre ++ post) -> steps_of (created pre) pre = [] ->
  let g := created pre in
  let (st, os) := run new_process (pre ++ ENew stop :: post) in
  let (st1, os1) := run new_process (ENew stop :: map (EStep 0) (steps_of g post)) in
  outcomes_of g os = outcomes_of 0 os1 /\
  p_counter st g = p_counter st1 0 /\ p_last st g = p_last st1 0.
Proof.
  intros NR SP g. pose proof (sampler_view pre stop post NR SP) as H1. fold g in H1.
  pose proof (sampler_view [] stop (map (EStep 0) (steps_of g post)) (no_reset_map _) eq_refl) as H2.
  cbn [app] in H2. change (created []) with 0 in H2. rewrite steps_of_map in H2.
  destruct (run new_process (pre ++ ENew stop :: post)) as [st os].
  destruct (run new_process (ENew stop :: map (EStep 0) (steps_of g post))) as [st1 os1].
  destruct (loc_run stop (mkLoc 0 None false) (steps_of g post)) as [l os'].
  destruct H1 as (E1 & _ & V1). destruct H2 as (E2 & _ & V2). split; [congruence|].
  unfold view in *.
  destruct (nth_error (p_gens st) g); [|discriminate]. destruct (p_last st g); [|discriminate].
  destruct (nth_error (p_gens st1) 0); [|discriminate]. destruct (p_last st1 0); [|discriminate].
  inversion V1; subst. inversion V2; subst. auto.
Qed.

(** ** Chains *)

Lemma loc_run_app stop l rs1 rs2 :
  loc_run stop l (rs1 ++ rs2) =
  let (l1, o1) := loc_run stop l rs1 in let (l2, o2) := loc_run stop l1 rs2 in (l2, o1 ++ o2).
Proof.
  revert l. induction rs1 as [|r rs IH]; intros l; cbn.
  - destruct (loc_run stop l rs2); auto.
  - destruct (loc_step stop l r) as [l1 o]. rewrite IH. destruct (loc_run stop l1 rs) as [l2 o2].
    destruct (loc_run stop l2 rs2); auto.
Qed.

(** What a yielding step does. *)
Lemma loc_step_yield stop l r l' o : loc_step stop l r = (l', Yield o) ->
  l_done l = false /\ advance (l_last l) r = Ok (o, l_last l') /\ l_done l' = false /\
  l_count l' = S (l_count l).
Proof.
  unfold loc_step. destruct (l_done l) eqn:D1; [discriminate|].
  assert (G : match advance (l_last l) r with
              | Ok (out, last') => (mkLoc (S (l_count l)) last' false, Yield out)
              | Err e => (mkLoc (S (l_count l)) (l_last l) true, Raised e)
              end = (l', Yield o) ->
     false = false /\ advance (l_last l) r = Ok (o, l_last l') /\ l_done l' = false /\
     l_count l' = S (l_count l)).
  { destruct (advance (l_last l) r) as [[out la]|e]; [|discriminate]. intros E; inversion E; subst. auto. }
  destruct stop as [n|]; auto. destruct (l_count l <? n); auto. discriminate.
Qed.

Definition accepted (last : option (opqr D)) (u : verdict) : bool :=
  match c_update cfg with None => true | Some _ => false end
  || match last with None => true | Some _ => false end
  || match u with VTrue => true | _ => false end.

Definition last_q (last : option (opqr D)) : start :=
  match last with
  | None => FromArgs
  | Some l => match f_q l with Some q => FromLast q | None => FromArgs end
  end.

Definition good_last (last : option (opqr D)) : Prop :=
  forall l, last = Some l -> (exists d, f_p l = Some d) /\ (exists q, f_q l = Some q).

(** One step of a chain with transitions. *)
Lemma advance_tran last r out last' :
  c_tran cfg = true -> good_last last -> advance last r = Ok (out, last') ->
  exists x prop d, out = OutFull x /\ e_step eng (last_q last) r = Ok prop /\
    e_prob eng prop = Ok d /\
    f_o (x_opqr x) = match last with None => None | Some l => f_p l end /\
    f_p (x_opqr x) = Some d /\ f_q (x_opqr x) = Some prop /\ good_last last' /\
    (accepted last (x_u x) = true -> last' = Some (x_opqr x) /\ x_v x = Some d) /\
    (accepted last (x_u x) = false -> last' = last /\ x_v x = f_o (x_opqr x)).
Proof.
  intros CT GL. unfold advance, SPModel.advance. rewrite CT. cbn [negb andb].
  assert (SM : match last with
               | None => sample eng cfg None r
               | Some l => sample eng cfg (Some (Some l)) r
               end = sample_tran eng (match last with None => None | Some l => f_p l end) (last_q last) r).
  { unfold sample. rewrite CT. destruct last as [l|]; auto. cbn.
    destruct (GL l eq_refl) as [_ (q & ->)]. auto. }
  rewrite SM. unfold sample_tran.
  destruct (e_step eng (last_q last) r) as [pr|] eqn:E1; [|discriminate]. cbn [bind].
  destruct (e_revp eng pr) as [rv|]; [|discriminate]. cbn [bind].
  destruct (e_prob eng pr) as [d|] eqn:E2; [|discriminate]. cbn [bind].
  set (y := mkOPQR _ _ _ _).
  destruct (match c_scores cfg with Some f => f y | None => Ok None end) as [s|]; [|discriminate]. cbn [bind].
  destruct (match c_thresh cfg with Some f => f r | None => Ok None end) as [t|]; [|discriminate]. cbn [bind].
  destruct (match c_update cfg with Some f => f s t | None => Ok VNone end) as [u|] eqn:EU; [|discriminate]. cbn [bind].
  fold (accepted last u).
  destruct (accepted last u) eqn:AC; intros E; inversion E; subst;
    (eexists _, pr, d; split; [reflexivity|]; cbn; rewrite AC;
     split; [reflexivity|]; split; [exact E2|]; split; [reflexivity|]; split; [reflexivity|];
     split; [reflexivity|]; split; [|split; [intros; try discriminate; auto|intros; try discriminate; auto]]).
  - intros l El. inversion El; subst. cbn. eauto.
  - exact GL.
Qed.

Definition has_update : bool := match c_update cfg with None => false | Some _ => true end.

Lemma accepted_iff last u : accepted last u = true <->
  (last = None \/ has_update = false \/ u = VTrue).
Proof.
  unfold accepted, has_update. destruct (c_update cfg), last, u; cbn; split; auto; intros H;
    try discriminate; destruct H as [H|[H|H]]; discriminate.
Qed.

Lemma chain_trajectory stop rs : forall l l' os,
  c_tran cfg = true -> good_last (l_last l) ->
  loc_run stop l rs = (l', map (fun o => Yield o) os) ->
  exists xs, os = map OutFull xs /\ length xs = length rs /\
    trajectory eng has_update (match l_last l with None => None | Some y => f_p y end)
      (match l_last l with None => None | Some y => f_q y end) (combine rs xs).
Proof.
  induction rs as [|r rs IH]; intros l l' os CT GL E.
  - cbn in E. inversion E as [[E1 E2]]. destruct os; [|discriminate]. exists []. cbn. auto.
  - cbn in E. destruct (loc_step stop l r) as [l1 o1] eqn:ES.
    destruct (loc_run stop l1 rs) as [l2 o2] eqn:EL. inversion E as [[E1 E2]]. subst l2. clear E.
    destruct os as [|out os]; [discriminate|]. cbn in E2. inversion E2; subst o1 o2. clear E2.
    destruct (loc_step_yield _ _ _ _ _ ES) as (_ & EA & _ & _).
    destruct (advance_tran _ _ _ _ CT GL EA) as (x & prop & d & -> & H1 & H2 & H3 & H4 & H5 & H6 & H7 & H8).
    destruct (IH l1 l' os CT H6 EL) as (xs & -> & LX & TR).
    exists (x :: xs). split; auto. split; [cbn; auto|]. cbn [combine trajectory].
    exists prop, d. split.
    { destruct (l_last l) as [y|] eqn:LL; auto. }
    split; auto. split; auto. split; auto. split; auto.
    assert (ACI : (match l_last l with None => None | Some y => f_p y end = None \/ has_update = false \/ x_u x = VTrue)
            <-> accepted (l_last l) (x_u x) = true).
    { rewrite accepted_iff. destruct (l_last l) as [y|] eqn:LL; [|tauto].
      destruct (GL y eq_refl) as [(d' & ->) _]. split; intros [A|B]; auto; discriminate A. }
    split; intros A.
    + apply ACI in A. destruct (H7 A) as [B1 B2]. split; auto. rewrite B1, H4, H5 in TR. auto.
    + assert (A' : accepted (l_last l) (x_u x) = false).
      { destruct (accepted (l_last l) (x_u x)) eqn:Q; auto. exfalso. apply A, ACI. auto. }
      destruct (H8 A') as [B1 B2]. split; [congruence|]. rewrite B1 in TR. auto.
Qed.

Lemma samplers_trajectory pre stop post os :
  c_tran cfg = true ->
  no_reset (pre ++ post) -> steps_of (created pre) pre = [] ->
  outcomes_of (created pre) (snd (run new_process (pre ++ ENew stop :: post))) =
    map (fun o => Yield o) os ->
  exists xs, os = map OutFull xs /\ length xs = length (steps_of (created pre) post) /\
    trajectory eng has_update None None (combine (steps_of (created pre) post) xs).
Proof.
  intros CT NR SP E. pose proof (sampler_view pre stop post NR SP) as H.
  destruct (run new_process (pre ++ ENew stop :: post)) as [st os0].
  destruct (loc_run stop (mkLoc 0 None false) (steps_of (created pre) post)) as [l os'] eqn:EL.
  destruct H as (E1 & _ & _). cbn [snd] in E. rewrite <- E1, E in EL.
  apply (chain_trajectory stop _ (mkLoc 0 None false) l os); auto.
  intros x Hx. discriminate.
Qed.

(** ** Stopping *)

Lemma advance_total last r : engine_total eng cfg -> good_last last ->
  exists out last', advance last r = Ok (out, last') /\ good_last last'.
Proof.
  intros (T1 & T2 & T3 & T4 & T5 & T6 & T7 & T8) GL. unfold advance, SPModel.advance.
  destruct (negb (c_tran cfg) && negb (c_prop cfg)) eqn:NP.
  { destruct (T1 r) as (d & ->). cbn. eexists _, _. split; [reflexivity|auto]. }
  assert (SP : forall f0, exists y, sample_prop eng f0 r = Ok y /\ good_last (Some y)).
  { intros f0. unfold sample_prop. destruct (T2 f0 r) as (a & ->). cbn. destruct (T4 a) as (b & ->). cbn.
    eexists. split; [reflexivity|]. intros l El. inversion El; subst. cbn. eauto. }
  assert (ST : forall o0 f0, exists y, sample_tran eng o0 f0 r = Ok y /\ good_last (Some y)).
  { intros o0 f0. unfold sample_tran. destruct (T3 f0 r) as (a & ->). cbn. destruct (T5 a) as (b & ->). cbn.
    destruct (T4 a) as (c & ->). cbn.
    eexists. split; [reflexivity|]. intros l El. inversion El; subst. cbn. eauto. }
  set (smp := match last with None => _ | Some _ => _ end).
  assert (SM : exists y, smp = Ok y /\ good_last (Some y)).
  { unfold smp, sample. destruct last as [l|].
    - destruct (GL l eq_refl) as [_ (q & Hq)]. rewrite Hq.
      destruct (c_tran cfg); cbn; [apply ST|]. destruct (c_delta cfg); cbn; apply SP.
    - destruct (c_tran cfg); [apply ST|apply SP]. }
  destruct SM as (y & -> & GY). cbn [bind].
  assert (X1 : exists s, match c_scores cfg with Some f => f y | None => Ok None end = Ok s).
  { destruct (c_scores cfg) as [f|] eqn:C; eauto. }
  destruct X1 as (s & ->). cbn [bind].
  assert (X2 : exists t, match c_thresh cfg with Some f => f r | None => Ok None end = Ok t).
  { destruct (c_thresh cfg) as [f|] eqn:C; eauto. }
  destruct X2 as (t & ->). cbn [bind].
  assert (X3 : exists u, match c_update cfg with Some f => f s t | None => Ok VNone end = Ok u).
  { destruct (c_update cfg) as [f|] eqn:C; eauto. }
  destruct X3 as (u & ->). cbn [bind].
  fold (accepted last u). destruct (accepted last u); eexists _, _; split; eauto.
Qed.

Lemma loc_step_open stop l r : engine_total eng cfg -> good_last (l_last l) -> l_done l = false ->
  (forall n, stop = Some n -> l_count l < n) ->
  exists o l', loc_step stop l r = (l', Yield o) /\ l_done l' = false /\ good_last (l_last l') /\
    l_count l' = S (l_count l).
Proof.
  intros ET GL DN ST. unfold loc_step. rewrite DN.
  destruct (advance_total (l_last l) r ET GL) as (out & last' & E & GL'). rewrite E.
  exists out, (mkLoc (S (l_count l)) last' false).
  destruct stop as [n|]; [|auto].
  rewrite (proj2 (Nat.ltb_lt _ _) (ST n eq_refl)). auto.
Qed.

Lemma loc_run_open stop rs : forall l, engine_total eng cfg -> good_last (l_last l) -> l_done l = false ->
  (forall n, stop = Some n -> l_count l + length rs <= n) ->
  exists os l', loc_run stop l rs = (l', map (fun o => Yield o) os) /\ length os = length rs /\
    l_done l' = false /\ good_last (l_last l') /\ l_count l' = l_count l + length rs.
Proof.
  induction rs as [|r rs IH]; intros l ET GL DN ST.
  - exists [], l. cbn. do 4 (split; [auto|]). lia.
  - destruct (loc_step_open stop l r ET GL DN) as (o & l1 & E1 & D1 & G1 & C1).
    { intros n Hn. specialize (ST n Hn). cbn in ST. lia. }
    destruct (IH l1 ET G1 D1) as (os & l2 & E2 & L2 & D2 & G2 & C2).
    { intros n Hn. specialize (ST n Hn). cbn in ST. lia. }
    exists (o :: os), l2. cbn. rewrite E1, E2. cbn. do 4 (split; [auto|]). lia.
Qed.

Lemma loc_run_done stop l rs : l_done l = true ->
  loc_run stop l rs = (l, repeat Stopped (length rs)).
Proof.
  intros DN. induction rs as [|r rs IH]; cbn; auto. unfold loc_step. rewrite DN, IH. auto.
Qed.

(** Exactly n samples, then the end, with counter and chain state reset. *)
Lemma sampler_stops pre n post :
  engine_total eng cfg -> no_reset (pre ++ post) -> steps_of (created pre) pre = [] ->
  let g := created pre in
  let m := length (steps_of g post) in
  let (st, os) := run new_process (pre ++ ENew (Some n) :: post) in
  exists xs, length xs = Nat.min n m /\
    outcomes_of g os = map (fun o => Yield o) xs ++ repeat Stopped (m - n) /\
    (m <= n -> p_counter st g = m) /\
    (n < m -> p_counter st g = 0 /\ p_last st g = Some None).
Proof.
  intros ET NR SP g m. pose proof (sampler_view pre (Some n) post NR SP) as H. fold g in H.
  destruct (run new_process (pre ++ ENew (Some n) :: post)) as [st os].
  set (rs := steps_of g post) in *.
  assert (G0 : good_last (l_last (mkLoc 0 None false))) by (intros x Hx; discriminate).
  destruct (Nat.le_gt_cases m n) as [LE|GT].
  - destruct (loc_run_open (Some n) rs (mkLoc 0 None false) ET G0 eq_refl) as (xs & l' & E & LX & DN & GL & CN).
    { intros n' E'. inversion E'; subst. cbn. auto. }
    rewrite E in H. destruct H as (E1 & W & V). exists xs. split; [unfold m in *; lia|]. split.
    + replace (m - n) with 0 by lia. cbn. rewrite app_nil_r. auto.
    + split; [|lia]. intros _. unfold view in V.
      destruct (nth_error (p_gens st) g); [|discriminate]. destruct (p_last st g); [|discriminate].
      inversion V; subst. cbn in CN. exact CN.
  - rewrite <- (firstn_skipn n rs) in H. rewrite loc_run_app in H.
    assert (L1 : length (firstn n rs) = n) by (rewrite firstn_length; unfold m in GT; lia).
    assert (L2 : length (skipn n rs) = m - n) by (rewrite skipn_length; auto).
    destruct (loc_run_open (Some n) (firstn n rs) (mkLoc 0 None false) ET G0 eq_refl) as (xs & l' & E & LX & DN & GL & CN).
    { intros n' E'. inversion E'; subst. cbn. lia. }
    rewrite E in H. destruct (skipn n rs) as [|r rs2]; [cbn in L2; lia|].
    cbn [loc_run] in H.
    assert (LS : loc_step (Some n) l' r = (mkLoc 0 None true, Stopped)).
    { unfold loc_step. rewrite DN. cbn in CN. rewrite CN, L1, Nat.ltb_irrefl. auto. }
    rewrite LS, loc_run_done in H by auto. destruct H as (E1 & W & V).
    exists xs. split; [lia|]. split.
    + rewrite E1. f_equal. cbn in L2. replace (m - n) with (S (length rs2)) by lia. auto.
    + split; [lia|]. intros _. unfold view in V.
      destruct (nth_error (p_gens st) g); [|discriminate]. destruct (p_last st g); [|discriminate].
      inversion V; subst. auto.
Qed.

(** ** Walking *)

Lemma walk_view n : forall st g v rs k,
  engine_total eng cfg -> wf st -> view st g = Some v -> good_last (l_last (snd v)) ->
  l_done (snd v) = false ->
  (forall s, fst v = Some s -> l_count (snd v) + n < s) ->
  exists st' os l', walk eng cfg st g n rs k = (st', k + S n, Ok (firstn n os)) /\
    wf st' /\ view st' g = Some (fst v, l') /\ length os = S n /\
    loc_run (fst v) (snd v) (map rs (seq k (S n))) = (l', map (fun o => Yield o) os) /\
    l_count l' = l_count (snd v) + S n.
Proof.
  induction n as [|n IH]; intros st g v rs k ET W HV GL DN ST.
  - pose proof (resume_local st g (rs k) v W HV) as RL.
    destruct (loc_step_open (fst v) (snd v) (rs k) ET GL DN) as (o & l1 & E1 & D1 & G1 & C1).
    { intros s Hs. specialize (ST s Hs). lia. }
    cbn [walk]. change (SPModel.resume eng cfg st g (rs k)) with (resume st g (rs k)).
    destruct (resume st g (rs k)) as [st' o'] eqn:ER. rewrite E1 in RL.
    destruct RL as (-> & W1 & _ & V1 & _).
    exists st', [o], l1. rewrite Nat.add_1_r. split; [reflexivity|]. split; auto. split; auto. split; auto.
    cbn [seq map loc_run]. rewrite E1. split; auto. lia.
  - pose proof (resume_local st g (rs k) v W HV) as RL.
    destruct (loc_step_open (fst v) (snd v) (rs k) ET GL DN) as (o & l1 & E1 & D1 & G1 & C1).
    { intros s Hs. specialize (ST s Hs). lia. }
    cbn [walk]. change (SPModel.resume eng cfg st g (rs k)) with (resume st g (rs k)).
    destruct (resume st g (rs k)) as [st1 o'] eqn:ER. rewrite E1 in RL.
    destruct RL as (-> & W1 & _ & V1 & _).
    destruct (IH st1 g (fst v, l1) rs (S k) ET W1 V1 G1 D1) as (st' & os & l' & E2 & W2 & V2 & LO & LR & CN).
    { cbn. intros s Hs. specialize (ST s Hs). lia. }
    rewrite E2. exists st', (o :: os), l'. replace (k + S (S n)) with (S k + S n) by lia.
    split; [reflexivity|]. split; auto. split; auto. split; [cbn; auto|].
    change (seq k (S (S n))) with (k :: seq (S k) (S n)). cbn [map loc_run]. rewrite E1.
    cbn [fst snd] in LR. rewrite LR. split; auto. cbn [snd] in CN. lia.
Qed.

Lemma walk_end n : forall st g v rs k j s,
  engine_total eng cfg -> wf st -> view st g = Some v -> good_last (l_last (snd v)) ->
  l_done (snd v) = false -> fst v = Some s -> l_count (snd v) + j = s -> j <= n ->
  exists st' os l', walk eng cfg st g n rs k = (st', k + S j, Ok os) /\
    wf st' /\ view st' g = Some (fst v, mkLoc 0 None true) /\ length os = j /\
    loc_run (fst v) (snd v) (map rs (seq k j)) = (l', map (fun o => Yield o) os).
Proof.
  induction n as [|n IH]; intros st g v rs k j s ET W HV GL DN SV CJ JN.
  - assert (j = 0) by lia. subst j.
    pose proof (resume_local st g (rs k) v W HV) as RL.
    assert (LS : loc_step (fst v) (snd v) (rs k) = (mkLoc 0 None true, Stopped)).
    { unfold loc_step. rewrite DN, SV. rewrite (proj2 (Nat.ltb_ge _ _)) by lia. auto. }
    rewrite LS in RL. cbn [walk]. change (SPModel.resume eng cfg st g (rs k)) with (resume st g (rs k)).
    destruct (resume st g (rs k)) as [st' o']. destruct RL as (-> & W1 & _ & V1 & _).
    exists st', [], (snd v). rewrite Nat.add_1_r. auto.
  - destruct j as [|j].
    + pose proof (resume_local st g (rs k) v W HV) as RL.
      assert (LS : loc_step (fst v) (snd v) (rs k) = (mkLoc 0 None true, Stopped)).
      { unfold loc_step. rewrite DN, SV. rewrite (proj2 (Nat.ltb_ge _ _)) by lia. auto. }
      rewrite LS in RL. cbn [walk]. change (SPModel.resume eng cfg st g (rs k)) with (resume st g (rs k)).
      destruct (resume st g (rs k)) as [st' o']. destruct RL as (-> & W1 & _ & V1 & _).
      exists st', [], (snd v). rewrite Nat.add_1_r. auto.
    + pose proof (resume_local st g (rs k) v W HV) as RL.
      destruct (loc_step_open (fst v) (snd v) (rs k) ET GL DN) as (o & l1 & E1 & D1 & G1 & C1).
      { intros s' Hs. rewrite SV in Hs. inversion Hs; subst. lia. }
      cbn [walk]. change (SPModel.resume eng cfg st g (rs k)) with (resume st g (rs k)).
      destruct (resume st g (rs k)) as [st1 o'] eqn:ER. rewrite E1 in RL.
      destruct RL as (-> & W1 & _ & V1 & _).
      destruct (IH st1 g (fst v, l1) rs (S k) j s ET W1 V1 G1 D1 SV) as (st' & os & l' & E2 & W2 & V2 & LO & LR).
      { cbn. lia. } { lia. }
      rewrite E2. exists st', (o :: os), l'. replace (k + S (S j)) with (S k + S j) by lia.
      split; [reflexivity|]. split; auto. split; auto. split; [cbn; auto|].
      cbn [seq map loc_run]. rewrite E1. cbn [fst snd] in LR. rewrite LR. auto.
Qed.

Lemma walk_all_end j : forall fuel st g v rs k s,
  engine_total eng cfg -> wf st -> view st g = Some v -> good_last (l_last (snd v)) ->
  l_done (snd v) = false -> fst v = Some s -> l_count (snd v) + j = s -> j < fuel ->
  exists st' os l', walk_all eng cfg fuel st g rs k = Some (st', Ok os) /\
    wf st' /\ view st' g = Some (fst v, mkLoc 0 None true) /\ length os = j /\
    loc_run (fst v) (snd v) (map rs (seq k j)) = (l', map (fun o => Yield o) os).
Proof.
  induction j as [|j IH]; intros fuel st g v rs k s ET W HV GL DN SV CJ JF;
    (destruct fuel as [|fuel]; [lia|]); cbn [walk_all];
    change (SPModel.resume eng cfg st g (rs k)) with (resume st g (rs k));
    pose proof (resume_local st g (rs k) v W HV) as RL.
  - assert (LS : loc_step (fst v) (snd v) (rs k) = (mkLoc 0 None true, Stopped)).
    { unfold loc_step. rewrite DN, SV. rewrite (proj2 (Nat.ltb_ge _ _)) by lia. auto. }
    rewrite LS in RL. destruct (resume st g (rs k)) as [st' o']. destruct RL as (-> & W1 & _ & V1 & _).
    exists st', [], (snd v). auto.
  - destruct (loc_step_open (fst v) (snd v) (rs k) ET GL DN) as (o & l1 & E1 & D1 & G1 & C1).
    { intros s' Hs. rewrite SV in Hs. inversion Hs; subst. lia. }
    destruct (resume st g (rs k)) as [st1 o'] eqn:ER. rewrite E1 in RL.
    destruct RL as (-> & W1 & _ & V1 & _).
    destruct (IH fuel st1 g (fst v, l1) rs (S k) s ET W1 V1 G1 D1 SV) as (st' & os & l' & E2 & W2 & V2 & LO & LR).
    { cbn. lia. } { lia. }
    rewrite E2. exists st', (o :: os), l'.
    split; [reflexivity|]. split; auto. split; auto. split; [cbn; auto|].
    cbn [seq map loc_run]. rewrite E1. cbn [fst snd] in LR. rewrite LR. auto.
Qed.

Lemma view_fresh stop : view (new_sampler (@new_process D) stop) 0 = Some (stop, mkLoc 0 None false).
Proof. apply (new_view_self new_process stop). Qed.

Lemma good_none : good_last None.
Proof. intros x Hx. discriminate. Qed.

Lemma plain_steps stop (rl : list Rnd) :
  exists l, loc_run stop (mkLoc 0 None false) rl =
    (l, outcomes_of 0 (snd (run new_process (ENew stop :: map (EStep 0) rl)))).
Proof.
  pose proof (sampler_view [] stop (map (EStep 0) rl) (no_reset_map _) eq_refl) as H2.
  cbn [app] in H2. change (created []) with 0 in H2. rewrite steps_of_map in H2.
  destruct (run new_process (ENew stop :: map (EStep 0) rl)) as [st1 os1].
  destruct (loc_run stop (mkLoc 0 None false) rl) as [l os'].
  destruct H2 as (E2 & _). exists l. cbn [snd]. rewrite E2. reflexivity.
Qed.

Lemma walk_discards n m (rs : nat -> Rnd) : engine_total eng cfg ->
  let st := new_sampler (@new_process D) None in
  exists os, length os = S n + S m /\
    outcomes_of 0 (snd (run new_process (ENew None :: map (EStep 0) (map rs (seq 0 (S n + S m)))))) =
      map (fun o => Yield o) os /\
    exists st1 st2,
      sp_walk eng cfg st 0 n rs 0 = (st1, S n, Ok (firstn n os)) /\
      sp_walk eng cfg st1 0 m rs (S n) = (st2, S n + S m, Ok (firstn m (skipn (S n) os))).
Proof.
  intros ET st.
  destruct (walk_view n st 0 _ rs 0 ET (new_wf _ _ new_process_wf) (view_fresh None) good_none eq_refl)
    as (st1 & os1 & l1 & E1 & W1 & V1 & L1 & R1 & C1). { intros s Hs. discriminate. }
  cbn [fst snd] in *.
  destruct (loc_run_open None (map rs (seq 0 (S n))) (mkLoc 0 None false) ET good_none eq_refl)
    as (osx & lx & Ex & _ & Dx & Gx & _). { intros s Hs. discriminate. }
  rewrite R1 in Ex. inversion Ex; subst lx. clear Ex H1.
  destruct (walk_view m st1 0 _ rs (S n) ET W1 V1 Gx Dx)
    as (st2 & os2 & l2 & E2 & W2 & V2 & L2 & R2 & C2). { intros s Hs. discriminate. }
  cbn [fst snd] in *.
  destruct (plain_steps None (map rs (seq 0 (S n + S m)))) as (l & PS).
  rewrite seq_app, map_app, loc_run_app, R1 in PS. change (0 + S n) with (S n) in PS. rewrite R2 in PS.
  exists (os1 ++ os2). split; [rewrite app_length; lia|]. split.
  { apply (f_equal snd) in PS. rewrite seq_app, map_app. change (0 + S n) with (S n).
    etransitivity; [symmetry; exact PS|]. rewrite map_app. reflexivity. }
  exists st1, st2. split.
  - unfold sp_walk. cbn [nth_error p_gens st new_sampler new_process app g_done].
    change (walk eng cfg st 0 n rs 0 = (st1, S n, Ok (firstn n (os1 ++ os2)))).
    rewrite E1. cbn [Nat.add]. rewrite firstn_app, L1. replace (n - S n) with 0 by lia. cbn [firstn]. rewrite app_nil_r. auto.
  - unfold sp_walk. unfold view in V1. destruct (nth_error (p_gens st1) 0) as [gn|]; [|discriminate].
    destruct (p_last st1 0); [|discriminate]. inversion V1 as [[H1 H2]]. rewrite <- H2 in Dx. cbn in Dx. rewrite Dx.
    rewrite E2. rewrite skipn_app, L1, Nat.sub_diag. rewrite (skipn_all2 os1) by lia. auto.
Qed.

Lemma walk_bounded s n (rs : nat -> Rnd) : engine_total eng cfg -> s <= n ->
  let st := new_sampler (@new_process D) (Some s) in
  exists os, length os = s /\
    outcomes_of 0 (snd (run new_process (ENew (Some s) :: map (EStep 0) (map rs (seq 0 s))))) =
      map (fun o => Yield o) os /\
    (exists st1, sp_walk eng cfg st 0 n rs 0 = (st1, S s, Ok os)) /\
    (forall fuel, s < fuel -> exists st1, walk_all eng cfg fuel st 0 rs 0 = Some (st1, Ok os)).
Proof.
  intros ET SN st. destruct (plain_steps (Some s) (map rs (seq 0 s))) as (l & PS).
  destruct (walk_end n st 0 _ rs 0 s s ET (new_wf _ _ new_process_wf) (view_fresh (Some s)) good_none eq_refl eq_refl eq_refl SN)
    as (st1 & os & l' & E & W & V & L & LR). cbn [fst snd] in *.
  rewrite LR in PS. apply (f_equal snd) in PS. exists os. split; auto. split; auto. split.
  - exists st1. exact E.
  - intros fuel HF.
    destruct (walk_all_end s fuel st 0 _ rs 0 s ET (new_wf _ _ new_process_wf) (view_fresh (Some s)) good_none eq_refl eq_refl eq_refl HF)
      as (st2 & os2 & l2 & E2 & W2 & V2 & L2 & LR2). cbn [fst snd] in *.
    rewrite LR in LR2. injection LR2 as _ LR2. exists st2. rewrite E2. f_equal. f_equal. f_equal.
    clear - LR2. revert os2 LR2. induction os as [|o os IH]; intros [|o2 os2] H; try discriminate; auto.
    cbn in H. injection H as -> H. f_equal. apply (IH os2); auto.
Qed.

(** ** Proposals without transitions *)

Lemma advance_prop_only last r out last' f u :
  c_tran cfg = false -> c_prop cfg = true ->
  c_scores cfg = Some f -> (forall x, f_o x = None -> f x = Ok None) ->
  c_update cfg = Some u -> (forall t, u None t = Ok VTrue) ->
  advance last r = Ok (out, last') ->
  exists x, out = OutFull x /\ f_o (x_opqr x) = None /\ x_u x = VTrue /\ x_v x = f_p (x_opqr x).
Proof.
  intros CT CP CS HS CU HU. unfold advance, SPModel.advance. rewrite CT, CP, CS, CU. cbn [negb andb].
  assert (SO : forall prev y, sample eng cfg prev r = Ok y -> f_o y = None).
  { intros prev y. unfold sample. rewrite CT.
    assert (SP : forall f0 y, sample_prop eng f0 r = Ok y -> f_o y = None).
    { intros f0 y0. unfold sample_prop. destruct (e_propose eng f0 r) as [d|]; [|discriminate]. cbn.
      destruct (e_prob eng d); [|discriminate]. cbn. intros E. inversion E. auto. }
    destruct prev as [[l|]|]; eauto. destruct (f_q l); [eauto|discriminate]. }
  set (smp := match last with None => _ | Some _ => _ end).
  assert (SM : forall y, smp = Ok y -> f_o y = None).
  { intros y. unfold smp. destruct last; [destruct (negb (c_delta cfg))|]; eauto. }
  destruct smp as [y|]; [|discriminate]. specialize (SM y eq_refl). cbn [bind].
  rewrite (HS y SM). cbn [bind].
  destruct (match c_thresh cfg with Some f => f r | None => Ok None end) as [t|]; [|discriminate]. cbn [bind].
  rewrite HU. cbn [bind]. rewrite orb_true_r. intros E. inversion E; subst. eexists. split; [reflexivity|]. cbn. auto.
Qed.

Lemma run_outputs evs : forall st g o, In (g, Yield o) (snd (run st evs)) ->
  exists last r last', advance last r = Ok (o, last').
Proof.
  induction evs as [|[stop|g' r|] evs IH]; intros st g o H.
  - destruct H.
  - cbn [SPModel.run] in H. eauto.
  - cbn [SPModel.run] in H. destruct (resume st g' r) as [st1 o1] eqn:ER.
    destruct (run st1 evs) as [st2 os] eqn:E2. cbn [snd] in H. destruct H as [H|H].
    + inversion H; subst. clear H IH. unfold resume, SPModel.resume in ER.
      destruct (nth_error (p_gens st) g) as [gn|]; [|discriminate].
      destruct (g_done gn); [discriminate|].
      assert (GO : match sp_next eng cfg st (g_id gn) r with
               | (st', Ok out) => (st', Yield out)
               | (st', Err e) => (finish st' g gn, Raised e)
               end = (st1, Yield o) -> exists last r last', advance last r = Ok (o, last')).
      { unfold sp_next. destruct (get_sampler st (g_id gn)) as [n|]; [|discriminate].
        destruct (p_last st n) as [la|]; [|discriminate].
        destruct (SPModel.advance eng cfg la r) as [[out last']|] eqn:EA; [|discriminate].
        intros E. inversion E; subst. exists la, r, last'. exact EA. }
      destruct (g_stop gn) as [n|]; auto.
      destruct (get_sampler st (g_id gn)) as [n0|]; [|discriminate].
      destruct (p_counter st n0 <? n); auto.
      destruct (reset_one st (g_id gn)); discriminate.
    + apply (IH st1 g o). rewrite E2. exact H.
  - cbn [SPModel.run] in H. eauto.
Qed.

(** ** Reset *)

Lemma reset_old_raises pre r :
  let st := reset_all (fst (run new_process pre)) in
  forall g gn, nth_error (p_gens st) g = Some gn -> g_done gn = false ->
  snd (resume st g r) = Raised IndexError.
Proof.
  intros st g gn E DN. unfold resume, SPModel.resume. rewrite E, DN.
  assert (GS : get_sampler st (g_id gn) = Err IndexError).
  { unfold get_sampler, st, reset_all. cbn. destruct (g_id gn); auto. }
  destruct (g_stop gn); [rewrite GS; auto|]. unfold sp_next. rewrite GS. auto.
Qed.

Lemma reset_entangles pre stop r :
  engine_total eng cfg -> no_reset pre -> 0 < created pre ->
  let st := new_sampler (reset_all (fst (run new_process pre))) stop in
  let new := created pre in
  forall gn, nth_error (p_gens st) 0 = Some gn -> g_done gn = false ->
    (forall s, g_stop gn = Some s -> 0 < s) ->
  let (st', o) := resume st 0 r in
  (exists x, o = Yield x) /\ p_counter st new = 0 /\ p_counter st' new = 1 /\
  p_counter st' 0 = p_counter st 0 /\ p_last st' 0 = p_last st 0 /\
  exists x la, advance None r = Ok (x, la) /\ o = Yield x /\ p_last st' new = Some la.
Proof.
  intros ET NR CP st new gn E DN ST.
  destruct (run_wf pre new_process new_process_wf NR) as [W L]. cbn in L.
  set (st0 := fst (run new_process pre)) in *.
  assert (E0 : nth_error (p_gens st0) 0 = Some gn).
  { unfold st, new_sampler, reset_all in E. cbn [p_gens p_samplers] in E.
    rewrite nth_error_app1 in E; auto. lia. }
  assert (ID : g_id gn = 0) by (apply (wf_ids st0 W 0 gn E0)).
  assert (GS : get_sampler st (g_id gn) = Ok new).
  { rewrite ID. unfold get_sampler, st. cbn. f_equal. auto. }
  assert (CN : p_counter st new = 0).
  { unfold st. cbn. unfold set_fun. rewrite L. fold new. rewrite Nat.eqb_refl. auto. }
  assert (LN : p_last st new = Some None).
  { unfold st. cbn. unfold set_fun. rewrite L. fold new. rewrite Nat.eqb_refl. auto. }
  destruct (advance_total None r ET) as (x & la & EA & GA). { intros y Hy. discriminate. }
  assert (NN : (0 =? new) = false) by (apply Nat.eqb_neq; unfold new; lia).
  unfold resume, SPModel.resume. rewrite E, DN.
  assert (GO : match sp_next eng cfg st (g_id gn) r with
               | (st', Ok out) => (st', Yield out)
               | (st', Err e) => (finish st' 0 gn, Raised e)
               end = (mkProc (p_gens st) (p_samplers st) (set_fun (p_counter st) new 1)
                             (set_fun (p_last st) new (Some la)), Yield x)).
  { unfold sp_next. rewrite GS, LN, EA, CN. reflexivity. }
  destruct (g_stop gn) as [s|] eqn:ES.
  - rewrite GS, CN. rewrite (proj2 (Nat.ltb_lt 0 s) (ST s eq_refl)). rewrite GO. cbn. unfold set_fun.
    rewrite !Nat.eqb_refl, NN. repeat split; eauto.
  - rewrite GO. cbn. unfold set_fun.
    rewrite !Nat.eqb_refl, NN. repeat split; eauto.
Qed.

End Proofs.

Lemma prop_only_accepts (D Rnd Sc : Type) (eng : engine D Rnd) (cfg : config D Rnd Sc) f u :
  c_tran cfg = false -> c_prop cfg = true ->
  c_scores cfg = Some f -> (forall x, f_o x = None -> f x = Ok None) ->
  c_update cfg = Some u -> (forall t, u None t = Ok VTrue) ->
  forall evs g o, In (g, Yield o) (snd (run eng cfg new_process evs)) ->
  exists x, o = OutFull x /\ f_o (x_opqr x) = None /\ x_u x = VTrue /\ x_v x = f_p (x_opqr x).
Proof.
  intros H1 H2 H3 H4 H5 H6 evs g o H.
  destruct (run_outputs eng cfg evs _ _ _ H) as (last & r & last' & E).
  apply (advance_prop_only eng cfg last r o last' f u H1 H2 H3 H4 H5 H6 E).
Qed.
