(** Proofs about conditional functions. *)
From Coq Require Import String Ascii ZArith Bool Arith Lia List.
From Verif Require Import Base OdLemmas Num Tensor Names Names_Spec Names_Proofs VariableModel FieldModel Field_Spec Field_Proofs ExprModel GibbsModel CFModel CF_Spec.
Import ListNotations.
Set Implicit Arguments.
Local Open Scope bool_scope.
Local Open Scope list_scope.

Section P.
Context {T : Type} {N : Num T} {TR : Trunc T}.
Context {V : Type} (sub : V -> V -> V) (ustr : string -> V).

(** ** Inputs *)

Lemma split_list l : nameable l -> split_char "," (join "," l) = l.
Proof. intros [NE H]. apply split_join; [exact NE|]. apply Forall_forall. exact H. Qed.

Lemma assert_iff b : (exists u, assert_ b = Ok u) <-> b = true.
Proof. destruct b; cbn; split; eauto; [intros (u & E)|]; discriminate. Qed.

Lemma map_res_unit {A B} (f : A -> result B) (l : list A) :
  (exists r, map_res f l = Ok r) <-> forall x, In x l -> exists y, f x = Ok y.
Proof.
  induction l as [|a l IH]; cbn.
  - split; [intros _ x []|eauto].
  - destruct (f a) as [b|e] eqn:E; cbn.
    + destruct (map_res f l) as [r|e]; cbn.
      * split; [|eauto]. intros _ x [<-|I]; [eauto|]. apply IH; eauto.
      * split; [intros (r & Er); discriminate|]. intros H. destruct (proj2 IH) as (r & Er); [intros x I; apply H; auto|discriminate].
    + split; [intros (r & Er); discriminate|]. intros H. destruct (H a (or_introl eq_refl)) as (y & Ey). congruence.
Qed.

Lemma check_entry_iff rv many e : nameable (outputs e) -> nameable (inputs e) ->
  (exists u, check_entry rv many (join "," (outputs e), join "," (inputs e)) = Ok u) <->
  forall k, In k (inputs e) -> In k rv /\ (many = true -> ~ In k (outputs e)).
Proof.
  intros H1 H2. unfold check_entry. cbn [fst snd]. rewrite (split_list H1), (split_list H2).
  match goal with |- context [map_res ?g _] => set (h := g) end.
  assert (Q : (exists r, map_res h (inputs e) = Ok r) <-> forall k, In k (inputs e) -> In k rv /\ (many = true -> ~ In k (outputs e))).
  { rewrite map_res_unit. split; intros H k I; specialize (H k I).
    - destruct H as (y & E). unfold h in E. destruct (negb many || negb (mem_str k (outputs e))) eqn:B; [|discriminate].
      cbn in E. destruct (mem_str k rv) eqn:M; [|discriminate]. apply mem_str_iff in M. split; [exact M|].
      intros ->. cbn in B. intros J. apply mem_str_iff in J. rewrite J in B. discriminate.
    - destruct H as [I1 I2]. exists tt. unfold h. apply mem_str_iff in I1. rewrite I1.
      destruct many; cbn; [|reflexivity]. destruct (mem_str k (outputs e)) eqn:M; [|reflexivity].
      apply mem_str_iff in M. destruct (I2 eq_refl M). }
  rewrite <- Q. destruct (map_res h (inputs e)); cbn; split; intros (u & E); eauto; discriminate.
Qed.

Lemma join2 a b : join "|" [a; b] = (a ++ "|" ++ b)%string.
Proof. reflexivity. Qed.

Lemma written_outs es : readable es ->
  flat_map (fun kv => split_char "," (fst kv)) (written es) = flat_map outputs es.
Proof.
  intros R. induction es as [|e es IH]; [reflexivity|]. cbn [written map flat_map fst].
  rewrite split_list by (apply R; left; reflexivity). f_equal. apply IH. intros e' I. apply R. right. exact I.
Qed.

Lemma set_inp_iff (f : field T) es : readable es ->
  (exists r, set_inp (Some f) (InOrd (written es)) = Ok r) <->
  1 < length (fd_keys f) /\ (es = [] \/ describe es (fd_keys f)).
Proof.
  intros R. destruct es as [|e0 es0].
  { cbn [set_inp written map]. destruct (1 <? length (fd_keys f)) eqn:L; cbn [assert_ bind].
    - apply Nat.ltb_lt in L. split; eauto.
    - apply Nat.ltb_ge in L. split; [intros (r & E); discriminate|]. intros [H _]. lia. }
  remember (e0 :: es0) as es eqn:Ees.
  assert (NE : written es <> []) by (subst es; discriminate).
  assert (Q : (exists r, set_inp (Some f) (InOrd (written es)) = Ok r) <->
              1 < length (fd_keys f) /\ (exists r, map_res (check_entry (fd_keys f) (1 <? length (written es))) (written es) = Ok r) /\
              seteq_str (fd_keys f) (flat_map outputs es) = true).
  { unfold set_inp. rewrite <- (written_outs R). destruct (written es) as [|p l]; [congruence|].
    cbv zeta. destruct (1 <? length (fd_keys f)) eqn:L; cbn [assert_ bind].
    - apply Nat.ltb_lt in L. destruct (map_res _ _) as [r|er]; cbn [bind].
      + destruct (seteq_str _ _); cbn [assert_ bind]; [split; eauto|]. split; [intros (? & E); discriminate|]. intros (_ & _ & E). discriminate.
      + split; [intros (? & E); discriminate|]. intros (_ & (? & E) & _). discriminate.
    - apply Nat.ltb_ge in L. split; [intros (? & E); discriminate|]. intros (H & _). lia. }
  rewrite Q. clear Q. rewrite map_res_unit, seteq_str_iff.
  assert (LW : length (written es) = length es) by apply map_length. rewrite LW.
  assert (Q : (forall x, In x (written es) -> exists y, check_entry (fd_keys f) (1 <? length es) x = Ok y) <->
              forall e k, In e es -> In k (inputs e) -> In k (fd_keys f) /\ (1 < length es -> ~ In k (outputs e))).
  { split.
    - intros H e k I J. destruct (R e I) as [R1 R2].
      assert (Ie : In (join "," (outputs e), join "," (inputs e)) (written es)) by (apply in_map_iff; exists e; auto).
      apply (proj1 (@check_entry_iff (fd_keys f) (1 <? length es) e R1 R2)) with (k := k) in J; [|apply H; exact Ie].
      destruct J as [J1 J2]. split; [exact J1|]. intros L. apply J2. apply Nat.ltb_lt. exact L.
    - intros H x I. apply in_map_iff in I as (e & <- & I). destruct (R e I) as [R1 R2].
      apply (proj2 (@check_entry_iff (fd_keys f) (1 <? length es) e R1 R2)). intros k J. destruct (H e k I J) as [J1 J2].
      split; [exact J1|]. intros B. apply J2. apply Nat.ltb_lt. exact B. }
  rewrite Q. clear Q. unfold describe. split.
  - intros (L & H & I1 & I2). split; [exact L|]. right. split; [intros e k A B; apply (H e k A B)|]. split; [intros e k D A B; apply (H e k A B); exact D|].
    intros k. split.
    + intros A. apply I1 in A. apply in_flat_map in A. exact A.
    + intros A. apply I2. apply in_flat_map. exact A.
  - intros (L & [->|(H1 & H2 & H3)]); [discriminate|]. split; [exact L|]. split.
    + intros e k A B. split; [exact (H1 e k A B)|]. intros D. exact (H2 e k D A B).
    + split; intros k A.
      * apply in_flat_map. apply H3. exact A.
      * apply H3. apply in_flat_map. exact A.
Qed.

Lemma set_inp_held (f : field T) d name held bykey :
  set_inp (Some f) (InOrd d) = Ok (name, held, bykey) ->
  name = given_name (marked (fd_keys f)) (fd_keys f) /\ bykey = true /\ held = (match d with [] => HNone | _ => HDict d end).
Proof.
  unfold set_inp. destruct (1 <? length (fd_keys f)); [|discriminate]. cbn [assert_ bind]. rewrite join2.
  destruct d as [|p l].
  - intros E. injection E as <- <- <-. auto.
  - cbv zeta. destruct (map_res _ _); [|discriminate]. cbn [bind]. destruct (assert_ _); [|discriminate]. cbn [bind].
    intros E. injection E as <- <- <-. auto.
Qed.

Lemma accepted (f : field T) es (s : fspec V) args kwds order delta fn :
  readable es -> make_func s args kwds order delta = Ok fn ->
  ((exists c : cfn T V, make_cf (CoRf f false) (InOrd (written es)) (FaItems s) args kwds order delta = Ok c) <->
   1 < length (fd_keys f) /\ (es = [] \/ describe es (fd_keys f))).
Proof.
  intros R E. rewrite <- (set_inp_iff f R). unfold make_cf. cbn [to_rf negb assert_ bind].
  destruct (set_inp (Some f) _) as [[[name held] bykey]|e]; cbn [bind].
  - cbn [cf_set_func]. rewrite E. cbn [bind]. split; eauto.
  - split; intros (c & H); discriminate.
Qed.

Lemma accepted_parts o d a args kwds order delta (c : cfn T V) :
  make_cf o (InOrd d) a args kwds order delta = Ok c ->
  exists f, to_rf o = Ok (Some f) /\ cf_out c = f /\ cf_bykey c = true /\ cf_unknown c = None /\
    cf_inp c = (match d with [] => HNone | _ => HDict d end) /\
    cf_name c = given_name (marked (fd_keys f)) (fd_keys f) /\ cf_set_func a args kwds order delta = Ok (cf_func c).
Proof.
  unfold make_cf. destruct (to_rf o) as [[f|]|e]; cbn [bind]; try discriminate.
  destruct (set_inp (Some f) _) as [[[name held] bykey]|e] eqn:E; cbn [bind]; [|discriminate].
  destruct (cf_set_func a args kwds order delta) as [fn|e]; cbn [bind]; [|discriminate].
  intros H. injection H as <-. exists f. apply set_inp_held in E as (-> & -> & ->). cbn. auto 10.
Qed.

(** The specification is what is kept. *)
Lemma kept o es a args kwds order delta (c : cfn T V) : es <> [] ->
  make_cf o (InOrd (written es)) a args kwds order delta = Ok c -> cf_inp c = HDict (written es).
Proof.
  intros NE H. apply accepted_parts in H as (f & _ & _ & _ & _ & E & _). rewrite E. destruct es; [congruence|reflexivity].
Qed.

(** ** Lists of variables and fields *)

Lemma seq_vars (vs : list (fvar T)) : vs <> [] -> distinct_objects vs -> distinct_names vs ->
  (forall v, In v vs -> fv_stoch v = true) ->
  exists f, to_rf (CoSeq (map (fun v => ERv v) vs)) = Ok (Some f) /\ holds f vs.
Proof.
  intros NE D1 D2 A. unfold to_rf.
  assert (E : map_res (fun e => elem_var e) (map (fun v : fvar T => ERv v) vs) = Ok vs).
  { clear. induction vs as [|v vs IH]; [reflexivity|]. cbn. cbn in IH. rewrite IH. reflexivity. }
  change (map_res (fun e => elem_var e)) with (map_res (@elem_var T)) in E. rewrite E. cbn [bind].
  destruct (construct NE D1 D2 A) as (f & Ef & H & _).
  destruct vs as [|v [|w vs]]; [congruence| |].
  - assert (X : exists g, make_field true (AddOne (Some v)) = Ok g /\ holds g [v]).
    { pose proof (A v (or_introl eq_refl)) as S. clear -S. eexists. split; [cbn; rewrite S; reflexivity|].
      repeat split; reflexivity. }
    destruct X as (g & Eg & Hg). exists g. rewrite Eg. auto.
  - exists f. rewrite Ef. auto.
Qed.

Lemma seq_stops (l : list (celem T)) (vs : list (fvar T)) x m : l = map (fun v => ERv v) vs ++ x :: m ->
  forall e, elem_var x = Err e -> to_rf (CoSeq l) = Err e.
Proof.
  intros -> e E. unfold to_rf. assert (H : map_res (fun y => elem_var y) (map (fun v => ERv v) vs ++ x :: m) = Err e).
  { induction vs as [|v vs IH]; cbn; [rewrite E; reflexivity|]. cbn in IH. rewrite IH. reflexivity. }
  change (map_res (fun e => elem_var e)) with (map_res (@elem_var T)) in H. rewrite H. reflexivity.
Qed.

Lemma out_error o e (i : cinp T) (a : cfuncarg V) args kwds order delta : to_rf o = Err e ->
  make_cf o i a args kwds order delta = Err e.
Proof. intros E. unfold make_cf. rewrite E. reflexivity. Qed.

Lemma field_in_list (vs : list (fvar T)) (g : field T) m i (a : cfuncarg V) args kwds order delta :
  make_cf (CoSeq (map (fun v => ERv v) vs ++ ERf g :: m)) i a args kwds order delta = Err AttributeError.
Proof. apply out_error. exact (seq_stops vs (ERf g) m eq_refl (e := AttributeError) eq_refl). Qed.

Lemma inp_seq (o : cobj T) (a : cfuncarg V) args kwds order delta (c : cfn T V) :
  make_cf o InSeq a args kwds order delta <> Ok c /\ make_cf o InDict a args kwds order delta <> Ok c.
Proof.
  unfold make_cf. destruct (to_rf o) as [[f|]|e]; cbn; split; discriminate.
Qed.

(** ** Functions *)

Lemma make_func_parts s args kwds order delta (f : func V) : make_func s args kwds order delta = Ok f ->
  f_spec f = s /\ f_args f = args /\ f_kwds f = kwds /\ f_index f = None /\
  f_callable f = (match fspec_items s with [] => false | it :: _ => item_callable it end) /\
  (order = None -> delta = None -> f_maps f = (None, None)).
Proof.
  unfold make_func. destruct (assert_ _); [|discriminate]. cbn [bind]. destruct (assert_ _); [|discriminate]. cbn [bind].
  destruct (assert_ _); [|discriminate]. cbn [bind].
  destruct order as [o|], delta as [d|]; cbn [ExprModel.set_order ExprModel.set_delta fst snd bind].
  - destruct (check_mapping o); discriminate.
  - destruct (check_mapping o); [|discriminate]. intros E. injection E as <-. cbn. repeat split; auto; discriminate.
  - destruct (check_mapping d); [|discriminate]. intros E. injection E as <-. cbn. repeat split; auto; discriminate.
  - intros E. injection E as <-. cbn. repeat split; auto.
Qed.

Lemma set_func_parts a args kwds order delta (f : func V) : cf_set_func a args kwds order delta = Ok f -> f_index f = None.
Proof.
  destruct a as [s|g id]; cbn [cf_set_func].
  - intros E. apply make_func_parts in E. tauto.
  - destruct (_ && _ && _ && _).
    + destruct (make_func (f_spec g) _ _ _ _) as [f0|e] eqn:E; cbn [bind]; [|discriminate].
      destruct (ExprModel.set_order _ _) as [m1 [u1|e1]]; cbn [bind]; [|discriminate].
      destruct (ExprModel.set_delta _ _) as [m2 [u2|e2]]; cbn [bind]; [|discriminate].
      intros H. injection H as <-. cbn. apply make_func_parts in E. tauto.
    + intros E. apply make_func_parts in E. tauto.
Qed.

Lemma make_cf_func o i a args kwds order delta (c : cfn T V) :
  make_cf o i a args kwds order delta = Ok c -> cf_set_func a args kwds order delta = Ok (cf_func c) /\ cf_unknown c = None.
Proof.
  unfold make_cf. destruct (to_rf o) as [[f|]|e]; cbn [bind]; try discriminate.
  - destruct (set_inp _ _) as [[[name held] bykey]|e]; cbn [bind]; [|discriminate].
    destruct (cf_set_func a args kwds order delta); cbn [bind]; [|discriminate]. intros H. injection H as <-. auto.
  - destruct (set_inp _ _) as [[[name held] bykey]|e]; cbn [bind]; [|discriminate].
    destruct (cf_set_func a args kwds order delta); cbn [bind]; discriminate.
Qed.

Lemma adopt_parts self (c c' : cfn T V) : adopt self c = Ok c' ->
  f_maps (cf_func c') = (None, None) /\ f_spec (cf_func c') = f_spec (cf_func c) /\
  f_args (cf_func c') = f_args (cf_func c) /\ f_kwds (cf_func c') = f_kwds (cf_func c) /\ f_index (cf_func c') = None.
Proof.
  intros H. apply make_cf_func in H as [H _]. cbn [cf_set_func] in H. apply make_func_parts in H. intuition.
Qed.

(** What a function of a single callable is called with. *)
Lemma single_call (f : func V) id k n args kwds : f_spec f = FSingle (Fun id k n) -> f_maps f = (None, None) -> f_index f = None -> f_callable f = true ->
  snd (f_do_call sub f args kwds) =
  Ok (FOut (Called id (f_args f ++ fst (merge_dict args kwds)) (od_update (snd (merge_dict args kwds)) (f_kwds f)))).
Proof.
  intros E1 E2 E3 E4. unfold f_do_call, f_target. rewrite E1, E2, E3, E4. destruct (merge_dict args kwds). reflexivity.
Qed.

Lemma adopted_call self (c c' : cfn T V) id k n args kwds : adopt self c = Ok c' -> f_spec (cf_func c) = FSingle (Fun id k n) ->
  snd (cf_call sub ustr c' args kwds) =
  Ok (FOut (Called id (f_args (cf_func c) ++ fst (merge_dict args kwds)) (od_update (snd (merge_dict args kwds)) (f_kwds (cf_func c))))).
Proof.
  intros H E. pose proof (adopt_parts _ _ H) as (H1 & H2 & H3 & H4 & H5).
  pose proof (proj2 (make_cf_func _ _ _ _ _ _ _ H)) as HU.
  assert (HC : f_callable (cf_func c') = true).
  { apply make_cf_func in H as [H _]. cbn [cf_set_func] in H. apply make_func_parts in H as (_ & _ & _ & _ & HC & _). rewrite HC, E. reflexivity. }
  unfold cf_call, f_ismulti. rewrite H2, E. unfold cf_do_call. rewrite HU.
  rewrite (surjective_pairing (f_do_call sub (cf_func c') args kwds)). cbn [snd].
  rewrite (@single_call _ id k n _ _ (eq_trans H2 E) H1 H5 HC), H3, H4. reflexivity.
Qed.

End P.
