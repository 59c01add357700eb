(** Property theorems about steps of random fields from arrays and shared keys
    (C196-C197). *)
From Coq Require Import String Ascii ZArith Bool Arith Lia List Reals Lra.
From Verif Require Import Base OdLemmas Num RNumLemmas Tensor PScales Names Distr Distr_Spec PDModel PD_Spec PD_Examples PD_CountsEx VariableModel RVModel FieldModel
  RFModel RF_Spec ArrModel Arr_Thm Arr_Ex.
Import ListNotations.
Local Open Scope list_scope.
Local Open Scope nat_scope.

(** C196 refuted: whatever moves a field, no step from an array of values of one of
    its variables succeeds, unless the field has a single variable that draws its
    own successors. *)
Theorem C196_arrays_refuted :
  forall (F : Fmt R) (vs : list (rv R)) (f : @rfield R) (m : @means R) (values : odict (fentry R)) (s : @asked R) (r : nat -> rnd R)
    (k : string) (a : tensor (pyval R)),
  named_apart (names_of vs) -> (forall k k', In k (names_of vs) -> In k' (names_of vs) -> (k ++ "'")%string <> k') ->
  make_rf vs = Ok f -> NoDup (od_keys values) ->
  In k (names_of vs) -> od_get values k = Some (One (FArr a)) -> shape a <> [] ->
  length vs <> 1 \/ (forall n, s <> AskUnit n) ->
  exists e, rf_step_any f m values s r = Err e.
Proof. intros F vs f m values s r k a H1 H2 H3 H4. exact (no_arrays vs f m values s r H1 H2 H3 H4 k a). Qed.
Print Assumptions C196_arrays_refuted.

(** C196 refuted: in a field without continuous variables no variable may be left
    out of the values. *)
Theorem C196_left_out_refuted :
  forall (F : Fmt R) (vs : list (rv R)) (f : @rfield R) (m : @means R) (values : odict (fentry R)) (s : @asked R) (r : nat -> rnd R)
    (v : rv R),
  named_apart (names_of vs) -> (forall k k', In k (names_of vs) -> In k' (names_of vs) -> (k ++ "'")%string <> k') ->
  make_rf vs = Ok f -> NoDup (od_keys values) ->
  In v vs -> (forall w, In w vs -> vs_vtype (rv_state w) <> Some VFloat) -> ~ In (rv_name v) (od_keys values) ->
  length vs <> 1 \/ (forall n, s <> AskUnit n) ->
  exists e, rf_step_any f m values s r = Err e.
Proof. intros F vs f m values s r v H1 H2 H3 H4. exact (all_must_be_given vs f m values s r H1 H2 H3 H4 v). Qed.
Print Assumptions C196_left_out_refuted.

(** C197 refuted: a variable given a value under a key it shares with others is
    drawn at random: the step shows what evaluating the variable at {0} draws. *)
Theorem C197_shared_ignored_refuted :
  forall (F : Fmt R) (vs : list (rv R)) (f : @rfield R) (m : @means R) (values : odict (fentry R)) (s : @asked R) (r : nat -> rnd R)
    (i : nat) (v : rv R) (o : string) (l : list (fval R)) (p : pd R),
  named_apart (names_of vs) -> (forall k k', In k (names_of vs) -> In k' (names_of vs) -> (k ++ "'")%string <> k') ->
  make_rf vs = Ok f -> NoDup (od_keys values) ->
  length vs <> 1 -> nth_error vs i = Some v ->
  od_get values o = Some (Many l) -> In (rv_name v) (subkeys o) -> ~ In (rv_name v) (od_keys values) ->
  rf_step_any f m values s r = Ok p ->
  exists y, rv_evaluate v (VariableModel.VSet 0) (r i) = Ok (tscalar y) /\ od_get (p_vals p) (rv_name v) = Some (VNum (as_num y)).
Proof. intros F vs f m values s r i v o l p H1 H2 H3 H4 H5 H6 _ _ H7. exact (drawn_instead vs f m values s r H1 H2 H3 H4 i v p H5 H6 H7). Qed.
Print Assumptions C197_shared_ignored_refuted.

(* Two real variables, the first given by an array. *)
Example ex_c196 :
  let vs := two_vars 1%R 0%R 1%R in
  let values := [("x", One (FArr (of_list (PF 0%R) [PF 0; PF 1]%R))); ("y", One (FNum (PF 0%R)))]%string in
  named_apart (names_of vs) /\ (forall k k', In k (names_of vs) -> In k' (names_of vs) -> (k ++ "'")%string <> k') /\
  (exists f, make_rf vs = Ok f) /\ NoDup (od_keys values) /\ In "x"%string (names_of vs) /\ length vs <> 1.
Proof.
  cbv zeta. destruct xy_apart as [H1 H2]. split; [exact H1|]. split; [exact H2|].
  split; [destruct (shared_real FNone FNone) as (f & p & E & _); exists f; exact E|].
  split; [repeat constructor; cbn; intuition discriminate|]. split; [left; reflexivity|discriminate].
Qed.

(* The step from {"x,y": (a, b)} succeeds, whatever a and b are. *)
Example ex_c197 : forall a b : fval R,
  let vs := two_vars 1%R 0%R 1%R in
  let values := [("x,y"%string, Many [a; b])] in
  exists f p, make_rf vs = Ok f /\ @rf_step_any R _ fmt_ex f (stay 1%R) values AskNone (draws (/ 2)%R) = Ok p /\
    od_get values "x,y"%string = Some (Many [a; b]) /\ In "x"%string (subkeys "x,y") /\ ~ In "x"%string (od_keys values).
Proof.
  intros a b. cbv zeta. destruct (shared_real a b) as (f & p & E1 & E2). exists f, p. split; [exact E1|]. split; [exact E2|].
  split; [reflexivity|]. split; [left; reflexivity|]. intros [H|[]]. discriminate.
Qed.
