(** Property theorems about conditional functions (C185-C190). *)
From Coq Require Import String Ascii ZArith Bool Arith Lia List Reals.
From Verif Require Import Base Num Tensor Names Names_Spec VariableModel FieldModel Field_Spec ExprModel GibbsModel CFModel CF_Spec CF_Proofs CF_Calls CF_Windows.
Import ListNotations.
Local Open Scope list_scope.
Local Open Scope nat_scope.

Local Definition var (i : nat) (s : string) : fvar R :=
  mkFV i s (mkVS (Some VFloat) (Some [Bare (AV (PF 0%R)); Bare (AV (PF 1%R))])) true.
Local Definition xyz : field R :=
  mkFld [var 0 "x"; var 1 "y"; var 2 "z"] (Some 3) [("x", var 0 "x"); ("y", var 1 "y"); ("z", var 2 "z")]%string ["x"; "y"; "z"]%string true.
Local Definition cyc : list conditional := [(["x"], ["y"; "z"]); (["y"; "z"], ["x"])]%string.
Local Definition two : fspec nat := FTuple [Fun 7 Named 1; Fun 8 Named 1].
Local Definition one : fspec nat := FSingle (Fun 7 Named 1).

Local Lemma cyc_readable : readable cyc.
Proof.
  assert (N : forall l, l <> [] -> (forall k, In k l -> In k ["x"; "y"; "z"]%string) -> nameable l).
  { intros l NE H. split; [exact NE|]. intros k I. apply H in I. destruct I as [<-|[<-|[<-|[]]]]; cbn; intros [X|[]]; discriminate. }
  intros e [<-|[<-|[]]]; split; (apply N; [discriminate|cbn; tauto]).
Qed.

(** C185: the inputs of the variables of a field can be given by an ordered dictionary
    from outputs to inputs.  It is accepted exactly if there are at least two
    variables, nothing but variables goes in, the variables are what comes out, and, if
    there are several entries, none depends on its own outputs. *)
Theorem C185_accepted_iff :
  forall (V : Type) (f : field R) (es : list conditional) (s : fspec V) args kwds order delta fn,
  readable es -> make_func s args kwds order delta = Ok fn ->
  ((exists c, make_cf (CoRf f false) (InOrd (written es)) (FaItems s) args kwds order delta = Ok c) <->
   1 < length (fd_keys f) /\ (es = [] \/ describe es (fd_keys f))).
Proof. exact (@accepted R). Qed.
Print Assumptions C185_accepted_iff.

(** C185: and what is accepted is kept as it is given. *)
Theorem C185_kept :
  forall (V : Type) (o : cobj R) (es : list conditional) (a : cfuncarg V) args kwds order delta c,
  es <> [] -> make_cf o (InOrd (written es)) a args kwds order delta = Ok c -> cf_inp c = HDict (written es).
Proof. exact (@kept R). Qed.
Print Assumptions C185_kept.

Example C185_instance :
  readable cyc /\ describe cyc (fd_keys xyz) /\ ~ describe [(["x"], ["y"]); (["y"], ["x"])]%string (fd_keys xyz) /\
  (exists c, make_cf (CoRf xyz false) (InOrd (written cyc)) (FaItems two) [] [] None None = Ok c) /\
  written cyc = [("x", "y,z"); ("y,z", "x")]%string.
Proof.
  assert (D : describe cyc (fd_keys xyz)).
  { split; [|split].
    - intros e k [<-|[<-|[]]] I; cbn in *; intuition.
    - intros e k _ [<-|[<-|[]]] I J; cbn in *; intuition; subst; discriminate.
    - intros k. split.
      + intros [<-|[<-|[<-|[]]]]; [exists (["x"], ["y"; "z"])%string|exists (["y"; "z"], ["x"])%string|exists (["y"; "z"], ["x"])%string]; cbn; auto 6.
      + intros (e & [<-|[<-|[]]] & I); cbn in *; intuition. }
  split; [exact cyc_readable|]. split; [exact D|]. split.
  { intros (_ & _ & H). destruct (proj1 (H "z"%string)) as (e & [<-|[<-|[]]] & I); cbn; auto; cbn in I; intuition; discriminate. }
  split; [|reflexivity].
  destruct (proj2 (C185_accepted_iff nat xyz cyc two [] [] None None _ cyc_readable eq_refl)) as (c & E); [|exists c; exact E].
  split; [cbn; lia|right; exact D].
Qed.

(** C186: outputs can be given as a list of random variables with different names. *)
Theorem C186_variables :
  forall vs : list (fvar R), vs <> [] -> distinct_objects vs -> distinct_names vs ->
  (forall v, In v vs -> fv_stoch v = true) ->
  exists f, to_rf (CoSeq (map (fun v => ERv v) vs)) = Ok (Some f) /\ holds f vs.
Proof. exact (@seq_vars R). Qed.
Print Assumptions C186_variables.

(** C186: dependences are refused, as outputs and as inputs. *)
Theorem C186_dependences :
  forall (V : Type) (o : cobj R) (i : cinp R) (f : field R) (a : cfuncarg V) args kwds order delta c,
  make_cf (CoRf f true) i a args kwds order delta = Err AssertionError /\
  make_cf o (InObj (CoRf f true)) a args kwds order delta <> Ok c.
Proof. exact (fun V o i f a args kwds order delta c =>
  conj (@dependent_out R V f i a args kwds order delta) (@dependent_inp R V o f a args kwds order delta c)). Qed.
Print Assumptions C186_dependences.

(** C186 (false of the code): no list that has a field in it is ever accepted. *)
Theorem C186_fields_refuted :
  forall (V : Type) (vs : list (fvar R)) (g : field R) m i (a : cfuncarg V) args kwds order delta,
  make_cf (CoSeq (map (fun v => ERv v) vs ++ ERf g :: m)) i a args kwds order delta = Err AttributeError.
Proof. exact (@field_in_list R). Qed.
Print Assumptions C186_fields_refuted.

(** C186 (false of the code): inputs are never accepted as a tuple or list. *)
Theorem C186_inputs_refuted :
  forall (V : Type) (o : cobj R) (a : cfuncarg V) args kwds order delta c,
  make_cf o InSeq a args kwds order delta <> Ok c /\ make_cf o InDict a args kwds order delta <> Ok c.
Proof. exact (@inp_seq R). Qed.
Print Assumptions C186_inputs_refuted.

Example C186_instance :
  distinct_objects [var 0 "x"; var 1 "y"; var 2 "z"] /\ distinct_names [var 0 "x"; var 1 "y"; var 2 "z"] /\
  (forall v, In v [var 0 "x"; var 1 "y"; var 2 "z"] -> fv_stoch v = true) /\
  to_rf (CoSeq [ERv (var 0 "x"); ERv (var 1 "y"); ERv (var 2 "z")]) = Ok (Some xyz).
Proof.
  split; [|split; [|split]]; [| | |reflexivity].
  1,2: repeat constructor; cbn; intuition; discriminate.
  intros v H. repeat (destruct H as [<-|H]; [reflexivity|]). destruct H.
Qed.

(** C187: a function is told the name asked for last, whatever happened before, if no
    call came in between; calls of a multiple function that are refused do not count. *)
Theorem C187_last_key :
  forall (V : Type) (sub : V -> V -> V) (name : string -> V) (c : cfn R V) pre k post args kwds id a kw,
  cf_bykey c = true -> f_maps (cf_func c) = (None, None) -> ~ In "unknown"%string (od_keys (f_kwds (cf_func c))) ->
  Forall (fun o => no_call (f_ismulti (cf_func c)) o /\ ~ asks_key o) post -> silent "unknown" args [] ->
  snd (cf_do_call sub name (cf_run sub name c (pre ++ OKey k :: post)) args kwds) = Ok (FOut (Called id a kw)) ->
  od_get kw "unknown" = Some (name k).
Proof. exact (@last_key R). Qed.
Print Assumptions C187_last_key.

(** C187: it is told once: not in a later call, however the first one ended. *)
Theorem C187_once :
  forall (V : Type) (sub : V -> V -> V) (name : string -> V) (c : cfn R V) pre o post args kwds id a kw,
  f_maps (cf_func c) = (None, None) -> ~ In "unknown"%string (od_keys (f_kwds (cf_func c))) ->
  (match o with OHandle _ _ => True | OCall _ _ => f_ismulti (cf_func c) = false | _ => False end) ->
  Forall (fun o => no_call (f_ismulti (cf_func c)) o /\ ~ asks_key o) post -> silent "unknown" args kwds ->
  snd (cf_do_call sub name (cf_run sub name c (pre ++ o :: post)) args kwds) = Ok (FOut (Called id a kw)) ->
  ~ In "unknown"%string (od_keys kw).
Proof. exact (@handed_once R). Qed.
Print Assumptions C187_once.

Theorem C187_never_asked :
  forall (V : Type) (sub : V -> V -> V) (name : string -> V) (c : cfn R V) ops args kwds id a kw,
  cf_unknown c = None -> f_maps (cf_func c) = (None, None) -> ~ In "unknown"%string (od_keys (f_kwds (cf_func c))) ->
  Forall (fun o => ~ asks_key o) ops -> silent "unknown" args kwds ->
  snd (cf_do_call sub name (cf_run sub name c ops) args kwds) = Ok (FOut (Called id a kw)) ->
  ~ In "unknown"%string (od_keys kw).
Proof. exact (@never_asked R). Qed.
Print Assumptions C187_never_asked.

(** C187 (false of the code): asking for a name changes calls that have nothing to do
    with it: a plain call of the function afterwards is told it too. *)
Theorem C187_plain_call_refuted :
  forall (V : Type) (sub : V -> V -> V) (name : string -> V) (c : cfn R V) pre k post args kwds id a kw,
  cf_bykey c = true -> f_maps (cf_func c) = (None, None) -> ~ In "unknown"%string (od_keys (f_kwds (cf_func c))) ->
  Forall (fun o => no_call (f_ismulti (cf_func c)) o /\ ~ asks_key o) post -> silent "unknown" args kwds ->
  snd (cf_call sub name (cf_run sub name c (pre ++ OKey k :: post)) args kwds) = Ok (FOut (Called id a kw)) ->
  od_get kw "unknown" = Some (name k).
Proof. exact (@leak R). Qed.
Print Assumptions C187_plain_call_refuted.

Example C187_instance :
  exists c, make_cf (CoRf xyz false) (InOrd (written cyc)) (FaItems one) [] [] None None = Ok c /\
  cf_bykey c = true /\ f_maps (cf_func c) = (None, None) /\
  snd (cf_do_call Nat.sub String.length (cf_run Nat.sub String.length c [OKey "x"%string; OKey "y,z"%string]) [PVal 5] []) =
    Ok (FOut (Called 7 [PVal 5] [("unknown"%string, 3)])) /\
  snd (cf_call Nat.sub String.length (cf_run Nat.sub String.length c [OKey "y,z"%string]) [PVal 5] []) =
    Ok (FOut (Called 7 [PVal 5] [("unknown"%string, 3)])) /\
  snd (cf_call Nat.sub String.length (cf_run Nat.sub String.length c [OKey "y,z"%string; OCall [] []]) [PVal 5] []) =
    Ok (FOut (Called 7 [PVal 5] [])).
Proof. eexists. split; [reflexivity|]. repeat split. Qed.

(** C188 (false of the code): explicit conditionals are never drawn.  Whatever the
    functions, steps, position and history, each evaluation raises an exception or
    returns the values it is given; without steps, and for a single function, it always
    raises. *)
Theorem C188_never_drawn_refuted :
  forall (V : Type) (sub : V -> V -> V) (name : string -> V) apply o d (a : cfuncarg V) args kwds order delta (c : cfn R V),
  d <> [] -> make_cf o (InOrd d) a args kwds order delta = Ok c ->
  forall l, (forall ts pos, Forall draws_nothing (evals sub name apply c d ts pos l)) /\
    (forall pos, Forall fails (evals sub name apply c d None pos l)) /\
    (f_ismulti (cf_func c) = false -> forall ts pos, Forall fails (evals sub name apply c d ts pos l)).
Proof. exact (@never_drawn R). Qed.
Print Assumptions C188_never_drawn_refuted.

Example C188_instance :
  let values := [("x", 1); ("y", 2); ("z", 3)]%string in
  exists c, make_cf (CoRf xyz false) (InOrd (written cyc)) (FaItems two) [] [] None None = Ok c /\
  forall apply, evals Nat.sub String.length apply c (written cyc) (Some 2%Z) None [(false, values); (false, values); (false, values)] =
    [(values, Err TypeError); (values, Ok values); (values, Err TypeError)].
Proof. eexists. split; [reflexivity|]. intros apply. reflexivity. Qed.

(** C188: exactly which evaluations raise: with steps, the positions of the names go
    round by the number of values, t at a time, also at evaluations that raise; an
    evaluation returns the values it is given if it finds no name there, and raises
    otherwise. *)
Theorem C188_windows :
  forall (V : Type) (sub : V -> V -> V) (name : string -> V) apply o d (a : cfuncarg V) args kwds order delta (c : cfn R V)
    (n t q : nat) (l : list (bool * odict V)),
  make_cf o (InOrd d) a args kwds order delta = Ok c -> f_ismulti (cf_func c) = true ->
  0 < t -> rounds n t q -> (forall x, In x l -> length (snd x) = n) ->
  forall i reverse values, nth_error l i = Some (reverse, values) ->
  exists r, nth_error (evals sub name apply c d (Some (Z.of_nat t)) None l) i = Some (values, r) /\
  (r = Ok values <-> reverse = false /\ length d <= t * (i mod q)) /\ (r = Ok values \/ exists e, r = Err e).
Proof. exact (@windows R). Qed.
Print Assumptions C188_windows.

Example C188_windows_instance :
  let values := [("x", 1); ("y", 2); ("z", 3)]%string in
  rounds 3 2 2 /\ rounds 3 1 3 /\
  exists c, make_cf (CoRf xyz false) (InOrd (written cyc)) (FaItems two) [] [] None None = Ok c /\ f_ismulti (cf_func c) = true /\
  forall apply, map snd (evals Nat.sub String.length apply c (written cyc) (Some 1%Z) None
    [(false, values); (true, values); (false, values); (false, values)]) =
    [Err TypeError; Err AssertionError; Ok values; Err TypeError].
Proof. cbn zeta. unfold rounds. split; [lia|]. split; [lia|]. eexists. split; [reflexivity|]. split; reflexivity. Qed.

(** C189: a function given as an object of its own keeps its order or delta. *)
Theorem C189_copied :
  forall (V : Type) (sub : V -> V -> V) (name : string -> V) (g : func V) id s fargs fkwds order delta (o : cobj R) i (c : cfn R V),
  make_func s fargs fkwds order delta = Ok g -> f_ismulti g = false ->
  make_cf o i (FaFunc g id) [] [] None None = Ok c ->
  forall args kwds, snd (cf_call sub name c args kwds) = snd (f_call sub g args kwds).
Proof. exact (@copied_calls R). Qed.
Print Assumptions C189_copied.

(** C189: a transition or sampling function given as a conditional function is called
    with the stored arguments and keywords and those of the call, as they are... *)
Theorem C189_adopted :
  forall (V : Type) (sub : V -> V -> V) (name : string -> V) (self : field R) (c c' : cfn R V) id k n args kwds,
  adopt self c = Ok c' -> f_spec (cf_func c) = FSingle (Fun id k n) ->
  snd (cf_call sub name c' args kwds) =
  Ok (FOut (Called id (f_args (cf_func c) ++ fst (merge_dict args kwds)) (od_update (snd (merge_dict args kwds)) (f_kwds (cf_func c))))).
Proof. exact (@adopted_call R). Qed.
Print Assumptions C189_adopted.

(** ... so that (false of the code) its order and delta are lost. *)
Theorem C189_order_refuted :
  forall (V : Type) (sub : V -> V -> V) (name : string -> V) (f : field R) id n k (v : V), 1 < length (fd_keys f) ->
  exists c c' : cfn R V,
    make_cf (CoRf f false) InNone (FaItems (FSingle (Fun id Named n))) [] [] (Some [(k, MInt 0)]) None = Ok c /\
    snd (cf_call sub name c [] [(k, v)]) = Ok (FOut (Called id [PVal v] [])) /\
    adopt f c = Ok c' /\ snd (cf_call sub name c' [] [(k, v)]) = Ok (FOut (Called id [] [(k, v)])).
Proof. exact (@order_lost R). Qed.
Print Assumptions C189_order_refuted.

Example C189_instance :
  exists g c, make_func one [PVal 4] [] (Some [("x"%string, MInt 1)]) None = Ok g /\ f_ismulti g = false /\
  make_cf (CoRf xyz false) (InOrd (written cyc)) (FaFunc g 9) [] [] None None = Ok c /\
  snd (cf_call Nat.sub String.length c [] [("x"%string, 5)]) = Ok (FOut (Called 7 [PVal 4; PVal 5] [])) /\
  exists c', adopt xyz c = Ok c'.
Proof. do 2 eexists. split; [reflexivity|]. split; [reflexivity|]. split; [reflexivity|]. split; [reflexivity|]. eexists. reflexivity. Qed.

(** C190: the name tells outputs and inputs; those of a field with itself are told apart
    by a mark, and there must be two variables or more. *)
Theorem C190_names :
  forall (V : Type) (f g : field R) (a : cfuncarg V) args kwds order delta c,
  make_cf (CoRf f false) (InObj (CoRf g false)) a args kwds order delta = Ok c ->
  cf_name c = given_name (fd_keys f) (fd_keys g) /\ cf_bykey c = false.
Proof. exact (@names R). Qed.
Print Assumptions C190_names.

Theorem C190_itself :
  forall (V : Type) (f : field R) (a : cfuncarg V) args kwds order delta c,
  make_cf (CoRf f false) InNone a args kwds order delta = Ok c ->
  1 < length (fd_keys f) /\ cf_name c = given_name (marked (fd_keys f)) (fd_keys f) /\ cf_bykey c = false.
Proof. exact (@names_self R). Qed.
Print Assumptions C190_itself.

Example C190_instance :
  exists c, make_cf (CoRf xyz false) InNone (FaItems one) [] [] None None = Ok c /\ cf_name c = "x',y',z'|x,y,z"%string /\
  exists d, make_cf (CoRv (var 0 "x")) (InObj (CoRv (var 1 "y"))) (FaItems one) [] [] None None = Ok d /\ cf_name d = "x|y"%string.
Proof. eexists. split; [reflexivity|]. split; [reflexivity|]. eexists. split; reflexivity. Qed.
