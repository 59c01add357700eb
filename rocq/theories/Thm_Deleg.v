(** Property theorems about the settings of processes and their sub-fields (C191-C195). *)
From Coq Require Import String Bool Arith List.
From Verif Require Import Base DelegModel Deleg_Spec Deleg_Proofs Deleg_More.
Import ListNotations.

(** C191: a call that names a sub-field is accepted, and in any history, if only the
    sub-fields themselves are changed afterwards, that sub-field steps and proposes... *)
Theorem C191_delegated :
  forall (A : Type) (d : dstate A) (h1 : list (event A)) (e : event A) (h2 : list (event A)) (b : sub),
  has d b -> names e b -> (forall x, In x h2 -> sub_call x) ->
  raised (history d h1) e = None /\
  stepper (history d (h1 ++ e :: h2)) = Ok (Its b) /\ proposer (history d (h1 ++ e :: h2)) = Ok (Its b).
Proof. intros A d h1 e h2 b H Nm Si. split; [exact (@named_accepted A _ e b (has_history h1 H) Nm)|]. apply (@named_stays A d h1 e h2 b H Nm). auto. Qed.
Print Assumptions C191_delegated.

(** ... with the settings it has by then. *)
Theorem C191_current :
  forall (A : Type) (d : dstate A) (k : setter) (b : sub) (f : option A) (s : settings A),
  settings_of d (Its b) = Some s -> settings_of (happen d (SubSet k b f)) (Its b) = Some (fst (rf_set k s f)).
Proof. intros A d k b f s. exact (@sub_set_current A d k b f s). Qed.
Print Assumptions C191_current.

(** C191: naming a sub-field for one of the four settings hands over that setting as
    it is then, and leaves the others of the process as they were. *)
Theorem C191_handed_over :
  forall (A : Type) (d : dstate A) (e : event A) (b : sub) (s : settings A),
  has d b -> names e b -> settings_of d (Its b) = Some s ->
  attribute (called e) (d_own (happen d e)) = attribute (called e) s /\
  (forall k, ~ alike (called e) k -> attribute k (d_own (happen d e)) = attribute k (d_own d)).
Proof. exact @handed. Qed.
Print Assumptions C191_handed_over.

(** C191: as long as no sub-field is named, the process itself proposes if it was given
    a proposal or transition, accepted or not; otherwise its roots do, or its leafs if
    it has no roots. *)
Theorem C191_proposer :
  forall (A : Type) (leafs : settings A) (roots : option (settings A)) (unit : bool) (h : list (event A)),
  (forall x, In x h -> own_call x \/ sub_call x) ->
  (was_set (KTran false) h \/ was_set KProp h -> proposer (history (new_sd leafs roots unit) h) = Ok Itself) /\
  (~ was_set (KTran false) h -> ~ was_set KProp h ->
   proposer (history (new_sd leafs roots unit) h) = Ok (Its (match roots with Some _ => Roots | None => Leafs end))).
Proof. exact @proposer_new. Qed.
Print Assumptions C191_proposer.

(** C191: as long as no sub-field is named the process itself steps. *)
Theorem C191_itself :
  forall (A : Type) (leafs : settings A) (roots : option (settings A)) (unit : bool) (h : list (event A)),
  (forall x, In x h -> own_call x \/ sub_call x) -> stepper (history (new_sd leafs roots unit) h) = Ok Itself.
Proof. intros A leafs roots unit h. apply never_named. reflexivity. Qed.
Print Assumptions C191_itself.

(** C191 refuted: once a sub-field has been named, functions set on the process
    afterwards, any number of them, never make the process itself step or propose. *)
Theorem C191_taken_back_refuted :
  forall (A : Type) (d : dstate A) (h1 : list (event A)) (e : event A) (h2 : list (event A)) (b : sub),
  has d b -> names e b -> (forall x, In x h2 -> own_call x \/ sub_call x) ->
  stepper (history d (h1 ++ e :: h2)) = Ok (Its b) /\ proposer (history d (h1 ++ e :: h2)) = Ok (Its b).
Proof. exact @named_stays. Qed.
Print Assumptions C191_taken_back_refuted.

(* process.set_tran(roots), then process.set_tran(f): the call is accepted and the
   process holds f, but roots steps. *)
Example ex_c191 :
  let d := new_sd (unset true) (Some (unset true)) false in
  let h := [Set_ (KTran false) (DStr "roots"); Set_ (KTran false) (DFun 7)] in
  has d Roots /\ names (Set_ (A := nat) (KTran false) (DStr "roots")) Roots /\ own_call (Set_ (KTran false) (DFun 7)) /\
  accepted d h /\ s_tran (d_own (history d h)) = Some (Wrapped 7) /\ sampling (history d h) = Steps /\
  stepper (history d h) = Ok (Its Roots) /\ option_map (@s_tran nat) (settings_of (history d h) (Its Roots)) = Some None.
Proof. cbn. repeat split; try constructor; try discriminate; repeat eexists. Qed.

(** C192 refuted: each of the setters of a process, called without argument, raises,
    removes nothing, and leaves a process that neither steps nor proposes, whatever
    functions are set on it or on its sub-fields afterwards. *)
Theorem C192_no_argument_refuted :
  forall (A : Type) (d : dstate A) (e : event A) (h : list (event A)),
  empty_call e -> (forall x, In x h -> own_call x \/ sub_call x) ->
  raised d e = Some AttributeError /\ d_own (happen d e) = d_own d /\
  stepper (history (happen d e) h) = Err AttributeError /\ proposer (history (happen d e) h) = Err AttributeError.
Proof. exact @empty_breaks. Qed.
Print Assumptions C192_no_argument_refuted.

Example ex_c192 :
  let d := history (new_sd (unset true) (Some (unset true)) false) [Set_ KProp (DFun 3)] in
  stepper d = Ok Itself /\ proposer d = Ok Itself /\ empty_call (Set_ (A := nat) KProp DNone) /\
  proposer (happen d (Set_ KProp DNone)) = Err AttributeError /\ s_prop (d_own (happen d (Set_ KProp DNone))) = Some (Wrapped 3).
Proof. cbn. repeat split. exists KProp. reflexivity. Qed.

(** C193: at the time it is named, a sub-field with a transition makes samples steps. *)
Theorem C193_at_once :
  forall (A : Type) (d : dstate A) (multi : bool) (b : sub) (s : settings A),
  settings_of d (Its b) = Some s ->
  (sampling (happen d (Set_ (KTran multi) (DSub b))) = Steps <->
   s_tran s <> None \/ s_tfun (d_own d) <> None \/ d_unit d = true).
Proof. intros A d multi b s. exact (@sampling_named A d multi b s). Qed.
Print Assumptions C193_at_once.

(** C193: as long as no sub-field is named, samples are steps if the process was given
    a transition or transition function (or has one variable, with a transition), and
    calls if it was given no proposal either; and proposals otherwise. *)
Theorem C193_own :
  forall (A : Type) (leafs : settings A) (roots : option (settings A)) (unit : bool) (h : list (event A)),
  (forall x, In x h -> own_call x \/ sub_call x) ->
  (sampling (history (new_sd leafs roots unit) h) = Steps <->
     was_set (KTran false) h \/ was_set KTfun h \/ unit = true) /\
  (sampling (history (new_sd leafs roots unit) h) = Calls <->
     ~ was_set (KTran false) h /\ ~ was_set KTfun h /\ unit = false /\ ~ was_set KProp h).
Proof. exact @sampling_new. Qed.
Print Assumptions C193_own.

(** C193 refuted: nothing set on, or removed from, a sub-field afterwards changes what
    samples are. *)
Theorem C193_later_refuted :
  forall (A : Type) (h : list (event A)) (d : dstate A),
  (forall x, In x h -> sub_call x) -> sampling (history d h) = sampling d.
Proof. exact @sampling_stale. Qed.
Print Assumptions C193_later_refuted.

(* set_tran(roots) before roots has a transition: samples remain plain calls. *)
Example ex_c193 :
  let d := happen (new_sd (unset true) (Some (unset true)) false) (Set_ (KTran false) (DSub Roots)) in
  let h := [SubSet (KTran false) Roots (Some 4)] in
  (forall x, In x h -> sub_call x) /\ sampling (history d h) = Calls /\
  option_map (@s_tran nat) (settings_of (history d h) (Its Roots)) = Some (Some (Wrapped 4)) /\
  sampling (happen (history d h) (Set_ (KTran false) (DSub Roots))) = Steps.
Proof. cbn. repeat split. intros x [<-|[]]. repeat eexists. Qed.

Example ex_c193_own :
  let h := [Set_ KDelta (DFun 1); Set_ KProp (DFun 2)] in
  (forall x, In x h -> own_call x \/ sub_call x) /\ was_set KProp h /\ ~ was_set (KTran false) h /\
  sampling (history (new_sd (unset true) None false) h) = Proposes /\
  proposer (history (new_sd (unset true) None false) h) = Ok Itself /\
  proposer (history (new_sd (unset (A := nat) true) None false) []) = Ok (Its Leafs).
Proof.
  cbn. split; [intros x [<-|[<-|[]]]; left; repeat eexists|]. split; [exists KProp, 2; cbn; auto|].
  split; [intros (k & f & Q & [I|[I|[]]]); injection I as <- _; exact Q|]. auto.
Qed.

(** C194: in a history of accepted calls with functions, a process never has both a
    proposal and a transition. *)
Theorem C194_exclusive :
  forall (A : Type) (leafs : settings A) (roots : option (settings A)) (unit : bool) (h : list (event A)),
  (forall x, In x h -> own_call x \/ sub_call x) -> accepted (new_sd leafs roots unit) h ->
  ~ both_set (d_own (history (new_sd leafs roots unit) h)).
Proof. intros A leafs roots unit h. apply own_exclusive. intros [C _]. apply C. reflexivity. Qed.
Print Assumptions C194_exclusive.

(** C194 refuted: a proposal that is refused because there is a transition is kept:
    proposals are evaluated with the transition, and if the transition is removed they
    raise... *)
Theorem C194_refused_kept_refuted :
  forall (A : Type) (s : settings A) (g f : A), s_stoch s = true -> s_tran s = Some (Wrapped g) ->
  let refused := rf_set KProp s (Some f) in
  snd refused = Some AssertionError /\ s_prop (fst refused) = Some (Raw f) /\
  proposes_by (fst refused) = Ok (ByTran g) /\
  proposes_by (fst (rf_set (KTran false) (fst refused) None)) = Err AttributeError.
Proof. exact @refused_stays. Qed.
Print Assumptions C194_refused_kept_refuted.

(** ... a transition that is refused because there is a proposal makes all later
    proposals raise... *)
Theorem C194_refused_breaks_refuted :
  forall (A : Type) (s : settings A) (g f : A) (multi : bool),
  s_stoch s = true -> s_prop s = Some (Wrapped g) -> s_tran s = None ->
  proposes_by s = Ok (ByProp g) /\ snd (rf_set (KTran multi) s (Some f)) = Some AssertionError /\
  proposes_by (fst (rf_set (KTran multi) s (Some f))) = Err AttributeError.
Proof. exact @refused_breaks. Qed.
Print Assumptions C194_refused_breaks_refuted.

(** ... and naming a sub-field that has a proposal is accepted by a process that has a
    transition; it then has both, and its samples are steps of the sub-field. *)
Theorem C194_named_refuted :
  forall (A : Type) (d : dstate A) (b : sub) (s : settings A) (p t : setting A),
  settings_of d (Its b) = Some s -> s_prop s = Some p -> s_tran (d_own d) = Some t ->
  let d' := happen d (Set_ KProp (DSub b)) in
  raised d (Set_ KProp (DSub b)) = None /\ both_set (d_own d') /\ sampling d' = Steps /\ stepper d' = Ok (Its b).
Proof. intros A d b s p t. exact (@delegated_both A d b s p t). Qed.
Print Assumptions C194_named_refuted.

Example ex_c194 :
  let r := fst (rf_set KProp (unset true) (Some 5)) in
  let d := happen (new_sd (unset true) (Some r) false) (Set_ (KTran true) (DFun 6)) in
  s_stoch r = true /\ s_prop r = Some (Wrapped 5) /\ s_tran r = None /\
  settings_of d (Its Roots) = Some r /\ s_tran (d_own d) = Some (Wrapped 6) /\ s_stoch (d_own d) = true.
Proof. repeat split. Qed.

(** C215: samples of a process with a transition of its own come with a reverse
    proposal exactly if the transition was given as a pair of functions (and the
    process is not of one variable with a transition): the last one given counts,
    whatever came before and after. *)
Theorem C215_own :
  forall (A : Type) (leafs : settings A) (roots : option (settings A)) (unit : bool)
    (h1 : list (event A)) (multi : bool) (f : A) (h2 : list (event A)),
  raised (history (new_sd leafs roots unit) h1) (Set_ (KTran multi) (DFun f)) = None ->
  (forall x, In x h2 -> ~ sets_tran x) ->
  reverses (history (new_sd leafs roots unit) (h1 ++ Set_ (KTran multi) (DFun f) :: h2)) = multi && negb unit.
Proof. exact @reverse_last. Qed.
Print Assumptions C215_own.

(** C215 refuted: if the transition is that of a sub-field, they always come with one,
    however the transition was given to the sub-field. *)
Theorem C215_delegated_refuted :
  forall (A : Type) (leafs : settings A) (roots : option (settings A)) (h : list (event A)),
  (forall x, In x h -> ~ sets_tran x) -> reverses (history (new_sd leafs roots false) h) = true.
Proof. intros A leafs roots h. exact (@reverse_delegated A leafs roots false h). Qed.
Print Assumptions C215_delegated_refuted.

(* One function: no reverse proposal; the same function by way of the roots: one. *)
Example ex_c215 :
  let d := new_sd (unset true) (Some (unset true)) false in
  let h1 := [Set_ (KTran true) (DFun 3)] in
  let h := [SubSet (KTran false) Roots (Some 4); Set_ (KTran false) (DSub Roots)] in
  raised (history d h1) (Set_ (KTran false) (DFun 4)) = None /\
  reverses (history d (h1 ++ [Set_ (KTran false) (DFun 4)])) = false /\ reverses (history d h1) = true /\
  (forall x, In x h -> ~ sets_tran x) /\ accepted d h /\ sampling (history d h) = Steps /\ reverses (history d h) = true.
Proof. cbn. repeat split. intros x [<-|[<-|[]]] (m & f & Q); discriminate. Qed.

(** C195: two Fields, or two RFs, are equal if and only if they have the same variable
    names, and unequal otherwise. *)
Theorem C195_same_class :
  forall x y : fobj, o_class x = o_class y -> o_class x <> ClOther ->
  (py_eq x y = true <-> same_names x y) /\ py_ne x y = negb (py_eq x y).
Proof. exact eq_same_class. Qed.
Print Assumptions C195_same_class.

(** C195 refuted: two objects of different classes, or two dependences or processes,
    are equal only if they are one, and are never unequal: both [==] and [!=] are
    false of any two of them. *)
Theorem C195_neither_refuted :
  forall x y : fobj, o_class x <> o_class y \/ o_class x = ClOther -> o_id x <> o_id y ->
  py_eq x y = false /\ py_ne x y = false.
Proof. intros x y C D. destruct (eq_other x y C) as [-> ->]. split; [apply Nat.eqb_neq; exact D|reflexivity]. Qed.
Print Assumptions C195_neither_refuted.

Example ex_c195 :
  let x := mkObj 0 ClRF [("a"%string, 0); ("b"%string, 1)] in
  let y := mkObj 1 ClRF [("b"%string, 2); ("a"%string, 3)] in
  let z := mkObj 2 ClOther [("a"%string, 0); ("c"%string, 1)] in
  py_eq x y = true /\ py_eq x z = false /\ py_ne x z = false /\ py_ne x (mkObj 3 ClRF [("a"%string, 0)]) = true.
Proof. repeat split. Qed.
