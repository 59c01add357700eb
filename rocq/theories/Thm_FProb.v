(** Property theorems about probabilities of fields (C227-C231). *)
From Coq Require Import String ZArith Bool Arith Lia List Reals Lra.
From Verif Require Import Base Num Tensor RNumLemmas PScales PScales_Spec PScales_Proofs PDUtils RVModel SymModel ProbModel ProbO_Spec FProbModel FProb_Spec FProb_Proofs.
Import ListNotations.
Local Open Scope list_scope.

Section Statements.
Context {E X : Type} (repr : E -> string) (log_of : E -> E) (ev : E -> list (string * X) -> result R) (emul : E -> E -> E).

(** C227: if the probabilities of all variables are expressions, the field's prob is an
    expression, and if the scales are linear it has the value that calling the field has:
    the product of what the variables give. *)
Theorem C227_product :
  forall vs : list (fpvar R E X), vs <> [] -> Forall (fresh repr log_of) vs -> Forall iconic vs ->
  Forall linear_scale (map fp_scale vs) -> times ev emul -> Forall (own_symbol ev) vs ->
  exists f e, make_ff repr log_of emul vs = Ok f /\ ff_prob f = Some (EExpr e) /\
    forall values xs, told vs values -> gives ev vs values xs ->
      ev e values = Ok (Rprod xs) /\ ff_call ev f values = Ok (Rprod xs).
Proof. exact (@numbers_multiplied E X repr log_of ev emul). Qed.

(** C227 (false of the code): on scales of logarithms prob is the product of the logarithms,
    while calling the field gives their sum. *)
Theorem C227_logarithms_refuted :
  forall vs : list (fpvar R E X), vs <> [] -> Forall (fresh repr log_of) vs -> Forall iconic vs ->
  Forall (fun s => s = PSCplx 0%R 0%R) (map fp_scale vs) -> times ev emul -> Forall (own_symbol ev) vs ->
  exists f e, make_ff repr log_of emul vs = Ok f /\ ff_prob f = Some (EExpr e) /\
    forall values xs, told vs values -> gives ev vs values xs ->
      ev e values = Ok (Rprod xs) /\ ff_call ev f values = Ok (Rsum xs).
Proof. exact (@logs_multiplied E X repr log_of ev emul). Qed.

(** C228: whatever is changed of a field and its variables, as long as the field is given
    no probability of its own and its scale is that of the product, calling it gives the
    product of what the variables give now. *)
Theorem C228_current :
  forall (vs : list (fpvar R E X)) f0 h f values xs, make_ff repr log_of emul vs = Ok f0 ->
  ff_run repr log_of emul f0 h = Ok f -> (forall c, In c h -> ~ gives_own c) ->
  ff_vars f <> [] -> scales_good (ff_vars f) -> joint_scale (ff_vars f) = Ok (ff_scale f) ->
  told (ff_vars f) values -> gives ev (ff_vars f) values xs -> loggable (ff_vars f) xs ->
  exists y, ff_call ev f values = Ok y /\
    denote (ff_scale f) y = Rprod (zip_with (fun v x => denote (fp_scale v) x) (ff_vars f) xs).
Proof.
  exact (fun vs f0 h f values xs M H NO =>
    current_call (ev := ev) (f := f) (run_plain repr log_of emul h (proj1 (proj2 (proj2 (make_shape repr log_of emul vs M)))) NO H)).
Qed.

(** C229 (false of the code): prob shows what it was when the field was made, whatever
    happens to the variables, and also after variables are added. *)
Theorem C229_stale_refuted :
  forall (f f' : ffield R E X) h, (forall c, In c h -> ~ sets_field c) -> ff_run repr log_of emul f h = Ok f' -> ff_prob f' = ff_prob f.
Proof. exact (fun f f' h => @run_stale E X repr log_of emul h f f'). Qed.

(** C229: set_prob() brings prob up to date, also if the field had another. *)
Theorem C229_renewed :
  forall (f f' : ffield R E X) q, field_set repr log_of emul f None q = Ok f' -> ff_vars f <> [] ->
  Forall (fresh repr log_of) (ff_vars f) -> Forall iconic (ff_vars f) -> times ev emul -> Forall (own_symbol ev) (ff_vars f) ->
  ff_vars f' = ff_vars f /\ exists e, ff_prob f' = Some (EExpr e) /\
    forall values xs, gives ev (ff_vars f) values xs -> ev e values = Ok (Rprod xs).
Proof.
  exact (fun f f' q H NE F I TM O => conj (proj1 (set_none_shape repr log_of emul f q H))
    match set_none_ok ev emul f q H NE F I with
    | ex_intro _ e (conj P V) => ex_intro _ e (conj P (fun values xs G => V TM values xs G O))
    end).
Qed.

(** C229: a field that is given a probability of its own gives what that says, whatever
    happens to the variables, also after variables are added. *)
Theorem C229_own :
  forall (f f1 f' : ffield R E X) g q h values, field_set repr log_of emul f (Some g) q = Ok f1 ->
  (forall c, In c h -> ~ sets_field c) -> ff_run repr log_of emul f1 h = Ok f' -> told (ff_vars f') values ->
  stands_for log_of ev g (is_log (po_scale (ff_obj f'))) values (ff_call ev f' values).
Proof. exact (fun f f1 f' g q h values => @own_call E X repr log_of ev emul f g q f1 h f' values). Qed.

(** C228: a change concerns one variable only, and variables are added last. *)
Theorem C228_others :
  forall (f f' : ffield R E X) c, ff_change repr log_of emul f c = Ok f' ->
  match c with
  | ChVar i g q => changed_at (ff_vars f) i (fun v => var_set repr log_of v g q) (ff_vars f')
  | ChVarScale i q => changed_at (ff_vars f) i (fun v => var_scale v q) (ff_vars f')
  | ChAdd v => ff_vars f' = ff_vars f ++ [v]
  | _ => ff_vars f' = ff_vars f
  end.
Proof. exact (fun f f' c => @change_vars E X repr log_of emul f c f'). Qed.

(** C229 (false of the code): prob of a variable shows what it was before its scale was
    changed. *)
Theorem C229_scale_refuted :
  forall (v v' : fpvar R E X) q, var_scale v q = Ok v' ->
  fp_name v' = fp_name v /\ fp_prob v' = fp_prob v /\ fp_icon v' = fp_icon v /\ eval_pscale q = Ok (po_scale (fp_obj v')).
Proof. exact (fun v v' q => @var_scale_kept E X v q v'). Qed.

(** C230: a field has a prob of its variables exactly if all of them are iconic. *)
Theorem C230_present_iff :
  (forall (vs : list (fpvar R E X)) f, make_ff repr log_of emul vs = Ok f -> (ff_prob f <> None <-> Forall iconic vs)) /\
  (forall (f f' : ffield R E X) q, field_set repr log_of emul f None q = Ok f' -> (ff_prob f' <> None <-> Forall iconic (ff_vars f))).
Proof.
  exact (conj (fun vs f M => proj2 (proj2 (proj2 (make_shape repr log_of emul vs M))))
              (fun f f' q H => proj2 (proj2 (set_none_shape repr log_of emul f q H)))).
Qed.

(** C230 (false of the code): a variable made with a distribution of sympy is not iconic,
    although its prob is an expression; given the same distribution after it was made with
    a number it is. *)
Theorem C230_sympy_refuted :
  forall name (r : rsym E) q (v : fpvar R E X), var_set repr log_of (new_var name) (GSympy r) q = Ok v ->
  (exists e, fp_prob v = Some (EExpr e)) /\ ~ iconic v /\
  (forall vs f, In v vs -> make_ff repr log_of emul vs = Ok f -> ff_prob f = None) /\
  (forall e q0 (v0 : fpvar R E X), var_set repr log_of (new_var name) (GNum e) q0 = Ok v0 ->
     forall v' : fpvar R E X, var_set repr log_of v0 (GSympy r) q = Ok v' -> iconic v').
Proof. exact (sympy_first repr log_of (fun _ _ => Err ValueError) emul). Qed.

(** C231 (false of the code): the number a field gives does not depend on the scale the
    field is given; a scale of the other kind than the variables' is refused by calls if
    there is more than one variable, except for the plain scale of logarithms. *)
Theorem C231_scale_refuted :
  forall (f f' : ffield R E X) q values xs, ff_prob f = None \/ ff_def f = true -> ff_vars f <> [] -> scales_good (ff_vars f) ->
  joint_scale (ff_vars f) = Ok (ff_scale f) -> told (ff_vars f) values -> gives ev (ff_vars f) values xs ->
  ff_change repr log_of emul f (ChScale q) = Ok f' ->
  eval_pscale q = Ok (po_scale (ff_obj f')) /\
  ff_call ev f' values =
    if (2 <=? length (ff_vars f))%nat && truthy (ff_scale f') && negb (Bool.eqb (iscomplex (ff_scale f')) (iscomplex (ff_scale f)))
    then Err ValueError else ff_call ev f values.
Proof.
  exact (fun f f' q values xs P NE G J Td Gv H =>
    conj (proj2 (proj2 (proj2 (scale_change repr log_of emul f q H)))) (scale_ignored repr log_of emul q P NE G J Td Gv H)).
Qed.

End Statements.

Print Assumptions C227_product.
Print Assumptions C227_logarithms_refuted.
Print Assumptions C228_current.
Print Assumptions C229_stale_refuted.
Print Assumptions C229_renewed.
Print Assumptions C229_own.
Print Assumptions C228_others.
Print Assumptions C229_scale_refuted.
Print Assumptions C230_present_iff.
Print Assumptions C230_sympy_refuted.
Print Assumptions C231_scale_refuted.

(** Expressions as functions of the values; x has the density x/2, y the probability 1/4. *)
Local Definition ex : Type := list (string * R) -> result R.
Local Definition evx (e : ex) (values : list (string * R)) : result R := e values.
Local Definition mulx (a b : ex) : ex := fun values => let! x := a values in let! y := b values in Ok (x * y)%R.
Local Definition half : ex := fun values =>
  match find (fun kx => String.eqb (fst kx) "x") values with Some kx => Ok (snd kx / 2)%R | None => Err KeyError end.
Local Definition quarter : ex := fun _ => Ok (1 / 4)%R.
Local Definition none : ex -> string := fun _ => ""%string.
Local Definition same : ex -> ex := fun e => e.
Local Definition obj (s : pscale R) (e : ex) : pobj R ex (list (string * R)) R :=
  with_exprs (with_partials (with_scale blank s) KNum [(None, EExpr e)]) (Some [(None, EExpr e)]).
Local Definition vx (s : pscale R) : fpvar R ex R := mkFP "x"%string (obj s half) (Some true) (Some (EExpr half)).
Local Definition vy (s : pscale R) : fpvar R ex R := mkFP "y"%string (obj s quarter) (Some true) (Some (EExpr quarter)).
Local Definition vals : list (string * R) := [("y", 7%R); ("x", 3%R)]%string.

Local Lemma made (s : pscale R) : s = Lin 1%R \/ s = Log 0%R 0%R ->
  let q := if is_log s then PSStr "log" else PSNone in
  var_set none same (new_var "x") (GNum half) q = Ok (vx s) /\ var_set none same (new_var "y") (GNum quarter) q = Ok (vy s).
Proof.
  assert (A : new_pscale PSNone (spec_of (po_scale (@blank R _ ex (list (string * R)) R))) = Ok (Lin 1%R)).
  { change (eval_pscale (spec_of (Lin 1%R)) = Ok (Lin 1%R)). apply eval_spec_of. cbn. lra. }
  assert (B : new_pscale (PSStr "log") (spec_of (po_scale (@blank R _ ex (list (string * R)) R))) = Ok (Log 0%R 0%R)).
  { change (eval_pscale (PSStr "log" : pspec R) = Ok (Log 0%R 0%R)). apply eval_log_spellings. cbn. auto 6. }
  intros [-> | ->]; cbn [is_log]; unfold var_set, set_prob; cbn [fp_obj new_var].
  - rewrite A. split; reflexivity.
  - rewrite B. split; reflexivity.
Qed.

Local Lemma rules (s : pscale R) : times evx mulx /\ Forall (own_symbol evx) [vx s; vy s] /\ told [vx s; vy s] vals /\
  gives evx [vx s; vy s] vals [(3 / 2)%R; (1 / 4)%R].
Proof.
  split; [|split; [|split]].
  - intros a b values x y A B. unfold evx, mulx in *. rewrite A, B. reflexivity.
  - constructor; [|constructor; [|constructor]].
    + intros e values kx P F. injection P as <-. unfold evx, half. cbn [fp_name vx] in F. rewrite F. cbn [find].
      apply find_some in F as [_ F]. rewrite F. reflexivity.
    + intros e values kx P F. injection P as <-. reflexivity.
  - intros k. cbn. intuition.
  - constructor; [|constructor; [|constructor]]; reflexivity.
Qed.

Example C227_instance : let vs := [vx (Lin 1%R); vy (Lin 1%R)] in
  vs <> [] /\ Forall (fresh none same) vs /\ Forall iconic vs /\ Forall linear_scale (map fp_scale vs) /\ times evx mulx /\
  Forall (own_symbol evx) vs /\ told vs vals /\ gives evx vs vals [(3 / 2)%R; (1 / 4)%R].
Proof.
  destruct (rules (Lin 1%R)) as (A & B & C & D). destruct (made (Lin 1%R)) as (M1 & M2); [auto|].
  split; [discriminate|]. split; [repeat constructor; do 3 eexists; [exact M1|exact M2]|].
  split; [repeat constructor|]. split; [|auto].
  repeat constructor; cbn; try lra; destruct (Req_EM_T 1 0); try reflexivity; lra.
Qed.

(** 3/2 * 1/4 is not 3/2 + 1/4 *)
Example C227_logarithms_instance : let vs := [vx (Log 0%R 0%R); vy (Log 0%R 0%R)] in
  vs <> [] /\ Forall (fresh none same) vs /\ Forall iconic vs /\ Forall (fun s => s = PSCplx 0%R 0%R) (map fp_scale vs) /\ times evx mulx /\
  Forall (own_symbol evx) vs /\ told vs vals /\ gives evx vs vals [(3 / 2)%R; (1 / 4)%R] /\
  Rprod [(3 / 2)%R; (1 / 4)%R] <> Rsum [(3 / 2)%R; (1 / 4)%R].
Proof.
  destruct (rules (Log 0%R 0%R)) as (A & B & C & D). destruct (made (Log 0%R 0%R)) as (M1 & M2); [auto|].
  split; [discriminate|]. split; [repeat constructor; do 3 eexists; [exact M1|exact M2]|].
  split; [repeat constructor|]. split; [repeat constructor|].
  split; [exact A|]. split; [exact B|]. split; [exact C|]. split; [exact D|]. unfold Rprod, Rsum. cbn [fold_right]. lra.
Qed.

Local Lemma lin1 : linear_scale (spec_of (Lin 1%R)).
Proof. repeat constructor; cbn; try lra; destruct (Req_EM_T 1 0); try reflexivity; lra. Qed.

(** A field of x and y, whose y is then given the probability 1/3: prob is stale, calls are
    not; the field is iconic, so that set_prob() renews prob. *)
Local Definition third : ex := fun _ => Ok (1 / 3)%R.
Local Definition vy' : fpvar R ex R := mkFP "y"%string (obj (Lin 1%R) third) (Some true) (Some (EExpr third)).
Local Definition change : fchange R ex R := ChVar 1 (GNum third) PSNone.

Example C228_instance : exists f f',
  make_ff none same mulx [vx (Lin 1%R); vy (Lin 1%R)] = Ok f /\ ff_run none same mulx f [change] = Ok f' /\
  (forall c, In c [change] -> ~ gives_own c /\ ~ sets_field c) /\ ff_vars f' = [vx (Lin 1%R); vy'] /\
  scales_good (ff_vars f') /\ joint_scale (ff_vars f') = Ok (ff_scale f') /\ told (ff_vars f') vals /\
  gives evx (ff_vars f') vals [(3 / 2)%R; (1 / 3)%R] /\ loggable (ff_vars f') [(3 / 2)%R; (1 / 3)%R] /\
  (ff_prob f = None \/ ff_def f = true) /\ joint_scale (ff_vars f) = Ok (ff_scale f) /\
  exists f1, ff_change none same mulx f (ChScale (PSStr "log")) = Ok f1 /\ truthy (ff_scale f1) = false.
Proof.
  destruct C227_instance as (NE & F & IC & L & TM & O & Td & G).
  destruct (make_ok evx mulx NE (or_introl L) F) as (f & q & M & V & J & Q & Sc & P & _).
  exists f, (with_vars f [vx (Lin 1%R); vy']). split; [exact M|].
  split; [|split; [|split; [reflexivity|split; [|split; [|split; [|split; [|split; [|split; [|split]]]]]]]]].
  - unfold ff_run. cbn [fold_res]. unfold ff_change, change. rewrite V. cbn [upd bind]. unfold var_set, set_prob. cbn [fp_obj vy].
    assert (A : new_pscale PSNone (spec_of (po_scale (obj (Lin 1%R) quarter))) = Ok (Lin 1%R)).
    { change (eval_pscale (spec_of (Lin 1%R)) = Ok (Lin 1%R)). apply eval_spec_of. cbn. lra. }
    rewrite A. reflexivity.
  - intros c [<-|[]]. split; intros (g & q' & C); discriminate.
  - left. constructor; [exact lin1|constructor; [exact lin1|constructor]].
  - unfold ff_scale. cbn [with_vars ff_vars ff_obj]. rewrite Sc. exact J.
  - intros k. cbn. intuition.
  - constructor; [|constructor; [|constructor]]; reflexivity.
  - intros C. discriminate.
  - exact P.
  - unfold ff_scale. rewrite V, Sc. exact J.
  - cbn [ff_change]. unfold set_pscale. rewrite (eval_log_spellings (PSStr "log")) by (cbn; auto 6). eexists. split; [reflexivity|].
    cbn. destruct (n_eqb 0%R n0) eqn:Z; [reflexivity|]. exfalso. apply Reqb_false_iff in Z. apply Z. reflexivity.
Qed.

(** A random symbol whose density is x/2. *)
Local Definition sx : rsym ex := mkRS (SObj false true [SObj false false []; SObj true false []]) (Some "x"%string) (Some half) None [].
Example C230_instance : exists v : fpvar R ex R, var_set none same (new_var "x") (GSympy sx) PSNone = Ok v.
Proof.
  unfold var_set, set_prob. cbn [fp_obj new_var].
  assert (A : new_pscale PSNone (spec_of (po_scale (@blank R _ ex (list (string * R)) R))) = Ok (Lin 1%R)).
  { change (eval_pscale (spec_of (Lin 1%R)) = Ok (Lin 1%R)). apply eval_spec_of. cbn. lra. }
  rewrite A. eexists. reflexivity.
Qed.

(** A field given the probability 1/4 of its own, and then a new probability of y, and a
    scale of logarithms of x. *)
Example C229_own_instance : exists f f1 f',
  make_ff none same mulx [vx (Lin 1%R); vy (Lin 1%R)] = Ok f /\ field_set none same mulx f (Some (GNum quarter)) None = Ok f1 /\
  ff_run none same mulx f1 [change; ChVarScale 0 (PSStr "log")] = Ok f' /\
  (forall c, In c [change; ChVarScale 0 (PSStr "log")] -> ~ sets_field c) /\ told (ff_vars f') vals.
Proof.
  destruct C227_instance as (NE & F & IC & L & TM & O & Td & G).
  destruct (make_ok evx mulx NE (or_introl L) F) as (f & q & M & V & J & Q & Sc & P & _).
  eexists f, _, _. split; [exact M|]. split; [|split; [|split]].
  - unfold field_set. rewrite V, J. cbn [bind]. unfold set_prob. rewrite Sc, (new_same Q). reflexivity.
  - unfold ff_run. cbn [fold_res]. unfold ff_change at 1, change. cbn [ff_vars]. cbn [upd bind]. unfold var_set, set_prob. cbn [fp_obj vy].
    assert (A : new_pscale PSNone (spec_of (po_scale (obj (Lin 1%R) quarter))) = Ok (Lin 1%R)).
    { change (eval_pscale (spec_of (Lin 1%R)) = Ok (Lin 1%R)). apply eval_spec_of. cbn. lra. }
    rewrite A. cbn [bind with_vars ff_vars ff_obj ff_prob ff_def ff_change upd]. unfold var_scale, set_pscale.
    rewrite (eval_log_spellings (PSStr "log")) by (cbn; auto 6). reflexivity.
  - intros c [<-|[<-|[]]] (g & q' & C); discriminate.
  - intros k. cbn. intuition.
Qed.
