(** Property theorems about dependences of leafs on roots (C124-C130). *)
From Coq Require Import String ZArith Reals Lra Lia Bool Arith List.
From Verif Require Import Base Num Tensor PScales PScales_Spec Distr PDModel PDUtils PD_Spec PD_Simple_Spec PD_Prod_Spec PD_Product_Spec
  PD_Examples PD_ProductEx PD_Spelling VariableModel Var_Spec RVModel RV_Spec FieldModel Field_Spec RFModel RF_Spec RF_Thm SDModel SD_Spec SD_Thm SD_Iid SD_More SD_Set SD_Ex.
Import ListNotations.
Local Open Scope R_scope.

(** C124: a dependence of leafs on roots whose probability function works element by
    element returns, when called, the conditional distribution of the leafs given the
    roots: each variable holds the values asked for, and the probability at every
    position is the function of the values there. *)
Theorem C124_conditional :
  forall (F : Fmt R) (TR : Trunc R) (leafs roots : list (rv R)) (values : odict (fentry R))
    (x : nat -> fval R) (a : nat -> values_in R) (r : nat -> rnd R) (A : nat -> tensor (pyval R)),
  let vs := (leafs ++ roots)%list in
  printable F -> leafs <> [] -> named_apart (names_of vs) -> scales_ok vs ->
  NoDup (od_keys values) -> incl (od_keys values) (names_of vs) ->
  (forall i v, nth_error vs i = Some v -> evaluates v values (x i) (a i) (r i) (A i)) ->
  let L := filter (needs_axis values) (names_of vs) in
  exists d0, make_sd leafs roots None = Ok d0 /\ forall (fn : probfun R) (h : list (pyval R) -> R) given d,
  elementwise (names_of vs) h fn -> sd_set_prob d0 (Some fn) given = Ok d ->
  exists p vals, sd_call d values NoIid r = Ok (p, vals) /\ valid_pd p L /\
    od_keys (p_marg p) = names_of leafs /\ od_keys (p_cond p) = names_of roots /\ p_pscale p = sd_pscale d /\
    (forall i v, nth_error vs i = Some v -> variable p (rv_name v) = Some (var_of (to_value (A i)))) /\
    forall s, in_bounds p L s -> prob_at p L s = denote (spec_of (sd_pscale d)) (h (at_positions values vs A s)).
Proof.
  exact (fun F TR leafs roots values x a r A PR NL NA SC ND IN HE =>
    call_conditional leafs roots values x a r A PR NL NA ND IN HE SC).
Qed.
Print Assumptions C124_conditional.

(** All values of the die, given both values of the coin; a function for them; the
    function's arguments at the third value of the die and the second of the coin. *)
Example C124_instance :
  printable fmt_ex /\ named_apart (names_of ([ex_die] ++ [ex_coin])) /\ scales_ok ([ex_die] ++ [ex_coin]) /\
  NoDup (od_keys ex_given) /\ incl (od_keys ex_given) (names_of ([ex_die] ++ [ex_coin])) /\
  (forall r i v, nth_error ([ex_die] ++ [ex_coin]) i = Some v -> evaluates v ex_given (ex_x i) (ex_a i) r (ex_A i)) /\
  filter (needs_axis ex_given) (names_of ([ex_die] ++ [ex_coin])) = ["d"; "c"]%string /\
  elementwise (names_of ([ex_die] ++ [ex_coin])) ex_h (ufunc (names_of ([ex_die] ++ [ex_coin])) ex_h) /\
  at_positions ex_given ([ex_die] ++ [ex_coin]) ex_A (fun k => if String.eqb k "d" then 2%nat else 1%nat) = [PI 3; PB true].
Proof.
  destruct (ex_sd ex_given ex_x ex_a (or_introl eq_refl)) as (H1 & H2 & H3 & H4 & H5).
  split; [exact ex_printable|]. split; [apply ex_apart|]. split; [apply ex_scales|]. split; [exact H1|]. split; [exact H2|].
  split; [exact H3|]. split; [exact H4|]. split; [apply ufunc_elementwise|exact H5].
Qed.

(** C125: with joint=True the result is the joint distribution: at every position the
    conditional probability times the roots' own probabilities of the values found
    for them; the same with iid, where the conditional probability is that of all
    values of the leafs named together. *)
Theorem C125_joint :
  forall (F : Fmt R) (TR : Trunc R) (leafs roots : list (rv R)) (values : odict (fentry R))
    (x : nat -> fval R) (a : nat -> values_in R) (r : nat -> rnd R) (A : nat -> tensor (pyval R)),
  let vs := (leafs ++ roots)%list in
  printable F -> leafs <> [] -> named_apart (names_of vs) -> scales_ok vs ->
  NoDup (od_keys values) -> incl (od_keys values) (names_of vs) ->
  (forall i v, nth_error vs i = Some v -> evaluates v values (x i) (a i) (r i) (A i)) ->
  roots <> [] -> (forall v, In v roots -> callable v) -> (forall v, In v roots -> vs_vset (rv_state v) <> None) ->
  (forall i, (length leafs <= i < length vs)%nat -> x i <> FNone) ->
  let L := filter (needs_axis values) (names_of vs) in
  exists d0, make_sd leafs roots None = Ok d0 /\ forall (fn : probfun R) (h : list (pyval R) -> R) given d r',
  elementwise (names_of vs) h fn -> sd_set_prob d0 (Some fn) given = Ok d -> scales_agree roots (sd_pscale d) ->
  exists p vals, sd_call d values NoIid r = Ok (p, vals) /\ joint_result values leafs roots A r r' d NoIid p L /\
    forall i, let iid := repeated leafs i in iid <> [] -> incl iid (names_of leafs) -> incl iid L -> plain_scale (spec_of (sd_pscale d)) ->
    exists p', sd_call d values i r = Ok (p', vals) /\ reduced p L iid p' /\
      (forall s, prob_at p' (without iid L) s = joint_at p L iid s) /\
      joint_result values leafs roots A r r' d i p' (without iid L).
Proof.
  exact (fun F TR leafs roots values x a r A PR NL NA SC ND IN HE NR CA VN XN =>
    joint_repeated leafs roots values x a r A PR NL NA SC ND IN HE NR CA VN XN).
Qed.
Print Assumptions C125_joint.

Example C125_instance :
  (forall v, In v [ex_coin] -> callable v) /\ (forall v, In v [ex_coin] -> vs_vset (rv_state v) <> None) /\
  (forall i, (length [ex_die] <= i < length ([ex_die] ++ [ex_coin]))%nat -> ex_x i <> FNone) /\
  scales_agree [ex_coin] (Lin 1) /\ plain_scale (spec_of (Lin 1)).
Proof.
  split; [intros v [<-|[]]; exact I|]. split; [intros v [<-|[]]; discriminate|]. split.
  - intros [|i] H; [cbn in H; lia|discriminate].
  - assert (LN : forall c, 0 < c -> linear_scale (PSFloat c)).
    { intros c Hc. split; [split; cbn; [exact I|lra]|]. cbn. destruct (Req_EM_T c 0); [lra|reflexivity]. }
    split; [left; split; [constructor; [apply LN; lra|constructor]|apply LN; lra]|left; reflexivity].
Qed.

(** C125, a root whose values are all of its set: the conditional distribution is
    returned, but there is no joint distribution. *)
Theorem C125_none_refuted :
  forall (F : Fmt R) (TR : Trunc R) (leafs roots : list (rv R)) (values : odict (fentry R))
    (x : nat -> fval R) (a : nat -> values_in R) (r : nat -> rnd R) (A : nat -> tensor (pyval R)),
  let vs := (leafs ++ roots)%list in
  printable F -> leafs <> [] -> named_apart (names_of vs) -> scales_ok vs ->
  NoDup (od_keys values) -> incl (od_keys values) (names_of vs) ->
  (forall i v, nth_error vs i = Some v -> evaluates v values (x i) (a i) (r i) (A i)) ->
  roots <> [] -> (forall v, In v roots -> callable v) -> (forall v, In v roots -> vs_vset (rv_state v) <> None) ->
  exists d0, make_sd leafs roots None = Ok d0 /\ forall (fn : probfun R) (h : list (pyval R) -> R) given d r' j,
  elementwise (names_of vs) h fn -> sd_set_prob d0 (Some fn) given = Ok d -> (length leafs <= j < length vs)%nat -> x j = FNone ->
  (exists p vals, sd_call d values NoIid r = Ok (p, vals)) /\ forall jp, sd_joint d values NoIid r r' <> Ok jp.
Proof.
  exact (fun F TR leafs roots values x a r A PR NL NA SC ND IN HE NR CA VN =>
    @joint_none F TR leafs roots values x a r A PR NL NA ND IN HE NR CA VN SC).
Qed.
Print Assumptions C125_none_refuted.

Example C125_none_instance :
  NoDup (od_keys ex_all) /\ incl (od_keys ex_all) (names_of ([ex_die] ++ [ex_coin])) /\
  (forall r i v, nth_error ([ex_die] ++ [ex_coin]) i = Some v -> evaluates v ex_all FNone VNone r (ex_A i)).
Proof. destruct (ex_sd ex_all (fun _ => FNone) (fun _ => VNone) (or_intror eq_refl)) as (H1 & H2 & H3 & _). auto. Qed.

(** C126: without a probability function the call returns, under the name of the
    conditional distribution, the product of the probabilities of leafs and roots; it
    is the leafs' probability only where that of the roots is one. *)
Theorem C126_default_refuted :
  forall (F : Fmt R) (TR : Trunc R) (leafs roots : list (rv R)) (values : odict (fentry R))
    (x : nat -> fval R) (a : nat -> values_in R) (r : nat -> rnd R) (A : nat -> tensor (pyval R)),
  let vs := (leafs ++ roots)%list in
  printable F -> leafs <> [] -> named_apart (names_of vs) -> scales_ok vs -> callable_all vs ->
  NoDup (od_keys values) -> incl (od_keys values) (names_of vs) ->
  (forall i v, nth_error vs i = Some v -> evaluates v values (x i) (a i) (r i) (A i)) ->
  let L := filter (needs_axis values) (names_of vs) in
  exists d0 p vals ownl ownr, make_sd leafs roots None = Ok d0 /\ sd_call d0 values NoIid r = Ok (p, vals) /\
    length ownl = length leafs /\ all_own values vs a r (ownl ++ ownr) /\
    valid_pd p L /\ od_keys (p_marg p) = names_of leafs /\ od_keys (p_cond p) = names_of roots /\
    forall s, in_bounds p L s -> floored values vs (ownl ++ ownr) s ->
      prob_at p L s = joint_of values leafs ownl s * joint_of values roots ownr s /\
      (prob_at p L s = joint_of values leafs ownl s <-> joint_of values roots ownr s = 1 \/ joint_of values leafs ownl s = 0).
Proof. exact default_iff. Qed.
Print Assumptions C126_default_refuted.

(** C126, joint=True: the roots' probabilities are then multiplied twice. *)
Theorem C126_joint_refuted :
  forall (F : Fmt R) (TR : Trunc R) (leafs roots : list (rv R)) (values : odict (fentry R))
    (x : nat -> fval R) (a : nat -> values_in R) (r r' : nat -> rnd R) (A : nat -> tensor (pyval R)),
  let vs := (leafs ++ roots)%list in
  printable F -> leafs <> [] -> named_apart (names_of vs) -> scales_ok vs -> callable_all vs ->
  NoDup (od_keys values) -> incl (od_keys values) (names_of vs) ->
  (forall i v, nth_error vs i = Some v -> evaluates v values (x i) (a i) (r i) (A i)) ->
  roots <> [] -> (forall v, In v roots -> callable v) -> (forall v, In v roots -> vs_vset (rv_state v) <> None) ->
  (forall i, (length leafs <= i < length vs)%nat -> x i <> FNone) ->
  exists d0 jp Lj ownl ownr, make_sd leafs roots None = Ok d0 /\ sd_joint d0 values NoIid r r' = Ok (Some jp) /\
    length ownl = length leafs /\ all_own values vs a r (ownl ++ ownr) /\
    valid_pd jp Lj /\ od_keys (p_marg jp) = (names_of roots ++ names_of leafs)%list /\ p_cond jp = [] /\
    forall s, in_bounds jp Lj s -> floored values vs (ownl ++ ownr) s ->
      ((exists v, In v leafs /\ log_kind (scale_of v) = true) -> (forall v, In v roots -> log_kind (scale_of v) = false) ->
         npz <= joint_of values roots ownr s) ->
      prob_at jp Lj s = joint_of values leafs ownl s * joint_of values roots ownr s ^ 2.
Proof.
  exact (fun F TR leafs roots values x a r r' A PR NL NA SC CAA ND IN HE NR CA VN XN =>
    joint_default leafs roots values x a r A PR NL NA ND IN HE CAA NR CA VN XN r' SC).
Qed.
Print Assumptions C126_joint_refuted.

Example C126_instance : callable_all ([ex_die] ++ [ex_coin]) /\ scales_ok ([ex_die] ++ [ex_coin]).
Proof. split; [exact (proj1 (proj2 ex_scales))|apply ex_scales]. Qed.

(** C127: iid with a probability function that does not return an axis for every
    array, which the code takes to have multiplied over the iid variables already.
    If another array comes after one of them, as the roots do, the call raises; of
    the iid arrays but the first the result records one value. *)
Theorem C127_counted_refuted :
  forall (F : Fmt R) (leafs roots : list (rv R)) (values : odict (fentry R))
    (x : nat -> fval R) (a : nat -> values_in R) (r : nat -> rnd R) (A : nat -> tensor (pyval R)),
  let vs := (leafs ++ roots)%list in
  printable F -> leafs <> [] -> named_apart (names_of vs) -> scales_ok vs ->
  NoDup (od_keys values) -> incl (od_keys values) (names_of vs) ->
  (forall i v, nth_error vs i = Some v -> evaluates v values (x i) (a i) (r i) (A i)) ->
  let L := filter (needs_axis values) (names_of vs) in
  exists d0, make_sd leafs roots None = Ok d0 /\ forall (fn : probfun R) given d i,
  sd_set_prob d0 (Some fn) given = Ok d ->
  (forall vals dims t, fn vals dims = Ok t -> length (shape t) <> length L) ->
  (forall l1 l2 l3 k k', L = (l1 ++ k :: l2 ++ k' :: l3)%list -> In k (repeated leafs i) -> ~ In k' (repeated leafs i) ->
     forall res, sd_call d values i r <> Ok res) /\
  (forall p vals k k' l, L = k' :: l -> In k l -> In k (repeated leafs i) -> sd_call d values i r = Ok (p, vals) ->
     variable p k = Some (Scal (Distr.VSet [SEint 1]))).
Proof.
  exact (fun F leafs roots values x a r A PR NL NA SC ND IN HE =>
    counted_repeated leafs roots values x a r A PR NL NA SC ND IN HE).
Qed.
Print Assumptions C127_counted_refuted.

(** The two arrays of C124_instance, the die's independent; and a call that returns:
    of a die with three values and a coin with two, three and one are counted. *)
Example C127_instance :
  filter (needs_axis ex_given) (names_of ([ex_die] ++ [ex_coin])) = (([]:list string) ++ "d"%string :: [] ++ ["c"%string])%list /\
  ex_counted = Ok (Some (Distr.VSet [SEint 3]), Some (Distr.VSet [SEint 1])).
Proof. split; [reflexivity|exact ex_counted_ok]. Qed.

(** C128: set_prob on a dependence composed of others has no effect: its probability
    stays that of its components, and so does its scale if the variables' are linear. *)
Theorem C128_overridden_refuted :
  forall (leafs roots : list (rv R)) (composed : probfun R),
  leafs <> [] -> NoDup (names_of (leafs ++ roots)) -> scales_ok (leafs ++ roots) ->
  exists d0, make_sd leafs roots (Some composed) = Ok d0 /\ forall fn given d,
  sd_set_prob d0 fn given = Ok d ->
  sd_prob d = Some composed /\ (Forall linear_scale (map scale_of (leafs ++ roots)) -> d = d0).
Proof. exact overridden. Qed.
Print Assumptions C128_overridden_refuted.

Example C128_instance :
  NoDup (names_of ([ex_die] ++ [ex_coin])) /\ Forall linear_scale (map scale_of ([ex_die] ++ [ex_coin])).
Proof. split; [apply ex_apart|]. repeat constructor; cbn; try lra; destruct (Req_EM_T _ 0); try reflexivity; lra. Qed.

(** C129: factors of a product of which one names a column x and is multiplied with
    another conditional on x that writes it differently (x=[]). *)
Theorem C129_spelling_refuted :
  forall (F : Fmt R) (args : list (pd R)) (axes : pd R -> list string) (given : pspec R) (p q : pd R) (k e1 e2 : string),
  (forall p, In p args -> valid_pd p (axes p)) -> NoDup (marginals args) ->
  In p args -> In q args -> od_get (p_marg p) k = Some e1 -> od_get (p_cond q) k = Some e2 -> e1 <> e2 ->
  (forall p, In p args -> In k (p_keylist p) -> In k (axes p)) ->
  forall r, product args given <> Ok r.
Proof. exact (@product_spelled). Qed.
Print Assumptions C129_spelling_refuted.

Example C129_instance : exists p q : pd R,
  @valid_pd fmt_ex p ["x"]%string /\ @valid_pd fmt_ex q ["x"; "y"]%string /\ NoDup (marginals [p; q]) /\
  od_get (p_marg p) "x" = Some "x=[]"%string /\ od_get (p_cond q) "x" = Some "x"%string /\ p_keylist p = ["x"]%string.
Proof. destruct ex_spelled as (p & q & _ & H1 & _ & H). exists p, q. split; [exact H1|exact H]. Qed.

(** C130: a scale of 0j (which is what a variable with a logarithmic scale returns as
    its scale) or of 0. passed with the probability function is not taken over. *)
Theorem C130_zero_scale_refuted :
  forall (leafs roots : list (rv R)),
  leafs <> [] -> NoDup (names_of (leafs ++ roots)) -> scales_ok (leafs ++ roots) ->
  exists d0, make_sd leafs roots None = Ok d0 /\ forall fn d,
  (sd_set_prob d0 (Some fn) (Some (PSCplx 0 0)) = Ok d \/ sd_set_prob d0 (Some fn) (Some (PSFloat 0)) = Ok d) ->
  sd_pscale d = sd_pscale d0.
Proof. exact zero_ignored. Qed.
Print Assumptions C130_zero_scale_refuted.

Example C130_instance :
  NoDup (names_of ([ex_die] ++ [ex_coin])) /\ scales_ok ([ex_die] ++ [ex_coin]).
Proof. split; [apply ex_apart|apply ex_scales]. Qed.
