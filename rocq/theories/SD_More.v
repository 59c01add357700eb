(** Calls of dependences with repeated leafs, in terms of the leafs. *)
From Coq Require Import String ZArith Reals Bool Arith List.
From Verif Require Import Base Num Tensor PScales PScales_Spec Names Distr PDModel PDUtils PD_Spec PD_Simple_Spec PD_Prod_Spec PD_Product_Spec
  VariableModel RVModel FieldModel Field_Spec RFModel RF_Spec SDModel SD_Spec SD_Proofs SD_Thm SD_Iid.
Import ListNotations.
Local Open Scope list_scope.

Lemma iid_repeated (leafs roots : list (rv R)) d0 (fn : probfun R) given d i :
  leafs <> [] -> NoDup (names_of (leafs ++ roots)) -> scales_ok (leafs ++ roots) ->
  make_sd leafs roots None = Ok d0 -> sd_set_prob d0 (Some fn) given = Ok d -> iid_keys d i = repeated leafs i.
Proof.
  intros NL ND SC E ES. destruct (make_sd_ok leafs roots None NL ND SC) as (f & fl & fr & q & ql & qr & PO & E').
  rewrite E in E'. injection E' as ->. destruct (set_prob_ok _ _ _ _ _ _ _ _ ES) as (q' & -> & _).
  destruct i; cbn; try reflexivity. apply (po_leafs _ _ _ _ _ _ _ _ PO).
Qed.

Lemma joint_repeated {F : Fmt R} {TR : Trunc R} (leafs roots : list (rv R)) (values : odict (fentry R))
    (x : nat -> fval R) (a : nat -> values_in R) (r : nat -> rnd R) (A : nat -> tensor (pyval R)) :
  let vs := (leafs ++ roots)%list in
  printable F -> leafs <> [] -> named_apart (names_of vs) -> scales_ok vs ->
  NoDup (od_keys values) -> incl (od_keys values) (names_of vs) ->
  (forall i v, nth_error vs i = Some v -> evaluates v values (x i) (a i) (r i) (A i)) ->
  roots <> [] -> (forall v, In v roots -> callable v) -> (forall v, In v roots -> vs_vset (rv_state v) <> None) ->
  (forall i, (length leafs <= i < length vs)%nat -> x i <> FNone) ->
  let L := filter (needs_axis values) (names_of vs) in
  exists d0, make_sd leafs roots None = Ok d0 /\ forall (fn : probfun R) (h : list (pyval R) -> R) given d r',
  elementwise (names_of vs) h fn -> sd_set_prob d0 (Some fn) given = Ok d -> scales_agree roots (sd_pscale d) ->
  exists p vals, sd_call d values NoIid r = Ok (p, vals) /\ joint_result values leafs roots A r r' d NoIid p L /\
    forall i, let iid := repeated leafs i in iid <> [] -> incl iid (names_of leafs) -> incl iid L -> plain_scale (spec_of (sd_pscale d)) ->
    exists p', sd_call d values i r = Ok (p', vals) /\ reduced p L iid p' /\
      (forall s, prob_at p' (without iid L) s = joint_at p L iid s) /\
      joint_result values leafs roots A r r' d i p' (without iid L).
Proof.
  intros vs PR NL NA SC ND IN HE NR CA VN XN L.
  destruct (call_joint_sd leafs roots values x a r A PR NL NA ND IN HE NR CA VN XN SC) as (d0 & E & H). exists d0. split; [exact E|].
  intros fn h given d r' EL ES SA. destruct (H fn h given d r' EL ES SA) as (p & vals & E1 & J & K). exists p, vals. split; [exact E1|]. split; [exact J|].
  intros i iid. apply (K i iid). exact (iid_repeated leafs roots d0 fn given d i NL (proj1 NA) SC E ES).
Qed.

Lemma counted_repeated {F : Fmt R} (leafs roots : list (rv R)) (values : odict (fentry R))
    (x : nat -> fval R) (a : nat -> values_in R) (r : nat -> rnd R) (A : nat -> tensor (pyval R)) :
  let vs := (leafs ++ roots)%list in
  printable F -> leafs <> [] -> named_apart (names_of vs) -> scales_ok vs ->
  NoDup (od_keys values) -> incl (od_keys values) (names_of vs) ->
  (forall i v, nth_error vs i = Some v -> evaluates v values (x i) (a i) (r i) (A i)) ->
  let L := filter (needs_axis values) (names_of vs) in
  exists d0, make_sd leafs roots None = Ok d0 /\ forall (fn : probfun R) given d i,
  sd_set_prob d0 (Some fn) given = Ok d ->
  (forall vals dims t, fn vals dims = Ok t -> length (shape t) <> length L) ->
  (forall l1 l2 l3 k k', L = (l1 ++ k :: l2 ++ k' :: l3)%list -> In k (repeated leafs i) -> ~ In k' (repeated leafs i) ->
     forall res, sd_call d values i r <> Ok res) /\
  (forall p vals k k' l, L = k' :: l -> In k l -> In k (repeated leafs i) -> sd_call d values i r = Ok (p, vals) ->
     variable p k = Some (Scal (Distr.VSet [SEint 1]))).
Proof.
  intros vs PR NL NA SC ND IN HE L.
  destruct (call_counted leafs roots values x a r A PR NL NA ND IN HE SC) as (d0 & E & H). exists d0. split; [exact E|].
  intros fn given d i ES LE. specialize (H fn given d i ES LE). rewrite (iid_repeated leafs roots d0 fn given d i NL (proj1 NA) SC E ES) in H. exact H.
Qed.
