(** Property theorems: slicing a distribution (C23, C106, C107). *)
From Coq Require Import String ZArith Reals Sorted List.
From Verif Require Import Base Num Tensor PScales PScales_Spec Names_Spec Distr PDModel PD_Spec PD_Simple_Spec
  PD_Call_Spec PD_Examples PD_ProdThm PD_CallThm.
Import ListNotations.
Local Open Scope R_scope.

(** C23: calling p with scalars for some variables gives the distribution over the other
    variables, in which the named ones are scalars of the requested values and whose
    probability at each position is that of p at the same position with the named
    variables where their columns hold the requested values.  The last hypothesis is
    about names: a key and its rendered value contain no separator. *)
Theorem C23_slice :
  forall (F : Fmt R) (p : pd R) (L : list string) (values : odict R) (at_ : assignment),
  valid_pd p L -> key_ordered p L -> incl (od_keys values) (p_keylist p) -> locates p values at_ ->
  (forall k x, od_get values k = Some x -> In k L -> simple_key k /\ good_entry (k ++ "=" ++ fmt x)%string) ->
  let ks := restrict (od_keys values) L in
  exists q, call p values false = Ok q /\ valid_pd q (without ks L) /\ p_keylist q = p_keylist p /\
    od_keys (p_marg q) = od_keys (p_marg p) /\ od_keys (p_cond q) = od_keys (p_cond p) /\ p_pscale q = p_pscale p /\
    (forall k x, In k ks -> od_get values k = Some x -> variable q k = Some (Scal (VNum x))) /\
    (forall k, ~ In k ks -> variable q k = variable p k) /\
    forall a, prob_at q (without ks L) a = prob_at p L (placed ks at_ a).
Proof. exact @slice_ok. Qed.
Print Assumptions C23_slice.

(** p(x,y,w=5|z) at y = 2 (and w = 6). *)
Example C23_met : exists p : pd R, ex_make = Ok p /\ let L := ["x"; "y"; "z"]%string in let values := [("y"%string, 2); ("w"%string, 6)] in
  @valid_pd fmt_ex p L /\ key_ordered p L /\ incl (od_keys values) (p_keylist p) /\ locates p values (fun _ => 1%nat) /\
  (forall k x, od_get values k = Some x -> In k L -> simple_key k /\ good_entry (k ++ "=" ++ @fmt R fmt_ex x)%string).
Proof. exact ex_slice. Qed.

(** C106: keeping the axis, or asking for a value that occurs several times, along the
    first axis: the column is reduced to the entries with that value, in their order. *)
Theorem C106_first_axis :
  forall (F : Fmt R) (p : pd R) (L : list string) (k : string) (x : R) (keepdims : bool) (l : list R) (ms : list nat),
  valid_pd p (k :: L) -> variable p k = Some (Col l) -> simple_key k ->
  ms <> [] -> keepdims = true \/ length ms <> 1%nat ->
  StronglySorted lt ms -> (forall i, In i ms <-> (i < length l)%nat /\ nth i l 0 = x) ->
  exists q, call p [(k, x)] keepdims = Ok q /\ valid_pd q (k :: L) /\ p_keylist q = p_keylist p /\
    od_keys (p_marg q) = od_keys (p_marg p) /\ od_keys (p_cond q) = od_keys (p_cond p) /\ p_pscale q = p_pscale p /\
    variable q k = Some (Col (repeat x (length ms))) /\
    (forall j, j <> k -> variable q j = variable p j) /\
    forall a, in_bounds q (k :: L) a -> prob_at q (k :: L) a = prob_at p (k :: L) (upd a k (nth (a k) ms 0%nat)).
Proof. exact @keep_first. Qed.
Print Assumptions C106_first_axis.

(** C106 refuted: along any other axis it always raises. *)
Theorem C106_other_axis_refuted :
  forall (F : Fmt R) (p : pd R) (L : list string) (k0 k : string) (x : R) (keepdims : bool) (l : list R),
  valid_pd p (k0 :: L) -> In k L -> variable p k = Some (Col l) -> (1 < length l)%nat ->
  In x l -> keepdims = true \/ (exists i j, (i < j < length l)%nat /\ nth i l 0 = x /\ nth j l 0 = x) ->
  exists e, call p [(k, x)] keepdims = Err e.
Proof. exact @keep_other. Qed.
Print Assumptions C106_other_axis_refuted.

(** p(x,y): x = 2 along the first axis, y = 3 along the second. *)
Example C106_met : exists p : pd R, scl_make (/ 6) (PSFloat 1) = Ok p /\
  @valid_pd fmt_ex p ["x"; "y"]%string /\ variable p "x" = Some (Col [1; 2]) /\ simple_key "x" /\
  StronglySorted lt [1%nat] /\ (forall i, In i [1%nat] <-> (i < length [1; 2])%nat /\ nth i [1; 2] 0 = 2) /\
  variable p "y" = Some (Col [1; 2; 3]) /\ In "y"%string ["y"]%string /\ (1 < length [1; 2; 3])%nat /\ In 3 [1; 2; 3].
Proof. exact ex_keep. Qed.

(** C107 refuted: whatever value is asked of a scalar variable, the result is p itself. *)
Theorem C107_scalar_ignored_refuted :
  forall (F : Fmt R) (p : pd R) (L : list string) (k : string) (x : R),
  valid_pd p L -> key_ordered p L -> In k (p_keylist p) -> ~ In k L ->
  exists q, call p [(k, x)] false = Ok q /\ valid_pd q L /\ p_keylist q = p_keylist p /\
    (forall j, variable q j = variable p j) /\ forall a, prob_at q L a = prob_at p L a.
Proof. exact @slice_scalar. Qed.
Print Assumptions C107_scalar_ignored_refuted.

(** p(x,y,w=5|z) asked for w. *)
Example C107_met : exists p : pd R, ex_make = Ok p /\ let L := ["x"; "y"; "z"]%string in
  @valid_pd fmt_ex p L /\ key_ordered p L /\ In "w"%string (p_keylist p) /\ ~ In "w"%string L /\ variable p "w" = Some (Scal (VNum 5)).
Proof. exact ex_slice_scalar. Qed.
