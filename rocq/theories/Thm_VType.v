(** Property theorems about the types that variables take from values (C242). *)
From Coq Require Import String ZArith Reals Lra Lia Bool Arith List.
From Verif Require Import Base Num RNumLemmas VariableModel Var_Spec VType_Spec Var_Types.
Import ListNotations.
Local Open Scope R_scope.

(** C242: x.vtype = values gives x the type that numpy gives the values: float if there
    is a float, else integer if there is an integer, else bool.  The set stays. *)
Theorem C242_type :
  forall (s : vstate R) vs l a, vs_vset s = Some vs -> l <> [] -> holds a l ->
  exists s', set_vtype s a = (s', Ok tt) /\ vs_vset s' = Some vs /\ numpy_type l (vs_vtype s').
Proof. exact type_assigned. Qed.
Print Assumptions C242_type.

(** C242: the order of the values and repetitions do not matter. *)
Theorem C242_order :
  forall (s : vstate R) l m a b, l <> [] -> m <> [] -> (forall x, In x l <-> In x m) -> holds a l -> holds b m ->
  set_vtype s a = set_vtype s b.
Proof. exact type_order. Qed.
Print Assumptions C242_order.

(** C242: a variable without a set takes the default set of the type; a KeyError is
    raised if an infinity is among the values. *)
Theorem C242_first :
  forall (s : vstate R) l a, vs_vset s = None -> l <> [] -> holds a l ->
  (forall t, numpy_type l (Some t) -> set_vtype s a = (mkVS (Some t) (Some (default_vset t)), Ok tt)) /\
  (numpy_type l None -> set_vtype s a = (mkVS None None, Err KeyError)).
Proof. exact type_first. Qed.
Print Assumptions C242_first.

(** C242 is false of x.vtype = None, which works the type out from the set: variables
    keep their types exactly if their sets have no infinity; else they are left with a
    type that is none of the three. *)
Theorem C242_again_iff_refuted :
  forall (s : vstate R) vs, well_made s -> vs_vset s = Some vs ->
  exists s', set_vtype s ANone = (s', Ok tt) /\ vs_vset s' = Some vs /\
    (s' = s <-> forall e b, In e vs -> atom_of e <> AOO b) /\
    ((exists e b, In e vs /\ atom_of e = AOO b) -> vs_vtype s' = None).
Proof. exact type_again. Qed.
Print Assumptions C242_again_iff_refuted.

Example C242_hypotheses_met :
  let l := [AV (PB true); AV (PI 3); AV (PB false)] in
  holds (ASet l) l /\ numpy_type l (Some VInt) /\
  numpy_type (AV (PF (/ 2)) :: l) (Some VFloat) /\ numpy_type (AOO true :: l) None /\
  set_vtype new_state (ASet l) = (mkVS (Some VInt) (Some [Bare (AV (PI 0)); Bare (AV (PI 1))]), Ok tt) /\
  well_made (interval (Tup (AV (PF 0))) (Tup (AOO true))) /\
  fst (set_vtype (interval (Tup (AV (PF 0))) (Tup (AOO true))) ANone) = mkVS None (Some [Tup (AV (PF 0)); Tup (AOO true)]).
Proof.
  cbn zeta. split; [left; reflexivity|]. split.
  { apply (nt_int _ 3%Z); cbn; [intros b [C|[C|[C|[]]]]; discriminate|auto|intros b [C|[C|[C|[]]]]; discriminate]. }
  split. { apply (nt_float _ (/ 2)); cbn; [intros b [C|[C|[C|[C|[]]]]]; discriminate|auto]. }
  split. { apply (nt_object _ true). cbn. auto. }
  split; [reflexivity|]. split; [|reflexivity].
  exists VFloat, [Tup (AV (PF 0)); Tup (AOO true)]. repeat split; try discriminate.
  - repeat constructor.
  - intros _. exists (Tup (AV (PF 0))), (Tup (AOO true)). repeat split.
Qed.
